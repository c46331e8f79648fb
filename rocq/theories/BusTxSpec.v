(** Transactional events: the operations of applications and services on the bus, one after the other, with every way their
    statements can fail (a script of statement outcomes per operation; a crash ends the operation where it stands). *)
From Verif Require Import BusModel BusWorld.

(** DispatchBegin of a service; Commit and Rollback with the context of the [h]-th successful DispatchBegin; the timeout check
    of a service (handleTransactions) with its registered checker; Dispatch of plain events; Start of a service; a poll; a
    cleaning run. *)
Inductive txop :=
| TBegin (svc : string) (timeout now : nat) (evs : list devent) (script : list sres)
| TCommit (h : nat) (script : list sres)
| TRollback (h : nat) (script : list sres)
| TCheck (svc : string) (checker : devent -> txstatus) (now : nat) (script : list sres)
| TDispatch (evs : list devent) (script : list sres)
| TRegister (name : string)
| TPoll (cfg : buscfg) (now : nat) (envs : nat -> henv)
| TClean (cfg : buscfg) (now : nat).
(** the database and the transactions whose DispatchBegin returned without error (their contexts) *)
Record txst := mkX { x_db : bdb; x_handles : list trow }.
Definition db_after {A} (m : M A) (script : list sres) (d : bdb) : bdb := let '(_, _, d') := m script d in d'.
Definition tx_step (o : txop) (st : txst) : txst :=
  let d := x_db st in
  match o with
  | TBegin svc timeout now evs sc =>
      match dispatch_begin svc timeout now evs sc d with
      | (Val t, _, d') => mkX d' (x_handles st ++ [t])
      | (_, _, d') => mkX d' (x_handles st)
      end
  | TCommit h sc => match nth_error (x_handles st) h with Some t => mkX (db_after (bus_commit t) sc d) (x_handles st) | None => st end
  | TRollback h sc => match nth_error (x_handles st) h with Some t => mkX (db_after (bus_rollback t) sc d) (x_handles st) | None => st end
  | TCheck svc checker now sc => mkX (db_after (handle_transactions svc checker now) sc d) (x_handles st)
  | TDispatch evs sc => mkX (db_after (dispatch 0 evs) sc d) (x_handles st)
  | TRegister name => mkX (init_service name d) (x_handles st)
  | TPoll cfg now envs => mkX (fst (handle_events cfg now envs d)) (x_handles st)
  | TClean cfg now => mkX (clean_events cfg now d) (x_handles st)
  end.
Definition tx_run (l : list txop) (st : txst) : txst := fold_left (fun st o => tx_step o st) l st.
Definition st0 : txst := mkX db0 [].

(** the events stored for transaction [id] *)
Definition stored (id : nat) (d : bdb) : list devent := map er_ev (filter (fun r => er_trans r =? id) (b_ev d)).
(** the operation asks for the transaction to be committed: an explicit Commit with its context, or a timeout check of its
    service that finds its record overdue and whose checker answers "commit" for its first event *)
Definition asks (o : txop) (st : txst) (t : trow) : Prop :=
  match o with
  | TCommit h _ => nth_error (x_handles st) h = Some t
  | TCheck svc checker now _ => In t (b_tx (x_db st)) /\ tr_service t = svc /\ tr_due t < now /\ exists e r, tr_events t = e :: r /\ checker e = TXCommit
  | _ => False
  end.
(** an explicit Commit of transaction [id] *)
Definition commits (o : txop) (st : txst) (id : nat) : Prop := match o with TCommit h _ => exists t, nth_error (x_handles st) h = Some t /\ tr_id t = id | _ => False end.
(** [P] holds of no operation of the run *)
Fixpoint never (P : txop -> txst -> Prop) (l : list txop) (st : txst) : Prop :=
  match l with [] => True | o :: t => ~ P o st /\ never P t (tx_step o st) end.
Definition is_clean (o : txop) : bool := match o with TClean _ _ => true | _ => false end.
(** [evs] are stored for transaction [id] and pending for each of the services [svcs] *)
Definition delivered (id : nat) (evs : list devent) (svcs : list string) (d : bdb) : Prop :=
  exists rows, incl rows (b_ev d) /\ map er_ev rows = evs /\ (forall r, In r rows -> er_trans r = id) /\
    forall r svc, In r rows -> In svc svcs -> exists s, In s (b_sv d) /\ sr_service s = svc /\ sr_event s = er_id r /\ sr_status s = SInit.
(** the checker answers [x] for the transaction (it is asked about its first event) *)
Definition says (checker : devent -> txstatus) (x : txstatus) (t : trow) : Prop := exists e r, tr_events t = e :: r /\ checker e = x.
(** a reachable state *)
Definition reachable (st : txst) : Prop := exists l, st = tx_run l st0.
(** Commit (eventbus.go 322-340) in two halves: the query for an event of the transaction, and the rest. *)
Definition commit_find (t : trow) : M bool := stmt (find_trans (tr_id t)).
Definition commit_rest (t : trow) (found : bool) : M unit := if found then ret tt else bindM (dispatch (tr_id t) (tr_events t)) (fun _ => stmt (delete_tx t)).

(** Model of example/example_outer/outer_usage.go: an application that is not written with the engine publishes an event from
    inside its own database transaction. *)
From Verif Require Import BusModel BusWorld BusTxSpec.

(** The business transaction opened by db.Transaction (64) as seen by the database. *)
Inductive biz := BOpen | BCommitted | BRolledBack.
(** Where a call of Handle stands: in the function given to db.Transaction (64-75); the function returned nil or an error;
    db.Transaction returned nil or an error (78); Handle returned; the process died. *)
Inductive hpc := PWork | PLeft (ok : bool) | PEnd (ok : bool) | PDone | PDead.
(** A call of Handle: its events (the shipped Handle has one, 70-73), where it stands, its business transaction, the transaction in
    its context (set by DispatchBegin, 70), and - for the statements of properties only - the record DispatchBegin wrote. *)
Record inst := mkI { i_evs : list devent; i_pc : hpc; i_biz : biz; i_ctx : option trow; i_row : option trow }.
(** example/example_outer/outer_usage.go 62-84: the bus and the calls of Handle *)
Record ost := mkO { o_bus : txst; o_calls : list inst }.
(** the beginning: empty bus, no call *)
Definition ost0 : ost := mkO st0 [].
(** How COMMIT of the business transaction ends: done; failed; done, but its answer is lost and an error is reported. *)
Inductive cres := CDone | CFailed | CLost.
Inductive oact :=
| OHandle (evs : list devent)                                          (* Handle is called *)
| OFail (k : nat)                                                      (* the business logic (66-67) of call k fails *)
| OBegin (k : nat) (svc : string) (timeout now : nat) (script : list sres)  (* its DispatchBegin (70) *)
| OEnd (k : nat) (c : cres)                                            (* its function returned: COMMIT or ROLLBACK *)
| ONotify (k : nat) (script : list sres)                               (* its Commit or Rollback of the bus (78-82) *)
| ODie (k : nat)                                                       (* its process dies *)
| OBus (o : txop).                                                     (* anybody else uses the bus *)
Fixpoint set_nth {A} (l : list A) (k : nat) (x : A) : list A :=
  match l, k with [], _ => [] | _ :: t, O => x :: t | y :: t, S j => y :: set_nth t j x end.
(** call k goes on *)
Definition upd_call (s : ost) (b : txst) (k : nat) (x : inst) : ost := mkO b (set_nth (o_calls s) k x).
(** The record with the next free transaction id, if DispatchBegin wrote one. *)
Definition written (before after : bdb) : option trow := find (fun t => tr_id t =? b_nt before) (b_tx after).
(** One step; None: not possible now.  DispatchBegin uses the bus's own connection (eventbus.go 315), so its record does not
    depend on the business transaction.  An error of it is returned by the function (74), so db.Transaction rolls back; the
    context is then the old one (eventbus.go 316) and Rollback (81) finds no transaction (eventbus.go 345-347).  Errors of Commit and
    Rollback are ignored (79, 81).  The database rolls back the open transaction of a process that dies. *)
Definition ostep (a : oact) (s : ost) : option ost :=
  let b := o_bus s in
  match a with
  | OHandle evs => Some (mkO b (o_calls s ++ [mkI evs PWork BOpen None None]))
  | OFail k =>
      match nth_error (o_calls s) k with
      | Some (mkI evs PWork z c r) => Some (upd_call s b k (mkI evs (PLeft false) z c r))
      | _ => None
      end
  | OBegin k svc timeout now sc =>
      match nth_error (o_calls s) k with
      | Some (mkI evs PWork z _ _) =>
          let '(o, _, d') := dispatch_begin svc timeout now evs sc (x_db b) in
          let b' := tx_step (TBegin svc timeout now evs sc) b in
          let row := written (x_db b) d' in
          Some (upd_call s b' k match o with
                                | Val t => mkI evs (PLeft true) z (Some t) row
                                | Err => mkI evs (PLeft false) z None row
                                | Crash => mkI evs PDead BRolledBack None row
                                end)
      | _ => None
      end
  | OEnd k c =>
      match nth_error (o_calls s) k with
      | Some (mkI evs (PLeft true) _ x r) =>
          Some (upd_call s b k match c with
                               | CDone => mkI evs (PEnd true) BCommitted x r
                               | CFailed => mkI evs (PEnd false) BRolledBack x r
                               | CLost => mkI evs (PEnd false) BCommitted x r
                               end)
      | Some (mkI evs (PLeft false) _ x r) => Some (upd_call s b k (mkI evs (PEnd false) BRolledBack x r))
      | _ => None
      end
  | ONotify k sc =>
      match nth_error (o_calls s) k with
      | Some (mkI evs (PEnd ok) z x r) =>
          let d := x_db b in
          let d' := match x with None => d | Some t => db_after (if ok then bus_commit t else bus_rollback t) sc d end in
          Some (upd_call s (mkX d' (x_handles b)) k (mkI evs PDone z x r))
      | _ => None
      end
  | ODie k =>
      match nth_error (o_calls s) k with
      | Some (mkI _ PDone _ _ _) | Some (mkI _ PDead _ _ _) | None => None
      | Some (mkI evs _ z x r) => Some (upd_call s b k (mkI evs PDead (match z with BOpen => BRolledBack | _ => z end) x r))
      end
  | OBus o => Some (mkO (tx_step o b) (o_calls s))
  end.
(** The states reachable by actions allowed by [A]. *)
Inductive oreach (A : oact -> ost -> Prop) : ost -> Prop :=
| or_start : oreach A ost0
| or_step s a s' : oreach A s -> A a s -> ostep a s = Some s' -> oreach A s'.

(** * Specification *)
(** A checker that answers for the calls of Handle by the state of their business transactions, and "unknown" as long as one is open *)
Definition truthful (s : ost) (checker : devent -> txstatus) : Prop :=
  forall x e r, In x (o_calls s) -> i_evs x = e :: r -> (checker e = TXCommit -> i_biz x = BCommitted) /\ (checker e = TXRollBack -> i_biz x = BRolledBack).
(** What others do: anything, but nobody commits or rolls back with the context of a call of Handle, and checkers satisfy [C]. *)
Definition others (C : ost -> (devent -> txstatus) -> Prop) (a : oact) (s : ost) : Prop :=
  match a with
  | OBus (TCommit h _) | OBus (TRollback h _) => forall x t, In x (o_calls s) -> i_row x = Some t -> nth_error (x_handles (o_bus s)) h <> Some t
  | OBus (TCheck _ checker _ _) => C s checker
  | _ => True
  end.
(** vocabulary for histories: the answer of the outer Commit is not lost *)
Definition answered (a : oact) : Prop := match a with OEnd _ CLost => False | _ => True end.
(** vocabulary for histories: a cleaning step (eventbus.go 669-743) *)
Definition cleans (a : oact) : Prop := match a with OBus (TClean _ _) => True | _ => False end.
(** The call is over, whichever way. *)
Definition over (x : inst) : Prop := i_pc x = PDone \/ i_pc x = PDead.

(** Model of the contexts of the MySQL event bus (eventbus/mysql/eventbus.go 211, 228-250 and their use in 256-349): several
    buses, several databases, contexts that carry event transactions. *)
From Verif Require Import BusModel BusWorld BusTxSpec.
From Coq Require Import DecimalString DecimalNat.

(** A bus (186-219): the key under which it puts values into contexts ([txKey]; the key type is private to the package), its
    service, its database. *)
Record mbus := mkBus { bu_key : string; bu_svc : string; bu_db : nat }.
(** 211: the key is made from the Unix second of NewEventBus *)
Definition bus_key (sec : nat) : string := String.append "eventbus_tx_" (NilEmpty.string_of_uint (Nat.to_uint sec)).
(** eventbus/mysql/eventbus.go 186-219 (NewEventBus) at the given Unix second *)
Definition new_bus (svc : string) (db sec : nat) : mbus := mkBus (bus_key sec) svc db.
(** context.Context: the values put in under [txKey]:tx (242-244), innermost first.  The values under [txKey]:db (228-230) are put
    in only by handleTransactions, into a context of its own (652), and name the same database: left out. *)
Definition bctx := list (string * trow).
(** the databases, and the contexts of the program in the order in which they were made; context 0 is the first *)
Record cst := mkC { c_dbs : nat -> bdb; c_ctx : list bctx }.
(** the beginning: empty databases, one context without a transaction *)
Definition cst0 : cst := mkC (fun _ => db0) [[]].
(** eventbus/mysql/eventbus.go 246-253 (getTX); None is nil *)
Definition get_tx (b : mbus) (c : nat) (st : cst) : option trow := assoc (bu_key b) (nth c (c_ctx st) []).
(** a database changes *)
Definition set_db (st : cst) (d : nat) (x : bdb) : nat -> bdb := fun d' => if Nat.eqb d' d then x else c_dbs st d'.
(** A program over any buses: calls with the context they are given.  DispatchBegin makes the next context.  The script says how
    the SQL statements of the call end.  [COther d]: anything that happens on database [d] without a context of the
    program: a service registers, polls, cleans, checks overdue transactions. *)
Inductive cop :=
| CBegin (b : mbus) (c : nat) (timeout now : nat) (evs : list devent) (script : list sres)
| CDispatch (b : mbus) (c : nat) (evs : list devent) (script : list sres)
| CCommit (b : mbus) (c : nat) (script : list sres)
| CRollback (b : mbus) (c : nat) (script : list sres)
| COther (d : nat) (o : txop).
(** The operations [COther] stands for; the others are calls with a context, above. *)
Definition outside_op (o : txop) : bool := match o with TRegister _ | TPoll _ _ _ | TClean _ _ | TCheck _ _ _ _ => true | _ => false end.
(** One call and how it ended.  306-319: on an error DispatchBegin returns the context it was given.  256-299: Dispatch marks its
    events with the transaction of the context.  322-349: without one Commit and Rollback return ErrNoTransaction; the inner
    Dispatch of Commit (333) is given the same context, so it marks the events with the same transaction. *)
Definition cstep (o : cop) (st : cst) : outcome unit * cst :=
  match o with
  | CBegin b c timeout now evs sc =>
      let '(r, _, d') := dispatch_begin (bu_svc b) timeout now evs sc (c_dbs st (bu_db b)) in
      let cx := nth c (c_ctx st) [] in
      match r with
      | Val t => (Val tt, mkC (set_db st (bu_db b) d') (c_ctx st ++ [(bu_key b, t) :: cx]))
      | Err => (Err, mkC (set_db st (bu_db b) d') (c_ctx st ++ [cx]))
      | Crash => (Crash, mkC (set_db st (bu_db b) d') (c_ctx st ++ [cx]))
      end
  | CDispatch b c evs sc =>
      let '(r, _, d') := dispatch (match get_tx b c st with Some t => tr_id t | None => 0 end) evs sc (c_dbs st (bu_db b)) in
      (r, mkC (set_db st (bu_db b) d') (c_ctx st))
  | CCommit b c sc =>
      match get_tx b c st with
      | None => (Err, st)
      | Some t => let '(r, _, d') := bus_commit t sc (c_dbs st (bu_db b)) in (r, mkC (set_db st (bu_db b) d') (c_ctx st))
      end
  | CRollback b c sc =>
      match get_tx b c st with
      | None => (Err, st)
      | Some t => let '(r, _, d') := bus_rollback t sc (c_dbs st (bu_db b)) in (r, mkC (set_db st (bu_db b) d') (c_ctx st))
      end
  | COther d o => (Val tt, if outside_op o then mkC (set_db st d (x_db (tx_step o (mkX (c_dbs st d) [])))) (c_ctx st) else st)
  end.
(** a history of calls *)
Fixpoint crun (h : list cop) (st : cst) : cst := match h with [] => st | o :: t => crun t (snd (cstep o st)) end.

(** * Words of the properties *)
(** How a call made after the calls [h] ended. *)
Definition canswer (h : list cop) (o : cop) : outcome unit := fst (cstep o (crun h cst0)).
(** Database [d] after [h]. *)
Definition cdb (d : nat) (h : list cop) : bdb := c_dbs (crun h cst0) d.
(** The context the next DispatchBegin returns. *)
Definition next_context (h : list cop) : nat := length (c_ctx (crun h cst0)).
(** Buses with the same key are on the same database. *)
Definition keyed (kdb : string -> nat) (h : list cop) : Prop :=
  Forall (fun o => match o with CBegin b _ _ _ _ _ | CDispatch b _ _ _ | CCommit b _ _ | CRollback b _ _ => bu_db b = kdb (bu_key b) | COther _ _ => True end) h.
(** Nobody calls Dispatch with a context that carries an event transaction of the bus. *)
Definition published_outside (h : list cop) : Prop :=
  forall p b c evs sc q, h = p ++ CDispatch b c evs sc :: q -> get_tx b c (crun p cst0) = None.
Definition no_cleaning (h : list cop) : Prop := Forall (fun o => match o with COther _ (TClean _ _) => False | _ => True end) h.
(** Context [m] is [n] or was made from it by DispatchBegin of buses with other keys than [key] (or one that failed). *)
Inductive inside (h : list cop) (key : string) (n : nat) : nat -> Prop :=
| in_self : inside h key n n
| in_other p q b c timeout now evs sc : h = p ++ CBegin b c timeout now evs sc :: q -> c < next_context p ->
    bu_key b <> key \/ canswer p (CBegin b c timeout now evs sc) <> Val tt -> inside h key n c -> inside h key n (next_context p).
(** The id the next transaction begun in database [d] gets. *)
Definition next_id (d : nat) (h : list cop) : nat := b_nt (cdb d h).

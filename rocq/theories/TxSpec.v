(** Specification vocabulary for executor transactions: only calls and their answers. *)
From Verif Require Export TxModel.

(** The error a call returned in a history: call [o] made after the calls [past]. *)
Definition answered (past : list xop) (o : xop) : option xerr := snd (xstep (xrun xs0 past) o).
(** The contents of database [d] after a history. *)
Definition content (d : nat) (h : list xop) : list stmt := w_log (xs_w (xrun xs0 h)) d.
(** The context the next Begin of the program returns. *)
Definition next_ctx (past : list xop) : nat := length (xs_ctx (xrun xs0 past)).
(** Within history [h], whose first calls [past] end with a Begin of [x] that returned context [n]: statement [q] was
    executed by [x] with that context, without error. *)
Definition executed_in (past : list xop) (x : executor) (n : nat) (h : list xop) (q : stmt) : Prop :=
  exists mid rest a, h = past ++ mid ++ OExec x n q a :: rest /\ answered (past ++ mid) (OExec x n q a) = None.
(** Every statement occurs once (so that we can tell where a statement took effect). *)
Definition stmts_of (h : list xop) : list stmt := flat_map (fun o => match o with OExec _ _ q _ => [q] | _ => [] end) h.
(** Executors with the same key are on the same database. *)
Definition keys_ok (h : list xop) : Prop := forall o1 o2, In o1 h -> In o2 h -> x_key (op_x o1) = x_key (op_x o2) -> x_db (op_x o1) = x_db (op_x o2).

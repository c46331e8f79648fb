(** Model of the transaction handling of the MySQL executor (executor/mysql/executor.go 143-193 and 221-233): contexts that
    carry transactions, and which transaction a statement is sent to. *)
From Verif Require Export GoBase.

(** Statements are numbers. *)
Definition stmt := nat.
(** context.Context: the values put in with context.WithValue, innermost first.  Keys have the private type [contextKey], so
    no other package can put in or hide a value; two keys are the same iff the strings are (executor.go 140-141). *)
Definition ctx := list (string * nat).
(** executor.go 143-153: the database handle (None: nil) and the key, "executor_tx_" and the Unix second of NewExecutor. *)
Record executor := mkX { x_db : option nat; x_key : string }.
(** A transaction opened by gorm: its database, its statements so far, and whether it was committed or rolled back. *)
Inductive txstate := TxOpen | TxCommitted | TxRolledBack.
(** a transaction opened by gorm *)
Record txn := mkTx { t_db : nat; t_stmts : list stmt; t_state : txstate }.
(** The databases: [w_log d] is the list of the statements that took effect in [d], in order.  Transaction [i] is the [i]-th
    element of [w_txs]. *)
Record world := mkW { w_log : nat -> list stmt; w_txs : list txn }.
(** the beginning: nothing executed, no transaction *)
Definition w0 : world := mkW (fun _ => []) [].

(** ctx.Value: None is nil *)
Definition ctx_value (k : string) (c : ctx) : option nat := assoc k c.
(** statements take effect in a database *)
Definition upd_log (w : world) (d : nat) (l : list stmt) : nat -> list stmt := fun d' => if Nat.eqb d' d then w_log w d ++ l else w_log w d'.
(** a transaction changes its state *)
Fixpoint set_tx (l : list txn) (i : nat) (t : txn) : list txn :=
  match l, i with
  | [], _ => []
  | _ :: u, O => t :: u
  | x :: u, S j => x :: set_tx u j t
  end.

(** The errors: ErrInvalidDB, ErrNoTransaction (executor.go 30-31), an error of the server, gorm's error for a finished
    transaction. *)
Inductive xerr := XInvalidDB | XNoTx | XServer | XTxDone.
(** What the server answers to a request: it fails without effect, it succeeds, or (commit only) it succeeds but the answer is lost. *)
Inductive sans := SFail | SOk | SLost.

(** 155-168 (Begin): db.Begin opens a new transaction, whatever the context carries. *)
Definition x_begin (x : executor) (c : ctx) (a : sans) (w : world) : (ctx * option xerr) * world :=
  match x_db x with
  | None => ((c, Some XInvalidDB), w)
  | Some d => match a with
              | SOk => (((x_key x, length (w_txs w)) :: c, None), mkW (w_log w) (w_txs w ++ [mkTx d [] TxOpen]))
              | _ => ((c, Some XServer), w)
              end
  end.
(** tx.Commit: all statements take effect, or none *)
Definition do_commit (t : nat) (a : sans) (w : world) : option xerr * world :=
  match nth_error (w_txs w) t with
  | Some (mkTx d l TxOpen) =>
      match a with
      | SOk => (None, mkW (upd_log w d l) (set_tx (w_txs w) t (mkTx d l TxCommitted)))
      | SLost => (Some XServer, mkW (upd_log w d l) (set_tx (w_txs w) t (mkTx d l TxCommitted)))
      | SFail => (Some XServer, mkW (w_log w) (set_tx (w_txs w) t (mkTx d l TxRolledBack)))
      end
  | _ => (Some XTxDone, w)
  end.
(** tx.Rollback: none of the statements takes effect *)
Definition do_rollback (t : nat) (a : sans) (w : world) : option xerr * world :=
  match nth_error (w_txs w) t with
  | Some (mkTx d l TxOpen) =>
      (match a with SOk => None | _ => Some XServer end, mkW (w_log w) (set_tx (w_txs w) t (mkTx d l TxRolledBack)))
  | _ => (Some XTxDone, w)
  end.
(** 170-181 (Commit), 183-194 (RollBack) *)
Definition x_end (f : nat -> sans -> world -> option xerr * world) (x : executor) (c : ctx) (a : sans) (w : world) : option xerr * world :=
  match x_db x with
  | None => (Some XInvalidDB, w)
  | Some _ => match ctx_value (x_key x) c with
              | None => (Some XNoTx, w)
              | Some t => f t a w
              end
  end.
(** executor/mysql/executor.go 170-181 (Commit) *)
Definition x_commit := x_end do_commit.
(** executor/mysql/executor.go 183-194 (RollBack) *)
Definition x_rollback := x_end do_rollback.
(** 221-233 (Exec) with one statement: in the transaction of the context if there is one, else on the database itself, at
    once.  A nil database without a transaction is a nil pointer panic: no effect. *)
Definition x_exec (x : executor) (c : ctx) (q : stmt) (a : sans) (w : world) : option xerr * world :=
  match ctx_value (x_key x) c with
  | Some t =>
      match nth_error (w_txs w) t with
      | Some (mkTx d l TxOpen) =>
          match a with SOk => (None, mkW (w_log w) (set_tx (w_txs w) t (mkTx d (l ++ [q]) TxOpen))) | _ => (Some XServer, w) end
      | _ => (Some XTxDone, w)
      end
  | None =>
      match x_db x with
      | None => (Some XInvalidDB, w)
      | Some d => match a with
                  | SOk => (None, mkW (upd_log w d [q]) (w_txs w))
                  | SLost => (Some XServer, mkW (upd_log w d [q]) (w_txs w))
                  | SFail => (Some XServer, w)
                  end
      end
  end.

(** Any program over any executors: a history of calls.  Contexts are named by the order in which they were made; context 0
    is the one the program started with, each Begin makes the next. *)
Inductive xop :=
| OBegin (x : executor) (c : nat) (a : sans)
| OExec (x : executor) (c : nat) (q : stmt) (a : sans)
| OCommit (x : executor) (c : nat) (a : sans)
| ORollback (x : executor) (c : nat) (a : sans).
(** the databases and the contexts a program has made *)
Record xstate := mkXS { xs_w : world; xs_ctx : list ctx }.
(** the beginning: one context without a transaction *)
Definition xs0 : xstate := mkXS w0 [[]].
(** the c-th context *)
Definition ctx_at (s : xstate) (c : nat) : ctx := nth c (xs_ctx s) [].
(** one call of Begin, Exec, Commit or RollBack (executor/mysql/executor.go 155-233) *)
Definition xstep (s : xstate) (o : xop) : xstate * option xerr :=
  match o with
  | OBegin x c a => let '((c', e), w) := x_begin x (ctx_at s c) a (xs_w s) in (mkXS w (xs_ctx s ++ [c']), e)
  | OExec x c q a => let '(e, w) := x_exec x (ctx_at s c) q a (xs_w s) in (mkXS w (xs_ctx s), e)
  | OCommit x c a => let '(e, w) := x_commit x (ctx_at s c) a (xs_w s) in (mkXS w (xs_ctx s), e)
  | ORollback x c a => let '(e, w) := x_rollback x (ctx_at s c) a (xs_w s) in (mkXS w (xs_ctx s), e)
  end.
(** a history of calls *)
Fixpoint xrun (s : xstate) (h : list xop) : xstate := match h with [] => s | o :: t => xrun (fst (xstep s o)) t end.
(** the executor a call goes to *)
Definition op_x (o : xop) : executor := match o with OBegin x _ _ | OExec x _ _ _ | OCommit x _ _ | ORollback x _ _ => x end.

From Coq Require Import DecimalString DecimalNat.
(** 148-153 (NewExecutor) at the given Unix second *)
Definition tx_key (sec : nat) : string := String.append "executor_tx_" (NilEmpty.string_of_uint (Nat.to_uint sec)).
(** executor/mysql/executor.go 148-153 (NewExecutor) *)
Definition new_executor (db : option nat) (sec : nat) : executor := mkX db (tx_key sec).

(** One run of the engine on the MySQL executor, among any other users of any executors: which statements its calls become
    (executor/mysql/executor.go 77-138 and 155-233), and how they mix with everybody else's calls. *)
From Verif Require Export TxSpec DbSpec.

(** What the executor does for the run, and whether it was answered without error: Begin, one SQL statement of Exec, Commit,
    RollBack. *)
Inductive micro := MBegin (ok : bool) | MStmt (q : stmt) (ok : bool) | MCommit (ok : bool) | MRollback (ok : bool).
(** The statements [l], all accepted. *)
Definition accepted (l : list stmt) : list micro := map (fun q => MStmt q true) l.
(** From the calls of the engine to what the executor does.  [plan i] are the statements the [i]-th call of the run consists of
    (an insert or a delete is one, an update one per row, executor/mysql/executor.go 77-138: we do not need which).  An Exec
    that returned an error or panicked stopped somewhere: after the first statements, possibly at a refused one.
    Calls that are not the executor's become nothing; nor do the queries of BuildEntity, which change nothing. *)
Inductive micros (plan : nat -> list stmt) : nat -> list (call * resp) -> list micro -> Prop :=
| mi_nil i : micros plan i [] []
| mi_begin i r t ms : micros plan (S i) t ms -> micros plan i ((KBegin, r) :: t) (MBegin (answered_ok r) :: ms)
| mi_commit i r t ms : micros plan (S i) t ms -> micros plan i ((KCommit, r) :: t) (MCommit (answered_ok r) :: ms)
| mi_rollback i r t ms : micros plan (S i) t ms -> micros plan i ((KRollback, r) :: t) (MRollback (answered_ok r) :: ms)
| mi_exec i a r t ms : answered_ok r = true -> micros plan (S i) t ms -> micros plan i ((KExec a, r) :: t) (accepted (plan i) ++ ms)
| mi_exec_stopped i a r t ms l1 l2 : answered_ok r = false -> plan i = l1 ++ l2 -> micros plan (S i) t ms ->
    micros plan i ((KExec a, r) :: t) (accepted l1 ++ ms)
| mi_exec_refused i a r t ms l1 q l2 : answered_ok r = false -> plan i = l1 ++ q :: l2 -> micros plan (S i) t ms ->
    micros plan i ((KExec a, r) :: t) (accepted l1 ++ MStmt q false :: ms)
| mi_other i c r t ms : is_tx_call c = false -> is_write c = false -> micros plan (S i) t ms -> micros plan i ((c, r) :: t) ms.

(** The context a call of the history is made with. *)
Definition op_ctx (o : xop) : nat := match o with OBegin _ c _ | OExec _ c _ _ | OCommit _ c _ | ORollback _ c _ => c end.
(** Somebody else's call after the calls [past]: with a context that exists, not the run's ([own]), and none of the run's
    statements (so that we can tell where those took effect). *)
Definition foreign (Q : stmt -> Prop) (own : option nat) (past : list xop) (o : xop) : Prop :=
  op_ctx o < next_ctx past /\ own <> Some (op_ctx o) /\ match o with OExec _ _ q _ => ~ Q q | _ => True end.
(** After the calls [past] come the calls [h], each marked whether it is the run's: those of the run, which still has [ms] to
    do, in order, in between anybody else's; at the end of [h] the run has [left] still to do (the process died, or we look
    earlier).  The run calls executor [x], started with context [c0] and goes on with the context its Begin returned ([own]).
    A call is answered as the run saw it. *)
Inductive woven (x : executor) (c0 : nat) (Q : stmt -> Prop) : option nat -> list xop -> list micro -> list (bool * xop) -> list micro -> Prop :=
| wv_stop own past ms : woven x c0 Q own past ms [] ms
| wv_foreign own past ms o h left : foreign Q own past o -> woven x c0 Q own (past ++ [o]) ms h left -> woven x c0 Q own past ms ((false, o) :: h) left
| wv_begin past ok a ms h left : c0 < next_ctx past -> (answered past (OBegin x c0 a) = None <-> ok = true) ->
    woven x c0 Q (Some (next_ctx past)) (past ++ [OBegin x c0 a]) ms h left ->
    woven x c0 Q None past (MBegin ok :: ms) ((true, OBegin x c0 a) :: h) left
| wv_stmt n past q ok a ms h left : (answered past (OExec x n q a) = None <-> ok = true) ->
    woven x c0 Q (Some n) (past ++ [OExec x n q a]) ms h left -> woven x c0 Q (Some n) past (MStmt q ok :: ms) ((true, OExec x n q a) :: h) left
| wv_commit n past ok a ms h left : (answered past (OCommit x n a) = None <-> ok = true) ->
    woven x c0 Q (Some n) (past ++ [OCommit x n a]) ms h left -> woven x c0 Q (Some n) past (MCommit ok :: ms) ((true, OCommit x n a) :: h) left
| wv_rollback n past ok a ms h left : (answered past (ORollback x n a) = None <-> ok = true) ->
    woven x c0 Q (Some n) (past ++ [ORollback x n a]) ms h left -> woven x c0 Q (Some n) past (MRollback ok :: ms) ((true, ORollback x n a) :: h) left.

(** The run's statements: what any of its calls consists of. *)
Definition own_stmt (plan : nat -> list stmt) (q : stmt) : Prop := exists i, In q (plan i).
(** None of the run's statements has taken effect in any database. *)
Definition nothing_of (Q : stmt -> Prop) (h : list xop) : Prop := forall d q, Q q -> ~ In q (content d h).
(** Exactly the accepted statements of the run have taken effect, all in database [d]. *)
Definition everything_of (Q : stmt -> Prop) (ms : list micro) (d : nat) (h : list xop) : Prop :=
  (forall q, In (MStmt q true) ms -> In q (content d h)) /\
  (forall d' q, Q q -> In q (content d' h) -> d' = d /\ In (MStmt q true) ms).
(** The run's commit took effect although its answer, lost, was an error. *)
Definition lost_commit (h : list (bool * xop)) : Prop := exists x n, In (true, OCommit x n SLost) h.

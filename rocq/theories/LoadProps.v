(** C61 on the engine: Get, Build and the command form refuse entities without id (the load itself: BuildProps.v). *)
From Verif Require Import EngineModel.
Local Open Scope string_scope. Local Open Scope list_scope.

(** The call fails, nothing is asked of the database, and neither the entities nor the repository have changed. *)
Theorem C61_no_id_no_query : forall cfg X root (k : option err -> body X) s, e_id (s_heap s root) = "" ->
  run_body cfg (BBuild root k) s = run_body cfg (k (Some EMustHaveID)) s /\
  (exists e, run_body cfg (BGet root k) s = run_body cfg (k (Some e)) s) /\
  (forall roots, In root roots -> run_body cfg (BLoad roots k) s = run_body cfg (k (Some EMustHaveID)) s).
Proof.
  intros cfg X root k s H. split; [|split].
  - cbn [run_body]. unfold cmd_build, bind, get, ret. rewrite H. reflexivity.
  - cbn [run_body]. unfold repo_get, bind, get, ret. rewrite H. destruct (has_snapshot s root); [exists EHasAdded|exists EMustHaveID]; reflexivity.
  - intros roots Hr. cbn [run_body]. unfold cmd_load, bind, get, ret. assert (E : existsb (fun r => String.eqb (e_id (s_heap s r)) "") roots = true) by (apply existsb_exists; exists root; rewrite H; auto). rewrite E. reflexivity.
Qed.
Print Assumptions C61_no_id_no_query.
(** With an id, one query is made: the next call of the run is the load of that entity. *)
Theorem C61_id_queried : forall cfg root s, e_id (s_heap s root) <> "" ->
  exists l, s_trace (snd (run_body cfg (BBuild root (fun e => BRet e)) s)) = s_trace s ++ (KBuild root, c_oracle cfg (length (s_trace s))) :: l.
Proof.
  intros cfg root s H. exists []. cbn [run_body]. unfold cmd_build, bind, get, ret. destruct (String.eqb_spec (e_id (s_heap s root)) ""); [contradiction|].
  unfold ecall_err, ecall, bind, ret. destruct (r_ans (c_oracle cfg (length (s_trace s)))); reflexivity.
Qed.
Print Assumptions C61_id_queried.

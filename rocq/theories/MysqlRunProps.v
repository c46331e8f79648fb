From Verif Require Import MysqlRunProof EngineProps.
Local Open Scope list_scope.
Local Open Scope nat_scope.

(* ---------------------------------------------------------------- C100 *)
(** At every moment of every history in which a run on the MySQL executor is mixed with anybody else's calls (other runs,
    the same executor, its key, the same databases, nested in each other or not): none of the run's statements has taken
    effect anywhere, or all the accepted ones have, in its database. *)
Theorem C100_all_or_nothing :
  forall cfg h0 keys main o s' plan ms x d c0 h left,
  c_tx cfg = true -> x_db x = Some d -> save cfg keys main (new_stage h0) = (o, s') -> micros plan 0 (s_trace s') ms ->
  woven x c0 (own_stmt plan) None [] ms h left ->
  forall h1 h2, h = h1 ++ h2 -> nothing_of (own_stmt plan) (map snd h1) \/ everything_of (own_stmt plan) ms d (map snd h1).
Proof.
  intros cfg h0 keys main o s' plan ms x d c0 h left Ht Hd H M W h1 h2 ->. apply woven_prefix in W. destruct W as [left' W].
  exact (proj1 (run_among_others cfg keys main (new_stage h0) o s' plan ms x d c0 h1 left' Ht eq_refl H Hd M W)).
Qed.
Print Assumptions C100_all_or_nothing.

(** A run that reported success: when its last call has been made, all statements of its accepted Execs have taken effect. *)
Theorem C100_success_is_stored :
  forall cfg h0 keys main r s' plan ms x d c0 h,
  c_tx cfg = true -> x_db x = Some d -> save cfg keys main (new_stage h0) = (Done r, s') -> micros plan 0 (s_trace s') ms ->
  woven x c0 (own_stmt plan) None [] ms h [] -> res_err r = None -> res_break r = false ->
  everything_of (own_stmt plan) ms d (map snd h) /\
  (forall i a x q, nth_error (s_trace s') i = Some (KExec a, x) -> r_ans x = AOk -> In q (plan i) -> In q (content d (map snd h))).
Proof.
  intros cfg h0 keys main r s' plan ms x d c0 h Ht Hd H M W He Hb.
  assert (E : everything_of (own_stmt plan) ms d (map snd h)).
  { apply (proj1 (proj2 (run_among_others cfg keys main (new_stage h0) (Done r) s' plan ms x d c0 h [] Ht eq_refl H Hd M W)) r); auto. unfold bad. now rewrite He, Hb. }
  split; [exact E|]. intros i a y q Hn Ha Hq. apply (proj1 E). eapply (micros_accepted plan _ 0); eauto.
Qed.
Print Assumptions C100_success_is_stored.

(** A run that reported an error or broke off, or whose process died before it called Commit, has left nothing - unless the
    answer of its Commit was lost. *)
Theorem C100_failure_leaves_nothing :
  forall cfg h0 keys main o s' plan ms x d c0 h left,
  c_tx cfg = true -> x_db x = Some d -> save cfg keys main (new_stage h0) = (o, s') -> micros plan 0 (s_trace s') ms ->
  woven x c0 (own_stmt plan) None [] ms h left ->
  (forall r, o = Done r -> res_err r <> None \/ res_break r = true -> ~ lost_commit h ->
     forall h1 h2, h = h1 ++ h2 -> nothing_of (own_stmt plan) (map snd h1)) /\
  (forall b, In (MCommit b) left -> nothing_of (own_stmt plan) (map snd h)).
Proof.
  intros cfg h0 keys main o s' plan ms x d c0 h left Ht Hd H M W. split.
  - intros r Ho Hx Hl h1 h2 ->. apply woven_prefix in W. destruct W as [left' W].
    apply (proj1 (proj2 (proj2 (run_among_others cfg keys main (new_stage h0) o s' plan ms x d c0 h1 left' Ht eq_refl H Hd M W))) r Ho).
    + unfold bad. destruct (res_err r); [reflexivity|]. destruct Hx as [X|X]; [congruence|exact X].
    + intros (y & n & Hi). apply Hl. exists y, n. apply in_app_iff. auto.
  - exact (proj2 (proj2 (proj2 (run_among_others cfg keys main (new_stage h0) o s' plan ms x d c0 h left Ht eq_refl H Hd M W)))).
Qed.
Print Assumptions C100_failure_leaves_nothing.

(* A run with two inserts, the second of two statements, mixed with another transaction of the same executor which is rolled back. *)
Definition x100 : executor := new_executor (Some 4) 7.
Definition plan100 (i : nat) : list stmt := match i with 1 => [101] | 2 => [102; 103] | _ => [] end.
Lemma own100 q : own_stmt plan100 q -> q = 101 \/ q = 102 \/ q = 103.
Proof. intros (i & H). destruct i as [|[|[|i]]]; cbn in H; intuition. Qed.
Notation run100 orc := (save (ex_cfg true false BusPlain None 0 orc) [] ex_add (new_stage ex_heap)).
Definition h100 (a1 : list (bool * xop)) : list (bool * xop) :=
  [(true, OBegin x100 0 SOk); (false, OBegin x100 0 SOk); (true, OExec x100 1 101 SOk); (false, OExec x100 2 201 SOk)] ++ a1.
Ltac woven_step := first
  [ eapply wv_begin; [vm_compute; lia|vm_compute; split; intros Hq; (discriminate Hq || reflexivity)|]
  | eapply wv_stmt; [vm_compute; split; intros Hq; (discriminate Hq || reflexivity)|]
  | eapply wv_commit; [vm_compute; split; intros Hq; (discriminate Hq || reflexivity)|]
  | eapply wv_rollback; [vm_compute; split; intros Hq; (discriminate Hq || reflexivity)|]
  | eapply wv_foreign; [split; [vm_compute; lia|split; [vm_compute; congruence|try (exact Logic.I); intros Hown; apply own100 in Hown; lia]]|]
  | apply wv_stop ].
Ltac micros_step := first [apply mi_begin|apply mi_commit|apply mi_rollback
  | apply mi_exec; [reflexivity|] | eapply (mi_exec_refused _ _ _ _ _ _ [102] 103 []); [reflexivity|reflexivity|] | apply mi_other; [reflexivity|reflexivity|] | apply mi_nil].
Example C100_example :
  let h := h100 [(true, OExec x100 1 102 SOk); (true, OExec x100 1 103 SOk); (false, OExec x100 2 202 SOk); (true, OCommit x100 1 SOk); (false, ORollback x100 2 SOk)] in
  exists r s', run100 all_ok = (Done r, s') /\ res_err r = None /\ res_break r = false /\
  (exists ms, micros plan100 0 (s_trace s') ms /\ woven x100 0 (own_stmt plan100) None [] ms h []) /\
  content 4 (map snd h) = [101; 102; 103] /\ content 4 (map snd (firstn 7 h)) = [].
Proof.
  cbv zeta. eexists _, _. split; [vm_compute; reflexivity|]. split; [reflexivity|]. split; [reflexivity|]. split; [|split; vm_compute; reflexivity].
  eexists. split; [cbn [s_trace]; repeat micros_step|]. cbn [plan100 accepted map app answered_ok r_ans]. unfold h100. cbn [app]. repeat woven_step.
Qed.
(** the second statement of the second insert is refused: the run reports the error, and nothing of it is left *)
Example C100_example_failed :
  let h := h100 [(true, OExec x100 1 102 SOk); (true, OExec x100 1 103 SFail); (false, OExec x100 2 202 SOk); (true, ORollback x100 1 SOk); (false, OCommit x100 2 SOk)] in
  exists r s', run100 (fail_at 2) = (Done r, s') /\ res_err r <> None /\
  (exists ms, micros plan100 0 (s_trace s') ms /\ woven x100 0 (own_stmt plan100) None [] ms h []) /\
  content 4 (map snd h) = [201; 202].
Proof.
  cbv zeta. eexists _, _. split; [vm_compute; reflexivity|]. split; [discriminate|]. split; [|vm_compute; reflexivity].
  eexists. split; [cbn [s_trace]; repeat micros_step|]. cbn [plan100 accepted map app answered_ok r_ans]. unfold h100. cbn [app]. repeat woven_step.
Qed.

(** The commit whose answer was lost: the run reports an error, and everything is stored. *)
Theorem C100_lost_answer_must_be_excepted :
  ~ (forall cfg h0 keys main r s' plan ms x d c0 h, c_tx cfg = true -> x_db x = Some d -> save cfg keys main (new_stage h0) = (Done r, s') -> micros plan 0 (s_trace s') ms ->
     woven x c0 (own_stmt plan) None [] ms h [] -> res_err r <> None -> nothing_of (own_stmt plan) (map snd h)).
Proof.
  intros H.
  set (h := h100 [(true, OExec x100 1 102 SOk); (true, OExec x100 1 103 SOk); (true, OCommit x100 1 SLost)]).
  assert (X : exists r s', run100 (fail_at 4) = (Done r, s') /\ res_err r <> None /\
    exists ms, micros plan100 0 (s_trace s') ms /\ woven x100 0 (own_stmt plan100) None [] ms h []).
  { eexists _, _. split; [vm_compute; reflexivity|]. split; [discriminate|].
    eexists. split; [cbn [s_trace]; repeat micros_step|]. cbn [plan100 accepted map app answered_ok r_ans]. unfold h, h100. cbn [app]. repeat woven_step. }
  destruct X as (r & s' & R & E & ms & M & W).
  apply (H (ex_cfg true false BusPlain None 0 (fail_at 4)) ex_heap [] ex_add r s' plan100 ms x100 4 0 h eq_refl eq_refl R M W E 4 101).
  - exists 1. now left.
  - vm_compute. auto.
Qed.
Print Assumptions C100_lost_answer_must_be_excepted.

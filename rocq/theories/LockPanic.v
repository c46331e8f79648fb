(** C04, beyond its statement: a locker that panics. *)
From Verif Require Import EngineModel EngineProps.
From Coq Require Import Permutation Sorted.
Local Open Scope string_scope. Local Open Scope list_scope. Local Open Scope nat_scope.

(** engine.go 1219-1228 come before the deferred release (1229-1235): if Lock panics, the locks taken so far are not given back
    by anybody; they stay until the locker lets them expire.  [n]: the number of locks granted before the panic. *)
Lemma acquire_panics cfg n : forall ks got s, n < length ks ->
  (forall i, i < n -> r_ans (c_oracle cfg (length (s_trace s) + i)) = AOk) -> r_ans (c_oracle cfg (length (s_trace s) + n)) = APanic ->
  exists s', acquire cfg ks got s = (Panic, s') /\ map fst (s_trace s') = map fst (s_trace s) ++ map (fun k => KLock (lock_name k)) (firstn (S n) ks).
Proof.
  induction n as [|n IH]; intros ks got s L Ok Pa; (destruct ks as [|k t]; [cbn in L; lia|]).
  - eexists. rewrite Nat.add_0_r in Pa. split; [cbn [acquire]; unfold ecall_err, ecall, bind; cbv zeta; rewrite Pa; reflexivity|]. cbn [mutates with_trace s_trace firstn map]. rewrite map_app. reflexivity.
  - pose proof (Ok 0 ltac:(lia)) as O0. rewrite Nat.add_0_r in O0. set (s1 := with_trace s (s_trace s ++ [(KLock (lock_name k), c_oracle cfg (length (s_trace s)))])).
    assert (L1 : length (s_trace s1) = S (length (s_trace s))) by (unfold s1; cbn [with_trace s_trace]; rewrite app_length; cbn; lia).
    destruct (IH t (got ++ [lock_name k]) s1) as (s' & E & T).
    + cbn in L. lia.
    + intros i Hi. rewrite L1. replace (S (length (s_trace s)) + i) with (length (s_trace s) + S i) by lia. apply Ok. lia.
    + rewrite L1. replace (S (length (s_trace s)) + n) with (length (s_trace s) + S n) by lia. exact Pa.
    + exists s'. split.
      * cbn [acquire]. unfold ecall_err, ecall, bind, ret, err_of. cbv zeta. rewrite O0. cbv beta iota. rewrite O0. exact E.
      * rewrite T. unfold s1. cbn [with_trace s_trace]. rewrite map_app, <- app_assoc. reflexivity.
Qed.
Theorem C04_panicking_locker : forall cfg h keys main n, NoDup keys -> n < length keys ->
  (forall i, i < n -> r_ans (c_oracle cfg i) = AOk) -> r_ans (c_oracle cfg n) = APanic ->
  exists s', save cfg keys main (new_stage h) = (Panic, s') /\ map fst (s_trace s') = map (fun k => KLock (lock_name k)) (firstn (S n) (isort str_leb keys)) /\
  forall l, ~ In (KUnLock l) (map fst (s_trace s')).
Proof.
  intros cfg h keys main n N L Ok Pa.
  assert (A : adj_repeat (isort str_leb keys) = false).
  { destruct (adj_repeat (isort str_leb keys)) eqn:E; auto. exfalso. revert E N. assert (P := isort_perm str_leb keys). intros E N. apply (Permutation_NoDup (Permutation_sym P)) in N. clear P. revert E N.
    generalize (isort str_leb keys). induction l as [|a t IH]; intros E N; [discriminate E|]. destruct t as [|b t]; [discriminate E|]. cbn [adj_repeat] in E. apply orb_true_iff in E. destruct E as [E|E].
    - apply String.eqb_eq in E. subst. inversion N as [|? ? X _]; subst. apply X. now left.
    - inversion N; subst. now apply IH. }
  destruct (acquire_panics cfg n (isort str_leb keys) [] (new_stage h)) as (s' & E & T); auto; [rewrite isort_length; exact L|].
  exists s'. split.
  - unfold save. destruct keys as [|k0 kt]; [cbn in L; lia|]. unfold bind at 1. unfold on_lock. rewrite A. unfold bind at 1. rewrite E. reflexivity.
  - cbn [new_stage s_trace map app] in T. split; auto. intros l. rewrite T, in_map_iff. intros (x & X & _). discriminate X.
Qed.
Print Assumptions C04_panicking_locker.

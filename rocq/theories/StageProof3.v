(** The post-save hooks of the Saves of one stage. *)
From Verif Require Export StageProof2.

Section Posts.
  Variable cfg : config.
  (** a piece of a Save that calls no post-save hook *)
  Definition np_calls (d : list (call * resp)) : Prop := Forall (fun c => is_post (fst c) = false) d.
  Definition np {A} (m : M A) : Prop := forall s o s', m s = (o, s') -> exists d, s_trace s' = s_trace s ++ d /\ np_calls d.
  Lemma np_ret {A} (a : A) : np (ret a).
  Proof. intros s o s' [= <- <-]. exists []. rewrite app_nil_r. split; [reflexivity|constructor]. Qed.
  Lemma np_bind {A B} (m : M A) (f : A -> M B) : np m -> (forall a, np (f a)) -> np (bind m f).
  Proof.
    intros Hm Hf s o s' H. unfold bind in H. destruct (m s) as [o1 s1] eqn:E. destruct (Hm _ _ _ E) as (d1 & T1 & C1).
    destruct o1 as [a| |]; [|injection H as <- <-; exists d1; auto..].
    destruct (Hf a _ _ _ H) as (d2 & T2 & C2). exists (d1 ++ d2). split; [rewrite T2, T1; now rewrite app_assoc|apply Forall_app; auto].
  Qed.
  Lemma np_finally {A} (m : M A) (fin : M unit) : np m -> np fin -> np (finally m fin).
  Proof.
    intros Hm Hf s o s' H. unfold finally in H. destruct (m s) as [o1 s1] eqn:E. destruct (Hm _ _ _ E) as (d1 & T1 & C1).
    destruct o1 as [a| |]; [| |injection H as <- <-; exists d1; auto];
      destruct (fin s1) as [o2 s2] eqn:E2; destruct (Hf _ _ _ E2) as (d2 & T2 & C2);
      assert (s' = s2) as -> by (destruct o2; injection H as <- <-; reflexivity);
      exists (d1 ++ d2); (split; [rewrite T2, T1; now rewrite app_assoc|apply Forall_app; auto]).
  Qed.
  Lemma np_on_panic {A} (m : M A) (fin : M unit) : np m -> np fin -> np (on_panic m fin).
  Proof.
    intros Hm Hf s o s' H. unfold on_panic in H. destruct (m s) as [o1 s1] eqn:E. destruct (Hm _ _ _ E) as (d1 & T1 & C1).
    destruct o1 as [a| |]; [injection H as <- <-; exists d1; auto| |injection H as <- <-; exists d1; auto].
    destruct (fin s1) as [o2 s2] eqn:E2; destruct (Hf _ _ _ E2) as (d2 & T2 & C2).
    assert (s' = s2) as -> by (destruct o2; injection H as <- <-; reflexivity).
    exists (d1 ++ d2). split; [rewrite T2, T1; now rewrite app_assoc|apply Forall_app; auto].
  Qed.
  Lemma np_ignore c : mutates c = false -> is_post c = false -> np (ignore_err cfg c).
  Proof.
    intros Hm Hp s o s' H. apply ignore_shape in H; auto. cbv zeta in H. destruct H as [-> _]. eexists. split; [reflexivity|]. constructor; [exact Hp|constructor].
  Qed.
  Lemma np_err c : mutates c = false -> is_post c = false -> np (ecall_err cfg c).
  Proof.
    intros Hm Hp s o s' H. apply ecall_err_shape in H; auto. cbv zeta in H. destruct H as [-> _]. eexists. split; [reflexivity|]. constructor; [exact Hp|constructor].
  Qed.
  Lemma np_bus c : mutates c = false -> is_post c = false -> np (bus_call cfg c).
  Proof.
    intros Hm Hp. unfold bus_call. intros s o s' H. unfold bind, get in H.
    destruct (c_bus cfg); [eapply np_ret; exact H..|]. destruct (s_evctx s); [eapply np_ignore; eauto|eapply np_ret; exact H].
  Qed.
  Lemma np_do main left : np (stage_do cfg main left).
  Proof.
    intros s o s' H. destruct (stage_do_inner cfg _ _ _ _ _ H) as (d & I). exists d. split; [apply (i_trace _ _ _ _ I)|].
    eapply Forall_impl; [|exact (i_calls _ _ _ _ I)]. intros [[] ?]; cbn; congruence.
  Qed.
  Lemma np_tx f : np f -> np (in_tx cfg f).
  Proof.
    intros Hf. unfold in_tx. apply np_bind; [now apply np_err|]. intros [e|]; [apply np_ret|]. apply np_on_panic; [|now apply np_ignore].
    apply np_bind; [exact Hf|]. intros r. destruct (bad r).
    - apply np_bind; [now apply np_ignore|]. intros _. apply np_bind; [now apply np_bus|]. intros _. apply np_ret.
    - apply np_bind; [now apply np_err|]. intros [x|]; [apply np_ret|]. apply np_bind; [now apply np_bus|]. intros _. apply np_ret.
  Qed.
  Lemma np_release l : np (release cfg l).
  Proof. induction l; cbn; [apply np_ret|]. apply np_bind; [now apply np_ignore|auto]. Qed.
  Lemma np_acquire ks : forall got, np (acquire cfg ks got).
  Proof. induction ks as [|k t IH]; intros got; cbn; [apply np_ret|]. apply np_bind; [now apply np_err|]. intros [x|]; [apply np_ret|apply IH]. Qed.
  Lemma np_on_lock f keys : np f -> np (on_lock cfg f keys).
  Proof.
    intros Hf. unfold on_lock. cbv zeta. destruct (adj_repeat _); [apply np_ret|]. apply np_bind; [apply np_acquire|].
    intros [l [e|]]; cbn [fst snd]; apply np_finally; auto using np_ret, np_release.
  Qed.
  Lemma save_posts keys main left s r s' : stage_save cfg keys main left s = (Done r, s') ->
    exists d post, s_trace s' = s_trace s ++ d ++ post /\ np_calls d /\
      map fst post = match res_err r with None => map KPostSave (seq 0 (c_posts cfg)) | Some _ => [] end.
  Proof.
    unfold stage_save. cbv zeta. intros H. unfold bind at 1, upd at 1 in H. unfold bind at 1 in H.
    match type of H with (match ?m ?x with _ => _ end) = _ => assert (Hn : np m) end.
    { assert (Hg : np (if c_tx cfg then in_tx cfg (stage_do cfg main left) else stage_do cfg main left)) by (destruct (c_tx cfg); [apply np_tx|]; apply np_do).
      destruct keys; [exact Hg|now apply np_on_lock]. }
    match type of H with (match ?m ?x with _ => _ end) = _ => destruct (m x) as [[r0| |] s1] eqn:E end; try discriminate.
    destruct (Hn _ _ _ E) as (d & T & C). cbn [s_trace with_errs] in T. apply finish_shape in H.
    destruct H as (post & -> & [(e & He & [= ->] & ->)|(m & He & Hm & [[[= ->] ->]|[[=] _]])]).
    - exists d, []. rewrite He, app_nil_r. cbn. rewrite app_nil_r. auto.
    - exists d, post. rewrite He. cbn. rewrite T, <- app_assoc. auto.
  Qed.
End Posts.

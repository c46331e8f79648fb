(** Proofs about several Saves of one stage. *)
From Verif Require Export StageModel EngineProof5.

Lemma res_id r : mkResult (res_err r) (res_break r) (res_actions r) (res_output r) = r.
Proof. now destruct r. Qed.

Section Stage.
  Variable cfg : config.

  (* ------------------------------------------------ without an error left: the run of EngineModel *)
  Lemma stage_do_none main s : stage_do cfg main None s = do_ cfg main s.
  Proof.
    unfold stage_do, bind, ret. destruct (do_ cfg main s) as [[r| |] s1]; auto. unfold with_left, bad. destruct r as [[e|] [] a o]; reflexivity.
  Qed.
  Lemma in_tx_ext f g s : (forall x, f x = g x) -> in_tx cfg f s = in_tx cfg g s.
  Proof.
    intros H. unfold in_tx, bind, on_panic. destruct (ecall_err cfg KBegin s) as [[[e|]| |] s1]; auto. now rewrite H.
  Qed.
  Lemma on_lock_ext f g keys s : (forall x, f x = g x) -> on_lock cfg f keys s = on_lock cfg g keys s.
  Proof.
    intros H. unfold on_lock. cbv zeta. destruct (adj_repeat _); auto. unfold bind. destruct (acquire cfg _ [] s) as [[[l [e|]]| |] s1]; auto.
    unfold finally. cbn [snd fst]. now rewrite H.
  Qed.
  Lemma stage_save_none keys main s : stage_save cfg keys main None s = save cfg keys main (with_errs s []).
  Proof.
    unfold stage_save. unfold bind at 1, upd at 1. set (s1 := with_errs s []). clearbody s1. unfold save. cbv zeta.
    assert (E : forall x, (if c_tx cfg then in_tx cfg (stage_do cfg main None) else stage_do cfg main None) x =
                          (if c_tx cfg then in_tx cfg (do_ cfg main) else do_ cfg main) x).
    { intros x. destruct (c_tx cfg); [apply in_tx_ext|]; intros; apply stage_do_none. }
    unfold bind. destruct keys as [|k ks]; [now rewrite E|]. rewrite (on_lock_ext _ _ (k :: ks) s1 E). reflexivity.
  Qed.

  (* ------------------------------------------------ with an error left: nothing is committed any more *)
  (** A piece of a Save that leaves the database alone: writes only in a transaction that is rolled back. *)
  Definition calm_calls (d : list (call * resp)) : Prop := bracketed false d /\ Forall (fun c => fst c <> KCommit) d.
  Definition calm {A} (m : M A) : Prop := forall s o s', m s = (o, s') ->
    exists d, s_trace s' = s_trace s ++ d /\ calm_calls d /\ (o <> Crash -> opened false d = false).
  Lemma calm_app a b : calm_calls a -> opened false a = false -> calm_calls b -> calm_calls (a ++ b).
  Proof.
    intros [A1 A2] Ho [B1 B2]. split; [apply bracketed_app; rewrite Ho; auto|apply Forall_app; auto].
  Qed.
  Lemma opened_app b t1 t2 : opened b (t1 ++ t2) = opened (opened b t1) t2.
  Proof. apply fold_left_app. Qed.
  Lemma calm_ret {A} (a : A) : calm (ret a).
  Proof. intros s o s' [= <- <-]. exists []. rewrite app_nil_r. repeat split; auto. Qed.
  Lemma calm_bind {A B} (m : M A) (f : A -> M B) : calm m -> (forall a, calm (f a)) -> calm (bind m f).
  Proof.
    intros Hm Hf s o s' H. unfold bind in H. destruct (m s) as [o1 s1] eqn:E. destruct (Hm _ _ _ E) as (d1 & T1 & C1 & O1).
    destruct o1 as [a| |]; [|injection H as <- <-; exists d1; auto; repeat split; try apply C1; auto; intros; apply O1; discriminate..].
    - destruct (Hf a _ _ _ H) as (d2 & T2 & C2 & O2). specialize (O1 ltac:(discriminate)). exists (d1 ++ d2).
      split; [rewrite T2, T1; now rewrite app_assoc|]. split; [now apply calm_app|]. intros Ho. rewrite opened_app, O1. auto.
  Qed.
  Lemma calm_finally {A} (m : M A) (fin : M unit) : calm m -> calm fin -> calm (finally m fin).
  Proof.
    intros Hm Hf s o s' H. unfold finally in H. destruct (m s) as [o1 s1] eqn:E. destruct (Hm _ _ _ E) as (d1 & T1 & C1 & O1).
    destruct o1 as [a| |].
    3:{ injection H as <- <-. exists d1. repeat split; try apply C1; auto. }
    1,2: specialize (O1 ltac:(discriminate)); destruct (fin s1) as [o2 s2] eqn:E2; destruct (Hf _ _ _ E2) as (d2 & T2 & C2 & O2);
      assert (s' = s2 /\ (o <> Crash -> o2 <> Crash)) as [-> Hc] by (destruct o2; injection H as <- <-; split; congruence);
      exists (d1 ++ d2); (split; [rewrite T2, T1; now rewrite app_assoc|]); (split; [now apply calm_app|]); intros Ho; rewrite opened_app, O1; auto.
  Qed.
  Lemma calm_one c r : is_write c = false -> is_tx_call c = false -> calm_calls [(c, r)] /\ opened false [(c, r)] = false.
  Proof. intros Hw Ht. repeat split; cbn; try congruence; destruct c; try discriminate; try reflexivity. - repeat constructor; discriminate. - repeat constructor; discriminate.
    - repeat constructor; discriminate. - repeat constructor; discriminate. - repeat constructor; discriminate. - repeat constructor; discriminate.
    - repeat constructor; discriminate. - repeat constructor; discriminate. - repeat constructor; discriminate. - repeat constructor; discriminate. Qed.
  Lemma calm_ignore c : mutates c = false -> is_write c = false -> is_tx_call c = false -> calm (ignore_err cfg c).
  Proof.
    intros Hm Hw Ht s o s' H. apply ignore_shape in H; auto. cbv zeta in H. destruct H as [-> _]. eexists. split; [reflexivity|].
    destruct (calm_one c (c_oracle cfg (length (s_trace s))) Hw Ht). auto.
  Qed.
  Lemma calm_err c : mutates c = false -> is_write c = false -> is_tx_call c = false -> calm (ecall_err cfg c).
  Proof.
    intros Hm Hw Ht s o s' H. apply ecall_err_shape in H; auto. cbv zeta in H. destruct H as [-> _]. eexists. split; [reflexivity|].
    destruct (calm_one c (c_oracle cfg (length (s_trace s))) Hw Ht). auto.
  Qed.
  Lemma calm_release l : calm (release cfg l).
  Proof. induction l; cbn; [apply calm_ret|]. apply calm_bind; [now apply calm_ignore|auto]. Qed.
  Lemma calm_acquire ks : forall got, calm (acquire cfg ks got).
  Proof. induction ks as [|k t IH]; intros got; cbn; [apply calm_ret|]. apply calm_bind; [now apply calm_err|]. intros [x|]; [apply calm_ret|apply IH]. Qed.
  Lemma calm_on_lock f keys : calm f -> calm (on_lock cfg f keys).
  Proof.
    intros Hf. unfold on_lock. cbv zeta. destruct (adj_repeat _); [apply calm_ret|]. apply calm_bind; [apply calm_acquire|].
    intros [l [e|]]; cbn [fst snd]; apply calm_finally; auto using calm_ret, calm_release.
  Qed.
  Lemma calm_posts n : forall i, calm (post_hooks cfg n i).
  Proof. induction n; intros i; cbn; [apply calm_ret|]. apply calm_bind; [now apply calm_ignore|auto]. Qed.

  (** A transaction around a function that always reports a failure. *)
  Lemma stage_do_bad main e s r s' : stage_do cfg main (Some e) s = (Done r, s') -> bad r = true.
  Proof.
    unfold stage_do, bind, ret. destruct (do_ cfg main s) as [[r0| |] s1]; intros H; try discriminate. injection H as <- <-.
    unfold with_left. destruct (bad r0) eqn:E; auto.
  Qed.
  Lemma stage_do_inner main left s o s' : stage_do cfg main left s = (o, s') -> exists d, inner cfg s s' d.
  Proof.
    unfold stage_do, bind, ret. destruct (do_ cfg main s) as [o0 s1] eqn:E. destruct (inner_do cfg main _ _ _ E) as (d & I & _).
    intros H. exists d. destruct o0; injection H as <- <-; exact I.
  Qed.
  Lemma stuck_tx main e : calm (in_tx cfg (stage_do cfg main (Some e))).
  Proof.
    intros s o s' H. apply in_tx_shape in H. destruct H as (rb & [(Hr & -> & Ho)|(Hr & of & s1 & tl & H1 & -> & He)]).
    - exists [(KBegin, rb)]. split; [reflexivity|]. assert (answered_ok rb = false) by (unfold answered_ok; destruct (r_ans rb); congruence).
      split; [split; [repeat split; discriminate|repeat constructor; discriminate]|]. intros _. cbn. now rewrite H.
    - destruct (stage_do_inner _ _ _ _ _ H1) as (d & I). exists ([(KBegin, rb)] ++ d ++ tl).
      split; [cbn; rewrite (i_trace _ _ _ _ I); cbn; now rewrite <- !app_assoc|].
      pose proof (inner_notx _ _ _ _ I) as Hd.
      assert (Ht : Forall (fun c : call * resp => is_write (fst c) = false /\ fst c <> KBegin /\ fst c <> KCommit) tl /\
                   (o <> Crash -> tl <> [] /\ (forall b, opened b tl = false))).
      { assert (X : forall (more : list (call * resp)) (P : call -> Prop), (forall c, P c -> c = KRollback \/ c = KBusRollback) ->
          Forall (fun c => P (fst c)) more -> Forall (fun c : call * resp => is_write (fst c) = false /\ fst c <> KBegin /\ fst c <> KCommit) more /\ opened false more = false).
        { intros more P HP Hm. induction Hm as [|[c r] t Hc _ [IH1 IH2]]; [split; [constructor|reflexivity]|]. cbn in Hc. destruct (HP _ Hc) as [-> | ->].
          - split; [constructor; auto; cbn; repeat split; discriminate|exact IH2].
          - split; [constructor; auto; cbn; repeat split; discriminate|exact IH2]. }
        destruct He as [|r|res r more o1 Hb Ho Hm Hc|res r more o1 Hb Hr' Ho Hm|res r more o1 Hb Hr' Ho Hm Hc].
        - split; [constructor|congruence].
        - split; [repeat constructor; discriminate|]. intros _. split; [discriminate|]. intros []; reflexivity.
        - destruct (X more (fun c => c = KRollback \/ (c = KBusRollback /\ s_evctx s1 = true /\ c_bus cfg = BusTx))) as [X1 X2]; [tauto|exact Hm|].
          split; [constructor; auto; cbn; repeat split; discriminate|]. intros _. split; [discriminate|]. intros b. exact X2.
        - apply stage_do_bad in H1. congruence.
        - apply stage_do_bad in H1. congruence. }
      destruct Ht as [T1 T2]. split; [split|].
      + cbn [app bracketed is_write]. split; [discriminate|]. unfold answered_ok. rewrite Hr. apply bracketed_app.
        split; [now apply bracketed_notx|]. apply bracketed_nowrite. eapply Forall_impl; [|exact T1]. cbn. tauto.
      + apply Forall_app. split; [repeat constructor; discriminate|]. apply Forall_app. split.
        * eapply Forall_impl; [|exact Hd]. intros [[] ?]; cbn; congruence.
        * eapply Forall_impl; [|exact T1]. cbn. tauto.
      + intros Ho. destruct (T2 Ho) as [_ T3]. now rewrite !opened_app, T3.
  Qed.
  Lemma stuck_tx_bad main e s r s' : in_tx cfg (stage_do cfg main (Some e)) s = (Done r, s') -> bad r = true.
  Proof.
    intros H. apply in_tx_shape in H. destruct H as (rb & [(_ & _ & [?|(x & [= ->])])|(_ & of & s1 & tl & H1 & _ & He)]); [discriminate|reflexivity|].
    inversion He as [| |res r0 more o1 Hb Ho| |]; subst.
    - destruct Ho as [[= <-]|]; [auto|discriminate].
    - apply stage_do_bad in H1. congruence.
    - apply stage_do_bad in H1. congruence.
  Qed.
  Lemma on_lock_bad f keys : (forall s r s', f s = (Done r, s') -> bad r = true) ->
    forall s r s', on_lock cfg f keys s = (Done r, s') -> bad r = true.
  Proof.
    intros Hf s r s' H. unfold on_lock in H. cbv zeta in H. destruct (adj_repeat _); [injection H as <- <-; reflexivity|].
    unfold bind in H. destruct (acquire cfg _ [] s) as [[[l oe]| |] s1]; try discriminate. cbn [fst snd] in H. unfold finally in H.
    destruct oe as [e|].
    - unfold ret in H. destruct (release cfg l s1) as [[?| |] s2]; try discriminate. injection H as <- <-. reflexivity.
    - destruct (f s1) as [[a| |] s2] eqn:E; try discriminate; destruct (release cfg l s2) as [[?| |] s3]; try discriminate.
      injection H as <- <-. eauto.
  Qed.
  Lemma stuck_save keys main e : c_tx cfg = true -> calm (stage_save cfg keys main (Some e)).
  Proof.
    intros Ht. unfold stage_save. cbv zeta. rewrite Ht. apply calm_bind.
    { intros s o s' [= <- <-]. exists []. cbn. rewrite app_nil_r. repeat split; auto. }
    intros _. apply calm_bind.
    - destruct keys; [apply stuck_tx|apply calm_on_lock, stuck_tx].
    - intros r. destruct (res_err r); [apply calm_ret|]. apply calm_bind; [apply calm_posts|intros; apply calm_ret].
  Qed.
  Lemma stuck_save_bad keys main e s r s' : c_tx cfg = true -> stage_save cfg keys main (Some e) s = (Done r, s') -> bad r = true.
  Proof.
    intros Ht H. unfold stage_save in H. cbv zeta in H. rewrite Ht in H. unfold bind at 1, upd at 1 in H. unfold bind at 1 in H.
    match type of H with (match ?x with _ => _ end) = _ => destruct x as [[r0| |] s1] eqn:E end; try discriminate.
    assert (Hb : bad r0 = true).
    { destruct keys; [eapply stuck_tx_bad; exact E|eapply on_lock_bad; [|exact E]; intros; eapply stuck_tx_bad; eauto]. }
    destruct (res_err r0).
    - injection H as <- <-. exact Hb.
    - unfold bind in H. destruct (post_hooks cfg (c_posts cfg) 0 s1) as [[?| |] s2]; try discriminate. injection H as <- <-. exact Hb.
  Qed.
End Stage.

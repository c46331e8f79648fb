(** Proofs of the transaction, dry-run, lock and hook properties. *)
From Verif Require Export EngineProof4.

Lemma one_commit (X : list (call * resp)) c Y p q : ~ commit_ok X -> ~ commit_ok Y -> X ++ c :: Y = p ++ q -> commit_ok p -> ~ commit_ok q.
Proof.
  intros HX HY H Hp Hq. apply app_eq_app in H. destruct H as (l & [[E1 E2]|[E1 E2]]).
  - apply HX. rewrite E1, commit_ok_app. auto.
  - destruct l as [|c' l].
    + rewrite app_nil_r in E1. subst. auto.
    + cbn in E2. injection E2 as <- E2. apply HY. rewrite E2, commit_ok_app. auto.
Qed.
Lemma no_commit_frame tr : Forall (fun c => frame_call (fst c) = true) tr -> ~ commit_ok tr.
Proof. intros H. apply commit_ok_calls. eapply Forall_impl; [|exact H]. intros [[] ?]; cbn; congruence. Qed.
Lemma no_commit_notx tr : Forall (fun c => is_tx_call (fst c) = false) tr -> ~ commit_ok tr.
Proof. intros H. apply commit_ok_calls. eapply Forall_impl; [|exact H]. intros [[] ?]; cbn; congruence. Qed.
Lemma frame_neutral (tr : list (call * resp)) : Forall (fun c => frame_call (fst c) = true) tr -> Forall (fun c => db_neutral (fst c) = true) tr.
Proof. intros H. eapply Forall_impl; [|exact H]. intros [[] ?]; cbn; congruence. Qed.
Lemma frame_nowrite (tr : list (call * resp)) : Forall (fun c => frame_call (fst c) = true) tr -> Forall (fun c => is_write (fst c) = false) tr.
Proof. intros H. eapply Forall_impl; [|exact H]. intros [[] ?]; cbn; congruence. Qed.
Lemma app_no_commit a b : ~ commit_ok a -> ~ commit_ok b -> ~ commit_ok (a ++ b).
Proof. rewrite commit_ok_app. tauto. Qed.

Lemma opened_pending junk tr : forall b d, (b = true -> pending d <> None) -> opened b tr = true -> pending (dbrun junk d tr) <> None.
Proof.
  induction tr as [|[c r] t IH]; intros b d Hb; [exact Hb|]. rewrite dbrun_cons.
  change (opened b ((c, r) :: t)) with (opened (match c with KBegin => if answered_ok r then true else b | KCommit | KRollback => false | _ => b end) t).
  apply IH. unfold db_step; cbn [fst snd]. destruct c; auto; try discriminate.
  - destruct (answered_ok r); [|exact Hb]. discriminate.
  - intros H. specialize (Hb H). destruct (pending d); [discriminate|congruence].
Qed.

Section Props.
  Variable cfg : config.

  (** Shape of the whole trace of a transactional run. *)
  Inductive tx_run (main : body (option err)) (s : st) : out result -> st -> list (call * resp) -> Prop :=
  | tr_none tr o : Forall (fun c => frame_call (fst c) = true \/ (fst c = KBegin /\ r_ans (snd c) <> AOk)) tr ->
      (o = Panic \/ exists e, o = Done (fails e)) -> tx_run main s o (with_trace s (s_trace s ++ tr)) tr
  | tr_begun pre rb d tl post of s2 o1 o : 
      Forall (fun c => frame_call (fst c) = true) pre -> Forall (fun c => frame_call (fst c) = true) post ->
      r_ans rb = AOk ->
      do_ cfg main (with_trace s (s_trace s ++ pre ++ [(KBegin, rb)])) = (of, s2) ->
      inner cfg (with_trace s (s_trace s ++ pre ++ [(KBegin, rb)])) s2 d ->
      (forall r, of = Done r -> bad r = false -> r = cur_result s2) ->
      tx_end cfg s2 of tl o1 -> (o = o1 \/ (o1 <> Crash /\ o = Panic)) ->
      tx_run main s o (with_trace s2 (s_trace s ++ pre ++ [(KBegin, rb)] ++ d ++ tl ++ post))
             (pre ++ [(KBegin, rb)] ++ d ++ tl ++ post).

  Lemma save_tx_run keys main s o s' : c_tx cfg = true -> save cfg keys main s = (o, s') ->
    exists tr, tx_run main s o s' tr /\ s_trace s' = s_trace s ++ tr.
  Proof.
    intros Ht H. apply run_parts in H.
    destruct H as [(fr & -> & Hf & Ho)|(pre & s1 & of & mid & post & Hg & Hm & -> & Hpre & Hpost & Ho)].
    - exists fr. split; [|reflexivity]. apply tr_none; auto. eapply Forall_impl; [|exact Hf]. auto.
    - destruct (guarded_tx_trace cfg _ _ _ _ Ht Hg) as (rb & [(Hr & -> & Hof)|(Hr & d & tl & of' & s2 & I & Hdo & -> & He & G)]).
      + cbn in Hm. rewrite <- app_assoc in Hm. apply app_inv_head, app_inv_head in Hm. subst mid.
        exists (pre ++ [(KBegin, rb)] ++ post). split; [|reflexivity]. rewrite !with_trace_twice. apply tr_none.
        * apply Forall_app. split; [eapply Forall_impl; [|exact Hpre]; auto|].
          constructor; [right; auto|]. eapply Forall_impl; [|exact Hpost]; auto.
        * destruct Ho as [->|[_ ->]]; auto.
      + cbn in Hm. rewrite <- !app_assoc in Hm. apply app_inv_head, app_inv_head in Hm. subst mid.
        cbn [s_trace with_trace] in *.
        exists (pre ++ [(KBegin, rb)] ++ d ++ tl ++ post). split; [|cbn; now rewrite <- !app_assoc].
        rewrite with_trace_twice. cbn [app]. rewrite <- !app_assoc in *.
        eapply tr_begun; eauto.
  Qed.

  Lemma tx_run_bracketed main s o s' tr : tx_run main s o s' tr -> bracketed false tr.
  Proof.
    intros [tr0 o0 Hf Ho|pre rb d tl post of s2 o1 o0 Hpre Hpost Hr Hdo I G He Ho].
    - apply bracketed_nowrite. eapply Forall_impl; [|exact Hf]. intros [[] ?]; cbn; intuition congruence.
    - apply bracketed_app. split; [apply bracketed_nowrite, frame_nowrite; auto|].
      cbn. split; [discriminate|]. unfold answered_ok. rewrite Hr. apply bracketed_app.
      split; [apply bracketed_notx; eapply inner_notx; exact I|]. apply bracketed_nowrite. apply Forall_app.
      split; [|now apply frame_nowrite]. apply tx_end_nowrite in He. eapply Forall_impl; [|exact He]. cbn. tauto.
  Qed.
  Lemma tx_run_one_commit main s o s' tr : tx_run main s o s' tr ->
    (forall p q, tr = p ++ q -> commit_ok p -> ~ commit_ok q) /\
    (forall r, o = Done r -> bad r = true -> ~ commit_ok tr).
  Proof.
    intros [tr0 o0 Hf Ho|pre rb d tl post of s2 o1 o0 Hpre Hpost Hr Hdo I G He Ho].
    - assert (Hn : ~ commit_ok tr0).
      { apply commit_ok_calls. eapply Forall_impl; [|exact Hf]. intros [[] ?]; cbn; intuition congruence. }
      split; [|auto]. intros p q -> Hp. exfalso. apply Hn. rewrite commit_ok_app. auto.
    - assert (Hn1 : ~ commit_ok (pre ++ [(KBegin, rb)] ++ d)).
      { apply app_no_commit; [now apply no_commit_frame|]. apply app_no_commit.
        - apply commit_ok_calls. repeat constructor. discriminate.
        - apply no_commit_notx. eapply inner_notx; exact I. }
      assert (E : pre ++ [(KBegin, rb)] ++ d ++ tl ++ post = (pre ++ [(KBegin, rb)] ++ d) ++ tl ++ post) by now rewrite <- !app_assoc.
      destruct (tx_end_commit cfg _ _ _ _ He) as [[Hn Hb]|(res & r & more & Hof & Hbad & -> & Hok & Hmore & Hres)].
      + assert (Hall : ~ commit_ok (pre ++ [(KBegin, rb)] ++ d ++ tl ++ post)).
        { rewrite E. apply app_no_commit; auto. apply app_no_commit; auto. now apply no_commit_frame. }
        split; [|auto]. intros p q Hpq Hp. exfalso. apply Hall. rewrite Hpq, commit_ok_app. auto.
      + split.
        * intros p q Hpq. rewrite E in Hpq. cbn in Hpq. apply (one_commit _ _ _ _ _ Hn1 (app_no_commit _ _ (commit_ok_calls _ Hmore) (no_commit_frame _ Hpost)) Hpq).
        * intros r0 -> Hr0. exfalso. destruct Ho as [Ho|[_ Ho]]; [|discriminate]. subst o1. destruct Hres as [|[= <-]]; [discriminate|congruence].
  Qed.

  Lemma all_or_nothing junk h keys main d0 o s' : c_tx cfg = true -> save cfg keys main (new_stage h) = (o, s') ->
    (forall p q, s_trace s' = p ++ q ->
       (~ commit_ok p -> visible junk d0 p = d0) /\
       (commit_ok p -> visible junk d0 p = visible junk d0 (s_trace s'))) /\
    (forall r, o = Done r -> res_err r <> None \/ res_break r = true -> ~ commit_ok (s_trace s')).
  Proof.
    intros Ht H. destruct (save_tx_run _ _ _ _ _ Ht H) as (tr & Hr & Htr). cbn in Htr. rewrite Htr.
    pose proof (tx_run_bracketed _ _ _ _ _ Hr) as Hb. destruct (tx_run_one_commit _ _ _ _ _ Hr) as [Hone Hbad].
    split.
    - intros p q E. rewrite E in Hb. apply bracketed_app in Hb. destruct Hb as [B1 B2]. split; intros Hc.
      + unfold visible. fold (dbrun junk (mkDb d0 None) p). now rewrite (bracketed_committed junk p false).
      + unfold visible. fold (dbrun junk (mkDb d0 None) p). fold (dbrun junk (mkDb d0 None) tr). rewrite E, dbrun_app.
        symmetry. apply (bracketed_committed junk q (opened false p)); [exact B2| |eauto].
        apply opened_pending. discriminate.
    - intros r -> Hx. apply (Hbad r); [reflexivity|]. unfold bad. destruct (res_err r); [reflexivity|].
      destruct Hx as [Hx|Hx]; [congruence|exact Hx].
  Qed.

  Lemma execs_nowrite tr : Forall (fun c => is_write (fst c) = false) tr -> execs tr = [].
  Proof. induction 1 as [|[c r] t H _ IH]; cbn; [reflexivity|]. destruct c; cbn in *; auto; discriminate. Qed.
  Lemma inner_actions s s' d : inner cfg s s' d -> ~ exec_failed d -> s_actions s = [] -> s_actions s' = execs d.
  Proof.
    intros [T C D A E] Hf Ha. destruct (c_dry cfg) eqn:Ed.
    - destruct (D eq_refl) as [D1 D2]. rewrite D2, Ha. symmetry. apply execs_nowrite.
      eapply Forall_impl; [|exact D1]. cbn. tauto.
    - rewrite A, Ha by auto. reflexivity.
  Qed.

  Lemma commits_reported junk h keys main d0 r s' : save cfg keys main (new_stage h) = (Done r, s') ->
    res_err r = None -> res_break r = false -> ~ exec_failed (s_trace s') ->
    visible junk d0 (s_trace s') = apply_actions d0 (res_actions r) /\ execs (s_trace s') = res_actions r.
  Proof.
    intros H He Hb Hf. assert (Hgood : bad r = false) by (unfold bad; now rewrite He).
    destruct (c_tx cfg) eqn:Et.
    - destruct (save_tx_run _ _ _ _ _ Et H) as (tr & Hr & Htr). cbn in Htr. rewrite Htr in *. clear Htr H.
      remember (Done r) as o eqn:Eo.
      destruct Hr as [tr0 o0 _ Ho|pre rb d tl post of s2 o1 o0 Hpre Hpost Hok Hdo I G Hend Ho].
      { exfalso. subst o0. destruct Ho as [Ho|(e & [= ->])]; discriminate. }
      subst o0. destruct Ho as [Ho|[_ Ho]]; [|discriminate]. subst o1.
      destruct (tx_end_commit cfg _ _ _ _ Hend) as [[_ Hbad]|(res & rc & more & -> & Hbr & -> & Hrc & Hmore & Hres)].
      { rewrite (Hbad r eq_refl) in Hgood. discriminate. }
      destruct Hres as [|[= <-]]; [discriminate|].
      rewrite !exec_failed_app in Hf.
      assert (Hfd : ~ exec_failed d) by tauto.
      rewrite (G r eq_refl Hgood). cbn [res_actions cur_result]. rewrite (inner_actions _ _ _ I Hfd eq_refl).
      assert (Hw := tx_end_nowrite cfg _ _ _ _ Hend).
      split.
      + unfold visible. fold (dbrun junk (mkDb d0 None) (pre ++ [(KBegin, rb)] ++ d ++ ((KCommit, rc) :: more) ++ post)).
        rewrite dbrun_app, (dbrun_neutral junk pre) by now apply frame_neutral.
        cbn [app]. rewrite dbrun_cons. unfold db_step at 1. cbn [fst snd]. unfold answered_ok at 1. rewrite Hok. cbn [committed].
        rewrite dbrun_app, dbrun_inner; [|eapply inner_notx; exact I|exact Hfd].
        cbn [app]. rewrite dbrun_cons. unfold db_step at 1. cbn [fst snd pending]. unfold answered_ok at 1. rewrite Hrc.
        rewrite (bracketed_committed junk (more ++ post) false); [reflexivity| |discriminate|].
        * apply bracketed_nowrite. inversion Hw; subst. apply Forall_app. split; [|now apply frame_nowrite].
          eapply Forall_impl; [|eassumption]. cbn. tauto.
        * apply app_no_commit; [now apply commit_ok_calls|now apply no_commit_frame].
      + rewrite !execs_app. rewrite (execs_nowrite pre) by now apply frame_nowrite.
        rewrite (execs_nowrite post) by now apply frame_nowrite.
        rewrite (execs_nowrite ((KCommit, rc) :: more)); [cbn; now rewrite !app_nil_r|].
        eapply Forall_impl; [|exact Hw]. cbn. tauto.
    - apply run_parts in H. destruct H as [(fr & _ & _ & [Ho|(e & [= ->])])|(pre & s1 & of & mid & post & Hg & Hm & -> & Hpre & Hpost & Ho)]; [discriminate..|].
      destruct Ho as [<-|[_ Ho]]; [|discriminate]. unfold guarded in Hg. rewrite Et in Hg.
      destruct (inner_do cfg main _ _ _ Hg) as (d & I & G). pose proof (i_trace _ _ _ _ I) as Hd. cbn in Hd, Hm.
      rewrite Hd in Hm. apply app_inv_head in Hm. subst mid.
      cbn [s_trace with_trace new_stage app] in *.
      rewrite !exec_failed_app in Hf. assert (Hfd : ~ exec_failed d) by tauto.
      rewrite (G r eq_refl Hgood). cbn [res_actions cur_result]. rewrite (inner_actions _ _ _ I Hfd eq_refl).
      split.
      + unfold visible. fold (dbrun junk (mkDb d0 None) (pre ++ d ++ post)).
        rewrite dbrun_app, (dbrun_neutral junk pre) by now apply frame_neutral.
        rewrite dbrun_app, dbrun_inner; [|eapply inner_notx; exact I|exact Hfd].
        rewrite (dbrun_neutral junk post) by now apply frame_neutral. reflexivity.
      + rewrite !execs_app. rewrite (execs_nowrite pre) by now apply frame_nowrite.
        rewrite (execs_nowrite post) by now apply frame_nowrite. cbn. now rewrite app_nil_r.
  Qed.

  (** failed results carry no actions *)
  Lemma publish_bad_actions evs s r s' : publish cfg evs s = (Done r, s') -> bad r = true -> res_actions r = [].
  Proof.
    unfold publish. intros H Hb. destruct evs as [|e0 es].
    { unfold bind, get, ret in H. injection H as <- <-. discriminate. }
    apply bind_done in H. destruct H as (p & s1 & H1 & H2). destruct p as [r0|].
    - injection H2 as <- <-. destruct (c_persist cfg) as [f|]; [|discriminate].
      destruct (persist_models f (e0 :: es)) as [x|ms]; [injection H1 as <- <-; reflexivity|].
      apply bind_done in H1. destruct H1 as (e & s3 & _ & H3). destruct e; [|discriminate]. injection H3 as <- <-. reflexivity.
    - assert (Hd : forall r0 s2, (e <- dispatchEvents cfg (e0 :: es) ;; match e with Some x => ret (fails x) | None => s <- get ;; ret (cur_result s) end) s1 = (Done r0, s2) -> bad r0 = true -> res_actions r0 = []).
      { intros r0 s2 Hx Hb0. apply bind_done in Hx. destruct Hx as (e & s3 & _ & H3). destruct e; [injection H3 as <- <-; reflexivity|].
        unfold bind, get, ret in H3. injection H3 as <- <-. discriminate. }
      destruct (c_bus cfg); [injection H2 as <- <-; reflexivity|eauto..].
  Qed.
  Lemma do_bad_actions main s r s' : do_ cfg main s = (Done r, s') -> bad r = true -> res_actions r = [].
  Proof.
    unfold do_. intros H Hb. apply bind_done in H. destruct H as (e & s1 & _ & H). destruct e as [x|].
    { injection H as <- <-. unfold fail_or_break. destruct (is_break x); reflexivity. }
    unfold bind at 1, get at 1 in H. destruct (repo_error s1); [injection H as <- <-; reflexivity|].
    apply bind_done in H. destruct H as (e & s2 & _ & H). destruct e as [x|]; [injection H as <- <-; reflexivity|].
    apply bind_done in H. destruct H as (evs & s3 & _ & H). eapply publish_bad_actions; eauto.
  Qed.

  Lemma quiet_frame tr : Forall (fun c => frame_call (fst c) = true) tr ->
    Forall (fun c : call * resp => is_write (fst c) = false /\ is_publish (fst c) = false) tr.
  Proof. intros H. eapply Forall_impl; [|exact H]. intros [[] ?]; cbn; intuition congruence. Qed.
  Lemma ctx_after_dry b d : Forall (fun c => is_write (fst c) = false /\ is_publish (fst c) = false) d -> ctx_after b d = b.
  Proof.
    unfold ctx_after. revert b. induction d as [|[c r] t IH]; intros b H; cbn; [reflexivity|].
    inversion H as [|? ? [_ H1] H2]; subst. destruct c; cbn in *; try discriminate; auto.
  Qed.
  Lemma dry_run h keys main o s' : c_dry cfg = true -> save cfg keys main (new_stage h) = (o, s') ->
    Forall (fun c => is_write (fst c) = false /\ is_publish (fst c) = false) (s_trace s') /\
    (forall r, o = Done r -> res_actions r = []).
  Proof.
    intros Hd H. destruct (c_tx cfg) eqn:Et.
    - destruct (save_tx_run _ _ _ _ _ Et H) as (tr & Hr & Htr). cbn in Htr. rewrite Htr in *. clear Htr H.
      destruct Hr as [tr0 o0 Hf Ho|pre rb d tl post of s2 o1 o0 Hpre Hpost Hok Hdo I G Hend Ho].
      + split.
        * eapply Forall_impl; [|exact Hf]. intros [[] ?]; cbn; intuition congruence.
        * intros r ->. destruct Ho as [|(e & [= ->])]; [discriminate|reflexivity].
      + destruct (i_dry _ _ _ _ I Hd) as [D1 D2].
        assert (Hctx : s_evctx s2 = false) by (rewrite (i_evctx _ _ _ _ I), (ctx_after_dry _ _ D1); reflexivity).
        split.
        * apply Forall_app. split; [now apply quiet_frame|]. constructor; [auto|]. apply Forall_app. split; [auto|].
          apply Forall_app. split; [|now apply quiet_frame].
          destruct Hend as [|r|res r more o1 Hb Ho' Hm Hc|res r more o1 Hb Hr Ho' Hm|res r more o1 Hb Hr Ho' Hm Hc];
            repeat (constructor; [cbn; auto|]); try constructor; (eapply Forall_impl; [|exact Hm]); intros [c r'] Hc'; cbn in *.
          -- destruct Hc' as [->|(_ & ? & _)]; [auto|congruence].
          -- subst c. auto.
          -- destruct Hc' as [->|(_ & ? & _)]; [auto|congruence].
        * intros r ->. destruct Ho as [Ho|[_ Ho]]; [|discriminate]. subst o1.
          assert (Hcur : forall r0, of = Done r0 -> res_actions r0 = []).
          { intros r0 ->. destruct (bad r0) eqn:Eb; [|rewrite (G r0 eq_refl Eb); exact D2]. eapply do_bad_actions; eauto. }
          remember (Done r) as o eqn:Eo.
          destruct Hend as [|rr|res rr more o1 Hb Ho' Hm Hc|res rr more o1 Hb Hr Ho' Hm|res rr more o1 Hb Hr Ho' Hm Hc]; subst; try discriminate.
          -- destruct Ho' as [[= <-]|Ho']; [auto|discriminate].
          -- destruct Ho' as [Ho'|(e & [= ->])]; [discriminate|]. cbn. auto.
          -- destruct Ho' as [Ho'|[= <-]]; [discriminate|]. auto.
    - apply run_parts in H. destruct H as [(fr & -> & Hf & Ho)|(pre & s1 & of & mid & post & Hg & Hm & -> & Hpre & Hpost & Ho)].
      + cbn. split; [now apply quiet_frame|]. intros r ->. destruct Ho as [|(e & [= ->])]; [discriminate|reflexivity].
      + unfold guarded in Hg. rewrite Et in Hg. destruct (inner_do cfg main _ _ _ Hg) as (d & I & G).
        pose proof (i_trace _ _ _ _ I) as Hdd. cbn in Hdd, Hm. rewrite Hdd in Hm. apply app_inv_head in Hm. subst mid.
        destruct (i_dry _ _ _ _ I Hd) as [D1 D2]. split.
        * cbn. apply Forall_app. split; [now apply quiet_frame|]. apply Forall_app. split; [auto|now apply quiet_frame].
        * intros r ->. destruct Ho as [<-|[_ Ho]]; [|discriminate].
          destruct (bad r) eqn:Eb; [|rewrite (G r eq_refl Eb); exact D2]. eapply do_bad_actions; eauto.
  Qed.
End Props.

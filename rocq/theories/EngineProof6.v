(** Locks, post-save hooks, break, event bus ordering. *)
From Verif Require Export EngineProof5.

Definition str_lt (a b : string) : Prop := str_ltb a b = true.

Lemma adj_repeat_sorted l : StronglySorted (fun a b => str_leb a b = true) l ->
  (adj_repeat l = false -> StronglySorted str_lt l) /\ (adj_repeat l = true -> ~ NoDup l).
Proof.
  induction 1 as [|x t Ht IH Hx]; cbn; [split; [constructor|discriminate]|].
  destruct t as [|y u]; [split; [repeat constructor|discriminate]|].
  destruct IH as [IH1 IH2]. rewrite orb_false_iff, orb_true_iff, String.eqb_eq, String.eqb_neq. split.
  - intros [H1 H2]. constructor; [auto|]. specialize (IH1 H2).
    assert (Hxy : str_lt x y).
    { inversion Hx as [|? ? Hle _]; subst. unfold str_lt. destruct (str_ltb_total x y) as [|[|]]; [auto|congruence|].
      unfold str_leb in Hle. rewrite H in Hle. discriminate. }
    constructor; auto. inversion IH1 as [|? ? _ Hy]; subst. eapply Forall_impl; [|exact Hy].
    intros z Hz. eapply str_ltb_trans; eauto.
  - intros [->|H] Hn; inversion Hn as [|? ? N1 N2]; subst; [apply N1; now left|]. now apply IH2.
Qed.
Lemma sorted_lt_NoDup l : StronglySorted str_lt l -> NoDup l.
Proof.
  induction 1 as [|x t Ht IH Hx]; constructor; auto. intros Hin. rewrite Forall_forall in Hx.
  specialize (Hx _ Hin). unfold str_lt in Hx. rewrite str_ltb_irrefl in Hx. discriminate.
Qed.
Lemma adj_repeat_NoDup keys :
  (NoDup keys -> adj_repeat (isort str_leb keys) = false) /\ (~ NoDup keys -> adj_repeat (isort str_leb keys) = true).
Proof.
  destruct (adj_repeat_sorted (isort str_leb keys)) as [H1 H2].
  { apply isort_sorted; [apply str_leb_total|apply str_leb_trans]. }
  split; intros H; destruct (adj_repeat (isort str_leb keys)) eqn:E; auto.
  - exfalso. apply (H2 eq_refl). now apply isort_NoDup.
  - exfalso. apply H. specialize (H1 eq_refl).
    eapply Permutation_NoDup; [apply (isort_perm str_leb)|]. now apply sorted_lt_NoDup.
Qed.
Lemma lock_name_lt a b : str_ltb (lock_name a) (lock_name b) = str_ltb a b.
Proof. reflexivity. Qed.
Lemma lock_names_sorted l : StronglySorted str_lt l -> StronglySorted str_lt (map lock_name l).
Proof.
  induction 1 as [|x t Ht IH Hx]; cbn; constructor; auto. rewrite Forall_forall in *. intros y Hy.
  apply in_map_iff in Hy. destruct Hy as (z & <- & Hz). unfold str_lt. rewrite lock_name_lt. now apply Hx.
Qed.

Section Locks.
  Variable cfg : config.

  Lemma guarded_mid main s of s1 mid : guarded cfg main s = (of, s1) -> s_trace s1 = s_trace s ++ mid ->
    Forall (fun c => frame_call (fst c) = false) mid /\
    (of <> Crash -> forall rb, In (KBegin, rb) mid -> r_ans rb = AOk -> exists r', In (KCommit, r') mid \/ In (KRollback, r') mid).
  Proof.
    intros Hg Hm. destruct (c_tx cfg) eqn:Et.
    - destruct (guarded_tx_trace cfg _ _ _ _ Et Hg) as (rb & [(Hr & -> & Hof)|(Hr & d & tl & of' & s2 & I & Hdo & -> & He & G)]).
      + cbn in Hm. apply app_inv_head in Hm. subst mid. split; [repeat constructor|].
        intros _ rb' [[= <-]|[]] Hok. congruence.
      + cbn in Hm. apply app_inv_head in Hm. subst mid.
        pose proof (tx_end_nowrite cfg _ _ _ _ He) as Hw. split.
        * constructor; [reflexivity|]. apply Forall_app. split; [eapply inner_noframe; exact I|].
          eapply Forall_impl; [|exact Hw]. cbn. tauto.
        * intros Hc rb' _ _.
          destruct He as [|r|res r more o1 Hb Ho' Hm' Hcc|res r more o1 Hb Hr' Ho' Hm'|res r more o1 Hb Hr' Ho' Hm' Hcc]; [congruence|..];
          exists r; cbn [In]; rewrite ?in_app_iff; cbn [In]; auto 12.
    - unfold guarded in Hg. rewrite Et in Hg. destruct (inner_do cfg main _ _ _ Hg) as (d & I & G).
      rewrite (i_trace _ _ _ _ I) in Hm. apply app_inv_head in Hm. subst mid. split; [eapply inner_noframe; exact I|].
      intros _ rb Hin. pose proof (inner_notx cfg _ _ _ I) as Hn. rewrite Forall_forall in Hn. specialize (Hn _ Hin). discriminate.
  Qed.

  Lemma locks_bracket h keys main o s' : save cfg keys main (new_stage h) = (o, s') -> o <> Crash -> no_lock_panic (s_trace s') ->
    (~ NoDup keys -> s_trace s' = [] /\ exists r e, o = Done r /\ res_err r = Some e) /\
    (NoDup keys -> exists sorted n ls mid us post,
       Permutation sorted (map lock_name keys) /\ StronglySorted str_lt sorted /\
       s_trace s' = ls ++ mid ++ us ++ post /\
       map fst ls = map KLock (firstn n sorted) /\
       Forall (fun c => is_lock_call (fst c) = false /\ is_post (fst c) = false) mid /\
       map fst us = map KUnLock (locks_taken ls) /\
       Forall (fun c => is_post (fst c) = true) post /\
       (locks_taken ls = sorted \/ (mid = [] /\ post = [] /\ exists r e, o = Done r /\ res_err r = Some e)) /\
       (forall rb, In (KBegin, rb) mid -> r_ans rb = AOk -> exists r', In (KCommit, r') mid \/ In (KRollback, r') mid)).
  Proof.
    intros H Hnc Hnp. apply save_shape in H. destruct (adj_repeat_NoDup keys) as [Hnd1 Hnd2].
    assert (Hsort : adj_repeat (isort str_leb keys) = false ->
              Permutation (map lock_name (isort str_leb keys)) (map lock_name keys) /\ StronglySorted str_lt (map lock_name (isort str_leb keys))).
    { intros Hx. split; [apply Permutation_map, (isort_perm str_leb)|]. apply lock_names_sorted, adj_repeat_sorted; auto.
      apply isort_sorted; [apply str_leb_total|apply str_leb_trans]. }
    assert (Hframe : forall mid : list (call * resp), Forall (fun c => frame_call (fst c) = false) mid -> Forall (fun c => is_lock_call (fst c) = false /\ is_post (fst c) = false) mid).
    { intros mid Hx. eapply Forall_impl; [|exact Hx]. intros c Hc. unfold frame_call in Hc. now apply orb_false_iff in Hc. }
    destruct H as [Ha -> ->|n ls Ha -> Hm (k & r & Hi & Hp) ->|n ls us e Ha -> Hm Hn Hl Hu|ls s0 of s1 us post Ha Hm Ht -> Hg -> Hc].
    - split; [|intros Hnd; rewrite Hnd1 in Ha by auto; discriminate]. intros _. split; [reflexivity|]. eexists _, _. split; reflexivity.
    - exfalso. apply (Hnp (KLock k) r); auto.
    - split; [intros Hnd; rewrite Hnd2 in Ha by auto; discriminate|]. intros _.
      destruct Hu as [[-> Hu]|(_ & _ & k & r & Hi & Hp)].
      2:{ exfalso. apply (Hnp (KUnLock k) r); auto. cbn. apply in_app_iff. auto. }
      destruct (Hsort Ha) as [S1 S2].
      exists (map lock_name (isort str_leb keys)), n, ls, [], us, []. split; [auto|]. split; [auto|].
      split; [cbn; now rewrite app_nil_r|]. split; [rewrite Hm, firstn_map; reflexivity|]. split; [constructor|]. split; [auto|].
      split; [constructor|]. split; [|intros rb []]. right. split; auto. split; auto. eexists _, _. split; reflexivity.
    - split; [intros Hnd; rewrite Hnd2 in Ha by auto; discriminate|]. intros _. destruct (Hsort Ha) as [S1 S2].
      assert (Hmid : exists mid, s_trace s1 = ls ++ mid).
      { destruct (c_tx cfg) eqn:Et.
        - destruct (guarded_tx_trace cfg _ _ _ _ Et Hg) as (rb & [(_ & -> & _)|(_ & d & tl & of' & s2 & _ & _ & -> & _)]).
          + eexists. reflexivity.
          + exists ([(KBegin, rb)] ++ d ++ tl). reflexivity.
        - unfold guarded in Hg. rewrite Et in Hg. destruct (inner_do cfg main _ _ _ Hg) as (d & I & _).
          exists d. apply (i_trace _ _ _ _ I). }
      destruct Hmid as [mid Hmid]. destruct (guarded_mid _ _ _ _ mid Hg) as [M1 M2]; [exact Hmid|].
      assert (Huu : of <> Crash /\ map fst us = map KUnLock (locks_taken ls) /\ Forall (fun c => is_post (fst c) = true) post).
      { destruct Hc as [(-> & -> & _)|[(Hn & -> & -> & _ & k & r & Hi & Hp)|(Hn & Hu & Hc)]]; [congruence| |].
        - exfalso. apply (Hnp (KUnLock k) r); auto. cbn. rewrite !in_app_iff. auto.
        - split; auto. split; auto. destruct Hc as [(_ & _ & ->)|[(r & e & _ & _ & _ & ->)|(r & m & _ & _ & Hp & _)]]; [constructor..|].
          apply (map_fst_Forall (fun c => is_post c = true)). rewrite Hp. now apply Forall_map_all. }
      destruct Huu as (U1 & U2 & U3).
      exists (map lock_name (isort str_leb keys)), (length keys), ls, mid, us, post. split; [auto|]. split; [auto|].
      split; [cbn; rewrite Hmid, <- !app_assoc; reflexivity|].
      split. { rewrite Hm, firstn_all2; [reflexivity|]. rewrite map_length, (isort_length str_leb). lia. }
      split; [auto|]. split; [auto|]. split; [auto|]. split; [auto|]. exact (M2 U1).
  Qed.

  Lemma post_save h keys main r s' : save cfg keys main (new_stage h) = (Done r, s') ->
    exists pre post, s_trace s' = pre ++ post /\ Forall (fun c => is_post (fst c) = false) pre /\
      map fst post = match res_err r with None => map KPostSave (seq 0 (c_posts cfg)) | Some _ => [] end.
  Proof.
    intros H. apply save_shape in H.
    assert (HL : forall {A} (f : A -> call) l (ls : list (call * resp)), (forall k, is_post (f k) = false) -> map fst ls = map f l -> Forall (fun c => is_post (fst c) = false) ls).
    { intros A f l ls Hf Hm. apply (map_fst_Forall (fun c => is_post c = false)). rewrite Hm. now apply Forall_map_all. }
    remember (Done r) as o eqn:Eo.
    destruct H as [Ha -> ->|n ls Ha -> Hm _ ->|n ls us e Ha -> Hm Hn Hl Hu|ls s0 of s1 us post Ha Hm Ht -> Hg -> Hc].
    - injection Eo as <-. exists [], []. auto.
    - discriminate.
    - destruct Hu as [[-> Hu]|[-> _]]; [|discriminate]. injection Eo as <-. exists (ls ++ us), []. split; [cbn; now rewrite app_nil_r|].
      split; [|reflexivity]. apply Forall_app. split; [eapply HL; [|exact Hm]; reflexivity|eapply HL; [|exact Hu]; reflexivity].
    - assert (Hmid : exists mid, s_trace s1 = ls ++ mid).
      { destruct (c_tx cfg) eqn:Et.
        - destruct (guarded_tx_trace cfg _ _ _ _ Et Hg) as (rb & [(_ & -> & _)|(_ & d & tl & of' & s2 & _ & _ & -> & _)]).
          + eexists. reflexivity.
          + exists ([(KBegin, rb)] ++ d ++ tl). reflexivity.
        - unfold guarded in Hg. rewrite Et in Hg. destruct (inner_do cfg main _ _ _ Hg) as (d & I & _).
          exists d. apply (i_trace _ _ _ _ I). }
      destruct Hmid as [mid Hmid]. destruct (guarded_mid _ _ _ _ mid Hg) as [M1 M2]; [exact Hmid|].
      subst o. exists (ls ++ mid ++ us), post. split; [cbn; now rewrite Hmid, <- !app_assoc|].
      destruct Hc as [(_ & E & _)|[(_ & E & _)|(Hn & Hu & [(_ & E & _)|[(r0 & e & _ & He & [= <-] & ->)|(r0 & m & _ & He & Hp & [([= <-] & ->)|[E _]])]])]]; try discriminate.
      + rewrite He. split; [|reflexivity]. apply Forall_app. split; [eapply HL; [|exact Hm]; reflexivity|].
        apply Forall_app. split; [|eapply HL; [|exact Hu]; reflexivity].
        eapply Forall_impl; [|exact M1]. intros c Hc. unfold frame_call in Hc. now apply orb_false_iff in Hc.
      + rewrite He. split; [|exact Hp]. apply Forall_app. split; [eapply HL; [|exact Hm]; reflexivity|].
        apply Forall_app. split; [|eapply HL; [|exact Hu]; reflexivity].
        eapply Forall_impl; [|exact M1]. intros c Hc. unfold frame_call in Hc. now apply orb_false_iff in Hc.
  Qed.

  (** What the caller is told, depending on what the body returned. *)
  Lemma do_result main s r s' : do_ cfg main s = (Done r, s') ->
    exists res s1, run_body cfg main s = (Done res, s1) /\
      match res with
      | Some e => r = fail_or_break e /\ s' = s1
      | None => res_break r = false
      end.
  Proof.
    unfold do_. intros H. apply bind_done in H. destruct H as (e & s1 & H1 & H). exists e, s1. split; auto.
    destruct e as [x|]; [injection H as <- <-; auto|].
    unfold bind at 1, get at 1 in H. destruct (repo_error s1); [injection H as <- <-; reflexivity|].
    apply bind_done in H. destruct H as (e & s2 & _ & H). destruct e as [x|]; [injection H as <- <-; reflexivity|].
    apply bind_done in H. destruct H as (evs & s3 & _ & H). unfold publish in H.
    destruct evs as [|e0 es]; [unfold bind, get, ret in H; injection H as <- <-; reflexivity|].
    apply bind_done in H. destruct H as (p & s4 & H2 & H). destruct p as [r0|].
    - injection H as <- <-. destruct (c_persist cfg) as [f|]; [|discriminate].
      destruct (persist_models f (e0 :: es)) as [x|ms]; [injection H2 as <- <-; reflexivity|].
      apply bind_done in H2. destruct H2 as (e & s5 & _ & H3). destruct e; [|discriminate]. injection H3 as <- <-. reflexivity.
    - assert (Hd : forall r0 s2, (e <- dispatchEvents cfg (e0 :: es) ;; match e with Some x => ret (fails x) | None => s <- get ;; ret (cur_result s) end) s4 = (Done r0, s2) -> res_break r0 = false).
      { intros r0 sx Hx. apply bind_done in Hx. destruct Hx as (e & s5 & _ & H3). destruct e; [injection H3 as <- <-; reflexivity|].
        unfold bind, get, ret in H3. injection H3 as <- <-. reflexivity. }
      destruct (c_bus cfg); [injection H as <- <-; reflexivity|eauto..].
  Qed.

  (** Why a run did not get to its body. *)
  Definition not_started (keys : list string) (tr : list (call * resp)) : Prop :=
    ~ NoDup keys \/ (exists k x e, In (KLock k, x) tr /\ r_ans x = AErr e) \/ (exists x, In (KBegin, x) tr /\ r_ans x <> AOk).
  Lemma run_started h keys main r s' : save cfg keys main (new_stage h) = (Done r, s') ->
    (not_started keys (s_trace s') /\ exists e, r = fails e) \/
    exists pre s1 post, guarded cfg main (with_trace (new_stage h) pre) = (Done r, s1) /\ s_trace s' = s_trace s1 ++ post.
  Proof.
    intros H. apply save_shape in H. remember (Done r) as o eqn:Eo. destruct (adj_repeat_NoDup keys) as [Hnd1 Hnd2].
    destruct H as [Ha -> ->|n ls Ha -> Hm _ ->|n ls us e Ha -> Hm Hn Hl Hu|ls s0 of s1 us post Ha Hm Ht -> Hg -> Hc].
    - left. split; [left; intros Hd; rewrite Hnd1 in Ha by auto; discriminate|]. injection Eo as <-. eauto.
    - discriminate.
    - left. destruct Hu as [[-> Hu]|[-> _]]; [|discriminate]. injection Eo as <-. split; [|eauto]. right. left.
      destruct Hl as (k & x & Hi & Hx). exists k, x, e. split; auto. cbn. apply in_app_iff. auto.
    - right. subst o. exists ls, s1, (us ++ post). split; [|reflexivity].
      destruct Hc as [(_ & E & _)|[(_ & E & _)|(Hn & Hu & [(_ & E & _)|[(r0 & e & -> & He & [= <-] & ->)|(r0 & m & -> & He & Hp & [([= <-] & ->)|[E _]])]])]]; try discriminate; exact Hg.
  Qed.
  Lemma break_or_error h keys main r s' : save cfg keys main (new_stage h) = (Done r, s') ->
    (not_started keys (s_trace s') /\ res_err r <> None /\ res_break r = false) \/
    exists s0 s1 res, run_body cfg main s0 = (Done res, s1) /\
      (exists tr, s0 = with_trace (new_stage h) tr) /\
      match res with
      | Some e => if is_break e then res_break r = true /\ res_err r = None
                  else res_break r = false /\ res_err r = Some e
      | None => res_break r = false
      end.
  Proof.
    intros H. apply run_started in H. destruct H as [[H1 (e & ->)]|(pre & s1 & post & Hg & Ht)]; [left; split; auto; split; [discriminate|reflexivity]|].
    assert (Hcore : forall tr r0 s2, do_ cfg main (with_trace (new_stage h) tr) = (Done r0, s2) ->
      exists s0 s1 res, run_body cfg main s0 = (Done res, s1) /\ (exists tr, s0 = with_trace (new_stage h) tr) /\
      match res with
      | Some e => if is_break e then res_break r0 = true /\ res_err r0 = None else res_break r0 = false /\ res_err r0 = Some e
      | None => res_break r0 = false
      end).
    { intros tr r0 s2 Hd. destruct (do_result _ _ _ _ Hd) as (res & s3 & Hb & Hx). exists (with_trace (new_stage h) tr), s3, res.
      split; auto. split; [eauto|]. destruct res as [e|]; auto. destruct Hx as [-> _]. unfold fail_or_break. destruct (is_break e); auto. }
    destruct (c_tx cfg) eqn:Et.
    - destruct (guarded_tx_trace cfg _ _ _ _ Et Hg) as (rb & [(Hr & -> & Hof)|(Hr & d & tl & of' & s2 & I & Hdo & -> & He & G)]).
      + destruct Hof as [|(e & [= ->])]; [discriminate|]. left. split; [|split; [discriminate|reflexivity]].
        right. right. exists rb. split; auto. rewrite Ht. cbn. rewrite !in_app_iff. left. right. now left.
      + right. remember (Done r) as o eqn:Eo.
        destruct He as [|rr|res rr more o1 Hb Ho' Hm' Hc|res rr more o1 Hb Hr' Ho' Hm'|res rr more o1 Hb Hr' Ho' Hm' Hc]; subst; try discriminate.
        * destruct Ho' as [[= <-]|Ho']; [eauto|discriminate].
        * destruct Ho' as [Ho'|(e & [= ->])]; [discriminate|].
          destruct (Hcore _ _ _ Hdo) as (s0 & s3 & x & H1 & H2 & H3). exists s0, s3, x. split; auto. split; auto.
          unfold bad in Hb. destruct x as [e'|]; [|exact H3]. destruct (res_err res); [discriminate|].
          destruct (is_break e'); destruct H3; congruence.
        * destruct Ho' as [Ho'|[= <-]]; [discriminate|]. eauto.
    - right. unfold guarded in Hg. rewrite Et in Hg. cbn in Hg. eauto.
  Qed.
End Locks.

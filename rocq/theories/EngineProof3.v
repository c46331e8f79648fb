(** Trace structure of a whole run: locks, the guarded part, post-save hooks. *)
From Verif Require Export EngineProof2.

(** Specification vocabulary: locks taken and released in a trace. *)
Definition locks_taken (tr : list (call * resp)) : list string :=
  flat_map (fun c => match fst c with KLock k => if answered_ok (snd c) then [k] else [] | _ => [] end) tr.
Definition no_lock_panic (tr : list (call * resp)) : Prop :=
  forall c r, In (c, r) tr -> is_lock_call c = true -> r_ans r <> APanic.

Arguments lock_name : simpl never.
Section Run.
  Variable cfg : config.

  Lemma acquire_shape ks : forall got s o s', acquire cfg ks got s = (o, s') ->
    exists n ls, s' = with_trace s (s_trace s ++ ls) /\ n <= length ks /\
      map fst ls = map KLock (map lock_name (firstn n ks)) /\
      ((o = Panic /\ exists k r, In (KLock k, r) ls /\ r_ans r = APanic) \/
       (o = Done (got ++ locks_taken ls, None) /\ locks_taken ls = map lock_name ks) \/
       (exists e, o = Done (got ++ locks_taken ls, Some (EWrap e)) /\ exists k r, In (KLock k, r) ls /\ r_ans r = AErr e)).
  Proof.
    induction ks as [|k t IH]; intros got s o s' H; cbn in H.
    - injection H as <- <-. exists 0, []. cbn. rewrite !app_nil_r. split; [now destruct s|]. repeat (split; auto).
    - unfold bind in H. destruct (ecall_err cfg (KLock (lock_name k)) s) as [o1 s1] eqn:E1.
      apply ecall_err_shape in E1; [|reflexivity]. cbv zeta in E1. destruct E1 as [-> ->].
      set (r := c_oracle cfg (length (s_trace s))) in *. destruct (r_ans r) as [|e|] eqn:Er.
      + destruct (IH _ _ _ _ H) as (n & ls & -> & Hn & Hm & Hc). exists (S n), ((KLock (lock_name k), r) :: ls).
        cbn [s_trace with_trace]. rewrite <- app_assoc. split; [reflexivity|]. split; [cbn; lia|]. split; [cbn; now rewrite Hm|].
        assert (Et : locks_taken ((KLock (lock_name k), r) :: ls) = lock_name k :: locks_taken ls).
        { cbn. unfold answered_ok. now rewrite Er. }
        destruct Hc as [(-> & k' & r' & Hi & Hp)|[(-> & He)|(e & -> & Hl)]].
        * left. split; auto. exists k', r'. split; auto. now right.
        * right. left. rewrite Et, <- app_assoc. split; [reflexivity|]. cbn. now rewrite He.
        * right. right. exists e. rewrite Et, <- app_assoc. split; [reflexivity|]. destruct Hl as (k' & r' & Hi & Hp). exists k', r'. split; auto. now right.
      + injection H as <- <-. exists 1, [(KLock (lock_name k), r)]. split; [reflexivity|]. split; [cbn; lia|]. split; [reflexivity|].
        assert (Et : locks_taken [(KLock (lock_name k), r)] = []) by (cbn; unfold answered_ok; now rewrite Er).
        right. right. exists e. rewrite Et, app_nil_r. split; [reflexivity|]. exists (lock_name k), r. split; [now left|auto].
      + injection H as <- <-. exists 1, [(KLock (lock_name k), r)]. split; [reflexivity|]. split; [cbn; lia|]. split; [reflexivity|].
        left. split; auto. exists (lock_name k), r. split; [now left|auto].
  Qed.
  Lemma release_shape l : forall s o s', release cfg l s = (o, s') ->
    exists us n, s' = with_trace s (s_trace s ++ us) /\ map fst us = map KUnLock (firstn n l) /\
      ((o = Done tt /\ firstn n l = l) \/ (o = Panic /\ exists k r, In (KUnLock k, r) us /\ r_ans r = APanic)).
  Proof.
    induction l as [|k t IH]; intros s o s' H; cbn in H.
    - injection H as <- <-. exists [], 0. rewrite app_nil_r. split; [now destruct s|]. auto.
    - unfold bind in H. destruct (ignore_err cfg (KUnLock k) s) as [o1 s1] eqn:E1.
      apply ignore_shape in E1; [|reflexivity]. cbv zeta in E1. destruct E1 as [-> ->].
      set (r := c_oracle cfg (length (s_trace s))) in *.
      assert (Hok : r_ans r <> APanic -> release cfg t (with_trace s (s_trace s ++ [(KUnLock k, r)])) = (o, s') ->
        exists us n, s' = with_trace s (s_trace s ++ us) /\ map fst us = map KUnLock (firstn n (k :: t)) /\
          ((o = Done tt /\ firstn n (k :: t) = k :: t) \/ (o = Panic /\ exists k r, In (KUnLock k, r) us /\ r_ans r = APanic))).
      { intros Hr H'. destruct (IH _ _ _ H') as (us & n & -> & Hm & Hc). exists ((KUnLock k, r) :: us), (S n).
        cbn [s_trace with_trace]. rewrite <- app_assoc. split; [reflexivity|]. split; [cbn; now rewrite Hm|].
        destruct Hc as [[-> Hc]|(-> & k' & r' & Hi & Hp)].
        - left. split; auto. cbn. now rewrite Hc.
        - right. split; auto. exists k', r'. split; auto. now right. }
      destruct (r_ans r) eqn:Er; [apply Hok; [discriminate|exact H]..|].
      injection H as <- <-. exists [(KUnLock k, r)], 1. split; [reflexivity|]. split; [reflexivity|].
      right. split; auto. exists k, r. split; [now left|auto].
  Qed.
  Lemma post_shape n : forall i s o s', post_hooks cfg n i s = (o, s') ->
    exists m ps, s' = with_trace s (s_trace s ++ ps) /\ map fst ps = map KPostSave (seq i m) /\
      ((o = Done tt /\ m = n) \/ (o = Panic /\ m <= n /\ exists j r, In (KPostSave j, r) ps /\ r_ans r = APanic)).
  Proof.
    induction n as [|n IH]; intros i s o s' H; cbn in H.
    - injection H as <- <-. exists 0, []. rewrite app_nil_r. split; [now destruct s|]. auto.
    - unfold bind in H. destruct (ignore_err cfg (KPostSave i) s) as [o1 s1] eqn:E1.
      apply ignore_shape in E1; [|reflexivity]. cbv zeta in E1. destruct E1 as [-> ->].
      set (r := c_oracle cfg (length (s_trace s))) in *.
      assert (Hok : r_ans r <> APanic -> post_hooks cfg n (S i) (with_trace s (s_trace s ++ [(KPostSave i, r)])) = (o, s') ->
        exists m ps, s' = with_trace s (s_trace s ++ ps) /\ map fst ps = map KPostSave (seq i m) /\
          ((o = Done tt /\ m = S n) \/ (o = Panic /\ m <= S n /\ exists j r, In (KPostSave j, r) ps /\ r_ans r = APanic))).
      { intros Hr H'. destruct (IH _ _ _ _ H') as (m & ps & -> & Hm & Hc). exists (S m), ((KPostSave i, r) :: ps).
        cbn [s_trace with_trace]. rewrite <- app_assoc. split; [reflexivity|]. split; [cbn; now rewrite Hm|].
        destruct Hc as [[-> ->]|(-> & Hle & j & r' & Hi & Hp)]; [auto|].
        right. split; auto. split; [lia|]. exists j, r'. split; auto. now right. }
      destruct (r_ans r) eqn:Er; [apply Hok; [discriminate|exact H]..|].
      injection H as <- <-. exists 1, [(KPostSave i, r)]. split; [reflexivity|]. split; [reflexivity|].
      right. split; auto. split; [lia|]. exists i, r. split; [now left|auto].
  Qed.

  (** The guarded part of a run. *)
  Definition guarded (main : body (option err)) : M result := if c_tx cfg then in_tx cfg (do_ cfg main) else do_ cfg main.

  (** Everything a run does, in order. *)
  Inductive run_shape (keys : list string) (main : body (option err)) (s : st) (o : out result) (s' : st) : Prop :=
  | rs_repeated : adj_repeat (isort str_leb keys) = true -> s' = s -> o = Done (fails EKeyRepeated) -> run_shape keys main s o s'
  | rs_lock_panic n ls : adj_repeat (isort str_leb keys) = false ->
      s' = with_trace s (s_trace s ++ ls) -> map fst ls = map KLock (map lock_name (firstn n (isort str_leb keys))) ->
      (exists k r, In (KLock k, r) ls /\ r_ans r = APanic) -> o = Panic -> run_shape keys main s o s'
  | rs_refused n ls us e : adj_repeat (isort str_leb keys) = false ->
      s' = with_trace s (s_trace s ++ ls ++ us) -> map fst ls = map KLock (map lock_name (firstn n (isort str_leb keys))) ->
      n <= length keys ->
      (exists k r, In (KLock k, r) ls /\ r_ans r = AErr e) ->
      ((o = Done (fails (EWrap e)) /\ map fst us = map KUnLock (locks_taken ls)) \/
       (o = Panic /\ (exists m, map fst us = map KUnLock (firstn m (locks_taken ls))) /\ exists k r, In (KUnLock k, r) us /\ r_ans r = APanic)) ->
      run_shape keys main s o s'
  | rs_run ls s0 of s1 us post : adj_repeat (isort str_leb keys) = false ->
      map fst ls = map KLock (map lock_name (isort str_leb keys)) ->
      locks_taken ls = map lock_name (isort str_leb keys) ->
      s0 = with_trace s (s_trace s ++ ls) ->
      guarded main s0 = (of, s1) ->
      s' = with_trace s1 (s_trace s1 ++ us ++ post) ->
      ((of = Crash /\ o = Crash /\ us = [] /\ post = []) \/
       (of <> Crash /\ o = Panic /\ post = [] /\ (exists m, map fst us = map KUnLock (firstn m (locks_taken ls))) /\
          exists k r, In (KUnLock k, r) us /\ r_ans r = APanic) \/
       (of <> Crash /\ map fst us = map KUnLock (locks_taken ls) /\
          ((of = Panic /\ o = Panic /\ post = []) \/
           (exists r e, of = Done r /\ res_err r = Some e /\ o = Done r /\ post = []) \/
           (exists r m, of = Done r /\ res_err r = None /\ map fst post = map KPostSave (seq 0 m) /\
              ((o = Done r /\ m = c_posts cfg) \/
               (o = Panic /\ m <= c_posts cfg /\ exists j r', In (KPostSave j, r') post /\ r_ans r' = APanic)))))) ->
      run_shape keys main s o s'.

  Lemma with_trace_twice s a b : with_trace (with_trace s a) b = with_trace s b.
  Proof. reflexivity. Qed.
  Lemma with_trace_id s : with_trace s (s_trace s) = s.
  Proof. now destruct s. Qed.

  Lemma finish_shape r s o s' :
    (match res_err r with None => post_hooks cfg (c_posts cfg) 0 ;;; ret r | Some _ => ret r end) s = (o, s') ->
    exists post, s' = with_trace s (s_trace s ++ post) /\
     ((exists e, res_err r = Some e /\ o = Done r /\ post = []) \/
      (exists m, res_err r = None /\ map fst post = map KPostSave (seq 0 m) /\
              ((o = Done r /\ m = c_posts cfg) \/
               (o = Panic /\ m <= c_posts cfg /\ exists j r', In (KPostSave j, r') post /\ r_ans r' = APanic)))).
  Proof.
    intros H. destruct (res_err r) as [e|] eqn:Er.
    - injection H as <- <-. exists []. rewrite app_nil_r, with_trace_id. split; auto. left. eauto.
    - unfold bind in H. destruct (post_hooks cfg (c_posts cfg) 0 s) as [o1 s1] eqn:E1.
      apply post_shape in E1. destruct E1 as (m & ps & -> & Hm & [[-> ->]|(-> & Hle & Hp)]).
      + injection H as <- <-. exists ps. split; auto. right. exists (c_posts cfg). auto.
      + injection H as <- <-. exists ps. split; auto. right. exists m. auto 8.
  Qed.

  Lemma save_shape keys main s o s' : save cfg keys main s = (o, s') -> run_shape keys main s o s'.
  Proof.
    unfold save. fold (guarded main). intros H. destruct keys as [|k0 ks].
    - cbv zeta in H. destruct (bind_inv _ _ _ _ _ H) as [(r & s1 & H1 & H2)|[[H1 ->]|[H1 ->]]]; clear H.
      + apply finish_shape in H2. destruct H2 as (post & -> & Hp).
        apply (rs_run [] main s _ _ [] s (Done r) s1 [] post); try reflexivity; auto.
        * cbn. now rewrite app_nil_r, with_trace_id.
        * right. right. split; [discriminate|]. split; [reflexivity|]. right.
          destruct Hp as [(e & ? & ? & ?)|(m & ? & ? & ?)]; [left; exists r, e; auto|right; exists r, m; auto].
      + apply (rs_run [] main s _ _ [] s Panic s' [] []); try reflexivity; auto.
        * cbn. now rewrite app_nil_r, with_trace_id.
        * cbn. now rewrite app_nil_r, with_trace_id.
        * right. right. split; [discriminate|]. auto.
      + apply (rs_run [] main s _ _ [] s Crash s' [] []); try reflexivity; auto.
        * cbn. now rewrite app_nil_r, with_trace_id.
        * cbn. now rewrite app_nil_r, with_trace_id.
    - set (keys := k0 :: ks) in *. cbv zeta in H. unfold on_lock in H.
      destruct (adj_repeat (isort str_leb keys)) eqn:Ea.
      { unfold bind at 1, ret at 1 in H. cbn in H. injection H as <- <-. now apply rs_repeated. }
      unfold bind at 1 2 in H.
      destruct (acquire cfg (isort str_leb keys) [] s) as [oa sa] eqn:Eq. apply acquire_shape in Eq.
      destruct Eq as (n & ls & -> & Hn & Hm & Hc). rewrite isort_length in Hn.
      destruct Hc as [(-> & Hp)|[(-> & Ht)|(e & -> & Hl)]].
      + injection H as <- <-. eapply rs_lock_panic; eauto.
      + cbn [fst snd app] in H. unfold finally in H.
        set (s0 := with_trace s (s_trace s ++ ls)) in *.
        destruct (guarded main s0) as [of s1] eqn:Eg.
        assert (Hm2 : map fst ls = map KLock (map lock_name (isort str_leb keys))).
        { assert (Hall : firstn n (isort str_leb keys) = isort str_leb keys).
          { apply firstn_all2. rewrite isort_length. enough (length (locks_taken ls) <= n).
            { rewrite Ht, map_length, isort_length in H0. exact H0. }
            clear - Hm. assert (Hlen : length ls <= n) by (rewrite <- (map_length fst), Hm, !map_length; rewrite firstn_length; lia).
            enough (length (locks_taken ls) <= length ls) by lia. clear.
            unfold locks_taken. induction ls as [|[c r] t IH]; cbn; [lia|]. destruct c; cbn; try lia. destruct (answered_ok r); cbn; lia. }
          rewrite Hall in Hm. exact Hm. }
        destruct of as [r| |].
        * destruct (release cfg (locks_taken ls) s1) as [orr sr] eqn:Er. apply release_shape in Er.
          destruct Er as (us & m & -> & Hu & [[-> Hall]|(-> & Hp)]).
          -- apply finish_shape in H. destruct H as (post & -> & Hpost).
             eapply (rs_run _ _ _ _ _ ls s0 (Done r) s1 us post); auto.
             ++ cbn. now rewrite <- app_assoc.
             ++ right. right. split; [discriminate|]. split; [rewrite Hu, Hall; reflexivity|]. right.
                destruct Hpost as [(e & ? & ? & ?)|(m' & ? & ? & ?)]; [left; exists r, e; auto|right; exists r, m'; auto].
          -- injection H as <- <-. eapply (rs_run _ _ _ _ _ ls s0 (Done r) s1 us []); auto.
             ++ now rewrite app_nil_r.
             ++ right. left. split; [discriminate|]. repeat split; eauto.
        * destruct (release cfg (locks_taken ls) s1) as [orr sr] eqn:Er. apply release_shape in Er.
          destruct Er as (us & m & -> & Hu & [[-> Hall]|(-> & Hp)]).
          -- injection H as <- <-. eapply (rs_run _ _ _ _ _ ls s0 Panic s1 us []); auto.
             ++ now rewrite app_nil_r.
             ++ right. right. split; [discriminate|]. split; [rewrite Hu, Hall; reflexivity|]. auto.
          -- injection H as <- <-. eapply (rs_run _ _ _ _ _ ls s0 Panic s1 us []); auto.
             ++ now rewrite app_nil_r.
             ++ right. left. split; [discriminate|]. repeat split; eauto.
        * injection H as <- <-. eapply (rs_run _ _ _ _ _ ls s0 Crash s1 [] []); auto.
          cbn [app]. now rewrite app_nil_r, with_trace_id.
      + cbn [fst snd app] in H. unfold finally, ret at 1 in H.
        destruct (release cfg (locks_taken ls) _) as [orr sr] eqn:Er. apply release_shape in Er.
        destruct Er as (us & m & -> & Hu & [[-> Hall]|(-> & Hp)]).
        * cbn in H. injection H as <- <-. eapply (rs_refused _ _ _ _ _ n ls us e); auto.
          -- cbn. now rewrite <- app_assoc.
          -- left. split; auto. rewrite Hu, Hall. reflexivity.
        * injection H as <- <-. eapply (rs_refused _ _ _ _ _ n ls us e); auto.
          -- cbn. now rewrite <- app_assoc.
          -- right. split; auto. split; eauto.
  Qed.
End Run.

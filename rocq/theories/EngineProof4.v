(** Database view of a run. *)
From Verif Require Export EngineProof3.

Section Db.
  Variable junk : db -> db.
  Definition dbrun (d : dbst) (tr : list (call * resp)) : dbst := fold_left (db_step junk) tr d.
  Lemma dbrun_app d a b : dbrun d (a ++ b) = dbrun (dbrun d a) b.
  Proof. apply fold_left_app. Qed.
  Lemma dbrun_cons d c t : dbrun d (c :: t) = dbrun (db_step junk d c) t.
  Proof. reflexivity. Qed.
  Lemma dbrun_nil d : dbrun d [] = d.
  Proof. reflexivity. Qed.
  Definition db_neutral (c : call) : bool := negb (is_tx_call c || is_write c).
  Lemma dbrun_neutral tr : Forall (fun c => db_neutral (fst c) = true) tr -> forall d, dbrun d tr = d.
  Proof.
    induction 1 as [|[c r] t H _ IH]; intros d; rewrite ?dbrun_cons; [reflexivity|]. rewrite IH. destruct c; cbn in *; congruence.
  Qed.
  Lemma dbrun_inner tr : Forall (fun c => is_tx_call (fst c) = false) tr -> ~ exec_failed tr ->
    forall c p, dbrun (mkDb c p) tr =
      match p with
      | Some x => mkDb c (Some (apply_actions x (execs tr)))
      | None => mkDb (apply_actions c (execs tr)) None
      end.
  Proof.
    induction 1 as [|[c r] t H _ IH]; intros Hf c0 p; rewrite ?dbrun_cons.
    - destruct p; reflexivity.
    - assert (Hf' : ~ exec_failed t) by (intros (a & r' & H1 & H2); apply Hf; exists a, r'; split; auto; now right).
      assert (Hskip : db_step junk (mkDb c0 p) (c, r) = mkDb c0 p -> execs ((c, r) :: t) = execs t ->
        dbrun (db_step junk (mkDb c0 p) (c, r)) t = match p with
          | Some x => mkDb c0 (Some (apply_actions x (execs ((c, r) :: t))))
          | None => mkDb (apply_actions c0 (execs ((c, r) :: t))) None end).
      { intros -> ->. apply IH. auto. }
      destruct c; cbn in H; try discriminate; try (apply Hskip; reflexivity).
      assert (Hok : answered_ok r = true).
      { unfold answered_ok. destruct (r_ans r) eqn:E; auto; exfalso; apply Hf; exists a, r; (split; [now left|congruence]). }
      unfold db_step; cbn [fst snd pending committed]. rewrite Hok. destruct p as [x|]; rewrite IH by auto; reflexivity.
  Qed.
  (** Writes only inside an open transaction. *)
  Fixpoint bracketed (b : bool) (tr : list (call * resp)) : Prop :=
    match tr with
    | [] => True
    | (c, r) :: t =>
        (is_write c = true -> b = true) /\
        bracketed (match c with KBegin => if answered_ok r then true else b | KCommit | KRollback => false | _ => b end) t
    end.
  Definition opened (b : bool) (tr : list (call * resp)) : bool :=
    fold_left (fun b c => match fst c with KBegin => if answered_ok (snd c) then true else b | KCommit | KRollback => false | _ => b end) tr b.
  Lemma bracketed_app b t1 : forall t2, bracketed b (t1 ++ t2) <-> bracketed b t1 /\ bracketed (opened b t1) t2.
  Proof.
    revert b. induction t1 as [|[c r] t IH]; intros b t2; cbn; [tauto|]. rewrite IH. unfold opened. tauto.
  Qed.
  Lemma bracketed_mono tr : forall b, bracketed b tr -> bracketed true tr.
  Proof.
    induction tr as [|[c r] t IH]; intros b; cbn; [auto|]. intros [H1 H2]. split; [auto|].
    destruct c; eauto. destruct (answered_ok r); eauto.
  Qed.
  Lemma bracketed_nowrite tr : Forall (fun c => is_write (fst c) = false) tr -> forall b, bracketed b tr.
  Proof.
    induction 1 as [|[c r] t H _ IH]; intros b; cbn in *; [auto|]. split; [congruence|apply IH].
  Qed.
  Lemma bracketed_notx tr : Forall (fun c => is_tx_call (fst c) = false) tr -> bracketed true tr.
  Proof.
    induction 1 as [|[c r] t H _ IH]; cbn in *; [auto|]. split; [auto|]. destruct c; try discriminate; auto.
  Qed.
  Lemma bracketed_committed tr : forall b d, bracketed b tr -> (b = true -> pending d <> None) -> ~ commit_ok tr ->
    committed (dbrun d tr) = committed d.
  Proof.
    induction tr as [|[c r] t IH]; intros b d; rewrite ?dbrun_cons; cbn [bracketed]; [auto|]. intros [H1 H2] Hb Hc.
    assert (Hc' : ~ commit_ok t) by (intros (r' & H3 & H4); apply Hc; exists r'; split; auto; now right).
    destruct c; try (eapply IH; eauto; fail).
    - (* begin *) unfold db_step; cbn [fst snd]. destruct (answered_ok r).
      + erewrite (IH true); eauto. cbn. discriminate.
      + eapply IH; eauto.
    - (* commit *) unfold db_step; cbn [fst snd]. destruct (answered_ok r) eqn:E.
      + exfalso. apply Hc. exists r. split; [now left|]. unfold answered_ok in E. destruct (r_ans r); congruence.
      + erewrite (IH false); eauto. discriminate.
    - unfold db_step; cbn [fst snd]. erewrite (IH false); eauto. discriminate.
    - unfold db_step; cbn [fst snd]. specialize (H1 eq_refl). specialize (Hb H1). destruct (pending d) eqn:E; [|congruence].
      erewrite (IH b); eauto. cbn. discriminate.
  Qed.
End Db.

Lemma commit_ok_app a b : commit_ok (a ++ b) <-> commit_ok a \/ commit_ok b.
Proof.
  split.
  - intros (r & H1 & H2). apply in_app_iff in H1 as [H1|H1]; [left|right]; exists r; auto.
  - intros [(r & H1 & H2)|(r & H1 & H2)]; exists r; rewrite in_app_iff; auto.
Qed.
Lemma commit_ok_calls tr : Forall (fun c => fst c <> KCommit) tr -> ~ commit_ok tr.
Proof. rewrite Forall_forall. intros H (r & H1 & H2). now apply (H _ H1). Qed.

Lemma map_fst_Forall {A B} (P : A -> Prop) (l : list (A * B)) : Forall P (map fst l) -> Forall (fun c => P (fst c)) l.
Proof. induction l; cbn; intros H; constructor; inversion H; auto. Qed.
Lemma Forall_map_all {A B} (P : B -> Prop) (f : A -> B) l : (forall x, P (f x)) -> Forall P (map f l).
Proof. intros H. induction l; cbn; constructor; auto. Qed.

(** Locks, unlocks and post-save hooks. *)
Definition frame_call (c : call) : bool := is_lock_call c || is_post c.

Section Run.
  Variable cfg : config.

  (** The part of the trace made by the guarded function. *)
  Lemma guarded_tx_trace main s of s1 : c_tx cfg = true -> guarded cfg main s = (of, s1) ->
    exists rb, 
      (r_ans rb <> AOk /\ s1 = with_trace s (s_trace s ++ [(KBegin, rb)]) /\ (of = Panic \/ exists e, of = Done (fails e))) \/
      (r_ans rb = AOk /\ exists d tl of' s2,
         inner cfg (with_trace s (s_trace s ++ [(KBegin, rb)])) s2 d /\
         do_ cfg main (with_trace s (s_trace s ++ [(KBegin, rb)])) = (of', s2) /\
         s1 = with_trace s2 (s_trace s ++ [(KBegin, rb)] ++ d ++ tl) /\
         tx_end cfg s2 of' tl of /\
         (forall r, of' = Done r -> bad r = false -> r = cur_result s2)).
  Proof.
    unfold guarded. intros Ht H. rewrite Ht in H. apply in_tx_shape in H. destruct H as (rb & [H|(Hr & of' & s2 & tl & H1 & -> & H2)]).
    - exists rb. left. exact H.
    - exists rb. right. split; auto. destruct (inner_do cfg main _ _ _ H1) as (d & I & G). exists d, tl, of', s2.
      split; auto. split; auto. split; [|split; auto]. rewrite (i_trace _ _ _ _ I). cbn. now rewrite <- !app_assoc.
  Qed.

  Lemma inner_notx s s' d : inner cfg s s' d -> Forall (fun c => is_tx_call (fst c) = false) d.
  Proof. intros [_ C _ _ _]. eapply Forall_impl; [|exact C]. intros [[] ?]; cbn; congruence. Qed.
  Lemma inner_noframe s s' d : inner cfg s s' d -> Forall (fun c => frame_call (fst c) = false) d.
  Proof. intros [_ C _ _ _]. eapply Forall_impl; [|exact C]. intros [[] ?]; cbn; congruence. Qed.

  (** tails of a transaction *)
  Lemma tx_end_nowrite s1 of tl o : tx_end cfg s1 of tl o -> Forall (fun c => is_write (fst c) = false /\ frame_call (fst c) = false) tl.
  Proof.
    assert (X : forall (more : list (call * resp)) (P : call -> Prop), (forall c, P c -> c = KRollback \/ c = KBusRollback \/ c = KBusCommit) ->
      Forall (fun c : call * resp => P (fst c)) more -> Forall (fun c : call * resp => is_write (fst c) = false /\ frame_call (fst c) = false) more).
    { intros more P HP H. eapply Forall_impl; [|exact H]. intros [c r] Hc. cbn in *. destruct (HP _ Hc) as [->|[->| ->]]; auto. }
    intros [|r|res r more o1 Hb Ho Hm Hc|res r more o1 Hb Hr Ho Hm|res r more o1 Hb Hr Ho Hm Hc]; try (constructor; [split; reflexivity|]).
    - constructor.
    - constructor.
    - apply (X _ (fun c => c = KRollback \/ (c = KBusRollback /\ s_evctx s1 = true /\ c_bus cfg = BusTx))); [tauto|exact Hm].
    - apply (X _ (fun c => c = KRollback)); [tauto|exact Hm].
    - apply (X _ (fun c => c = KRollback \/ (c = KBusCommit /\ s_evctx s1 = true /\ c_bus cfg = BusTx))); [tauto|exact Hm].
  Qed.
  Lemma tx_end_commit s1 of tl o : tx_end cfg s1 of tl o ->
    (~ commit_ok tl /\ (forall r, o = Done r -> bad r = true)) \/
    (exists res r more, of = Done res /\ bad res = false /\ tl = (KCommit, r) :: more /\ r_ans r = AOk /\
       Forall (fun c => fst c <> KCommit) more /\ (o = Panic \/ o = Done res)).
  Proof.
    assert (Y : forall (more : list (call * resp)) (P : call -> Prop), (forall c, P c -> c <> KCommit) -> Forall (fun c => P (fst c)) more -> Forall (fun c => fst c <> KCommit) more).
    { intros more P HP H. eapply Forall_impl; [|exact H]. intros [c r] Hc. cbn in *. auto. }
    intros [|r|res r more o1 Hb Ho Hm Hc|res r more o1 Hb Hr Ho Hm|res r more o1 Hb Hr Ho Hm Hc].
    - left. split; [intros (? & [] & _)|discriminate].
    - left. split; [|discriminate]. apply commit_ok_calls. repeat constructor. discriminate.
    - left. split.
      + apply commit_ok_calls. constructor; [discriminate|]. apply (Y _ (fun c => c = KRollback \/ (c = KBusRollback /\ s_evctx s1 = true /\ c_bus cfg = BusTx))); [|exact Hm]. intros c [->|(-> & _)]; discriminate.
      + intros r' ->. destruct Ho as [[= <-]|]; [auto|discriminate].
    - left. split.
      + intros (r' & [[= <-]|H1] & H2); [congruence|]. rewrite Forall_forall in Hm. specialize (Hm _ H1). discriminate.
      + intros r' ->. destruct Ho as [|(e & [= ->])]; [discriminate|reflexivity].
    - right. exists res, r, more. repeat split; auto. apply (Y _ (fun c => c = KRollback \/ (c = KBusCommit /\ s_evctx s1 = true /\ c_bus cfg = BusTx))); [|exact Hm]. intros c [->|(-> & _)]; discriminate.
  Qed.

  Lemma frame_of_locks {A} (f : A -> call) l (tr : list (call * resp)) : (forall k, frame_call (f k) = true) -> map fst tr = map f l -> Forall (fun c => frame_call (fst c) = true) tr.
  Proof. intros Hf H. apply (map_fst_Forall (fun c => frame_call c = true)). rewrite H. now apply Forall_map_all. Qed.

  (** The trace of a run: frame calls, then the guarded part, then frame calls. *)
  Lemma run_parts keys main s o s' : save cfg keys main s = (o, s') ->
    (exists fr, s' = with_trace s (s_trace s ++ fr) /\ Forall (fun c => frame_call (fst c) = true) fr /\
        (o = Panic \/ exists e, o = Done (fails e))) \/
    (exists pre s1 of mid post,
        guarded cfg main (with_trace s (s_trace s ++ pre)) = (of, s1) /\
        s_trace s1 = s_trace s ++ pre ++ mid /\
        s' = with_trace s1 (s_trace s ++ pre ++ mid ++ post) /\
        Forall (fun c => frame_call (fst c) = true) pre /\ Forall (fun c => frame_call (fst c) = true) post /\
        (o = of \/ (of <> Crash /\ o = Panic))).
  Proof.
    intros H. apply save_shape in H.
    destruct H as [_ -> ->|n ls _ -> Hm _ ->|n ls us e _ -> Hm _ _ Hu|ls s0 of s1 us post _ Hm _ -> Hg -> Hc].
    - left. exists []. rewrite app_nil_r, with_trace_id. split; auto. split; [constructor|]. right. eauto.
    - left. exists ls. split; auto. split; auto. eapply frame_of_locks; [|exact Hm]. reflexivity.
    - left. exists (ls ++ us). split; auto. split; [|destruct Hu as [[-> _]|[-> _]]; [right; eauto|auto]].
      apply Forall_app. split; [eapply frame_of_locks; [|exact Hm]; reflexivity|].
      destruct Hu as [[_ Hu]|(_ & (m & Hu) & _)]; (eapply frame_of_locks; [|exact Hu]; reflexivity).
    - right.
      assert (Hmid : exists mid, s_trace s1 = s_trace (with_trace s (s_trace s ++ ls)) ++ mid).
      { destruct (c_tx cfg) eqn:Et.
        - destruct (guarded_tx_trace _ _ _ _ Et Hg) as (rb & [(_ & -> & _)|(_ & d & tl & of' & s2 & _ & _ & -> & _)]).
          + eexists. reflexivity.
          + exists ([(KBegin, rb)] ++ d ++ tl). reflexivity.
        - unfold guarded in Hg. rewrite Et in Hg. destruct (inner_do cfg main _ _ _ Hg) as (d & I & _).
          exists d. apply (i_trace _ _ _ _ I). }
      destruct Hmid as [mid Hmid]. cbn in Hmid. exists ls, s1, of, mid, (us ++ post).
      split; [exact Hg|]. split; [rewrite Hmid; now rewrite <- app_assoc|].
      split; [rewrite Hmid; now rewrite <- !app_assoc|].
      split; [eapply frame_of_locks; [|exact Hm]; reflexivity|].
      assert (HP : forall m, map fst post = map KPostSave (seq 0 m) -> Forall (fun c => frame_call (fst c) = true) post)
        by (intros m Hx; eapply frame_of_locks; [|exact Hx]; reflexivity).
      assert (HU : forall l, map fst us = map KUnLock l -> Forall (fun c => frame_call (fst c) = true) us)
        by (intros m Hx; eapply frame_of_locks; [|exact Hx]; reflexivity).
      destruct Hc as [(-> & -> & -> & ->)|[(Hn & -> & -> & (m & Hu) & _)|(Hn & Hu & [(-> & -> & ->)|[(r & e & -> & _ & -> & ->)|(r & m & -> & _ & Hp & Hx)]])]].
      + split; [constructor|auto].
      + split; [apply Forall_app; split; [eauto|constructor]|auto].
      + split; [apply Forall_app; split; [eauto|constructor]|auto].
      + split; [apply Forall_app; split; [eauto|constructor]|auto].
      + split; [apply Forall_app; split; eauto|]. destruct Hx as [[-> _]|[-> _]]; [auto|right; split; [discriminate|auto]].
  Qed.
End Run.

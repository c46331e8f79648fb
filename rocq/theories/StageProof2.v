(** Histories of Saves of one stage. *)
From Verif Require Export StageProof.

Lemma opened_none junk tr : forall b d, (b = false -> pending d = None) -> opened b tr = false -> pending (dbrun junk d tr) = None.
Proof.
  induction tr as [|[c r] t IH]; intros b d Hb; [exact Hb|]. rewrite dbrun_cons.
  change (opened b ((c, r) :: t)) with (opened (match c with KBegin => if answered_ok r then true else b | KCommit | KRollback => false | _ => b end) t).
  apply IH. unfold db_step; cbn [fst snd]. destruct c; auto.
  - destruct (answered_ok r); [discriminate|exact Hb].
  - intros _. destruct (answered_ok r); [|reflexivity]. destruct (pending d) eqn:E; [reflexivity|exact E].
  - intros H. specialize (Hb H). rewrite Hb. reflexivity.
Qed.
(** Between two runs no transaction is open. *)
Lemma visible_app junk d0 a b : opened false a = false -> visible junk d0 (a ++ b) = visible junk (visible junk d0 a) b.
Proof.
  intros H. unfold visible. rewrite fold_left_app. fold (dbrun junk (mkDb d0 None) a).
  pose proof (opened_none junk a false (mkDb d0 None) (fun _ => eq_refl) H) as Hp. destruct (dbrun junk (mkDb d0 None) a) as [c p]. cbn in *. now subst p.
Qed.

Section Stage.
  Variable cfg : config.
  Hypothesis Ht : c_tx cfg = true.

  Definition no_commit (d : list (call * resp)) : Prop := Forall (fun c => fst c <> KCommit) d.
  Lemma left_same d : no_commit d -> forall l, left_after d l = l.
  Proof.
    induction 1 as [|[c r] t H _ IH]; intros l; [reflexivity|]. cbn in *. destruct c; auto. congruence.
  Qed.
  Lemma left_app a b l : left_after (a ++ b) l = left_after b (left_after a l).
  Proof. revert l. induction a as [|[c r] t IH]; intros l; [reflexivity|]. cbn. destruct c; auto. Qed.

  (** One Save, whatever happened before. *)
  Record one_save (left : option err) (s : st) (o : out result) (s' : st) (d : list (call * resp)) : Prop := mkOneSave {
    os_trace : s_trace s' = s_trace s ++ d;
    os_br : bracketed false d;
    os_closed : o <> Crash -> opened false d = false;
    os_once : forall p q, d = p ++ q -> commit_ok p -> ~ commit_ok q;
    os_bad : forall r, o = Done r -> bad r = true -> ~ commit_ok d;
    os_good : forall r junk d0, o = Done r -> bad r = false -> ~ exec_failed d -> visible junk d0 d = apply_actions d0 (execs d);
    os_left : forall e, left_after d left = Some e -> left = Some e \/ (forall r, o = Done r -> bad r = true);
    os_refused : forall r e, In (KCommit, r) d -> r_ans r = AErr e -> left_after d left = Some e;
    os_stuck : forall e, left = Some e -> no_commit d /\ (forall r, o = Done r -> bad r = true);
    os_acts : left = None -> ~ exec_failed d -> c_dry cfg = false -> s_actions s' = s_actions s ++ execs d;
    os_res : forall r, o = Done r -> bad r = false -> res_actions r = s_actions s' }.

  Lemma execs_inner_tail pre rb d tl post : Forall (fun c : call * resp => frame_call (fst c) = true) pre -> Forall (fun c : call * resp => frame_call (fst c) = true) post ->
    Forall (fun c : call * resp => is_write (fst c) = false) tl -> execs (pre ++ [(KBegin, rb)] ++ d ++ tl ++ post) = execs d.
  Proof.
    intros H1 H2 H3. rewrite !execs_app. rewrite (execs_nowrite pre) by now apply frame_nowrite.
    rewrite (execs_nowrite post) by now apply frame_nowrite. rewrite (execs_nowrite tl) by exact H3. cbn. now rewrite !app_nil_r.
  Qed.
  Lemma nc_notx d : Forall (fun c : call * resp => is_tx_call (fst c) = false) d -> no_commit d.
  Proof. intros H. eapply Forall_impl; [|exact H]. intros [[] ?]; cbn; congruence. Qed.
  Lemma nc_frame d : Forall (fun c : call * resp => frame_call (fst c) = true) d -> no_commit d.
  Proof. intros H. eapply Forall_impl; [|exact H]. intros [[] ?]; cbn; congruence. Qed.
  Lemma nc_in d r : no_commit d -> ~ In (KCommit, r) d.
  Proof. intros H Hi. unfold no_commit in H. rewrite Forall_forall in H. now apply (H _ Hi). Qed.
  Lemma open_frame d b : Forall (fun c : call * resp => frame_call (fst c) = true) d -> opened b d = b.
  Proof. intros H. induction H as [|[c r] t Hc _ IH]; [reflexivity|]. cbn in *. destruct c; cbn in *; try discriminate; exact IH. Qed.
  (** the end of a transaction *)
  Lemma tx_end_calls s1 of tl o : tx_end cfg s1 of tl o ->
    (no_commit tl /\ (o = Crash \/ forall b, opened b tl = false)) \/
    (exists res r more, of = Done res /\ bad res = false /\ tl = (KCommit, r) :: more /\ no_commit more /\ opened false more = false /\
       (r_ans r <> AOk -> forall r', o = Done r' -> bad r' = true)).
  Proof.
    assert (X : forall (more : list (call * resp)) (P : call -> Prop), (forall c, P c -> c = KRollback \/ c = KBusRollback \/ c = KBusCommit) ->
        Forall (fun c => P (fst c)) more -> no_commit more /\ opened false more = false).
    { intros more P HP Hm. induction Hm as [|[c r] t Hc _ [IH1 IH2]]; [split; [constructor|reflexivity]|]. cbn in Hc.
      destruct (HP _ Hc) as [-> |[-> | ->]]; (split; [constructor; auto; cbn; discriminate|exact IH2]). }
    intros [|r|res r more o1 Hb Ho Hm Hc|res r more o1 Hb Hr Ho Hm|res r more o1 Hb Hr Ho Hm Hc].
    - left. split; [constructor|auto].
    - left. split; [repeat constructor; discriminate|]. right. intros []; reflexivity.
    - left. destruct (X more (fun c => c = KRollback \/ (c = KBusRollback /\ s_evctx s1 = true /\ c_bus cfg = BusTx))) as [X1 X2]; [tauto|exact Hm|].
      split; [constructor; auto; cbn; discriminate|]. right. intros b. exact X2.
    - right. destruct (X more (fun c => c = KRollback)) as [X1 X2]; [tauto|exact Hm|]. exists res, r, more. repeat split; auto.
      intros _ r' ->. destruct Ho as [|(e & [= ->])]; [discriminate|reflexivity].
    - right. destruct (X more (fun c => c = KRollback \/ (c = KBusCommit /\ s_evctx s1 = true /\ c_bus cfg = BusTx))) as [X1 X2]; [tauto|exact Hm|].
      exists res, r, more. repeat (split; [auto; fail|]). intros; congruence.
  Qed.

  Lemma save_one keys main s o s' : save cfg keys main s = (o, s') -> exists d, one_save None s o s' d.
  Proof.
    intros H. destruct (save_tx_run cfg _ _ _ _ _ Ht H) as (tr & Hr & Htr). exists tr.
    pose proof (tx_run_bracketed _ _ _ _ _ _ Hr) as Hb. destruct (tx_run_one_commit _ _ _ _ _ _ Hr) as [Hone Hbad]. clear H.
    destruct Hr as [tr0 o0 Hf Ho|pre rb d tl post of s2 o1 o0 Hpre Hpost Hok Hdo I G Hend Ho].
    - assert (Hnc : no_commit tr0) by (eapply Forall_impl; [|exact Hf]; intros [[] ?]; cbn; intuition congruence).
      assert (Hbr : forall r, o0 = Done r -> bad r = true) by (intros r ->; destruct Ho as [|(e & [= ->])]; [discriminate|reflexivity]).
      split; auto.
      + intros _. clear - Hf. induction Hf as [|[c r] t Hc _ IH]; [reflexivity|]. cbn in Hc |- *.
        destruct c; cbn in Hc; try (exact IH); try (destruct Hc as [Hc|[Hc _]]; discriminate).
        assert (E : answered_ok r = false) by (destruct Hc as [|[_ Hc]]; [discriminate|]; unfold answered_ok; destruct (r_ans r); congruence).
        cbn. rewrite E. exact IH.
      + intros r junk d0 Hr Hg. rewrite (Hbr r Hr) in Hg. discriminate.
      + intros r e Hi _. now apply nc_in in Hi.
      + intros _ _ _. cbn. rewrite execs_nowrite; [now rewrite app_nil_r|]. eapply Forall_impl; [|exact Hf]. intros [[] ?]; cbn; intuition congruence.
      + intros r Hr Hg. rewrite (Hbr r Hr) in Hg. discriminate.
    - pose proof (inner_notx _ _ _ _ I) as Hnd. pose proof (tx_end_nowrite _ _ _ _ _ Hend) as Hw.
      assert (Hw' : Forall (fun c : call * resp => is_write (fst c) = false) tl) by (eapply Forall_impl; [|exact Hw]; cbn; tauto).
      assert (Hcr : o0 <> Crash -> o1 <> Crash) by (destruct Ho as [->|[? ->]]; auto).
      assert (Hdn : forall r, o0 = Done r -> o1 = Done r) by (intros r ->; destruct Ho as [->|[_ ?]]; [reflexivity|discriminate]).
      assert (Hopen : o0 <> Crash -> opened false (pre ++ [(KBegin, rb)] ++ d ++ tl ++ post) = false).
      { intros Hn. rewrite !opened_app. rewrite (open_frame post) by auto.
        destruct (tx_end_calls _ _ _ _ Hend) as [[_ [Hx|Hx]]|(res & r & more & _ & _ & -> & _ & Hx & _)]; [now specialize (Hcr Hn)|apply Hx|exact Hx]. }
      assert (Hleft : forall l, left_after (pre ++ [(KBegin, rb)] ++ d ++ tl ++ post) l = left_after tl l).
      { intros l. rewrite !left_app. rewrite (left_same pre) by now apply nc_frame. cbn [left_after]. rewrite (left_same d) by now apply nc_notx.
        rewrite (left_same post) by now apply nc_frame. reflexivity. }
      split; auto.
      + (* a successful run *)
        intros r junk d0 Hr Hg Hf. specialize (Hdn r Hr). subst o0 o1. rewrite execs_inner_tail by auto.
        destruct (tx_end_commit cfg _ _ _ _ Hend) as [[_ Hx]|(res & rc & more & -> & Hbr & -> & Hrc & Hmore & Hres)].
        { rewrite (Hx r eq_refl) in Hg. discriminate. }
        assert (Hfd : ~ exec_failed d) by (rewrite !exec_failed_app in Hf; tauto).
        unfold visible. fold (dbrun junk (mkDb d0 None) (pre ++ [(KBegin, rb)] ++ d ++ ((KCommit, rc) :: more) ++ post)).
        rewrite dbrun_app, (dbrun_neutral junk pre) by now apply frame_neutral.
        cbn [app]. rewrite dbrun_cons. unfold db_step at 1. cbn [fst snd]. unfold answered_ok at 1. rewrite Hok. cbn [committed].
        rewrite dbrun_app, dbrun_inner; [|exact Hnd|exact Hfd].
        cbn [app]. rewrite dbrun_cons. unfold db_step at 1. cbn [fst snd pending]. unfold answered_ok at 1. rewrite Hrc.
        rewrite (bracketed_committed junk (more ++ post) false); [reflexivity| |discriminate|].
        * apply bracketed_nowrite. inversion Hw'; subst. apply Forall_app. split; [assumption|now apply frame_nowrite].
        * apply app_no_commit; [now apply commit_ok_calls|now apply no_commit_frame].
      + intros e. rewrite Hleft. intros He. right. intros r Hr. specialize (Hdn r Hr).
        destruct (tx_end_calls _ _ _ _ Hend) as [[Hx _]|(res & r1 & more & _ & _ & -> & Hx & _ & Hy)].
        * rewrite left_same in He by exact Hx. discriminate.
        * cbn [left_after] in He. rewrite left_same in He by exact Hx. apply (Hy ltac:(destruct (r_ans r1); congruence) _ Hdn).
      + intros r e Hi He. rewrite Hleft. rewrite !in_app_iff in Hi.
        destruct Hi as [Hi|[[Hi|[]]|[Hi|[Hi|Hi]]]]; [now apply nc_in in Hi; [|apply nc_frame]|discriminate|now apply nc_in in Hi; [|apply nc_notx]| |now apply nc_in in Hi; [|apply nc_frame]].
        destruct (tx_end_calls _ _ _ _ Hend) as [[Hx _]|(res & r1 & more & _ & _ & -> & Hx & _ & Hy)]; [now apply nc_in in Hi|].
        destruct Hi as [[= ->]|Hi]; [|now apply nc_in in Hi]. cbn [left_after]. rewrite left_same by exact Hx. now rewrite He.
      + discriminate.
      + intros _ Hf Hd. rewrite execs_inner_tail by auto. cbn. rewrite !exec_failed_app in Hf. rewrite (i_acts _ _ _ _ I); [reflexivity|tauto|exact Hd].
      + intros r Hr Hg. specialize (Hdn r Hr). subst o1. cbn.
        destruct (tx_end_commit cfg _ _ _ _ Hend) as [[_ Hx]|(res & rc & more & -> & Hbr & -> & Hrc & Hmore & Hres)].
        { rewrite (Hx r eq_refl) in Hg. discriminate. }
        destruct Hres as [|[= <-]]; [discriminate|]. now rewrite (G r eq_refl Hg).
  Qed.

  Lemma stage_one keys main left s o s' : stage_save cfg keys main left s = (o, s') -> exists d, one_save left s o s' d.
  Proof.
    intros H. destruct left as [e|].
    - destruct (stuck_save cfg keys main e Ht _ _ _ H) as (d & T & [C1 C2] & O). exists d.
      assert (Hbad : forall r, o = Done r -> bad r = true) by (intros r ->; eapply stuck_save_bad; eauto).
      pose proof (commit_ok_calls _ C2) as Hn. split; auto.
      + intros p q -> Hp. exfalso. apply Hn. rewrite commit_ok_app. auto.
      + intros r junk d0 Hr Hg. rewrite (Hbad r Hr) in Hg. discriminate.
      + intros r x Hi. now apply nc_in in Hi.
      + discriminate.
      + intros r Hr Hg. rewrite (Hbad r Hr) in Hg. discriminate.
    - rewrite stage_save_none in H. apply save_one in H. destruct H as (d & H). exists d. destruct H. split; auto.
  Qed.
End Stage.

(* ------------------------------------------------ histories *)
Section Histories.
  Variable writing : Prop.

  Lemma calls_from_app s s' d : s_trace s' = s_trace s ++ d -> calls_from s s' = d.
  Proof. intros H. unfold calls_from. rewrite H, skipn_app, skipn_all, Nat.sub_diag. reflexivity. Qed.

  Lemma do_save_one cfg keys main g o d g' : c_tx cfg = true -> do_save cfg keys main g = ((o, d), g') ->
    one_save cfg (g_left g) (g_st g) o (g_st g') d /\ g_left g' = left_after d (g_left g).
  Proof.
    intros Ht. unfold do_save. destruct (stage_save (set_posts cfg (g_posts g)) keys main (g_left g) (g_st g)) as [o1 s1] eqn:E.
    destruct (stage_one (set_posts cfg (g_posts g)) Ht _ _ _ _ _ _ E) as (d1 & H1). intros H. injection H as <- <- <-.
    rewrite (calls_from_app _ _ _ (os_trace _ _ _ _ _ _ H1)). split; [|reflexivity]. destruct H1. split; auto.
  Qed.

  (** A chain of Saves with the caller's code between them. *)
  Inductive saves : stage -> list saved -> stage -> Prop :=
  | sv_nil g : saves g [] g
  | sv_code g f n l g' : saves (mkStage (with_heap (g_st g) (f (s_heap (g_st g)))) (g_left g) n) l g' -> saves g l g'
  | sv_crash cfg g d g1 : (writing -> c_dry cfg = false) -> one_save cfg (g_left g) (g_st g) Crash (g_st g1) d -> g_left g1 = left_after d (g_left g) -> saves g [(Crash, d)] g1
  | sv_save cfg g o d g1 l g' : (writing -> c_dry cfg = false) -> one_save cfg (g_left g) (g_st g) o (g_st g1) d -> o <> Crash -> g_left g1 = left_after d (g_left g) ->
      saves g1 l g' -> saves g ((o, d) :: l) g'.

  Lemma stage_run_saves ops : forall g l g', (forall cfg keys main, In (OSave cfg keys main) ops -> c_tx cfg = true /\ (writing -> c_dry cfg = false)) ->
    stage_run ops g = (l, g') -> saves g l g'.
  Proof.
    induction ops as [|[cfg keys main| |f] t IH]; intros g l g' Hc H; cbn in H.
    - injection H as <- <-. constructor.
    - destruct (Hc cfg keys main) as [Ht Hd]; [now left|]. assert (Hc' : forall cfg keys main, In (OSave cfg keys main) t -> c_tx cfg = true /\ (writing -> c_dry cfg = false)) by (intros c k m Hi; apply (Hc c k m); now right).
      destruct (do_save cfg keys main g) as [[o d] g1] eqn:E. destruct (do_save_one _ _ _ _ _ _ _ Ht E) as [H1 H2]. cbn [fst] in H.
      destruct o as [r| |].
      3:{ injection H as <- <-. eapply sv_crash; eauto. }
      1,2: destruct (stage_run t g1) as [l2 g2] eqn:E2; injection H as <- <-; eapply sv_save; eauto; discriminate.
    - assert (Hs : with_heap (g_st g) (s_heap (g_st g)) = g_st g) by now destruct (g_st g). apply (sv_code g (fun h => h) (S (g_posts g))). rewrite Hs. apply IH; auto. intros c k m Hi; apply (Hc c k m); now right.
    - eapply sv_code. apply IH; eauto. intros c k m Hi; apply (Hc c k m); now right.
  Qed.

  Notation calls_of l := (concat (map snd l)).

  Lemma saves_db junk g l g' : saves g l g' -> forall d0,
    s_trace (g_st g') = s_trace (g_st g) ++ calls_of l /\
    forall k o d, nth_error l k = Some (o, d) ->
      let before := visible junk d0 (calls_of (firstn k l)) in
      let after := visible junk d0 (calls_of (firstn (S k) l)) in
      after = visible junk before d /\
      (forall p q, d = p ++ q -> visible junk d0 (calls_of (firstn k l) ++ p) = visible junk before p) /\
      (exists cfg left s s', one_save cfg left s o s' d).
  Proof.
    induction 1 as [g|g f n l g' H IH|cfg g d g1 Hw H HL|cfg g o d g1 l g' Hw H Hn HL HS IH]; intros d0.
    - split; [now rewrite app_nil_r|]. intros [|k]; discriminate.
    - apply (IH d0).
    - cbn. rewrite app_nil_r. split; [apply (os_trace _ _ _ _ _ _ H)|]. intros [|[|k]] o d1 Hk; try discriminate. injection Hk as <- <-. cbn. rewrite app_nil_r. eauto 8.
    - cbn [map snd concat]. pose proof (os_closed _ _ _ _ _ _ H Hn) as Hc. split.
      { destruct (IH d0) as [T _]. rewrite T, (os_trace _ _ _ _ _ _ H). now rewrite <- app_assoc. }
      intros [|k] o1 d1 Hk.
      + injection Hk as <- <-. cbn. rewrite app_nil_r. eauto 8.
      + cbn in Hk. cbv zeta. cbn [firstn map snd concat].
        destruct (IH (visible junk d0 d)) as [_ IH2]. specialize (IH2 k o1 d1 Hk). cbv zeta in IH2. destruct IH2 as (A & B & C).
        assert (E : forall x, visible junk d0 (d ++ x) = visible junk (visible junk d0 d) x) by (intros; now apply visible_app).
        change (match l with [] => [] | a :: l0 => a :: firstn k l0 end) with (firstn (S k) l). rewrite !E.
        split; [exact A|]. split; [|exact C]. intros p q Hpq. rewrite <- app_assoc, E. eauto.
  Qed.

  Lemma saves_left g l g' : saves g l g' -> forall e, g_left g = Some e -> forall k o d, nth_error l k = Some (o, d) ->
    no_commit d /\ forall r, o = Done r -> bad r = true.
  Proof.
    induction 1 as [g|g f n l g' H IH|cfg g d g1 Hw H HL|cfg g o d g1 l g' Hw H Hn HL HS IH]; intros e He k o1 d1 Hk.
    - destruct k; discriminate.
    - eapply IH; eauto.
    - destruct k as [|[|k]]; try discriminate. injection Hk as <- <-. eapply os_stuck; eauto.
    - destruct k as [|k].
      + injection Hk as <- <-. eapply os_stuck; eauto.
      + cbn in Hk. eapply (IH e); eauto. rewrite HL, He. apply left_same. destruct (os_stuck _ _ _ _ _ _ H e He). assumption.
  Qed.
  Lemma saves_refused g l g' : saves g l g' -> forall k o d r e j o' d', nth_error l k = Some (o, d) -> In (KCommit, r) d -> r_ans r = AErr e ->
    k < j -> nth_error l j = Some (o', d') -> no_commit d' /\ forall r', o' = Done r' -> bad r' = true.
  Proof.
    induction 1 as [g|g f n l g' H IH|cfg g d g1 Hw H HL|cfg g o d g1 l g' Hw H Hn HL HS IH]; intros k o1 d1 r e j o' d' Hk Hi Hr Hlt Hj.
    - destruct k; discriminate.
    - exact (IH k o1 d1 r e j o' d' Hk Hi Hr Hlt Hj).
    - destruct j as [|[|j]]; try discriminate. lia.
    - destruct j as [|j]; [lia|]. cbn in Hj. destruct k as [|k].
      + injection Hk as <- <-. assert (E : g_left g1 = Some e) by (rewrite HL; eapply os_refused; eauto). exact (saves_left _ _ _ HS e E _ _ _ Hj).
      + cbn in Hk. apply (IH k o1 d1 r e j o' d' Hk Hi Hr); [lia|exact Hj].
  Qed.

  Lemma saves_stuck_all g l g' e : saves g l g' -> g_left g = Some e -> forall k r d, nth_error l k = Some (Done r, d) -> bad r = true.
  Proof. intros H He k r d Hk. destruct (saves_left _ _ _ H e He _ _ _ Hk) as [_ Hb]. now apply Hb. Qed.
  Lemma saves_actions g l g' : saves g l g' -> writing -> forall k r d, nth_error l k = Some (Done r, d) -> bad r = false ->
    ~ exec_failed (calls_of (firstn (S k) l)) -> res_actions r = s_actions (g_st g) ++ execs (calls_of (firstn (S k) l)).
  Proof.
    intros HS Hd. induction HS as [g|g f n l g' H IH|cfg g d g1 Hw H HL|cfg g o d g1 l g' Hw H Hn HL HS IH]; intros k r d1 Hk Hg Hf.
    - destruct k; discriminate.
    - apply (IH k r d1 Hk Hg Hf).
    - destruct k as [|[|k]]; discriminate.
    - assert (Hl : g_left g = None).
      { destruct (g_left g) as [e|] eqn:E; [|reflexivity]. exfalso.
        assert (HS' : saves g ((o, d) :: l) g') by (eapply sv_save; eauto; rewrite E; auto).
        rewrite (saves_stuck_all _ _ _ e HS' E _ _ _ Hk) in Hg. discriminate. }
      destruct k as [|k].
      + injection Hk as -> <-. cbn [firstn map snd concat] in *. rewrite app_nil_r in *. rewrite (os_res _ _ _ _ _ _ H r eq_refl Hg).
        apply (os_acts _ _ _ _ _ _ H); auto.
      + cbn in Hk. change (firstn (S (S k)) ((o, d) :: l)) with ((o, d) :: firstn (S k) l) in *. cbn [map snd concat] in *.
        rewrite exec_failed_app in Hf. rewrite (IH k r d1 Hk Hg) by tauto. rewrite (os_acts _ _ _ _ _ _ H Hl) by tauto.
        now rewrite execs_app, app_assoc.
  Qed.
End Histories.

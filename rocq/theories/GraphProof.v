From Verif Require Export GraphSpec.

(* ---------------------------------------------------------------- simpleSet *)
Lemma set_has_In s e : set_has s e = true <-> In e (map fst s).
Proof.
  induction s as [|[x i] t IH]; cbn; [split; [discriminate|tauto]|].
  rewrite orb_true_iff, Nat.eqb_eq, IH. split; intros [H|H]; auto.
Qed.
Lemma set_has_nIn s e : set_has s e = false <-> ~ In e (map fst s).
Proof. rewrite <- set_has_In. destruct (set_has s e); split; congruence. Qed.
Lemma set_put_In s e i x : In x (map fst (set_put s e i)) <-> x = e \/ In x (map fst s).
Proof.
  induction s as [|[y j] t IH]; cbn; [intuition|].
  destruct (Nat.eqb_spec e y) as [->|]; cbn; [intuition|]. rewrite IH. intuition.
Qed.
Lemma set_put_NoDup s e i : NoDup (map fst s) -> NoDup (map fst (set_put s e i)).
Proof.
  induction s as [|[y j] t IH]; cbn; intros H; [repeat constructor; auto|].
  inversion H as [|? ? Hn Ht]; subst.
  destruct (Nat.eqb_spec e y) as [->|Hne]; cbn; [now constructor|].
  constructor; [|auto]. rewrite set_put_In. intros [->|]; auto.
Qed.
Lemma make_set_from_In nodes : forall i s x,
  In x (map fst (make_set_from i nodes s)) <-> In x nodes \/ In x (map fst s).
Proof.
  induction nodes as [|n t IH]; cbn; intros; [intuition|].
  rewrite IH, set_put_In. intuition.
Qed.
Lemma make_set_from_NoDup nodes : forall i s,
  NoDup (map fst s) -> NoDup (map fst (make_set_from i nodes s)).
Proof. induction nodes; cbn; intros; auto. apply IHnodes, set_put_NoDup; auto. Qed.
Lemma makeEntitySet_In nodes x : In x (map fst (makeEntitySet nodes)) <-> In x nodes.
Proof. unfold makeEntitySet. rewrite make_set_from_In. cbn. tauto. Qed.
Lemma makeEntitySet_NoDup nodes : NoDup (map fst (makeEntitySet nodes)).
Proof. apply make_set_from_NoDup. constructor. Qed.
Lemma toSlice_In s x : In x (toSlice s) <-> In x (map fst s).
Proof.
  unfold toSlice. rewrite !in_map_iff. split; intros (y & H1 & H2); exists y; split; auto;
  now apply isort_In in H2 || apply isort_In.
Qed.
Lemma NoDup_map_filter {A B} (f : A -> B) g l : NoDup (map f l) -> NoDup (map f (filter g l)).
Proof.
  induction l as [|a t IH]; cbn; intros H; [constructor|]. inversion H as [|? ? Hn Ht]; subst.
  destruct (g a); cbn; [|auto]. constructor; [|auto].
  rewrite in_map_iff in *. intros (x & H1 & H2). apply filter_In in H2. apply Hn. exists x; tauto.
Qed.
Lemma toSlice_NoDup s : NoDup (map fst s) -> NoDup (toSlice s).
Proof.
  intros H. unfold toSlice. eapply Permutation_NoDup; [|exact H].
  apply Permutation_map. symmetry. apply isort_perm.
Qed.
Lemma set_diff_In s s2 x : In x (map fst (set_diff s s2)) <-> In x (map fst s) /\ ~ In x (map fst s2).
Proof.
  unfold set_diff. rewrite !in_map_iff. split.
  - intros (y & <- & H). apply filter_In in H. destruct H as [H1 H2].
    rewrite negb_true_iff, set_has_nIn in H2. rewrite in_map_iff in H2. eauto.
  - intros ((y & <- & H1) & H2). exists y. split; auto. apply filter_In. split; auto.
    rewrite negb_true_iff, set_has_nIn, in_map_iff. auto.
Qed.
Lemma set_inter_In s s2 x : In x (map fst (set_inter s s2)) <-> In x (map fst s) /\ In x (map fst s2).
Proof.
  unfold set_inter. rewrite (in_map_iff fst (filter _ _)). split.
  - intros (y & <- & H). apply filter_In in H. destruct H as [H1 H2].
    rewrite set_has_In in H2. split; auto. now apply in_map.
  - intros (H1 & H2). rewrite in_map_iff in H1. destruct H1 as (y & <- & H1).
    exists y. split; auto. apply filter_In. rewrite set_has_In. auto.
Qed.

Section DiffFacts.
  Variables (kids : ptr -> list (key * list ptr)) (dirty : ptr -> bool) (pl : pool).
  Notation created := (created_of kids pl).
  Notation remain := (remain_of kids pl).
  Notation deleted := (deleted_of kids pl).

  Lemma created_In p k c : In c (created p k) <-> In c (kids_at (kids p) k) /\ ~ In c (snap_kids pl p k).
  Proof. unfold created_of. now rewrite toSlice_In, set_diff_In, !makeEntitySet_In. Qed.
  Lemma remain_In p k c : In c (remain p k) <-> In c (kids_at (kids p) k) /\ In c (snap_kids pl p k).
  Proof. unfold remain_of. now rewrite toSlice_In, set_inter_In, !makeEntitySet_In. Qed.
  Lemma deleted_In p k c : In c (deleted p k) <-> In c (snap_kids pl p k) /\ ~ In c (kids_at (kids p) k).
  Proof. unfold deleted_of. now rewrite toSlice_In, set_diff_In, !makeEntitySet_In. Qed.
  Lemma created_NoDup p k : NoDup (created p k).
  Proof. apply toSlice_NoDup, NoDup_map_filter, makeEntitySet_NoDup. Qed.
  Lemma remain_NoDup p k : NoDup (remain p k).
  Proof. apply toSlice_NoDup, NoDup_map_filter, makeEntitySet_NoDup. Qed.
  Lemma deleted_NoDup p k : NoDup (deleted p k).
  Proof. apply toSlice_NoDup, NoDup_map_filter, makeEntitySet_NoDup. Qed.

  Hypothesis ok : maps_ok kids pl.
  Lemma kids_at_now p k c : In c (kids_at (kids p) k) <-> now_child kids p k c.
  Proof.
    unfold kids_at, now_child. split.
    - destruct (assoc k (kids p)) as [l|] eqn:E; [|intros []].
      apply assoc_In in E. eauto.
    - intros (l & H1 & H2). apply (assoc_NoDup k l (kids p) (proj1 ok p)) in H1. now rewrite H1.
  Qed.
  Lemma snap_kids_was p k c : In c (snap_kids pl p k) <-> was_child pl p k c.
  Proof.
    unfold snap_kids, was_child. split.
    - destruct (pl p) as [s|] eqn:Ep; [|intros []].
      destruct (assoc k (s_kids s)) as [l|] eqn:E; [|intros []]. apply assoc_In in E. eauto 6.
    - intros (s & l & H0 & H1 & H2). rewrite H0.
      apply (assoc_NoDup k l (s_kids s) (proj2 ok p s H0)) in H1. now rewrite H1.
  Qed.
  Lemma kids_keys p k : In k (isort str_leb (map fst (kids p))) <-> has_key kids p k.
  Proof.
    rewrite isort_In, in_map_iff. unfold has_key. split.
    - intros ([k' l] & <- & H). eauto.
    - intros (l & H). exists (k, l). auto.
  Qed.
  Lemma now_has_key p k c : now_child kids p k c -> has_key kids p k.
  Proof. intros (l & H & _). now exists l. Qed.

  Lemma reported_app a b t p k c : reported (a ++ b) t p k c <-> reported a t p k c \/ reported b t p k c.
  Proof.
    unfold reported. split.
    - intros (ch & H & R). rewrite in_app_iff in H. destruct H; [left|right]; eauto.
    - intros [(ch & H & R)|(ch & H & R)]; exists ch; rewrite in_app_iff; tauto.
  Qed.
  Lemma reported_one t0 p0 k0 l t p k c :
    reported (one_change t0 p0 k0 l) t p k c <-> t = t0 /\ p = p0 /\ k = k0 /\ In c l.
  Proof.
    unfold reported, one_change. destruct l as [|x u].
    - split; [intros (ch & [] & _)|intros (_ & _ & _ & [])].
    - split.
      + intros (ch & [<-|[]] & <- & <- & <- & H). auto.
      + intros (-> & -> & -> & H). eexists. split; [left; reflexivity|]. auto.
  Qed.
  Lemma reported_mconcat {A} (f : A -> option (list change)) l r t p k c :
    mconcat f l = Some r ->
    (reported r t p k c <-> exists x y, In x l /\ f x = Some y /\ reported y t p k c).
  Proof.
    intros H. unfold reported. split.
    - intros (ch & Hin & R). apply (mconcat_In f l r H) in Hin.
      destruct Hin as (x & y & H1 & H2 & H3). exists x, y. eauto 8.
    - intros (x & y & H1 & H2 & (ch & H3 & R)). exists ch. split; [|exact R].
      apply (mconcat_In f l r H). eauto.
  Qed.

  Theorem entityDiff_spec fuel : forall root chs,
    entityDiff kids dirty pl fuel root = Some chs ->
    forall t p k c, reported chs t p k c <-> expected_change kids dirty pl root t p k c.
  Proof.
    induction fuel as [|n IH]; cbn; [discriminate|]. intros root chs H t p k c.
    rewrite (reported_mconcat _ _ _ _ _ _ _ H).
    split.
    - intros (k0 & y & Hk0 & Hy & Hr).
      destruct (mconcat (entityDiff kids dirty pl n) (created root k0)) as [sc|] eqn:Ec; [|discriminate].
      destruct (mconcat (entityDiff kids dirty pl n) (remain root k0)) as [sr|] eqn:Er; [|discriminate].
      injection Hy as <-.
      assert (Hsub : forall l r, mconcat (entityDiff kids dirty pl n) l = Some r ->
                (forall x, In x l -> now_child kids root k0 x) -> reported r t p k c ->
                expected_change kids dirty pl root t p k c).
      { intros l r Hm Hl Hrep. rewrite (reported_mconcat _ _ _ _ _ _ _ Hm) in Hrep.
        destruct Hrep as (x & z & H1 & H2 & H3). apply (IH _ _ H2) in H3.
        destruct H3 as [H3 H4]. split; [|exact H4].
        eapply reach_step; [apply Hl; eassumption|exact H3]. }
      rewrite !reported_app, !reported_one in Hr.
      destruct Hr as [(-> & -> & -> & Hin)|[Hs|[(-> & -> & -> & Hin)|[Hs|(-> & -> & -> & Hin)]]]].
      + apply created_In in Hin. rewrite kids_at_now, snap_kids_was in Hin.
        split; [constructor|exact Hin].
      + eapply Hsub; [exact Ec| |exact Hs]. intros x Hx. apply created_In in Hx.
        now apply kids_at_now.
      + apply filter_In in Hin. destruct Hin as [Hin Hd]. apply remain_In in Hin.
        rewrite kids_at_now, snap_kids_was in Hin. split; [constructor|]. tauto.
      + eapply Hsub; [exact Er| |exact Hs]. intros x Hx. apply remain_In in Hx.
        now apply kids_at_now.
      + apply deleted_In in Hin. rewrite kids_at_now, snap_kids_was in Hin.
        split; [constructor|]. apply kids_keys in Hk0. tauto.
    - intros [Hreach Hexp].
      inversion Hreach as [p0|p0 k1 c1 q Hc1 Hrest]; subst.
      + assert (Hk : has_key kids p k).
        { destruct t; try tauto; [destruct Hexp as [H1 _]|destruct Hexp as [H1 _]];
          eapply now_has_key; exact H1. }
        apply kids_keys in Hk.
        destruct (mconcat_Some_each _ _ _ H k Hk) as [y Hy]. exists k, y.
        split; [exact Hk|]. split; [exact Hy|].
        destruct (mconcat (entityDiff kids dirty pl n) (created p k)) as [sc|] eqn:Ec; [|discriminate].
        destruct (mconcat (entityDiff kids dirty pl n) (remain p k)) as [sr|] eqn:Er; [|discriminate].
        injection Hy as <-. rewrite !reported_app, !reported_one.
        destruct t; try tauto.
        * left. split; auto. split; auto. split; auto. apply created_In.
          now rewrite kids_at_now, snap_kids_was.
        * right. right. left. do 3 (split; auto). apply filter_In. rewrite remain_In.
          rewrite kids_at_now, snap_kids_was. tauto.
        * do 4 right. do 3 (split; auto). apply deleted_In.
          rewrite kids_at_now, snap_kids_was. tauto.
      + assert (Hk : In k1 (isort str_leb (map fst (kids root)))).
        { apply kids_keys. eapply now_has_key. exact Hc1. }
        destruct (mconcat_Some_each _ _ _ H k1 Hk) as [y Hy]. exists k1, y.
        split; [exact Hk|]. split; [exact Hy|].
        destruct (mconcat (entityDiff kids dirty pl n) (created root k1)) as [sc|] eqn:Ec; [|discriminate].
        destruct (mconcat (entityDiff kids dirty pl n) (remain root k1)) as [sr|] eqn:Er; [|discriminate].
        injection Hy as <-. rewrite !reported_app.
        assert (Hc1' := Hc1). apply kids_at_now in Hc1'.
        destruct (in_dec Nat.eq_dec c1 (snap_kids pl root k1)) as [Hs|Hs].
        * assert (Hi : In c1 (remain root k1)) by (apply remain_In; auto).
          destruct (mconcat_Some_each _ _ _ Er c1 Hi) as [z Hz].
          right. right. right. left. apply (reported_mconcat _ _ _ _ _ _ _ Er).
          exists c1, z. split; auto. split; auto. apply (IH _ _ Hz). split; auto.
        * assert (Hi : In c1 (created root k1)) by (apply created_In; auto).
          destruct (mconcat_Some_each _ _ _ Ec c1 Hi) as [z Hz].
          right. left. apply (reported_mconcat _ _ _ _ _ _ _ Ec).
          exists c1, z. split; auto. split; auto. apply (IH _ _ Hz). split; auto.
  Qed.

  (* ------------------------------------------------------------ termination *)
  Lemma reach_trans p q r : reach kids p q -> reach kids q r -> reach kids p r.
  Proof. induction 1; eauto using reach. Qed.
  Lemma reach_one p k c : now_child kids p k c -> reach kids p c.
  Proof. intros H. eapply reach_step; [exact H|constructor]. Qed.

  Theorem entityDiff_terminates root : acyclic_from kids root ->
    exists fuel chs, entityDiff kids dirty pl fuel root = Some chs.
  Proof.
    intros [rank Hrank].
    assert (Hgen : forall n q, reach kids root q -> rank q < n ->
                   exists chs, entityDiff kids dirty pl n q = Some chs).
    { induction n as [|n IH]; [lia|]. intros q Hq Hr. cbn. apply mconcat_all.
      intros k Hk.
      assert (Hsub : forall l, (forall x, In x l -> now_child kids q k x) ->
                exists r, mconcat (entityDiff kids dirty pl n) l = Some r).
      { intros l Hl. apply mconcat_all. intros x Hx. apply IH.
        - eapply reach_trans; [exact Hq|]. eapply reach_one, Hl, Hx.
        - specialize (Hrank q k x Hq (Hl x Hx)). lia. }
      destruct (Hsub (created q k)) as [r1 ->].
      { intros x Hx. apply created_In in Hx. now apply kids_at_now. }
      destruct (Hsub (remain q k)) as [r2 ->].
      { intros x Hx. apply remain_In in Hx. now apply kids_at_now. }
      eauto. }
    exists (S (rank root)). apply Hgen; [constructor|lia].
  Qed.

  Theorem entityDiff_diverges root q : reach kids root q -> on_cycle kids q ->
    forall fuel, entityDiff kids dirty pl fuel root = None.
  Proof.
    intros Hreach (k & c & Hc & Hback) fuel.
    assert (Hgen : forall n p chs, entityDiff kids dirty pl n p = Some chs ->
                   forall p', reach kids p p' -> p = p' \/ exists n' chs', n' < n /\ entityDiff kids dirty pl n' p' = Some chs').
    { induction n as [|n IH]; cbn; [discriminate|]. intros p chs H p' Hp'.
      inversion Hp' as [|? k1 c1 ? Hc1 Hrest]; subst; [auto|]. right.
      assert (Hk : In k1 (isort str_leb (map fst (kids p)))).
      { apply kids_keys. eapply now_has_key. exact Hc1. }
      destruct (mconcat_Some_each _ _ _ H k1 Hk) as [y Hy].
      destruct (mconcat (entityDiff kids dirty pl n) (created p k1)) as [sc|] eqn:Ec; [|discriminate].
      destruct (mconcat (entityDiff kids dirty pl n) (remain p k1)) as [sr|] eqn:Er; [|discriminate].
      assert (Hz : exists z, entityDiff kids dirty pl n c1 = Some z).
      { apply kids_at_now in Hc1.
        destruct (in_dec Nat.eq_dec c1 (snap_kids pl p k1)) as [Hs|Hs].
        - apply (mconcat_Some_each _ _ _ Er). apply remain_In; auto.
        - apply (mconcat_Some_each _ _ _ Ec). apply created_In; auto. }
      destruct Hz as [z Hz].
      destruct (IH _ _ Hz _ Hrest) as [<-|(n' & chs' & Hlt & Hn')]; [exists n, z; auto|].
      exists n', chs'. split; [lia|exact Hn']. }
    assert (Hq : forall n chs, entityDiff kids dirty pl n q = Some chs -> False).
    { induction n as [n IHn] using (well_founded_induction lt_wf). intros chs H.
      assert (Hstep : exists n' chs', n' < n /\ entityDiff kids dirty pl n' q = Some chs').
      { destruct n as [|n]; [discriminate|].
        assert (Hr : reach kids q c) by (eapply reach_one; exact Hc).
        destruct (Hgen _ _ _ H _ Hr) as [<-|(n1 & chs1 & Hlt & H1)].
        - (* self loop *)
          assert (H' := H). cbn in H'.
          assert (Hk : In k (isort str_leb (map fst (kids q)))).
          { apply kids_keys. eapply now_has_key. exact Hc. }
          destruct (mconcat_Some_each _ _ _ H' k Hk) as [y Hy].
          destruct (mconcat (entityDiff kids dirty pl n) (created q k)) as [sc|] eqn:Ec; [|discriminate].
          destruct (mconcat (entityDiff kids dirty pl n) (remain q k)) as [sr|] eqn:Er; [|discriminate].
          apply kids_at_now in Hc.
          destruct (in_dec Nat.eq_dec q (snap_kids pl q k)) as [Hs|Hs].
          + destruct (mconcat_Some_each _ _ _ Er q) as [z Hz]; [apply remain_In; auto|]. eauto.
          + destruct (mconcat_Some_each _ _ _ Ec q) as [z Hz]; [apply created_In; auto|]. eauto.
        - destruct (Hgen _ _ _ H1 _ Hback) as [Heq|(n2 & chs2 & Hlt2 & H2)].
          + rewrite <- Heq. eauto.
          + exists n2, chs2. split; [lia|exact H2]. }
      destruct Hstep as (n' & chs' & Hlt & H'). eapply IHn; eassumption. }
    destruct (entityDiff kids dirty pl fuel root) as [chs|] eqn:E; [|reflexivity].
    exfalso. destruct (Hgen _ _ _ E _ Hreach) as [<-|(n' & chs' & _ & H')]; eapply Hq; eassumption.
  Qed.
End DiffFacts.

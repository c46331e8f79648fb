(** Multiplicity of the diff on trees; traversal; recursive delete. *)
From Verif Require Import MoveSpec GraphProof MoveProof GraphProof2.

Section Tree.
  Variables (kids : ptr -> list (key * list ptr)).

  Lemma reach_rind (a : ptr) (P : ptr -> Prop) : P a ->
    (forall b k c, reach kids a b -> P b -> now_child kids b k c -> P c) -> forall p, reach kids a p -> P p.
  Proof.
    intros H0 HS p H.
    assert (Hgen : forall x y, reach kids x y -> reach kids a x -> P x -> P y).
    { induction 1 as [|x k c y Hc Hr IH]; auto. intros Hx HPx. apply IH; [|eapply HS; eauto].
      eapply reach_trans; [exact Hx|eapply reach_one; exact Hc]. }
    eapply Hgen; eauto. constructor.
  Qed.
  Lemma reach_snoc a p : reach kids a p -> a = p \/ exists b k, reach kids a b /\ now_child kids b k p.
  Proof. revert p. apply reach_rind; auto. intros b k c Hb _ Hc. right. eauto. Qed.

  Variable root : ptr.
  Hypothesis tree : one_place kids root.
  Hypothesis acyc : forall q, reach kids root q -> ~ on_cycle kids q.

  Lemma subtrees_disjoint q k1 k2 c1 c2 p : reach kids root q ->
    now_child kids q k1 c1 -> now_child kids q k2 c2 -> reach kids c1 p -> reach kids c2 p -> c1 = c2.
  Proof.
    intros Hq H1 H2 Hp1 Hp2.
    assert (Hr1 : reach kids root c1) by (eapply reach_trans; [exact Hq|eapply reach_one; eauto]).
    assert (Hr2 : reach kids root c2) by (eapply reach_trans; [exact Hq|eapply reach_one; eauto]).
    assert (Hcmp : reach kids c1 c2 \/ reach kids c2 c1).
    { revert Hp2. revert p Hp1. apply (reach_rind c1 (fun p => reach kids c2 p -> reach kids c1 c2 \/ reach kids c2 c1)); auto.
      intros b k c Hb IH Hc Hc2. destruct (reach_snoc _ _ Hc2) as [->|(b' & k' & Hb' & Hc')].
      - left. eapply reach_trans; [exact Hb|eapply reach_one; eauto].
      - apply IH. assert (b = b') as ->; auto.
        apply (tree b k b' k' c); auto; [exact (reach_trans _ _ _ _ Hr1 Hb)|exact (reach_trans _ _ _ _ Hr2 Hb')]. }
    assert (Hsub : forall x y kx ky, now_child kids q kx x -> now_child kids q ky y -> reach kids x y -> x = y).
    { intros x y kx ky Hx Hy Hxy. destruct (reach_snoc _ _ Hxy) as [|(b & k & Hb & Hby)]; auto.
      exfalso. assert (Hrx : reach kids root x) by (eapply reach_trans; [exact Hq|eapply reach_one; eauto]).
      assert (b = q) as -> by (apply (tree b k q ky y); auto; exact (reach_trans _ _ _ _ Hrx Hb)).
      apply (acyc q Hq). exists kx, x. auto. }
    destruct Hcmp as [H|H]; [|symmetry]; eapply Hsub; eauto.
  Qed.
  Lemma not_below_self q k c : reach kids root q -> now_child kids q k c -> ~ reach kids c q.
  Proof. intros Hq Hc Hr. apply (acyc q Hq). exists k, c. auto. Qed.
End Tree.

Lemma single_changes_app a b : single_changes (a ++ b) = single_changes a ++ single_changes b.
Proof. unfold single_changes. apply flat_map_app. Qed.
Lemma single_changes_In chs t p k c : In (t, p, k, c) (single_changes chs) <-> reported chs t p k c.
Proof.
  unfold single_changes, reported. rewrite in_flat_map. split.
  - intros (ch & H & Hm). apply in_map_iff in Hm. destruct Hm as (x & [= <- <- <- <-] & Hx). eauto 6.
  - intros (ch & H & <- & <- & <- & Hc). exists ch. split; auto. apply in_map_iff. eauto.
Qed.

Lemma NoDup_mconcat {A} (f : A -> option (list change)) : forall l r, NoDup l -> mconcat f l = Some r ->
  (forall x y, In x l -> f x = Some y -> NoDup (single_changes y)) ->
  (forall x x' y y' z, In x l -> In x' l -> f x = Some y -> f x' = Some y' ->
      In z (single_changes y) -> In z (single_changes y') -> x = x') ->
  NoDup (single_changes r).
Proof.
  induction l as [|a t IH]; cbn; intros r Hnd H Hone Hdis; [injection H as <-; constructor|].
  apply NoDup_cons_iff in Hnd. destruct Hnd as [Ha Ht].
  destruct (f a) as [y|] eqn:Ea; [|discriminate]. destruct (mconcat f t) as [r'|] eqn:Et; [|discriminate].
  injection H as <-. rewrite single_changes_app. apply NoDup_app_iff. split; [eauto|]. split.
  - eapply IH; eauto 10.
  - intros [[[t0 p] k] c] H1 H2. apply single_changes_In in H2. unfold reported in H2.
    destruct H2 as (ch & Hch & R). rewrite (mconcat_In _ _ _ Et) in Hch.
    destruct Hch as (x & y' & Hx & Hy' & Hin).
    assert (a = x); [|congruence]. eapply (Hdis a x y y'); auto; [exact H1|].
    apply single_changes_In. exists ch. auto.
Qed.

  Lemma one_change_shape t p k l ch : In ch (one_change t p k l) -> ch_type ch = t /\ ch_kids ch = l /\ l <> [].
  Proof. unfold one_change. destruct l; cbn; [tauto|]. intros [<-|[]]. cbn. repeat split; congruence. Qed.

Section Diff.
  Variables (kids : ptr -> list (key * list ptr)) (dirty : ptr -> bool) (pl : pool).
  Hypothesis ok : maps_ok kids pl.

  Lemma entityDiff_shape fuel : forall p chs, entityDiff kids dirty pl fuel p = Some chs ->
    forall ch, In ch chs -> NoDup (ch_kids ch) /\ ch_type ch <> CClear /\ ch_kids ch <> [].
  Proof.
    induction fuel as [|n IH]; cbn; [discriminate|]. intros p chs H ch Hin.
    rewrite (mconcat_In _ _ _ H) in Hin. destruct Hin as (k & y & Hk & Hy & Hin).
    destruct (mconcat (entityDiff kids dirty pl n) (created_of kids pl p k)) as [sc|] eqn:Ec; [|discriminate].
    destruct (mconcat (entityDiff kids dirty pl n) (remain_of kids pl p k)) as [sr|] eqn:Er; [|discriminate].
    injection Hy as <-. rewrite !in_app_iff in Hin.
    destruct Hin as [Hin|[Hin|[Hin|[Hin|Hin]]]].
    - apply one_change_shape in Hin. destruct Hin as (-> & -> & ?). split; [apply created_NoDup|split; congruence].
    - rewrite (mconcat_In _ _ _ Ec) in Hin. destruct Hin as (x & z & _ & Hz & Hin). eapply IH; eauto.
    - apply one_change_shape in Hin. destruct Hin as (-> & -> & ?). split; [apply NoDup_filter, remain_NoDup|split; congruence].
    - rewrite (mconcat_In _ _ _ Er) in Hin. destruct Hin as (x & z & _ & Hz & Hin). eapply IH; eauto.
    - apply one_change_shape in Hin. destruct Hin as (-> & -> & ?). split; [apply deleted_NoDup|split; congruence].
  Qed.

  Lemma single_one t p k l : single_changes (one_change t p k l) = map (fun c => (t, p, k, c)) l.
  Proof. unfold one_change. destruct l; cbn; auto. now rewrite app_nil_r. Qed.
  Lemma NoDup_single_one t p k l : NoDup l -> NoDup (single_changes (one_change t p k l)).
  Proof.
    intros H. rewrite single_one. induction H as [|x l Hx Hl IH]; cbn; constructor; auto.
    rewrite in_map_iff. intros (y & [= ->] & Hy). auto.
  Qed.

  Variable root : ptr.
  Hypothesis tree : one_place kids root.
  Hypothesis acyc : forall q, reach kids root q -> ~ on_cycle kids q.

  Lemma entityDiff_nodup fuel : forall q chs, reach kids root q ->
    entityDiff kids dirty pl fuel q = Some chs -> NoDup (single_changes chs).
  Proof.
    induction fuel as [|n IH]; [discriminate|]. intros q chs Hq H.
    assert (Hspec := entityDiff_spec kids dirty pl ok n).
    cbn in H.
    assert (Hbelow : forall l r, mconcat (entityDiff kids dirty pl n) l = Some r -> forall t p k c,
       reported r t p k c -> exists x, In x l /\ reach kids x p).
    { intros l r Hm t p k c (ch & Hch & R). rewrite (mconcat_In _ _ _ Hm) in Hch.
      destruct Hch as (x & y & Hx & Hy & Hin). exists x. split; auto.
      assert (Hrep : reported y t p k c) by (exists ch; auto).
      apply (Hspec _ _ Hy) in Hrep. exact (proj1 Hrep). }
    assert (Hcr : forall k x, In x (created_of kids pl q k) -> now_child kids q k x).
    { intros k x Hx. apply created_In in Hx. apply (kids_at_now kids pl); tauto. }
    assert (Hrm : forall k x, In x (remain_of kids pl q k) -> now_child kids q k x).
    { intros k x Hx. apply remain_In in Hx. apply (kids_at_now kids pl); tauto. }
    assert (Hsubnd : forall k l r, mconcat (entityDiff kids dirty pl n) l = Some r -> NoDup l ->
        (forall x, In x l -> now_child kids q k x) -> NoDup (single_changes r)).
    { intros k l r Hm Hnd Hl. eapply NoDup_mconcat; eauto.
      - intros x y Hx Hy. apply (IH x y); auto. eapply reach_trans; [exact Hq|eapply reach_one; eauto].
      - intros x x' y y' [[[t p] k'] c] Hx Hx' Hy Hy' Hz Hz'.
        apply single_changes_In in Hz. apply single_changes_In in Hz'.
        apply (Hspec _ _ Hy) in Hz. apply (Hspec _ _ Hy') in Hz'.
        destruct Hz as [Hz _]. destruct Hz' as [Hz' _]. eapply subtrees_disjoint; eauto. }
    (* where the pieces of one key live *)
    assert (Hkey : forall k y, (match mconcat (entityDiff kids dirty pl n) (created_of kids pl q k) with
         | None => None
         | Some sub_created =>
             match mconcat (entityDiff kids dirty pl n) (remain_of kids pl q k) with
             | None => None
             | Some sub_remain =>
                 Some (one_change CNew q k (created_of kids pl q k) ++ sub_created
                       ++ one_change CDirty q k (filter dirty (remain_of kids pl q k))
                       ++ sub_remain ++ one_change CDelete q k (deleted_of kids pl q k))
             end end) = Some y ->
        forall t p k' c, reported y t p k' c -> (p = q /\ k' = k) \/ exists x, now_child kids q k x /\ reach kids x p).
    { intros k y Hy t p k' c Hr.
      destruct (mconcat (entityDiff kids dirty pl n) (created_of kids pl q k)) as [sc|] eqn:Ec; [|discriminate].
      destruct (mconcat (entityDiff kids dirty pl n) (remain_of kids pl q k)) as [sr|] eqn:Er; [|discriminate].
      injection Hy as <-. rewrite !rep_app in Hr.
      assert (Hone : forall t0 l, reported (one_change t0 q k l) t p k' c -> p = q /\ k' = k).
      { intros t0 l (ch & Hch & _ & <- & <- & _). unfold one_change in Hch. destruct l; [destruct Hch|].
        destruct Hch as [<-|[]]. auto. }
      destruct Hr as [Hr|[Hr|[Hr|[Hr|Hr]]]]; eauto.
      - right. destruct (Hbelow _ _ Ec _ _ _ _ Hr) as (x & Hx & Hp). eauto.
      - right. destruct (Hbelow _ _ Er _ _ _ _ Hr) as (x & Hx & Hp). eauto. }
    eapply NoDup_mconcat; [| exact H | |].
    - apply isort_NoDup. apply ok.
    - intros k y Hk Hy. cbv beta in Hy.
      destruct (mconcat (entityDiff kids dirty pl n) (created_of kids pl q k)) as [sc|] eqn:Ec; [|discriminate].
      destruct (mconcat (entityDiff kids dirty pl n) (remain_of kids pl q k)) as [sr|] eqn:Er; [|discriminate].
      injection Hy as <-. rewrite !single_changes_app.
      assert (Hself : forall l, (forall x, In x l -> now_child kids q k x) -> forall r,
          mconcat (entityDiff kids dirty pl n) l = Some r -> forall t k' c, ~ reported r t q k' c).
      { intros l Hl r Hm t k' c Hr. destruct (Hbelow _ _ Hm _ _ _ _ Hr) as (x & Hx & Hp).
        eapply not_below_self; eauto. }
      assert (Hcrself := Hself _ (Hcr k) _ Ec). assert (Hrmself := Hself _ (Hrm k) _ Er).
      assert (HcrIn : forall t p k' c, In (t, p, k', c) (single_changes sc) -> p <> q).
      { intros t p k' c Hin ->. apply single_changes_In in Hin. eapply Hcrself; eauto. }
      assert (HrmIn : forall t p k' c, In (t, p, k', c) (single_changes sr) -> p <> q).
      { intros t p k' c Hin ->. apply single_changes_In in Hin. eapply Hrmself; eauto. }
      assert (HoneIn : forall t0 l z, In z (single_changes (one_change t0 q k l)) -> exists c, z = (t0, q, k, c)).
      { intros t0 l z Hz. rewrite single_one in Hz. apply in_map_iff in Hz. destruct Hz as (c & <- & _). eauto. }
      repeat (apply NoDup_app_iff; split; [|split]).
      + apply NoDup_single_one, created_NoDup.
      + eapply (Hsubnd k); eauto. apply created_NoDup.
      + apply NoDup_single_one, NoDup_filter, remain_NoDup.
      + eapply (Hsubnd k); eauto. apply remain_NoDup.
      + apply NoDup_single_one, deleted_NoDup.
      + intros z Hz Hz'. apply HoneIn in Hz'. destruct Hz' as (c & ->). now apply HrmIn in Hz.
      + intros z Hz Hz'. apply HoneIn in Hz. destruct Hz as (c & ->). rewrite in_app_iff in Hz'.
        destruct Hz' as [Hz'|Hz']; [now apply HrmIn in Hz'|]. apply HoneIn in Hz'. destruct Hz' as (c' & E). discriminate.
      + intros z Hz Hz'. rewrite !in_app_iff in Hz'. destruct Hz' as [Hz'|[Hz'|Hz']].
        * apply HoneIn in Hz'. destruct Hz' as (c & ->). now apply HcrIn in Hz.
        * destruct z as [[[t p] k'] c]. apply single_changes_In in Hz. apply single_changes_In in Hz'.
          destruct (Hbelow _ _ Ec _ _ _ _ Hz) as (x & Hx & Hp). destruct (Hbelow _ _ Er _ _ _ _ Hz') as (x' & Hx' & Hp').
          assert (x = x') as -> by (eapply subtrees_disjoint; eauto).
          apply created_In in Hx. apply remain_In in Hx'. tauto.
        * apply HoneIn in Hz'. destruct Hz' as (c & ->). now apply HcrIn in Hz.
      + intros z Hz Hz'. apply HoneIn in Hz. destruct Hz as (c & ->). rewrite !in_app_iff in Hz'.
        destruct Hz' as [Hz'|[Hz'|[Hz'|Hz']]].
        * now apply HcrIn in Hz'.
        * apply HoneIn in Hz'. destruct Hz' as (c' & E). discriminate.
        * now apply HrmIn in Hz'.
        * apply HoneIn in Hz'. destruct Hz' as (c' & E). discriminate.
    - intros k1 k2 y y' [[[t p] k'] c] Hk1 Hk2 Hy Hy' Hz Hz'.
      apply single_changes_In in Hz. apply single_changes_In in Hz'.
      destruct (Hkey _ _ Hy _ _ _ _ Hz) as [[-> ->]|(x & Hx & Hp)];
      destruct (Hkey _ _ Hy' _ _ _ _ Hz') as [[E ->]|(x' & Hx' & Hp')]; auto.
      + exfalso. eapply not_below_self; eauto.
      + exfalso. subst p. eapply not_below_self; eauto.
      + assert (x = x') as -> by (eapply subtrees_disjoint; eauto).
        eapply tree; [| |exact Hx|exact Hx']; auto.
  Qed.
End Diff.

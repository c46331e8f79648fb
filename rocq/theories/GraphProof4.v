(** Top level of change detection; traversal; recursive delete; child discovery; container. *)
From Verif Require Import MoveSpec GraphProof MoveProof GraphProof2 GraphProof3.

(* ---------------------------------------------------------------- change detection *)
Lemma kids_of_reported chs t e : In e (kids_of t chs) <-> exists p k, reported chs t p k e.
Proof. apply reported_kids_of. Qed.

Lemma single_eq_kids t chs :
  kids_of t chs = map snd (filter (fun x => ct_eqb (fst (fst (fst x))) t) (single_changes chs)).
Proof.
  unfold kids_of, single_changes. induction chs as [|a l IH]; cbn; auto.
  rewrite filter_app, map_app, <- IH. destruct (ct_eqb (ch_type a) t) eqn:E; cbn.
  - f_equal. rewrite filter_id; [|intros x Hx; apply in_map_iff in Hx; destruct Hx as (c & <- & _); exact E].
    rewrite map_map. cbn. now rewrite map_id.
  - assert (filter (fun x => ct_eqb (fst (fst (fst x))) t) (map (fun c => (ch_type a, ch_parent a, ch_key a, c)) (ch_kids a)) = []) as ->; [|reflexivity].
    induction (ch_kids a) as [|c u IHu]; cbn; auto. now rewrite E.
Qed.

Lemma NoDup_map_inj_in {A B} (f : A -> B) l : NoDup l ->
  (forall x y, In x l -> In y l -> f x = f y -> x = y) -> NoDup (map f l).
Proof.
  induction 1 as [|a l Ha Hl IH]; cbn; intros Hinj; constructor; auto.
  rewrite in_map_iff. intros (x & E & Hx). apply Ha. rewrite (Hinj a x); auto.
Qed.

Section Top.
  Variables (kids : ptr -> list (key * list ptr)) (dirty : ptr -> bool) (pl : pool).
  Hypothesis ok : maps_ok kids pl.

  Lemma diff_acyclic fuel root chs : entityDiff kids dirty pl fuel root = Some chs ->
    forall q, reach kids root q -> ~ on_cycle kids q.
  Proof.
    intros H q Hq Hc. rewrite (entityDiff_diverges kids dirty pl ok root q Hq Hc) in H. discriminate.
  Qed.

  Theorem diff_then_move fuel root chs : entityDiff kids dirty pl fuel root = Some chs ->
    (forall out, handleEntityMove chs = Some out ->
       (forall t p k c, reported out t p k c <-> expected_final kids dirty pl root t p k c) /\
       NoDup (flat_map ch_kids out)) /\
    ((exists out, handleEntityMove chs = Some out) <-> move_ok chs).
  Proof.
    intros H. assert (Hsh := entityDiff_shape kids dirty pl fuel root chs H).
    assert (Hspec := entityDiff_spec kids dirty pl ok fuel root chs H).
    destruct (handleEntityMove_correct chs) as [Ha Hb]; [apply Hsh|apply Hsh|].
    split; [|exact Ha]. intros out Hout. destruct (Hb out Hout) as [Hr Hnd]. split; [|exact Hnd].
    intros t p k c. rewrite Hr. unfold moved_change, expected_final.
    destruct t; rewrite ?kids_of_reported, ?Hspec.
    - split; intros [H1 H2]; split; auto.
      + intros p' k' Hx. apply H2. exists p', k'. now apply Hspec.
      + intros (p' & k' & Hx). apply Hspec in Hx. eapply H2; eauto.
    - split; (intros [H1|[H1 (p' & k' & H2)]]; [left; auto|right; split; auto; exists p', k'; now apply Hspec]).
    - split; intros [H1 H2]; split; auto.
      + intros p' k' Hx. apply H2. exists p', k'. now apply Hspec.
      + intros (p' & k' & Hx). apply Hspec in Hx. eapply H2; eauto.
    - unfold expected_change. tauto.
  Qed.

  (** Every delete change lists exactly what was removed from one child list. *)
  Lemma entityDiff_delete_kids fuel : forall p chs, entityDiff kids dirty pl fuel p = Some chs ->
    forall ch, In ch chs -> ch_type ch = CDelete ->
      ch_kids ch = deleted_of kids pl (ch_parent ch) (ch_key ch) /\ reach kids p (ch_parent ch) /\ has_key kids (ch_parent ch) (ch_key ch).
  Proof.
    induction fuel as [|n IH]; cbn; [discriminate|]. intros p chs H ch Hin Ht.
    rewrite (mconcat_In _ _ _ H) in Hin. destruct Hin as (k & y & Hk & Hy & Hin).
    destruct (mconcat (entityDiff kids dirty pl n) (created_of kids pl p k)) as [sc|] eqn:Ec; [|discriminate].
    destruct (mconcat (entityDiff kids dirty pl n) (remain_of kids pl p k)) as [sr|] eqn:Er; [|discriminate].
    injection Hy as <-. rewrite !in_app_iff in Hin.
    assert (Hsub : forall l r, mconcat (entityDiff kids dirty pl n) l = Some r ->
        (forall x, In x l -> now_child kids p k x) -> In ch r ->
        ch_kids ch = deleted_of kids pl (ch_parent ch) (ch_key ch) /\ reach kids p (ch_parent ch) /\ has_key kids (ch_parent ch) (ch_key ch)).
    { intros l r Hm Hl Hr. rewrite (mconcat_In _ _ _ Hm) in Hr. destruct Hr as (x & z & Hx & Hz & Hr).
      destruct (IH _ _ Hz ch Hr Ht) as (E1 & E2 & E3). split; auto. split; auto. eapply reach_step; [apply Hl; eauto|exact E2]. }
    destruct Hin as [Hin|[Hin|[Hin|[Hin|Hin]]]].
    - apply one_change_shape in Hin. destruct Hin as (E & _). congruence.
    - apply (Hsub _ _ Ec); auto. intros x Hx. apply created_In in Hx. apply (kids_at_now kids pl ok); tauto.
    - apply one_change_shape in Hin. destruct Hin as (E & _). congruence.
    - apply (Hsub _ _ Er); auto. intros x Hx. apply remain_In in Hx. apply (kids_at_now kids pl ok); tauto.
    - unfold one_change in Hin. destruct (deleted_of kids pl p k) as [|d l] eqn:Ed; [destruct Hin|].
      destruct Hin as [<-|[]]. cbn. split; auto. split; [constructor|]. eapply kids_keys; eauto.
  Qed.

  Theorem tree_move_ok fuel root chs : entityDiff kids dirty pl fuel root = Some chs ->
    one_place kids root -> one_place_before pl ->
    (move_ok chs <-> moved_only_at_tail kids dirty pl root).
  Proof.
    intros H Htree Hbefore.
    assert (Hspec := entityDiff_spec kids dirty pl ok fuel root chs H).
    assert (Hac := diff_acyclic _ _ _ H).
    assert (Hnd := entityDiff_nodup kids dirty pl ok root Htree Hac fuel root chs (reach_refl _ _) H).
    assert (Hkid : forall t, (forall p k p' k' c, reported chs t p k c -> reported chs t p' k' c -> p = p' /\ k = k') ->
                     NoDup (kids_of t chs)).
    { intros t Hu. rewrite single_eq_kids. apply NoDup_map_inj_in; [now apply NoDup_filter|].
      intros [[[t1 p1] k1] c1] [[[t2 p2] k2] c2] H1 H2 E. cbn in E. subst c2.
      apply filter_In in H1. apply filter_In in H2. destruct H1 as [H1 T1]. destruct H2 as [H2 T2].
      cbn in T1, T2. apply ct_eqb_eq in T1. apply ct_eqb_eq in T2. subst t1 t2.
      apply single_changes_In in H1. apply single_changes_In in H2.
      destruct (Hu _ _ _ _ _ H1 H2) as [-> ->]. reflexivity. }
    assert (HnN : NoDup (kids_of CNew chs)).
    { apply Hkid. intros p k p' k' c H1 H2. apply Hspec in H1. apply Hspec in H2.
      destruct H1 as (R1 & N1 & _). destruct H2 as (R2 & N2 & _). eapply Htree; eauto. }
    assert (HnY : NoDup (kids_of CDirty chs)).
    { apply Hkid. intros p k p' k' c H1 H2. apply Hspec in H1. apply Hspec in H2.
      destruct H1 as (R1 & N1 & _). destruct H2 as (R2 & N2 & _). eapply Htree; eauto. }
    assert (HnD : NoDup (kids_of CDelete chs)).
    { apply Hkid. intros p k p' k' c H1 H2. apply Hspec in H1. apply Hspec in H2.
      destruct H1 as (R1 & _ & N1 & _). destruct H2 as (R2 & _ & N2 & _). eapply Hbefore; eauto. }
    split.
    - intros [_ _ _ O4] p k e p' k' Hp Hk He Hnew.
      assert (Hex : exists ch, In ch chs /\ ch_type ch = CDelete /\ ch_parent ch = p /\ ch_key ch = k /\ In e (ch_kids ch)).
      { apply Hspec. split; auto. apply deleted_In in He. rewrite (kids_at_now kids pl ok), (snap_kids_was kids pl ok) in He. tauto. }
      destruct Hex as (ch & H1 & H2 & H3 & H4 & H5).
      destruct (entityDiff_delete_kids fuel root chs H ch H1 H2) as (E & _). rewrite H3, H4 in E. rewrite <- E.
      apply O4; auto. apply kids_of_reported. exists p', k'. now apply Hspec.
    - intros Htail. constructor; auto.
      + apply NoDup_app_iff. split; auto. split; auto. intros e H1 H2.
        apply kids_of_reported in H1. apply kids_of_reported in H2.
        destruct H1 as (p & k & H1). destruct H2 as (p' & k' & H2). apply Hspec in H1. apply Hspec in H2.
        destruct H1 as (R1 & N1 & W1). destruct H2 as (R2 & N2 & W2 & _).
        destruct (Htree _ _ _ _ _ R1 R2 N1 N2) as [-> ->]. tauto.
      + intros e H1 H2. apply kids_of_reported in H1. apply kids_of_reported in H2.
        destruct H1 as (p & k & H1). destruct H2 as (p' & k' & H2). apply Hspec in H1. apply Hspec in H2.
        destruct H1 as (R1 & N1 & W1 & _). destruct H2 as (R2 & _ & W2 & N2).
        destruct (Hbefore _ _ _ _ _ W1 W2) as [-> ->]. tauto.
      + intros ch e H1 H2 H3 H4.
        destruct (entityDiff_delete_kids fuel root chs H ch H1 H2) as (E & E1 & E2). rewrite E in H3 |- *.
        apply kids_of_reported in H4. destruct H4 as (p' & k' & H4). apply Hspec in H4. eapply Htail; eauto.
  Qed.
End Top.

(* ---------------------------------------------------------------- traversal *)
Section WalkProof.
  Variables (ord : map_order) (kids : ptr -> list (key * list ptr)).
  Hypothesis Hord : order_ok ord.

  Lemma ord_child p k l c : In (k, l) (ord p (kids p)) -> In c l -> now_child kids p k c.
  Proof. intros H Hc. exists l. split; auto. eapply Permutation_in; [apply Hord|exact H]. Qed.
  Lemma child_ord p k c : now_child kids p k c -> exists l, In (k, l) (ord p (kids p)) /\ In c l.
  Proof. intros (l & H & Hc). exists l. split; auto. eapply Permutation_in; [symmetry; apply Hord|exact H]. Qed.

  Lemma walk_reach fuel : forall p par l, walk ord kids fuel p par = Some l ->
    forall q, In q (map fst l) <-> reach kids p q.
  Proof.
    induction fuel as [|n IH]; cbn; [discriminate|]. intros p par l H q.
    destruct (mconcat _ _) as [l'|] eqn:E; [|discriminate]. injection H as <-. cbn. split.
    - intros [<-|Hq]; [constructor|]. apply in_map_iff in Hq. destruct Hq as ([q' pq] & <- & Hq).
      rewrite (mconcat_In _ _ _ E) in Hq. destruct Hq as ([k cs] & y & Hk & Hy & Hq). cbn in Hy.
      rewrite (mconcat_In _ _ _ Hy) in Hq. destruct Hq as (c & z & Hc & Hz & Hq).
      eapply reach_step; [eapply ord_child; eauto|]. eapply IH; eauto. cbn. apply in_map_iff. exists (q', pq); auto.
    - intros Hr. inversion Hr as [|? k c ? Hc Hr']; subst; [auto|]. right.
      destruct (child_ord _ _ _ Hc) as (cs & Hk & Hin).
      destruct (mconcat_Some_each _ _ _ E (k, cs) Hk) as [y Hy]. cbn in Hy.
      destruct (mconcat_Some_each _ _ _ Hy c Hin) as [z Hz].
      assert (Hq := proj2 (IH _ _ _ Hz q) Hr'). apply in_map_iff in Hq. destruct Hq as (pr & <- & Hq).
      apply in_map. rewrite (mconcat_In _ _ _ E). exists (k, cs), y. split; auto. split; auto.
      rewrite (mconcat_In _ _ _ Hy). exists c, z. auto.
  Qed.

  (** who is the parent *)
  Lemma walk_parent fuel : forall p par l, walk ord kids fuel p par = Some l ->
    forall q pq, In (q, pq) l -> (q = p /\ pq = par) \/ exists r k, pq = Some r /\ reach kids p r /\ now_child kids r k q.
  Proof.
    induction fuel as [|n IH]; cbn; [discriminate|]. intros p par l H q pq.
    destruct (mconcat _ _) as [l'|] eqn:E; [|discriminate]. injection H as <-. cbn.
    intros [[= <- <-]|Hq]; [auto|]. right.
    rewrite (mconcat_In _ _ _ E) in Hq. destruct Hq as ([k cs] & y & Hk & Hy & Hq). cbn in Hy.
    rewrite (mconcat_In _ _ _ Hy) in Hq. destruct Hq as (c & z & Hc & Hz & Hq).
    destruct (IH _ _ _ Hz _ _ Hq) as [[-> ->]|(r & k' & -> & Hr & Hq')].
    - exists p, k. split; auto. split; [constructor|]. eapply ord_child; eauto.
    - exists r, k'. split; auto. split; auto. eapply reach_step; [eapply ord_child; eauto|exact Hr].
  Qed.
  (** every edge is visited *)
  Lemma walk_edges fuel : forall p par l, walk ord kids fuel p par = Some l ->
    forall r k q, reach kids p r -> now_child kids r k q -> In (q, Some r) l.
  Proof.
    induction fuel as [|n IH]; cbn; [discriminate|]. intros p par l H r k q Hr Hq.
    destruct (mconcat _ _) as [l'|] eqn:E; [|discriminate]. injection H as <-. right.
    inversion Hr as [|? k1 c ? Hc Hr']; subst.
    - destruct (child_ord _ _ _ Hq) as (cs & Hk & Hin).
      destruct (mconcat_Some_each _ _ _ E (k, cs) Hk) as [y Hy]. cbn in Hy.
      destruct (mconcat_Some_each _ _ _ Hy q Hin) as [z Hz].
      rewrite (mconcat_In _ _ _ E). exists (k, cs), y. split; auto. split; auto.
      rewrite (mconcat_In _ _ _ Hy). exists q, z. split; auto. split; auto.
      destruct n; [discriminate|]. cbn in Hz. destruct (mconcat _ _) in Hz; [|discriminate]. injection Hz as <-. now left.
    - destruct (child_ord _ _ _ Hc) as (cs & Hk & Hin).
      destruct (mconcat_Some_each _ _ _ E (k1, cs) Hk) as [y Hy]. cbn in Hy.
      destruct (mconcat_Some_each _ _ _ Hy c Hin) as [z Hz].
      rewrite (mconcat_In _ _ _ E). exists (k1, cs), y. split; auto. split; auto.
      rewrite (mconcat_In _ _ _ Hy). exists c, z. split; auto. split; auto. eapply IH; eauto.
  Qed.

  (** parents first: every visit with parent [r] comes after a visit of [r] *)
  Definition parents_first (seen : list ptr) (l : list (ptr * option ptr)) : Prop :=
    forall l1 q r l2, l = l1 ++ (q, Some r) :: l2 -> In r seen \/ In r (map fst l1).
  Lemma parents_first_app seen a b : parents_first seen a -> parents_first (seen ++ map fst a) b -> parents_first seen (a ++ b).
  Proof.
    intros Ha Hb l1 q r l2 E.
    assert (Hcase : (exists t, a = l1 ++ (q, Some r) :: t) \/ (exists l1', l1 = a ++ l1' /\ b = l1' ++ (q, Some r) :: l2)).
    { clear Ha Hb. revert l1 E. induction a as [|x a IH]; intros l1 E; [right; exists l1; auto|].
      destruct l1 as [|y l1]; cbn in E; injection E as -> E; [left; exists a; reflexivity|].
      destruct (IH _ E) as [(t & ->)|(l1' & -> & ->)]; [left; exists t; auto|right; exists l1'; auto]. }
    destruct Hcase as [(t & ->)|(l1' & -> & ->)].
    - eapply Ha; eauto.
    - destruct (Hb l1' q r l2 eq_refl) as [H|H]; rewrite ?in_app_iff in *; [|rewrite map_app, in_app_iff; tauto].
      rewrite map_app, in_app_iff. tauto.
  Qed.
  Lemma parents_first_mono seen seen' l : incl seen seen' -> parents_first seen l -> parents_first seen' l.
  Proof. intros Hi H l1 q r l2 E. destruct (H _ _ _ _ E); auto. Qed.

  Lemma parents_first_mconcat {A} (f : A -> option (list (ptr * option ptr))) seen : forall xs r,
    (forall x y, In x xs -> f x = Some y -> parents_first seen y) -> mconcat f xs = Some r -> parents_first seen r.
  Proof.
    induction xs as [|x xs IH]; cbn; intros r Hf H.
    - injection H as <-. intros [|] ? ? ? E; discriminate.
    - destruct (f x) as [y|] eqn:E; [|discriminate]. destruct (mconcat f xs) as [r'|]; [|discriminate].
      injection H as <-. apply parents_first_app; [eapply Hf; eauto|].
      eapply parents_first_mono; [|apply IH; auto; intros; eapply Hf; eauto]. apply incl_appl, incl_refl.
  Qed.

  Lemma walk_parents_first fuel : forall p par l seen, walk ord kids fuel p par = Some l ->
    (forall r, par = Some r -> In r seen) -> parents_first seen l.
  Proof.
    induction fuel as [|n IH]; cbn; [discriminate|]. intros p par l seen H Hpar.
    destruct (mconcat _ _) as [l'|] eqn:E; [|discriminate]. injection H as <-.
    change ((p, par) :: l') with ([(p, par)] ++ l'). apply parents_first_app.
    - intros [|? [|]] q r l2 Eq; try discriminate. injection Eq as -> -> _. left. auto.
    - cbn. eapply parents_first_mconcat; [|exact E]. intros [k cs] y Hk Hy. cbn in Hy.
      eapply parents_first_mconcat; [|exact Hy]. intros c z Hc Hz. cbv beta in Hz.
      eapply IH; eauto. intros r [= <-]. apply in_app_iff. right. now left.
  Qed.

  Lemma walk_terminates p : acyclic_from kids p -> exists fuel, forall par, exists l, walk ord kids fuel p par = Some l.
  Proof.
    intros [rank Hrank].
    assert (Hgen : forall n q, reach kids p q -> rank q < n -> forall par, exists l, walk ord kids n q par = Some l).
    { induction n as [|n IH]; [lia|]. intros q Hq Hr par. cbn.
      destruct (mconcat_all (fun kc => mconcat (fun c => walk ord kids n c (Some q)) (snd kc)) (ord q (kids q))) as [l ->]; [|eauto].
      intros [k cs] Hk. apply mconcat_all. cbn. intros c Hc.
      assert (Hn : now_child kids q k c) by (eapply ord_child; eauto).
      apply IH; [eapply reach_trans; [exact Hq|eapply reach_one; eauto]|]. specialize (Hrank q k c Hq Hn). lia. }
    exists (S (rank p)). intros par. apply Hgen; [constructor|lia].
  Qed.

  Lemma walk_sub fuel : forall p par l, walk ord kids fuel p par = Some l -> forall k c, now_child kids p k c ->
    exists n l', fuel = S n /\ walk ord kids n c (Some p) = Some l'.
  Proof.
    destruct fuel as [|n]; cbn; [discriminate|]. intros p par l H k c Hc.
    destruct (mconcat _ _) as [l'|] eqn:E; [|discriminate].
    destruct (child_ord _ _ _ Hc) as (cs & Hk & Hin).
    destruct (mconcat_Some_each _ _ _ E (k, cs) Hk) as [y Hy]. cbn in Hy.
    destruct (mconcat_Some_each _ _ _ Hy c Hin) as [z Hz]. eauto.
  Qed.
  Lemma walk_fuel_irr fuel p par par' l : walk ord kids fuel p par = Some l -> exists l', walk ord kids fuel p par' = Some l'.
  Proof. destruct fuel; cbn; [discriminate|]. destruct (mconcat _ _); [eauto|discriminate]. Qed.

  Lemma walk_below fuel : forall p par l q, walk ord kids fuel p par = Some l -> reach kids p q ->
    exists n l', n <= fuel /\ walk ord kids n q None = Some l'.
  Proof.
    induction fuel as [|n IH]; [discriminate|]. intros p par l q H Hr.
    inversion Hr as [|? k c ? Hc Hr']; subst.
    - destruct (walk_fuel_irr _ _ _ None _ H) as [l' H']. exists (S n), l'. auto.
    - destruct (walk_sub _ _ _ _ H _ _ Hc) as (n' & l' & [= <-] & Hw).
      destruct (IH _ _ _ _ Hw Hr') as (n'' & l'' & Hle & Hw'). exists n'', l''. split; auto.
  Qed.

  Lemma walk_diverges p q : reach kids p q -> on_cycle kids q -> forall fuel par, walk ord kids fuel p par = None.
  Proof.
    intros Hr (k & c & Hc & Hback) fuel par.
    assert (Hno : forall n l, walk ord kids n q None = Some l -> False).
    { induction n as [n IHn] using (well_founded_induction lt_wf). intros l H.
      destruct (walk_sub _ _ _ _ H _ _ Hc) as (n' & l' & -> & Hw).
      destruct (walk_below _ _ _ _ _ Hw Hback) as (n'' & l'' & Hle & Hw').
      eapply (IHn n''); [lia|exact Hw']. }
    destruct (walk ord kids fuel p par) as [l|] eqn:E; [|reflexivity]. exfalso.
    destruct (walk_below _ _ _ _ _ E Hr) as (n & l' & _ & Hw). eauto.
  Qed.

  (* -------------------------------------------------------------- recursive delete *)
  Theorem recursiveDelete_spec fuel chs out : recursiveDelete ord kids fuel chs = Some out ->
    forall t p k e, reported out t p k e <->
      reported chs t p k e \/
      (t = CDelete /\ now_child kids p k e /\ exists d p0 k0, reported chs CDelete p0 k0 d /\ reach kids d p).
  Proof.
    unfold recursiveDelete. destruct (mconcat _ _) as [extra|] eqn:E; [|discriminate].
    intros [= <-] t p k e. rewrite rep_app. apply or_iff_compat_l.
    unfold reported at 1. split.
    - intros (ch & Hch & Ht & Hp & Hk & He).
      rewrite (mconcat_In _ _ _ E) in Hch. destruct Hch as (item & y & Hitem & Hy & Hch).
      unfold is_delete in Hy. destruct (ch_type item) eqn:Et; try (injection Hy as <-; destruct Hch).
      rewrite (mconcat_In _ _ _ Hy) in Hch. destruct Hch as (d & z & Hd & Hz & Hch).
      destruct (walk ord kids fuel d (Some (ch_parent item))) as [vis|] eqn:Ew; [|discriminate].
      injection Hz as <-. apply in_flat_map in Hch. destruct Hch as ([q pq] & Hq & Hch). cbn in Hch.
      apply in_map_iff in Hch. destruct Hch as ([k' l] & <- & Hkl). cbn in *. subst t p k.
      split; auto. split; [eapply ord_child; eauto|]. exists d, (ch_parent item), (ch_key item).
      split; [exists item; auto|]. apply (walk_reach _ _ _ _ Ew). apply in_map_iff. exists (q, pq). auto.
    - intros (-> & Hn & d & p0 & k0 & (item & H1 & H2 & H3 & H4 & H5) & Hr).
      destruct (mconcat_Some_each _ _ _ E item H1) as [y Hy]. cbv beta in Hy.
      assert (Hy' := Hy). unfold is_delete in Hy'. rewrite H2 in Hy'.
      destruct (mconcat_Some_each _ _ _ Hy' d H5) as [z Hz]. cbv beta in Hz.
      destruct (walk ord kids fuel d (Some (ch_parent item))) as [vis|] eqn:Ew; [|discriminate].
      destruct (child_ord _ _ _ Hn) as (l & Hkl & Hin).
      exists (mkChange CDelete p k l). split; [|cbn; auto].
      rewrite (mconcat_In _ _ _ E). exists item, y. split; auto. split; auto.
      rewrite (mconcat_In _ _ _ Hy'). exists d, z. split; auto. cbv beta. rewrite Ew. split; auto.
      injection Hz as <-. apply in_flat_map.
      apply (walk_reach _ _ _ _ Ew) in Hr. apply in_map_iff in Hr. destruct Hr as ([q pq] & Eq & Hq). cbn in Eq. subst q.
      exists (p, pq). split; auto. cbn. apply in_map_iff. exists (k, l). auto.
  Qed.
End WalkProof.

(* ---------------------------------------------------------------- child discovery *)
Lemma fields_children_spec fs : forall acc k l, NoDup (map fst acc) ->
  (In (k, l) (fields_children fs acc) <->
   In (k, l) acc \/ (~ In k (map fst acc) /\ exists f1 f f2, fs = f1 ++ f :: f2 /\ f_name f = k /\ field_children f = Some l /\
      forall g, In g f1 -> f_name g = k -> field_children g = None)).
Proof.
  induction fs as [|f fs IH]; cbn; intros acc k l Hnd.
  - split; [auto|]. intros [H|(_ & f1 & f & f2 & E & _)]; auto. destruct f1; discriminate.
  - destruct (assoc (f_name f) acc) as [v|] eqn:Ea.
    + rewrite IH by auto. apply or_iff_compat_l.
      assert (Hin : In (f_name f) (map fst acc)).
      { apply assoc_In in Ea. apply in_map_iff. exists (f_name f, v). auto. }
      split; intros (Hn & f1 & g & f2 & E & Hg & Hc & Hb); split; auto.
      * exists (f :: f1), g, f2. split; [now rewrite E|]. split; auto. split; auto.
        intros g' [<-|Hg'] Hk; [congruence|auto].
      * destruct f1 as [|g' f1]; injection E as -> E; [congruence|]. exists f1, g, f2. split; auto. split; auto. split; auto.
        intros; apply Hb; auto. now right.
    + apply assoc_None in Ea. destruct (field_children f) as [v|] eqn:Ef.
      * rewrite IH; [|rewrite map_app; cbn; apply NoDup_app_iff; repeat split; auto; [repeat constructor; auto|intros x Hx [<-|[]]; auto]].
        rewrite in_app_iff, map_app, in_app_iff. cbn. split.
        -- intros [[H|[[= <- <-]|[]]]|(Hn & f1 & g & f2 & E & Hg & Hc & Hb)]; auto.
           ++ right. split; auto. exists [], f, fs. split; auto. split; auto. split; auto. intros g [].
           ++ right. split; [tauto|]. exists (f :: f1), g, f2. split; [now rewrite E|]. split; auto. split; auto.
              intros g' [<-|Hg'] Hk; [|auto]. exfalso. apply Hn. auto.
        -- intros [H|(Hn & f1 & g & f2 & E & Hg & Hc & Hb)]; auto.
           destruct f1 as [|g' f1]; injection E as -> E.
           ++ left. right. left. congruence.
           ++ destruct (string_dec (f_name g') k) as [Hk|Hk].
              ** rewrite (Hb g' (or_introl eq_refl) Hk) in Ef. discriminate.
              ** right. split; [intros [|[|[]]]; auto|]. exists f1, g, f2. split; auto. split; auto. split; auto.
                 intros; apply Hb; auto. now right.
      * rewrite IH by auto. apply or_iff_compat_l. split; intros (Hn & f1 & g & f2 & E & Hg & Hc & Hb); split; auto.
        -- exists (f :: f1), g, f2. split; [now rewrite E|]. split; auto. split; auto. intros g' [<-|Hg'] Hk; auto.
        -- destruct f1 as [|g' f1]; injection E as -> E; [congruence|]. exists f1, g, f2. split; auto. split; auto. split; auto.
           intros; apply Hb; auto. now right.
Qed.

(* ---------------------------------------------------------------- container *)
Inductive cop := OpAdd (r : ptr) | OpRemove (r : ptr).
Definition cstep (c : container) (o : cop) : container :=
  match o with
  | OpAdd r => match cont_add c r with Some c' => c' | None => c end
  | OpRemove r => match cont_remove c r with Some c' => c' | None => c end
  end.
Lemma filter_neq_len r l : length (filter (fun x => negb (Nat.eqb x r)) l) = length l <-> ~ In r l.
Proof.
  split.
  - intros H. apply filter_full in H. intros Hin. rewrite <- H in Hin. apply filter_In in Hin.
    destruct Hin as [_ Hin]. now rewrite Nat.eqb_refl in Hin.
  - intros H. rewrite filter_id; auto. intros x Hx. apply negb_true_iff, Nat.eqb_neq. congruence.
Qed.
Lemma cont_add_spec c r : cont_add c r = if memb r (ct_roots c) then None else Some (mkCont (ct_roots c ++ [r]) (ct_deleted c)).
Proof. reflexivity. Qed.
Lemma cont_remove_spec c r : 
  (In r (ct_roots c) -> exists c', cont_remove c r = Some c' /\ (forall x, In x (ct_roots c') <-> In x (ct_roots c) /\ x <> r) /\
      ct_deleted c' = ct_deleted c ++ [r]) /\
  (~ In r (ct_roots c) -> cont_remove c r = None).
Proof.
  unfold cont_remove. split; intros H.
  - destruct (Nat.eqb_spec (length (filter (fun x => negb (Nat.eqb x r)) (ct_roots c))) (length (ct_roots c))) as [E|E].
    + apply filter_neq_len in E. tauto.
    + eexists. split; [reflexivity|]. cbn. split; auto. intros x. rewrite filter_In, negb_true_iff, Nat.eqb_neq. tauto.
  - apply filter_neq_len in H. rewrite H, Nat.eqb_refl. reflexivity.
Qed.
Lemma cstep_nodup c o : NoDup (ct_roots c) -> NoDup (ct_roots (cstep c o)).
Proof.
  intros H. destruct o as [r|r]; cbn.
  - unfold cont_add. destruct (memb r (ct_roots c)) eqn:E; auto. cbn. apply memb_nIn in E.
    apply NoDup_app_iff. repeat split; auto; [repeat constructor; auto|]. intros x Hx [<-|[]]; auto.
  - unfold cont_remove. destruct (Nat.eqb _ _); auto. cbn. now apply NoDup_filter.
Qed.
Lemma cont_run_nodup ops c : NoDup (ct_roots c) -> NoDup (ct_roots (fold_left cstep ops c)).
Proof. revert c; induction ops as [|o t IH]; cbn; auto using cstep_nodup. Qed.

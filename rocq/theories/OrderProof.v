(** Order of inserts: a created entity is reported before what is created below it. *)
From Verif Require Export EngineProof11 OrderSpec GraphProof3 MoveProof.
From Verif Require Import EngineModel.

Lemma comes_app_l {A} (a b : list A) x y : comes_before a x y -> comes_before (a ++ b) x y.
Proof. intros (l1 & l2 & l3 & ->). exists l1, l2, (l3 ++ b). rewrite <- !app_assoc; cbn. now rewrite <- app_assoc. Qed.
Lemma comes_app_r {A} (a b : list A) x y : comes_before b x y -> comes_before (a ++ b) x y.
Proof. intros (l1 & l2 & l3 & ->). exists (a ++ l1), l2, l3. now rewrite <- app_assoc. Qed.
Lemma comes_app_mid {A} (a b : list A) x y : In x a -> In y b -> comes_before (a ++ b) x y.
Proof.
  intros Hx Hy. apply in_split in Hx. apply in_split in Hy. destruct Hx as (a1 & a2 & ->), Hy as (b1 & b2 & ->).
  exists a1, (a2 ++ b1), b2. now rewrite <- !app_assoc.
Qed.
Lemma comes_mconcat {A B} (f : A -> option (list B)) l r x z a b : mconcat f l = Some r -> In x l -> f x = Some z -> comes_before z a b -> comes_before r a b.
Proof.
  revert r. induction l as [|y t IH]; cbn; intros r H Hin Hz Hc; [tauto|].
  destruct (f y) as [u|] eqn:E; [|discriminate]. destruct (mconcat f t) as [v|]; [|discriminate]. injection H as <-.
  destruct Hin as [<-|Hin]; [rewrite E in Hz; injection Hz as ->; now apply comes_app_l|]. apply comes_app_r. eauto.
Qed.
Lemma comes_filter {A} (f : A -> bool) l x y : comes_before l x y -> f x = true -> f y = true -> comes_before (filter f l) x y.
Proof.
  intros (l1 & l2 & l3 & ->) Hx Hy. rewrite filter_app. cbn. rewrite Hx, filter_app. cbn. rewrite Hy. now exists (filter f l1), (filter f l2), (filter f l3).
Qed.
Lemma comes_map {A B} (f : A -> B) l x y : comes_before l x y -> comes_before (map f l) (f x) (f y).
Proof. intros (l1 & l2 & l3 & ->). exists (map f l1), (map f l2), (map f l3). now rewrite map_app; cbn; rewrite map_app. Qed.
Lemma comes_flat {A B} (f : A -> list B) l x y a b : comes_before l x y -> In a (f x) -> In b (f y) -> comes_before (flat_map f l) a b.
Proof.
  intros (l1 & l2 & l3 & ->) Ha Hb. rewrite flat_map_app. cbn. rewrite flat_map_app. cbn.
  apply comes_app_r. apply comes_app_mid; auto. apply in_app_iff. right. apply in_app_iff. now left.
Qed.

Section Raw.
  Variables (kids : ptr -> list (key * list ptr)) (dirty : ptr -> bool) (pl : pool).
  Notation item p k := (mkChange CNew p k (created_of kids pl p k)).

  Lemma one_change_item p k c : In c (created_of kids pl p k) -> In (item p k) (one_change CNew p k (created_of kids pl p k)).
  Proof. destruct (created_of kids pl p k); [intros []|now left]. Qed.
  Lemma diff_item n p chs k c : entityDiff kids dirty pl n p = Some chs -> In c (created_of kids pl p k) -> In k (isort str_leb (map fst (kids p))) -> In (item p k) chs.
  Proof.
    destruct n as [|n]; cbn; [discriminate|]. intros H Hc Hk. apply (mconcat_In _ _ _ H). destruct (mconcat_Some_each _ _ _ H k Hk) as [y Hy]. exists k, y.
    split; auto. split; auto. destruct (mconcat _ (created_of kids pl p k)); [|discriminate]. destruct (mconcat _ (remain_of _ _ _ _)); [|discriminate].
    injection Hy as <-. apply in_app_iff. left. eapply one_change_item; eauto.
  Qed.
  (** every New item lists exactly what is new in that child list *)
  Lemma diff_new_kids n : forall p chs ch, entityDiff kids dirty pl n p = Some chs -> In ch chs -> ch_type ch = CNew ->
    ch = item (ch_parent ch) (ch_key ch) /\ In (ch_key ch) (isort str_leb (map fst (kids (ch_parent ch)))).
  Proof.
    induction n as [|n IH]; cbn; [discriminate|]. intros p chs ch H Hin Ht. apply (mconcat_In _ _ _ H) in Hin. destruct Hin as (k & y & Hk & Hy & Hin).
    destruct (mconcat _ (created_of kids pl p k)) as [sc|] eqn:Ec; [|discriminate]. destruct (mconcat _ (remain_of _ _ _ _)) as [sr|] eqn:Er; [|discriminate].
    injection Hy as <-. rewrite !in_app_iff in Hin. destruct Hin as [Hin|[Hin|[Hin|[Hin|Hin]]]].
    - unfold one_change in Hin. destruct (created_of kids pl p k) eqn:E; [destruct Hin|]. destruct Hin as [<-|[]]. cbn. rewrite E. auto.
    - apply (mconcat_In _ _ _ Ec) in Hin. destruct Hin as (x & z & _ & Hz & Hin). eauto.
    - unfold one_change in Hin. destruct (filter _ _); [destruct Hin|]. destruct Hin as [<-|[]]. discriminate.
    - apply (mconcat_In _ _ _ Er) in Hin. destruct Hin as (x & z & _ & Hz & Hin). eauto.
    - unfold one_change in Hin. destruct (deleted_of _ _ _ _); [destruct Hin|]. destruct Hin as [<-|[]]. discriminate.
  Qed.
  Lemma diff_parent_first n : forall p chs g kg q k c, entityDiff kids dirty pl n p = Some chs ->
    In (item g kg) chs -> In q (created_of kids pl g kg) -> In c (created_of kids pl q k) -> In k (isort str_leb (map fst (kids q))) ->
    comes_before chs (item g kg) (item q k).
  Proof.
    induction n as [|n IH]; cbn; [discriminate|]. intros p chs g kg q k c H Hin Hq Hc Hk. apply (mconcat_In _ _ _ H) in Hin. destruct Hin as (k0 & y & Hk0 & Hy & Hin).
    eapply comes_mconcat; [exact H|exact Hk0|exact Hy|]. clear H Hk0.
    destruct (mconcat _ (created_of kids pl p k0)) as [sc|] eqn:Ec; [|discriminate]. destruct (mconcat _ (remain_of _ _ _ _)) as [sr|] eqn:Er; [|discriminate].
    injection Hy as <-. rewrite !in_app_iff in Hin. destruct Hin as [Hin|[Hin|[Hin|[Hin|Hin]]]].
    - assert (E : p = g /\ k0 = kg). { unfold one_change in Hin. destruct (created_of kids pl p k0); [destruct Hin|]. destruct Hin as [[= -> -> _]|[]]. auto. }
      destruct E as [-> ->]. apply comes_app_mid; [exact Hin|]. apply in_app_iff. left. apply (mconcat_In _ _ _ Ec).
      destruct (mconcat_Some_each _ _ _ Ec q Hq) as [z Hz]. exists q, z. split; auto. split; auto. eapply diff_item; eauto.
    - apply comes_app_r, comes_app_l. apply (mconcat_In _ _ _ Ec) in Hin. destruct Hin as (x & z & Hx & Hz & Hin).
      eapply comes_mconcat; [exact Ec|exact Hx|exact Hz|]. eauto.
    - unfold one_change in Hin. destruct (filter _ _); [destruct Hin|]. destruct Hin as [X|[]]. discriminate.
    - do 3 apply comes_app_r. apply comes_app_l. apply (mconcat_In _ _ _ Er) in Hin. destruct Hin as (x & z & Hx & Hz & Hin).
      eapply comes_mconcat; [exact Er|exact Hx|exact Hz|]. eauto.
    - unfold one_change in Hin. destruct (deleted_of _ _ _ _); [destruct Hin|]. destruct Hin as [X|[]]. discriminate.
  Qed.
End Raw.

Definition is_new (ch : change) : bool := ct_eqb (ch_type ch) CNew.
Lemma insert_new x l : filter is_new (insert_by ct_leb x l) = filter is_new (x :: l) .
Proof.
  induction l as [|y t IH]; [reflexivity|]. cbn [insert_by]. destruct (ct_leb x y) eqn:E; [reflexivity|].
  assert (Hx : is_new x = false). { unfold ct_leb in E. apply Bool.negb_false_iff, Nat.ltb_lt in E. unfold is_new. destruct (ch_type x); cbn in *; [lia|reflexivity..]. }
  cbn [filter] in *. rewrite Hx in *. now rewrite IH.
Qed.
Lemma isort_new l : filter is_new (isort ct_leb l) = filter is_new l.
Proof. induction l as [|x t IH]; [reflexivity|]. cbn [isort]. rewrite insert_new. cbn [filter]. now rewrite IH. Qed.

Definition stripped (S : list change) : change -> change := strip S [] (kids_of CDelete S).
Lemma move_out_new S : filter is_new (move_out S) = map (stripped S) (filter is_new S).
Proof.
  unfold move_out. rewrite filter_app.
  replace (filter is_new (flat_map _ _)) with (@nil change).
  2:{ symmetry. induction (kids_of CDelete S) as [|e t IH]; [reflexivity|]. cbn. rewrite filter_app, IH, app_nil_r. unfold extra_of. destruct (find _ _); reflexivity. }
  rewrite app_nil_r. fold (stripped S). assert (Hf : forall x, is_new (stripped S x) = is_new x) by reflexivity. revert Hf. generalize (stripped S). intros f Hf.
  induction S as [|x t IH]; [reflexivity|]. cbn [map filter]. rewrite Hf. destruct (is_new x); cbn [map]; now rewrite IH.
Qed.
Lemma recursive_new ord kids n chs r : recursiveDelete ord kids n chs = Some r -> filter is_new r = filter is_new chs.
Proof.
  unfold recursiveDelete. destruct (mconcat _ chs) as [extra|] eqn:E; [|discriminate]. intros [= <-]. rewrite filter_app.
  replace (filter is_new extra) with (@nil change); [apply app_nil_r|]. symmetry.
  assert (X : forall ch, In ch extra -> is_new ch = false).
  { intros ch H. apply (mconcat_In _ _ _ E) in H. destruct H as (it & y & _ & Hy & H). destruct (is_delete it); [|injection Hy as <-; destruct H].
    apply (mconcat_In _ _ _ Hy) in H. destruct H as (c & z & _ & Hz & H). destruct (walk _ _ _ _ _); [|discriminate]. injection Hz as <-.
    apply in_flat_map in H. destruct H as (ep & _ & H). apply in_map_iff in H. destruct H as (kc & <- & _). reflexivity. }
  clear E. induction extra as [|a t IH]; [reflexivity|]. cbn. rewrite (X a) by now left. apply IH. intros ch H. apply X. now right.
Qed.

(** Among the reported creations, those of a created entity's children come after the entity. *)
Lemma changed_parent_first rec ord h roots dirty pl n chs g kg q k c : go_maps h pl ->
  getEntityChanged rec ord (findChildren h roots) dirty pl n = ROk chs ->
  reported chs CNew g kg q -> reported chs CNew q k c ->
  exists i1 i2, comes_before (filter is_new chs) i1 i2 /\ ch_parent i1 = g /\ In q (ch_kids i1) /\ ch_parent i2 = q /\ In c (ch_kids i2).
Proof.
  intros Hm H. set (kids := findChildren h roots) in *. unfold getEntityChanged in H. destruct (entityDiff kids dirty pl n meta) as [raw|] eqn:Er; [|discriminate].
  destruct (handleEntityMove raw) as [moved|] eqn:Em; [|discriminate].
  assert (Hn : filter is_new chs = filter is_new moved).
  { destruct rec; [|now injection H as <-]. destruct (recursiveDelete _ _ _ _) eqn:E; [|discriminate]. injection H as <-. eapply recursive_new; eauto. }
  assert (Hshape := entityDiff_shape kids dirty pl n meta raw Er).
  destruct (handleEntityMove_exact raw) as [He1 He2]; [intros ch Hc; now apply Hshape|intros ch Hc; now apply Hshape|].
  rewrite (He1 (He2 _ Em)) in Em. injection Em as <-. rewrite move_out_new, isort_new in Hn. set (S := isort ct_leb raw) in *.
  assert (X : forall t' g' k' q', reported chs CNew g' k' q' -> t' = CNew -> exists ch, In ch raw /\ ch_type ch = CNew /\ ch_parent ch = g' /\ ch_key ch = k' /\ In q' (ch_kids (stripped S ch))).
  { intros t' g' k' q' (ch & A & B & C & D & F) _. assert (G : In ch (filter is_new chs)) by (apply filter_In; split; auto; unfold is_new; now rewrite B).
    rewrite Hn in G. apply in_map_iff in G. destruct G as (ch0 & <- & G). apply filter_In in G. destruct G as [G1 G2]. exists ch0. split; auto. }
  intros R1 R2. destruct (X CNew _ _ _ R1 eq_refl) as (c1 & A1 & B1 & C1 & D1 & F1). destruct (X CNew _ _ _ R2 eq_refl) as (c2 & A2 & B2 & C2 & D2 & F2).
  destruct (diff_new_kids kids dirty pl n meta raw c1 Er A1 B1) as [E1 _]. destruct (diff_new_kids kids dirty pl n meta raw c2 Er A2 B2) as [E2 K2].
  assert (Sub : forall ch e, ch_type ch = CNew -> In e (ch_kids (stripped S ch)) -> In e (ch_kids ch)).
  { intros ch e Ht He. unfold stripped, strip in He. cbn in He. rewrite Ht in He. now apply filter_In in He. }
  assert (Q1 := Sub _ _ B1 F1). assert (Q2 := Sub _ _ B2 F2). rewrite C1, D1 in E1. rewrite C2, D2 in E2, K2.
  rewrite E1 in Q1, A1. rewrite E2 in Q2. cbn in Q1, Q2.
  assert (CB := diff_parent_first kids dirty pl n meta raw g kg q k c Er A1 Q1 Q2 K2).
  exists (stripped S c1), (stripped S c2). split.
  - rewrite Hn. apply comes_map. rewrite E1, E2. apply comes_filter; [exact CB|reflexivity..].
  - auto.
Qed.

Lemma new_first rec ord h roots dirty pl n chs : getEntityChanged rec ord (findChildren h roots) dirty pl n = ROk chs ->
  exists rest, chs = filter is_new chs ++ rest /\ forall ch, In ch rest -> is_new ch = false.
Proof.
  set (kids := findChildren h roots). unfold getEntityChanged. destruct (entityDiff kids dirty pl n meta) as [raw|] eqn:Er; [|discriminate].
  destruct (handleEntityMove raw) as [moved|] eqn:Em; [|discriminate].
  assert (Hshape := entityDiff_shape kids dirty pl n meta raw Er).
  destruct (handleEntityMove_exact raw) as [He1 He2]; [intros ch Hc; now apply Hshape|intros ch Hc; now apply Hshape|].
  rewrite (He1 (He2 _ Em)) in Em. injection Em as <-.
  assert (Part : forall l, StronglySorted (fun a b => ct_leb a b = true) l -> exists r, l = filter is_new l ++ r /\ forall ch, In ch r -> is_new ch = false).
  { intros l Hl. induction Hl as [|x t Ht IH Hx]. { exists []. split; [reflexivity|intros ch []]. } cbn [filter]. destruct (is_new x) eqn:E.
    - destruct IH as (r & E1 & E2). exists r. split; auto. cbn. now rewrite <- E1.
    - exists (x :: t). assert (Z : forall ch, In ch (x :: t) -> is_new ch = false).
      { intros ch [<-|Hc]; auto. rewrite Forall_forall in Hx. specialize (Hx ch Hc). unfold is_new, ct_leb in *.
        destruct (ch_type x), (ch_type ch); cbn in *; congruence. }
      split; auto. replace (filter is_new t) with (@nil change); auto. symmetry. clear - Z. assert (Z' : forall ch, In ch t -> is_new ch = false) by (intros; apply Z; now right).
      induction t as [|y t IH]; cbn; auto. rewrite (Z' y) by now left. apply IH; intros; apply Z || apply Z'; cbn in *; intuition. }
  destruct (Part (isort ct_leb raw)) as (r & E1 & E2).
  { apply isort_sorted; [intros x y|intros x y z]; unfold ct_leb; destruct (ch_type x), (ch_type y); try destruct (ch_type z); cbn; auto; congruence. }
  set (S := isort ct_leb raw) in *.
  assert (Pm : forall ex, (forall ch, In ch ex -> is_new ch = false) -> exists rest, move_out S ++ ex = filter is_new (move_out S ++ ex) ++ rest /\ forall ch, In ch rest -> is_new ch = false).
  { intros ex Hex. exists (map (stripped S) r ++ flat_map (extra_of S []) (kids_of CDelete S) ++ ex). split.
    - rewrite filter_app, move_out_new. replace (filter is_new ex) with (@nil change).
      2:{ symmetry. clear - Hex. induction ex as [|y t IH]; cbn; auto. rewrite (Hex y) by now left. apply IH. intros; apply Hex; now right. }
      rewrite app_nil_r. unfold move_out. fold (stripped S). rewrite E1 at 2. rewrite map_app, <- !app_assoc. reflexivity.
    - intros ch Hc. rewrite !in_app_iff in Hc. destruct Hc as [Hc|[Hc|Hc]]; auto.
      + apply in_map_iff in Hc. destruct Hc as (ch0 & <- & Hc). now apply E2 in Hc.
      + apply in_flat_map in Hc. destruct Hc as (e & _ & Hc). unfold extra_of in Hc. destruct (find _ _); [|destruct Hc]. destruct Hc as [<-|[]]. reflexivity. }
  destruct rec.
  - destruct (recursiveDelete ord kids n (move_out S)) as [r'|] eqn:E; [|discriminate]. intros [= <-]. assert (E' := E). unfold recursiveDelete in E.
    destruct (mconcat _ (move_out S)) as [extra|]; [|discriminate]. injection E as <-. apply Pm.
    intros ch Hc. apply recursive_new in E'. rewrite filter_app in E'. destruct (is_new ch) eqn:N; auto.
    assert (X : In ch (filter is_new extra)) by (apply filter_In; auto).
    assert (Y : length (filter is_new (move_out S) ++ filter is_new extra) = length (filter is_new (move_out S))) by now rewrite E'.
    rewrite app_length in Y. destruct (filter is_new extra); [destruct X|cbn in Y; lia].
  - intros [= <-]. rewrite <- (app_nil_r (move_out S)). apply Pm. intros ch [].
Qed.

Lemma new_nodup rec ord h roots dirty pl n chs : getEntityChanged rec ord (findChildren h roots) dirty pl n = ROk chs ->
  NoDup (flat_map ch_kids (filter is_new chs)).
Proof.
  set (kids := findChildren h roots). unfold getEntityChanged. destruct (entityDiff kids dirty pl n meta) as [raw|] eqn:Er; [|discriminate].
  destruct (handleEntityMove raw) as [moved|] eqn:Em; [|discriminate]. intros H.
  assert (Hn : filter is_new chs = filter is_new moved).
  { destruct rec; [|now injection H as <-]. destruct (recursiveDelete _ _ _ _) eqn:E; [|discriminate]. injection H as <-. eapply recursive_new; eauto. }
  rewrite Hn. assert (Hshape := entityDiff_shape kids dirty pl n meta raw Er).
  destruct (handleEntityMove_exact raw) as [He1 He2]; [intros ch Hc; now apply Hshape|intros ch Hc; now apply Hshape|].
  assert (Hok := He2 _ Em). rewrite (He1 Hok) in Em. injection Em as <-. rewrite move_out_new, isort_new.
  destruct Hok as [O1 _ _ _]. apply NoDup_app_iff in O1. destruct O1 as (O1 & _). unfold kids_of in O1.
  change (filter (fun ch => ct_eqb (ch_type ch) CNew) raw) with (filter is_new raw) in O1.
  assert (All : forall ch, In ch (filter is_new raw) -> is_new ch = true) by (intros ch Hc; now apply filter_In in Hc).
  revert O1 All. generalize (filter is_new raw). intros l.
  assert (Sub : forall l e, (forall ch, In ch l -> is_new ch = true) -> In e (flat_map ch_kids (map (stripped (isort ct_leb raw)) l)) -> In e (flat_map ch_kids l)).
  { clear. intros l e All He. apply in_flat_map in He. destruct He as (ch & Hc & He). apply in_map_iff in Hc. destruct Hc as (ch0 & <- & Hc).
    apply in_flat_map. exists ch0. split; auto. specialize (All _ Hc). unfold is_new in All. apply ct_eqb_eq in All. unfold stripped, strip in He. cbn in He. rewrite All in He. now apply filter_In in He. }
  induction l as [|x t IH]; cbn [map flat_map]; intros O1 All; [constructor|]. apply NoDup_app_iff in O1. destruct O1 as (A & B & C). apply NoDup_app_iff. split; [|split].
  - assert (Hx := All x (or_introl eq_refl)). unfold is_new in Hx. apply ct_eqb_eq in Hx. unfold stripped, strip. cbn. rewrite Hx. now apply NoDup_filter.
  - apply IH; auto. intros ch Hc. apply All. now right.
  - intros e H1 H2. apply (C e).
    + assert (Y := Sub [x] e). cbn [flat_map map] in Y. rewrite !app_nil_r in Y. apply Y; [intros ch [<-|[]]; apply All; now left|exact H1].
    + apply Sub; auto. intros ch Hc. apply All. now right.
Qed.

(* ---------------------------------------------------------------- creations as (parent, entity) pairs *)
Definition new_pairs (chs : list change) : list (ptr * ptr) :=
  flat_map (fun ch => map (fun c => (ch_parent ch, c)) (ch_kids ch)) (filter is_new chs).
Lemma new_pairs_In chs q c : In (q, c) (new_pairs chs) <-> exists k, reported chs CNew q k c.
Proof.
  unfold new_pairs. rewrite in_flat_map. split.
  - intros (ch & H1 & H2). apply filter_In in H1. destruct H1 as [H1 H3]. apply ct_eqb_eq in H3. apply in_map_iff in H2. destruct H2 as (c0 & [= <- <-] & H2).
    exists (ch_key ch), ch. auto.
  - intros (k & ch & H1 & H2 & H3 & H4 & H5). exists ch. split; [apply filter_In; split; auto; unfold is_new; now rewrite H2|]. apply in_map_iff. exists c. split; congruence.
Qed.
Lemma map_snd_pairs chs : map snd (new_pairs chs) = flat_map ch_kids (filter is_new chs).
Proof.
  unfold new_pairs. induction (filter is_new chs) as [|x t IH]; cbn; [reflexivity|]. rewrite map_app, IH, map_map. cbn. now rewrite map_id.
Qed.
Lemma split_unique {A} (l a b a' b' : list A) x : NoDup l -> l = a ++ x :: b -> l = a' ++ x :: b' -> a = a' /\ b = b'.
Proof.
  revert l a'. induction a as [|y a IH]; intros l [|z a'] Hn E E'; subst l; cbn in *.
  - injection E' as ->. auto.
  - injection E' as -> ->. inversion Hn as [|? ? X _]; subst. exfalso. apply X. apply in_app_iff. right. now left.
  - injection E' as -> E'. inversion Hn as [|? ? X _]; subst. exfalso. apply X. apply in_app_iff. right. now left.
  - injection E' as -> E'. inversion Hn as [|? ? _ X]; subst. destruct (IH _ a' X eq_refl E') as [-> ->]. auto.
Qed.

Section Pairs.
  Variables (rec : bool) (ord : map_order) (h : heap) (roots : list ptr) (dirty : ptr -> bool) (pl : pool) (n : nat) (chs : list change).
  Hypothesis maps : go_maps h pl.
  Hypothesis Hch : getEntityChanged rec ord (findChildren h roots) dirty pl n = ROk chs.
  Notation L := (new_pairs chs).

  Lemma pairs_nodup : NoDup (map snd L).
  Proof. rewrite map_snd_pairs. eapply new_nodup; eauto. Qed.
  Lemma pairs_nodup' : NoDup L.
  Proof. eapply NoDup_map_inv, pairs_nodup. Qed.
  Lemma pairs_parent_first g q c : In (g, q) L -> In (q, c) L -> comes_before L (g, q) (q, c).
  Proof.
    intros H1 H2. apply new_pairs_In in H1. apply new_pairs_In in H2. destruct H1 as (kg & H1), H2 as (k & H2).
    destruct (changed_parent_first _ _ _ _ _ _ _ _ _ _ _ _ _ maps Hch H1 H2) as (i1 & i2 & CB & P1 & K1 & P2 & K2).
    eapply comes_flat; [exact CB| |]; apply in_map_iff; eexists; (split; [|eassumption]); congruence.
  Qed.
  Lemma pairs_before a b g q c : L = a ++ (q, c) :: b -> In (g, q) L -> exists a1 a2, a = a1 ++ (g, q) :: a2.
  Proof.
    intros E H. assert (Hc : In (q, c) L) by (rewrite E; apply in_app_iff; right; now left).
    destruct (pairs_parent_first g q c H Hc) as (l1 & l2 & l3 & E2).
    replace (l1 ++ (g, q) :: l2 ++ (q, c) :: l3) with ((l1 ++ (g, q) :: l2) ++ (q, c) :: l3) in E2 by now rewrite <- app_assoc.
    destruct (split_unique _ _ _ _ _ _ pairs_nodup' E E2) as [-> _]. eauto.
  Qed.

  Variables (tab : ptr -> nat) (T P : nat).
  Hypothesis only : forall q c, In (q, c) L -> tab c = T -> (tab q = P \/ tab q = T) /\ In q (map snd L).
  Lemma first_appearance m : forall a q c b, length a <= m -> L = a ++ (q, c) :: b -> tab c = T -> exists g y, In (g, y) a /\ tab y = P.
  Proof.
    induction m as [|m IH]; intros a q c b Hl E Ht.
    - destruct a; [|cbn in Hl; lia]. assert (Hc : In (q, c) L) by (rewrite E; now left). destruct (only _ _ Hc Ht) as [_ Hq].
      apply in_map_iff in Hq. destruct Hq as ((g & q0) & Eq & Hq). cbn in Eq. subst q0. destruct (pairs_before _ _ _ _ _ E Hq) as (a1 & a2 & X). destruct a1; discriminate.
    - assert (Hc : In (q, c) L) by (rewrite E; apply in_app_iff; right; now left). destruct (only _ _ Hc Ht) as [Hp Hq].
      apply in_map_iff in Hq. destruct Hq as ((g & q0) & Eq & Hq). cbn in Eq. subst q0. destruct (pairs_before _ _ _ _ _ E Hq) as (a1 & a2 & ->).
      destruct Hp as [Hp|Hp].
      + exists g, q. split; auto. apply in_app_iff. right. now left.
      + destruct (IH a1 g q (a2 ++ (q, c) :: b)) as (g' & y & X & Y); auto.
        * rewrite app_length in Hl. cbn in Hl. lia.
        * now rewrite E, <- app_assoc.
        * exists g', y. split; auto. apply in_app_iff. auto.
  Qed.
End Pairs.

Definition pair_contrib (cfg : config) (h : heap) (pc : ptr * ptr) (cb : contrib) : Prop :=
  cb_op cb = OpInsert /\ c_conv cfg h (snd pc) (Some (fst pc)) OpInsert = CModel (cb_model cb).
Lemma contributions_app cfg h pl a b : contributions cfg h pl (a ++ b) = contributions cfg h pl a ++ contributions cfg h pl b.
Proof. apply flat_map_app. Qed.
Lemma contributions_new cfg h pl table chs : stored_by_type cfg table ->
  Forall2 (pair_contrib cfg h) (new_pairs chs) (contributions cfg h pl (filter is_new chs)).
Proof.
  intros Hst. unfold new_pairs, contributions.
  assert (All : forall ch, In ch (filter is_new chs) -> ch_type ch = CNew) by (intros ch Hc; apply filter_In in Hc; destruct Hc as [_ Hc]; now apply ct_eqb_eq in Hc).
  induction (filter is_new chs) as [|x t IH]; [constructor|]. cbn [flat_map]. apply Forall2_app; [|apply IH; intros; apply All; now right].
  rewrite (All x) by now left. cbn [change_op]. clear - Hst. induction (ch_kids x) as [|c u IH]; [constructor|]. cbn [map flat_map].
  destruct (Hst h c (ch_parent x)) as (m & E & _). rewrite E. constructor; auto. split; cbn; auto.
Qed.
Lemma contributions_rest cfg h pl rest : (forall ch, In ch rest -> is_new ch = false) ->
  forall cb, In cb (contributions cfg h pl rest) -> cb_op cb <> OpInsert.
Proof.
  intros Hr cb H. unfold contributions in H. apply in_flat_map in H. destruct H as (ch & H1 & H2). apply in_flat_map in H2. destruct H2 as (c & _ & H2).
  specialize (Hr _ H1). destruct (c_conv _ _ _ _ _); [|destruct H2..]. destruct H2 as [<-|[]]. cbn. unfold is_new in Hr. destruct (ch_type ch); cbn in *; congruence.
Qed.

Lemma comes_sorted {A} (R : A -> A -> Prop) l x y : StronglySorted R l -> comes_before l x y -> R x y.
Proof.
  intros Hs (l1 & l2 & l3 & ->). induction l1 as [|z l1 IH]; cbn in Hs; inversion Hs as [|? ? H1 H2]; subst; auto.
  rewrite Forall_forall in H2. apply H2. apply in_app_iff. right. now left.
Qed.
Lemma comes_or {A} (l : list A) x y : In x l -> In y l -> x <> y -> comes_before l x y \/ comes_before l y x.
Proof.
  intros Hx Hy Hne. apply in_split in Hx. destruct Hx as (a & b & ->). apply in_app_iff in Hy. destruct Hy as [Hy|[Hy|Hy]]; [|congruence|].
  - right. change (a ++ x :: b) with (a ++ (x :: b)). apply comes_app_mid; [auto|now left].
  - left. replace (a ++ x :: b) with ((a ++ [x]) ++ b) by now rewrite <- app_assoc. apply comes_app_mid; auto. apply in_app_iff. right. now left.
Qed.
Lemma comes_inner {A B} (f : A -> list B) l x a b : In x l -> comes_before (f x) a b -> comes_before (flat_map f l) a b.
Proof.
  intros Hx H. apply in_split in Hx. destruct Hx as (l1 & l2 & ->). rewrite flat_map_app. cbn. now apply comes_app_r, comes_app_l.
Qed.

Theorem inserts_parent_first cfg s chs h acts table : go_maps (s_heap s) (s_pool s) ->
  getEntityChanged (c_recursive cfg) (c_ord cfg (s_tick s)) (kids_now s) (fun p => e_dirty (s_heap s p)) (s_pool s) (c_fuel cfg) = ROk chs ->
  actions_for (contributions cfg h (s_pool s) chs) acts -> stored_by_type cfg table ->
  let tab p := table (e_type (h p)) in
  forall g q c, In (g, q) (new_pairs chs) -> In (q, c) (new_pairs chs) ->
  (tab q <> tab c -> forall px x, In (px, x) (new_pairs chs) -> tab x = tab c -> (tab px = tab q \/ tab px = tab c) /\ In px (map snd (new_pairs chs))) ->
  exists mq mc, c_conv cfg h q (Some g) OpInsert = CModel mq /\ c_conv cfg h c (Some q) OpInsert = CModel mc /\ comes_before (inserted_models acts) mq mc.
Proof.
  intros Hm Hc Haf Hst tab g q c Hq Hcc Honly. set (cs := contributions cfg h (s_pool s) chs) in *. set (L := new_pairs chs) in *.
  destruct (new_first _ _ _ _ _ _ _ _ Hc) as (rest & Ech & Hrest).
  assert (Ecs : cs = contributions cfg h (s_pool s) (filter is_new chs) ++ contributions cfg h (s_pool s) rest).
  { unfold cs. rewrite Ech at 1. apply contributions_app. }
  set (csN := contributions cfg h (s_pool s) (filter is_new chs)) in *. set (csR := contributions cfg h (s_pool s) rest) in *.
  assert (HF : Forall2 (pair_contrib cfg h) L csN) by (eapply contributions_new; eauto).
  assert (HR : forall cb, In cb csR -> cb_op cb <> OpInsert) by (apply contributions_rest; auto).
  assert (Htab : forall p0 c0 m, c_conv cfg h c0 (Some p0) OpInsert = CModel m -> m_type m = tab c0).
  { intros p0 c0 m E. destruct (Hst h c0 p0) as (m' & E' & T). rewrite E in E'. injection E' as <-. exact T. }
  assert (CB := pairs_parent_first _ _ _ _ _ _ _ _ Hm Hc g q c Hq Hcc). destruct CB as (l1 & l2 & l3 & EL). fold L in EL.
  assert (HF' := HF). rewrite EL in HF'. apply Forall2_app_inv_l in HF'. destruct HF' as (n1 & n2 & _ & HF' & En1).
  inversion HF' as [|? cq ? n3 Hcq HF'' E1 E2]; subst. apply Forall2_app_inv_l in HF''. destruct HF'' as (n4 & n5 & _ & HF'' & En2).
  inversion HF'' as [|? cc ? n6 Hcc' _ E3 E4]; subst. clear HF' HF''.
  destruct Hcq as [Oq Vq], Hcc' as [Oc Vc]. cbn [fst snd] in *.
  exists (cb_model cq), (cb_model cc). split; [exact Vq|]. split; [exact Vc|].
  assert (CBs : comes_before cs cq cc). { rewrite Ecs, En1. apply comes_app_l. exists n1, n4, n6. reflexivity. }
  assert (Tq := Htab _ _ _ Vq). assert (Tc := Htab _ _ _ Vc).
  assert (Iq : In cq cs) by (destruct CBs as (? & ? & ? & ->); apply in_app_iff; right; now left).
  assert (Ic : In cc cs) by (destruct CBs as (? & ? & ? & ->); apply in_app_iff; right; right; apply in_app_iff; right; now left).
  destruct Haf as [Hex Hall _ _ Htb]. fold cs in Hex, Hall, Htb.
  destruct (Hall _ Iq) as (aq & Aq1 & Aq2 & Aq3). destruct (Hall _ Ic) as (ac & Ac1 & Ac2 & Ac3).
  unfold inserted_models.
  destruct (Nat.eq_dec (tab q) (tab c)) as [E|NE].
  - apply (comes_inner _ acts aq); auto. rewrite Aq2, Oq. destruct (Hex aq Aq1) as (_ & -> & _). apply comes_map. apply comes_filter; auto.
    + unfold same_kind. now rewrite Aq2, Oq, Aq3, Nat.eqb_refl.
    + unfold same_kind. rewrite Aq2, Oq, Oc, Aq3, Tq, Tc, E, Nat.eqb_refl. reflexivity.
  - destruct (comes_or acts aq ac Aq1 Ac1) as [CA|CA].
    + intros ->. congruence.
    + eapply comes_flat; [exact CA| |].
      * rewrite Aq2, Oq. destruct (Hex aq Aq1) as (_ & -> & _). apply in_map, filter_In. split; auto. unfold same_kind. now rewrite Aq2, Oq, Aq3, Nat.eqb_refl.
      * rewrite Ac2, Oc. destruct (Hex ac Ac1) as (_ & -> & _). apply in_map, filter_In. split; auto. unfold same_kind. now rewrite Ac2, Oc, Ac3, Nat.eqb_refl.
    + exfalso. assert (AB := comes_sorted _ _ _ _ Htb CA). cbn beta in AB. rewrite Ac2, Aq2, Oq, Oc in AB. specialize (AB eq_refl). rewrite Ac3, Aq3 in AB.
      destruct AB as (c1 & x & c2 & E & Tx & Hno).
      (* x lies among the creations *)
      assert (X : exists c2', csN = c1 ++ x :: c2').
      { destruct (Nat.lt_ge_cases (length c1) (length csN)) as [Hl|Hl].
        - exists (skipn (S (length c1)) csN). assert (Ef : firstn (length c1) csN = c1).
          { assert (Y : firstn (length c1) cs = c1) by (rewrite E, firstn_app, Nat.sub_diag, firstn_all; cbn; apply app_nil_r).
            rewrite Ecs, firstn_app in Y. replace (length c1 - length csN) with 0 in Y by lia. cbn in Y. now rewrite app_nil_r in Y. }
          assert (En : nth_error csN (length c1) = Some x).
          { assert (Y : nth_error cs (length c1) = Some x) by (rewrite E, nth_error_app2, Nat.sub_diag; auto).
            rewrite Ecs, nth_error_app1 in Y; auto. }
          rewrite <- (firstn_skipn (length c1) csN) at 1. rewrite Ef. f_equal. clear - En.
          revert En. generalize (length c1). intros m. revert m. induction csN as [|y t IH]; intros [|m]; cbn; try discriminate; [now intros [= ->]|]. intros En. apply (IH m En).
        - exfalso. apply (Hno cq); [|congruence]. apply in_app_iff. left.
          assert (Y : firstn (length c1) cs = c1) by (rewrite E, firstn_app, Nat.sub_diag, firstn_all; cbn; apply app_nil_r).
          rewrite <- Y, Ecs, firstn_app. apply in_app_iff. left. rewrite firstn_all2 by lia. rewrite En1. apply in_app_iff. right. now left. }
      destruct X as (c2' & EN). assert (HF2 := HF). rewrite EN in HF2. apply Forall2_app_inv_r in HF2. destruct HF2 as (a & b & Fa & Fb & ELa).
      inversion Fb as [|(px & e) ? b' ? Hx _ E5 E6]; subst. destruct Hx as [Ox Vx]. cbn [fst snd] in *.
      assert (Te := Htab _ _ _ Vx).
      destruct (first_appearance _ _ _ _ _ _ _ _ Hm Hc tab (tab c) (tab q)) with (m := length a) (a := a) (q := px) (c := e) (b := b') as (g' & y & Hy & Ty); auto.
      { exact (Honly NE). }
      { congruence. }
      destruct (in_split _ _ Hy) as (y1 & y2 & ->). apply Forall2_app_inv_l in Fa. destruct Fa as (z1 & z2 & _ & Fa & ->). inversion Fa as [|? cy ? z3 [Oy Vy] _]; subst. cbn [fst snd] in *.
      apply (Hno cy). { rewrite !in_app_iff. left. right. now left. }
      rewrite (Htab _ _ _ Vy), Ty. congruence.
Qed.

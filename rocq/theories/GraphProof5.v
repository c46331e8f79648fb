(** Derived facts used by the property file; witnesses. *)
From Verif Require Import MoveSpec GraphProof MoveProof GraphProof2 GraphProof3 GraphProof4.

(** Go maps have unique keys. *)
Definition go_maps (h : heap) (pl : pool) : Prop :=
  (forall p m, e_custom (h p) = Some m -> NoDup (map fst m)) /\
  (forall p s, pl p = Some s -> NoDup (map fst (s_kids s))).

Lemma fields_children_nodup fs : forall acc, NoDup (map fst acc) -> NoDup (map fst (fields_children fs acc)).
Proof.
  induction fs as [|f t IH]; cbn; intros acc H; auto.
  destruct (assoc (f_name f) acc) eqn:E; auto. destruct (field_children f); auto. apply IH.
  rewrite map_app. cbn. apply assoc_None in E. apply NoDup_app_iff. repeat split; auto; [repeat constructor; auto|].
  intros x Hx [<-|[]]. auto.
Qed.
Lemma go_maps_ok h roots pl : go_maps h pl -> maps_ok (findChildren h roots) pl.
Proof.
  intros [H1 H2]. split; auto. intros p. unfold findChildren. destruct (Nat.eqb p meta); [repeat constructor; cbn; tauto|].
  unfold findChildren_ent. destruct (e_custom (h p)) as [m|] eqn:E; [eauto|].
  apply fields_children_nodup. constructor.
Qed.

Section Top.
  Variables (h : heap) (roots : list ptr) (pl : pool) (ord : map_order).
  Hypothesis maps : go_maps h pl.
  Let kids := findChildren h roots.
  Let dirty := fun p => e_dirty (h p).

  Theorem changed_exact fuel out : getEntityChanged false ord kids dirty pl fuel = ROk out ->
    (forall t p k c, reported out t p k c <-> expected_final kids dirty pl meta t p k c) /\
    NoDup (flat_map ch_kids out).
  Proof.
    unfold getEntityChanged. destruct (entityDiff kids dirty pl fuel meta) as [chs|] eqn:E; [|discriminate].
    destruct (handleEntityMove chs) as [m|] eqn:Em; [|discriminate]. intros [= <-].
    destruct (diff_then_move kids dirty pl (go_maps_ok _ _ _ maps) fuel meta chs E) as [Ha _]. auto.
  Qed.
  Theorem changed_terminates : acyclic_from kids meta -> exists fuel, getEntityChanged false ord kids dirty pl fuel <> RFuel.
  Proof.
    intros H. destruct (entityDiff_terminates kids dirty pl (go_maps_ok _ _ _ maps) meta H) as (fuel & chs & E).
    exists fuel. unfold getEntityChanged. rewrite E. destruct (handleEntityMove chs); discriminate.
  Qed.
  (** the result does not depend on the fuel *)
  Lemma changed_ok_iff fuel : getEntityChanged false ord kids dirty pl fuel <> RFuel ->
    ((exists out, getEntityChanged false ord kids dirty pl fuel = ROk out) <->
     exists chs, entityDiff kids dirty pl fuel meta = Some chs /\ move_ok chs).
  Proof.
    unfold getEntityChanged. intros Hf. destruct (entityDiff kids dirty pl fuel meta) as [chs|] eqn:E; [|tauto].
    destruct (diff_then_move kids dirty pl (go_maps_ok _ _ _ maps) fuel meta chs E) as [_ Hb].
    destruct (handleEntityMove chs) as [m|] eqn:Em.
    - split; [|eauto]. intros _. exists chs. split; auto. apply Hb. eauto.
    - split; [intros (out & H); discriminate|]. intros (chs' & [= <-] & Hok). apply Hb in Hok.
      destruct Hok as (out & H). discriminate.
  Qed.
  Theorem tree_ok_iff fuel : one_place kids meta -> one_place_before pl ->
    getEntityChanged false ord kids dirty pl fuel <> RFuel ->
    ((exists out, getEntityChanged false ord kids dirty pl fuel = ROk out) <->
      moved_only_at_tail kids dirty pl meta).
  Proof.
    intros H1 H2 Hf. rewrite changed_ok_iff by auto. split.
    - intros (chs & E & Hok). eapply tree_move_ok; eauto. now apply go_maps_ok.
    - intros Ht. unfold getEntityChanged in Hf. destruct (entityDiff kids dirty pl fuel meta) as [chs|] eqn:E; [|tauto].
      exists chs. split; auto. eapply tree_move_ok; eauto. now apply go_maps_ok.
  Qed.

  Theorem conflict_refused fuel c p k p' k' t t' :
    expected_change kids dirty pl meta t p k c -> expected_change kids dirty pl meta t' p' k' c ->
    (t, p, k) <> (t', p', k') ->
    (t = CNew /\ t' = CDelete \/ t = CDelete /\ t' = CNew -> False) ->
    getEntityChanged false ord kids dirty pl fuel = RFuel \/ getEntityChanged false ord kids dirty pl fuel = RErr.
  Proof.
    intros H1 H2 Hne Hnm. unfold getEntityChanged.
    destruct (entityDiff kids dirty pl fuel meta) as [chs|] eqn:E; [|auto]. right.
    assert (Hspec := entityDiff_spec kids dirty pl (go_maps_ok _ _ _ maps) fuel meta chs E).
    apply Hspec in H1. apply Hspec in H2.
    destruct (diff_then_move kids dirty pl (go_maps_ok _ _ _ maps) fuel meta chs E) as [_ Hb].
    destruct (handleEntityMove chs) as [m|] eqn:Em; [|reflexivity]. exfalso.
    assert (Hok : move_ok chs) by (apply Hb; eauto). destruct Hok as [O1 O2 O3 _].
    apply NoDup_app_iff in O1. destruct O1 as (N1 & N2 & N3).
    assert (HK1 : In c (kids_of t chs)) by (apply kids_of_reported; eauto).
    assert (HK2 : In c (kids_of t' chs)) by (apply kids_of_reported; eauto).
    assert (Hsame : forall t0, NoDup (kids_of t0 chs) -> t = t0 -> t' = t0 -> False).
    { intros t0 Hnd -> ->. destruct (NoDup_kids_of _ _ Hnd _ _ _ _ _ H1 H2) as [-> ->]. congruence. }
    assert (Hc1 : t <> CClear) by (intros ->; apply Hspec in H1; destruct H1 as [_ []]).
    assert (Hc2 : t' <> CClear) by (intros ->; apply Hspec in H2; destruct H2 as [_ []]).
    destruct t, t'; try congruence.
    - exact (Hsame _ N1 eq_refl eq_refl).
    - exact (N3 _ HK1 HK2).
    - apply Hnm; auto.
    - exact (N3 _ HK2 HK1).
    - exact (Hsame _ N2 eq_refl eq_refl).
    - exact (O3 _ HK1 HK2).
    - apply Hnm; auto.
    - exact (O3 _ HK2 HK1).
    - exact (Hsame _ O2 eq_refl eq_refl).
  Qed.

  Theorem recursive_exact fuel out : order_ok ord -> getEntityChanged true ord kids dirty pl fuel = ROk out ->
    forall t p k e, reported out t p k e <->
      expected_final kids dirty pl meta t p k e \/
      (t = CDelete /\ now_child kids p k e /\
       exists d p0 k0, expected_final kids dirty pl meta CDelete p0 k0 d /\ reach kids d p).
  Proof.
    intros Ho H t p k e. unfold getEntityChanged in H.
    destruct (entityDiff kids dirty pl fuel meta) as [chs|] eqn:E; [|discriminate].
    destruct (handleEntityMove chs) as [m|] eqn:Em; [|discriminate].
    destruct (recursiveDelete ord kids fuel m) as [r|] eqn:Er; [|discriminate]. injection H as <-.
    destruct (diff_then_move kids dirty pl (go_maps_ok _ _ _ maps) fuel meta chs E) as [Ha _].
    destruct (Ha m Em) as [Hr _].
    rewrite (recursiveDelete_spec ord kids Ho fuel m r Er), Hr.
    split; (intros [H|(H1 & H2 & d & p0 & k0 & H3 & H4)]; [left; auto|right]); split; auto; split; auto;
      exists d, p0, k0; split; auto; now apply Hr.
  Qed.
End Top.

(* ---------------------------------------------------------------- concrete graphs for examples *)
(** Entity with one slice field "L". *)
Definition ent_list (i : string) (d : bool) (ty : nat) (l : list ptr) : ent :=
  mkEnt i d ty None [mkField "L"%string true false (FSlice l)] [] [].
Definition heap_of (l : list ent) : heap := fun p => match p with O => ent_list ""%string false 0 [] | S q => nth q l (ent_list ""%string false 0 []) end.
Definition snap_list (l : list ptr) : option snap := Some (mkSnap None [("L"%string, l)]).
Definition pool_of (rootsl : list ptr) (l : list (option snap)) : pool :=
  fun p => match p with O => Some (mkSnap None [(meta_key, rootsl)]) | S q => nth q l None end.
Definition ord_id : map_order := fun _ m => m.

(** Parents 1 and 2; children 3,4,5 move from 1 to 2. *)
Definition mv_heap : heap := heap_of
  [ent_list "a" false 1 []; ent_list "b" false 1 [3; 4; 5]; ent_list "c1" false 2 []; ent_list "c2" false 2 []; ent_list "c3" false 2 []]%string.
Definition mv_pool : pool := pool_of [1; 2]
  [snap_list [3; 4; 5]; snap_list []; snap_list []; snap_list []; snap_list []].
(** The same with only the last two moved. *)
Definition mv2_heap : heap := heap_of
  [ent_list "a" false 1 [3]; ent_list "b" false 1 [4; 5]; ent_list "c1" false 2 []; ent_list "c2" false 2 []; ent_list "c3" false 2 []]%string.
(** Child 3 moves out of parent 1, which is itself removed from the roots. *)
Definition mv3_heap : heap := heap_of
  [ent_list "a" false 1 []; ent_list "b" false 1 [3]; ent_list "c1" false 2 []]%string.
Definition mv3_pool : pool := pool_of [1; 2] [snap_list [3]; snap_list []; snap_list []].
(** Root 1 with child 2 and grandchild 3, removed; detached: child 2 taken out of 1 before. *)
Definition del_heap : heap := heap_of [ent_list "a" false 1 [2]; ent_list "b" false 2 [3]; ent_list "c" false 3 []]%string.
Definition del_heap_detached : heap := heap_of [ent_list "a" false 1 []; ent_list "b" false 2 [3]; ent_list "c" false 3 []]%string.
Definition del_pool : pool := pool_of [1] [snap_list [2]; snap_list [3]; snap_list []].
(** An entity with a custom GetChildren that leaves the key out when the list is empty. *)
Definition cust_heap : heap := heap_of [mkEnt "a"%string false 1 (Some []) [] [] []; ent_list "b"%string false 2 []].
Definition cust_pool : pool := pool_of [1] [snap_list [2]; snap_list []].

Definition kids_of_heap h roots := findChildren h roots.
Definition dirty_of (h : heap) : ptr -> bool := fun p => e_dirty (h p).

Lemma go_maps_list l rs s : 
  (forall e, In e l -> e_custom e = None \/ e_custom e = Some []) -> (forall x, In x s -> x = None \/ exists y, x = snap_list y) ->
  go_maps (heap_of l) (pool_of rs s).
Proof.
  intros H1 H2. split.
  - intros p m. unfold heap_of. destruct p as [|p]; [discriminate|].
    destruct (nth_in_or_default p l (ent_list ""%string false 0 [])) as [Hin| ->]; [|discriminate].
    destruct (H1 _ Hin) as [-> | ->]; [discriminate|]. intros [= <-]. constructor.
  - intros p s0. unfold pool_of. destruct p as [|p]; [intros [= <-]; repeat constructor; cbn; tauto|].
    destruct (nth_in_or_default p s None) as [Hin| ->]; [|discriminate].
    destruct (H2 _ Hin) as [-> |(y & ->)]; [discriminate|]. intros [= <-]. repeat constructor; cbn; tauto.
Qed.
Ltac go_maps_tac := apply go_maps_list; cbn; intros e He;
  repeat (destruct He as [<-|He]; [solve [auto | right; eexists; reflexivity]|]); destruct He.

(* ---------------------------------------------------------------- deciding tree shape of finite examples *)
Definition edges (kids : ptr -> list (key * list ptr)) (ps : list ptr) : list (ptr * key * ptr) :=
  flat_map (fun p => flat_map (fun kl => map (fun c => (p, fst kl, c)) (snd kl)) (kids p)) ps.
Definition edges_ok (es : list (ptr * key * ptr)) : bool :=
  forallb (fun e1 => forallb (fun e2 => match e1, e2 with (p, k, c), (p', k', c') =>
    if Nat.eqb c c' then Nat.eqb p p' && String.eqb k k' else true end) es) es.
Lemma edges_In kids ps p k c : In p ps -> now_child kids p k c -> In (p, k, c) (edges kids ps).
Proof.
  intros Hp (l & Hk & Hc). apply in_flat_map. exists p. split; auto. apply in_flat_map. exists (k, l). split; auto.
  apply in_map_iff. eauto.
Qed.
Lemma edges_ok_spec es : edges_ok es = true -> forall p k p' k' c, In (p, k, c) es -> In (p', k', c) es -> p = p' /\ k = k'.
Proof.
  unfold edges_ok. rewrite forallb_forall. intros H p k p' k' c H1 H2.
  specialize (H _ H1). cbv beta iota in H. rewrite forallb_forall in H. specialize (H _ H2). cbv beta iota in H.
  rewrite Nat.eqb_refl, andb_true_iff, Nat.eqb_eq, String.eqb_eq in H. exact H.
Qed.
Lemma one_place_dec kids root fuel l : walk ord_id kids fuel root None = Some l ->
  edges_ok (edges kids (map fst l)) = true -> one_place kids root.
Proof.
  intros Hw He p k p' k' c H1 H2 H3 H4.
  assert (Ho : order_ok ord_id) by (intros q m; reflexivity).
  apply (walk_reach ord_id kids Ho _ _ _ _ Hw) in H1. apply (walk_reach ord_id kids Ho _ _ _ _ Hw) in H2.
  eapply edges_ok_spec; eauto using edges_In.
Qed.
Lemma one_place_before_dec pl n : (forall p, n <= p -> pl p = None) ->
  edges_ok (edges (fun p => match pl p with Some s => s_kids s | None => [] end) (seq 0 n)) = true -> one_place_before pl.
Proof.
  intros Hn He p k p' k' c (s & l & H1 & H2 & H3) (s' & l' & G1 & G2 & G3).
  assert (Hlt : forall q s0, pl q = Some s0 -> In q (seq 0 n)).
  { intros q s0 Hq. apply in_seq. split; [lia|]. destruct (Nat.lt_ge_cases q n) as [|Hge]; auto.
    rewrite (Hn q Hge) in Hq. discriminate. }
  eapply edges_ok_spec; [exact He| |].
  - apply edges_In; [exact (Hlt _ _ H1)|]. exists l. rewrite H1. split; eassumption.
  - apply edges_In; [exact (Hlt _ _ G1)|]. exists l'. rewrite G1. split; eassumption.
Qed.
Lemma pool_of_bound rs s p : S (length s) <= p -> pool_of rs s p = None.
Proof. destruct p; [lia|]. cbn. intros H. apply nth_overflow. lia. Qed.

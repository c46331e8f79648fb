(** Multiplicity of the diff on trees, traversal, recursive delete, child discovery, container. *)
From Verif Require Import MoveSpec GraphProof MoveProof.

(* ---------------------------------------------------------------- moves: meaning of the output *)
Lemma reported_flat chs t p k c :
  reported chs t p k c <-> exists ch, In ch chs /\ ch_type ch = t /\ ch_parent ch = p /\ ch_key ch = k /\ In c (ch_kids ch).
Proof. reflexivity. Qed.

Lemma rep_app a b t p k c : reported (a ++ b) t p k c <-> reported a t p k c \/ reported b t p k c.
Proof.
  unfold reported. split.
  - intros (ch & H & R). rewrite in_app_iff in H. destruct H; [left|right]; eauto.
  - intros [(ch & H & R)|(ch & H & R)]; exists ch; rewrite in_app_iff; tauto.
Qed.
Lemma reported_perm a b t p k c : Permutation a b -> reported a t p k c -> reported b t p k c.
Proof. intros HP (ch & H & R). exists ch. split; [eapply Permutation_in; eauto|exact R]. Qed.

Lemma NoDup_kids_of t chs : NoDup (kids_of t chs) -> forall p k p' k' c,
  reported chs t p k c -> reported chs t p' k' c -> p = p' /\ k = k'.
Proof.
  intros Hnd p k p' k' c (ch & H1 & H2 & H3 & H4 & H5) (ch' & G1 & G2 & G3 & G4 & G5).
  assert (ch = ch'); [|subst; auto].
  set (l := filter (fun x => ct_eqb (ch_type x) t) chs).
  assert (Hl : In ch l /\ In ch' l).
  { unfold l. rewrite !filter_In, !ct_eqb_eq. auto. }
  destruct Hl as [Hl Hl']. apply (In_nth _ _ dch) in Hl. apply (In_nth _ _ dch) in Hl'.
  destruct Hl as (i & Hi & Ei). destruct Hl' as (j & Hj & Ej).
  assert (i = j); [|congruence].
  eapply (nodup_owner l i j c); auto; congruence.
Qed.

Lemma move_out_reported S : move_ok S -> (forall ch, In ch S -> ch_type ch <> CClear) ->
  forall t p k e, reported (move_out S) t p k e <-> moved_change S t p k e.
Proof.
  intros [O1 O2 O3 _] Hnc t p k e.
  set (D := kids_of CDelete S).
  assert (Hstrip : forall t0, reported (map (strip S [] D) S) t0 p k e <->
     reported S t0 p k e /\ match t0 with CNew => ~ In e D | CDelete => ~ In e (kids_of CNew S) | _ => True end).
  { intros t0. unfold reported. split.
    - intros (ch' & H & Ht & Hp & Hk & He). apply in_map_iff in H. destruct H as (ch & <- & H).
      unfold strip in *. cbn [ch_type ch_parent ch_key ch_kids] in *. rewrite app_nil_r in He. subst t0.
      destruct (ch_type ch) eqn:Et; try (apply filter_In in He; destruct He as [He Hf]; rewrite negb_true_iff in Hf).
      + split; [exists ch; auto|]. now apply memb_nIn.
      + split; [exists ch; auto|]. auto.
      + split; [exists ch; auto|]. apply andb_false_iff in Hf. rewrite !memb_nIn in Hf.
        destruct Hf as [Hf|Hf]; auto. exfalso. apply Hf. unfold D. apply kids_of_In. eauto.
      + split; [exists ch; auto|]. auto.
    - intros ((ch & H & Ht & Hp & Hk & He) & Hx). exists (strip S [] D ch).
      split; [now apply in_map|]. unfold strip; cbn [ch_type ch_parent ch_key ch_kids]. rewrite app_nil_r.
      do 3 (split; auto). subst t0. destruct (ch_type ch); auto; apply filter_In; split; auto; rewrite negb_true_iff.
      + now apply memb_nIn.
      + apply andb_false_iff. left. now apply memb_nIn. }
  assert (Hextra : reported (flat_map (extra_of S []) D) t p k e <->
     t = CDirty /\ reported S CNew p k e /\ In e D).
  { unfold reported at 1. split.
    - intros (ch & H & Ht & Hp & Hk & He). apply in_flat_map in H. destruct H as (e0 & H0 & H).
      unfold extra_of in H. rewrite app_nil_r in H.
      destruct (find (has_new e0) S) as [ch0|] eqn:E; [|destruct H]. destruct H as [<-|[]].
      cbn in *. destruct He as [<-|[]]. apply find_some in E. destruct E as [E1 E2].
      unfold has_new in E2. apply andb_true_iff in E2. destruct E2 as [E2 E3].
      apply ct_eqb_eq in E2. apply memb_In in E3. split; auto. split; auto. exists ch0. auto.
    - intros (-> & Hn & HD).
      assert (Hx : exists ch0, find (has_new e) S = Some ch0).
      { destruct (find (has_new e) S) as [ch0|] eqn:E; [eauto|]. exfalso.
        destruct Hn as (ch & H1 & H2 & _ & _ & H3). eapply find_none in E; eauto.
        unfold has_new in E. rewrite H2 in E. cbn in E. apply memb_nIn in E. auto. }
      destruct Hx as (ch0 & E). assert (E' := E). apply find_some in E'. destruct E' as [E1 E2].
      unfold has_new in E2. apply andb_true_iff in E2. destruct E2 as [E2 E3].
      apply ct_eqb_eq in E2. apply memb_In in E3.
      assert (Hn0 : reported S CNew (ch_parent ch0) (ch_key ch0) e) by (exists ch0; auto).
      apply NoDup_app_iff in O1. destruct O1 as (O1 & _ & _).
      destruct (NoDup_kids_of _ _ O1 _ _ _ _ _ Hn Hn0) as [-> ->].
      exists (mkChange CDirty (ch_parent ch0) (ch_key ch0) [e]). split; [|cbn; auto].
      apply in_flat_map. exists e. split; auto. unfold extra_of. rewrite app_nil_r, E. now left. }
  unfold move_out. fold D. rewrite rep_app, Hstrip, Hextra. unfold moved_change.
  destruct t; fold D; split; intros Hx; try tauto; try (destruct Hx as [[Hx1 Hx2]|[Hx1 Hx2]]; [tauto|discriminate]).
Qed.

Lemma NoDup_filter {A} (f : A -> bool) l : NoDup l -> NoDup (filter f l).
Proof.
  induction 1 as [|x l Hx Hl IH]; cbn; [constructor|]. destruct (f x); auto.
  constructor; auto. rewrite filter_In. tauto.
Qed.

Lemma flat_map_filter_kids (f : ptr -> bool) (g : change -> change) S :
  (forall ch, In ch S -> ch_kids (g ch) = filter f (ch_kids ch)) ->
  flat_map ch_kids (map g S) = filter f (flat_map ch_kids S).
Proof.
  induction S as [|a t IH]; cbn; intros H; auto.
  rewrite H, IH, filter_app by auto. reflexivity.
Qed.

(** No entity occurs in two changes of the result. *)
Lemma NoDup_from_types S : 
  NoDup (kids_of CNew S) -> NoDup (kids_of CDirty S) -> NoDup (kids_of CDelete S) -> kids_of CClear S = [] ->
  (forall e, In e (kids_of CNew S) -> ~ In e (kids_of CDirty S) /\ ~ In e (kids_of CDelete S)) ->
  (forall e, In e (kids_of CDirty S) -> ~ In e (kids_of CDelete S)) ->
  NoDup (flat_map ch_kids S).
Proof.
  intros H1 H2 H3 H4 H5 H6.
  assert (HP : Permutation (flat_map ch_kids S) (kids_of CNew S ++ kids_of CDirty S ++ kids_of CDelete S ++ kids_of CClear S)).
  { clear. unfold kids_of. induction S as [|a t IH]; cbn; auto.
    destruct (ch_type a); cbn; rewrite IH, <- ?app_assoc.
    - reflexivity.
    - apply Permutation_app_swap_app.
    - etransitivity; [apply Permutation_app_swap_app|]. apply Permutation_app_head, Permutation_app_swap_app.
    - etransitivity; [apply Permutation_app_swap_app|]. apply Permutation_app_head.
      etransitivity; [apply Permutation_app_swap_app|]. apply Permutation_app_head, Permutation_app_swap_app. }
  eapply Permutation_NoDup; [symmetry; exact HP|]. rewrite H4, app_nil_r.
  apply NoDup_app_iff. split; auto. split.
  - apply NoDup_app_iff. auto.
  - intros x Hx. rewrite in_app_iff. destruct (H5 x Hx). tauto.
Qed.

Lemma kids_of_map t (g : change -> change) (f : ptr -> bool) S :
  (forall ch, ch_type (g ch) = ch_type ch) ->
  (forall ch, ch_type ch = t -> ch_kids (g ch) = filter f (ch_kids ch)) ->
  kids_of t (map g S) = filter f (kids_of t S).
Proof.
  intros H1 H2. unfold kids_of. induction S as [|a l IH]; cbn; auto. rewrite H1.
  destruct (ct_eqb (ch_type a) t) eqn:E; cbn; auto. apply ct_eqb_eq in E.
  rewrite H2, filter_app, IH by auto. reflexivity.
Qed.

Lemma move_out_NoDup S : move_ok S -> (forall ch, In ch S -> ch_type ch <> CClear) ->
  NoDup (flat_map ch_kids (move_out S)).
Proof.
  intros [O1 O2 O3 _] Hnc.
  apply NoDup_app_iff in O1. destruct O1 as (O1 & O1' & O1'').
  assert (HX : forall ch, In ch (flat_map (extra_of S []) (kids_of CDelete S)) -> ch_type ch = CDirty).
  { intros ch H. apply in_flat_map in H. destruct H as (e & _ & H).
    unfold extra_of in H. destruct (find _ _); [|destruct H]. now destruct H as [<-|[]]. }
  assert (Hx : forall t, t <> CDirty -> kids_of t (flat_map (extra_of S []) (kids_of CDelete S)) = []).
  { intros t Ht. apply kids_of_filter_none. intros ch H. rewrite (HX _ H). congruence. }
  assert (HN : kids_of CNew (move_out S) = filter (fun x => negb (memb x (kids_of CDelete S))) (kids_of CNew S)).
  { unfold move_out. rewrite kids_of_app, Hx, app_nil_r by congruence.
    apply kids_of_map; auto. intros ch E. unfold strip; cbn. now rewrite E. }
  assert (HD : kids_of CDelete (move_out S) = filter (fun x => negb (memb x (kids_of CNew S))) (kids_of CDelete S)).
  { unfold move_out. rewrite kids_of_app, Hx, app_nil_r by congruence.
    rewrite (kids_of_map _ _ (fun x => negb (memb x (kids_of CNew S) && memb x (kids_of CDelete S)))); auto.
    - apply filter_ext_in. intros x Hin. apply memb_In in Hin. now rewrite Hin, andb_true_r.
    - intros ch E. unfold strip; cbn. now rewrite E, app_nil_r. }
  assert (HY : kids_of CDirty (move_out S) = kids_of CDirty S ++ filter (fun x => memb x (kids_of CNew S)) (kids_of CDelete S)).
  { unfold move_out. rewrite kids_of_app. f_equal.
    - rewrite (kids_of_map _ _ (fun _ => true)); auto.
      + apply filter_id. auto.
      + intros ch E. unfold strip; cbn. rewrite E. symmetry. apply filter_id. auto.
    - rewrite kids_of_filter_all by exact HX. clear - S.
      generalize (kids_of CDelete S) as D. induction D as [|e l IH]; [reflexivity|]. cbn [flat_map filter].
      rewrite flat_map_app, IH. unfold extra_of. rewrite app_nil_r.
      destruct (find (has_new e) S) as [ch|] eqn:E.
      + apply find_some in E. destruct E as [E1 E2]. unfold has_new in E2. apply andb_true_iff in E2.
        destruct E2 as [E2 E3]. apply ct_eqb_eq in E2. apply memb_In in E3.
        assert (memb e (kids_of CNew S) = true) as -> by (apply memb_In, kids_of_In; eauto 6). reflexivity.
      + destruct (memb e (kids_of CNew S)) eqn:Em; auto. exfalso.
        apply memb_In, kids_of_In in Em. destruct Em as (ch & H1 & H2 & H3).
        eapply find_none in E; eauto. unfold has_new in E. rewrite H2 in E. cbn in E. apply memb_nIn in E. auto. }
  assert (HC : kids_of CClear (move_out S) = []).
  { unfold move_out. rewrite kids_of_app, Hx, app_nil_r by congruence.
    apply kids_of_filter_none. intros ch H. apply in_map_iff in H. destruct H as (ch0 & <- & H). cbn. auto. }
  apply NoDup_from_types; auto.
  - rewrite HN. now apply NoDup_filter.
  - rewrite HY. apply NoDup_app_iff. split; auto. split; [now apply NoDup_filter|].
    intros x Hin. rewrite filter_In. intros [Hd _]. eapply O3; eauto.
  - rewrite HD. now apply NoDup_filter.
  - intros e. rewrite HN, HY, HD, filter_In, in_app_iff, !filter_In, negb_true_iff, memb_nIn.
    intros [H1 H2]. split; [|tauto]. intros [H|[H _]]; [|tauto]. eapply O1''; eauto.
  - intros e. rewrite HY, HD, in_app_iff, !filter_In, negb_true_iff, memb_nIn, memb_In.
    intros [H|[H1 H2]]; [|tauto]. intros [H3 _]. eapply O3; eauto.
Qed.

(** Move handling, summarised. *)
Theorem handleEntityMove_correct chs :
  (forall ch, In ch chs -> NoDup (ch_kids ch)) -> (forall ch, In ch chs -> ch_type ch <> CClear) ->
  ((exists out, handleEntityMove chs = Some out) <-> move_ok chs) /\
  (forall out, handleEntityMove chs = Some out ->
     (forall t p k e, reported out t p k e <-> moved_change chs t p k e) /\
     NoDup (flat_map ch_kids out)).
Proof.
  intros Hnd Hnc. destruct (handleEntityMove_exact chs Hnd Hnc) as [Ha Hb]. split.
  - split; [intros (out & H); eauto|eauto].
  - intros out H. assert (Hok := Hb out H). rewrite (Ha Hok) in H. injection H as <-.
    assert (HP : Permutation (isort ct_leb chs) chs) by apply isort_perm.
    assert (Hok' : move_ok (isort ct_leb chs)) by (eapply move_ok_perm; [symmetry; exact HP|exact Hok]).
    assert (Hnc' : forall ch, In ch (isort ct_leb chs) -> ch_type ch <> CClear).
    { intros ch Hc. apply Hnc. eapply Permutation_in; eauto. }
    split; [|apply move_out_NoDup; auto].
    intros t p k e. rewrite move_out_reported by auto.
    assert (Hin : forall t e, In e (kids_of t (isort ct_leb chs)) <-> In e (kids_of t chs)).
    { intros t' e'. split; apply Permutation_in; [|symmetry]; apply kids_of_perm; auto. }
    assert (Hr : forall t p k e, reported (isort ct_leb chs) t p k e <-> reported chs t p k e).
    { intros. split; apply reported_perm; auto. now symmetry. }
    unfold moved_change. destruct t; rewrite ?Hin, ?Hr; tauto.
Qed.

(** Dispatching, scanning and cleaning: function-level proofs. *)
From Verif Require Import BusModel BusSpec.

(* ---------------------------------------------------------------- lists *)
Lemma NoDup_map_inj {A B} (f : A -> B) l x y : NoDup (map f l) -> In x l -> In y l -> f x = f y -> x = y.
Proof.
  induction l as [|a t IH]; cbn; intros H Hx Hy E; [tauto|]. inversion H as [|? ? N T]; subst.
  destruct Hx as [->|Hx], Hy as [->|Hy]; auto; exfalso; apply N; [rewrite E|rewrite <- E]; now apply in_map.
Qed.
Lemma NoDup_map_filter {A B} (f : A -> B) g l : NoDup (map f l) -> NoDup (map f (filter g l)).
Proof.
  induction l as [|a t IH]; cbn; intros H; [constructor|]. inversion H as [|? ? N T]; subst. destruct (g a); cbn; auto.
  constructor; auto. intros X. apply N. apply in_map_iff in X. destruct X as (y & E & Hy). apply filter_In in Hy. rewrite <- E. now apply in_map.
Qed.
Lemma NoDup_map_perm {A B} (f : A -> B) l l' : Permutation l l' -> NoDup (map f l) -> NoDup (map f l').
Proof. intros P H. eapply Permutation_NoDup; [apply Permutation_map; exact P|exact H]. Qed.
Lemma NoDup_of_map {A B} (f : A -> B) l : NoDup (map f l) -> NoDup l.
Proof. apply NoDup_map_inv. Qed.
Lemma SS_impl {A} (R S : A -> A -> Prop) l : (forall x y, In x l -> In y l -> R x y -> S x y) -> StronglySorted R l -> StronglySorted S l.
Proof.
  intros H X. induction X as [|a t Ht IH Ha]; constructor.
  - apply IH. intros; apply H; auto; now right.
  - rewrite Forall_forall in *. intros y Hy. apply H; [now left|now right|auto].
Qed.
Lemma firstn_In {A} (x : A) n l : In x (firstn n l) -> In x l.
Proof. revert n. induction l as [|a t IH]; intros [|n] H; cbn in *; try tauto. destruct H as [H|H]; eauto. Qed.
Lemma SS_firstn {A} (R : A -> A -> Prop) l n : StronglySorted R l -> StronglySorted R (firstn n l).
Proof.
  revert n. induction l as [|a t IH]; intros n H; destruct n; cbn; try constructor. - apply IH. now inversion H.
  - inversion H as [|? ? _ F]; subst. rewrite Forall_forall in *. intros y Hy. apply F. eapply firstn_In; eauto.
Qed.
Lemma SS_map {A B} (R : B -> B -> Prop) (f : A -> B) l : StronglySorted R (map f l) <-> StronglySorted (fun a b => R (f a) (f b)) l.
Proof.
  induction l as [|a t IH]; cbn; [split; constructor|]. split; intros H; inversion H as [|? ? T F]; subst; constructor; try (now apply IH); rewrite Forall_forall in *.
  - intros y Hy. apply F. now apply in_map.
  - intros y Hy. apply in_map_iff in Hy. destruct Hy as (z & <- & Hz). auto.
Qed.
Lemma ss_lt_nodup l : StronglySorted lt l -> NoDup l.
Proof. induction 1 as [|a t H IH F]; constructor; auto. intros X. rewrite Forall_forall in F. specialize (F a X). lia. Qed.
Lemma ss_lt_eq l : forall l', StronglySorted lt l -> StronglySorted lt l' -> (forall x, In x l <-> In x l') -> l = l'.
Proof.
  induction l as [|a t IH]; intros [|b u] H1 H2 E; auto.
  - exfalso. apply (proj2 (E b)). now left.
  - exfalso. apply (proj1 (E a)). now left.
  - inversion H1 as [|? ? T1 F1]; inversion H2 as [|? ? T2 F2]; subst. rewrite Forall_forall in *.
    assert (a = b) as ->. { destruct (proj1 (E a) (or_introl eq_refl)) as [X|X]; auto. destruct (proj2 (E b) (or_introl eq_refl)) as [Y|Y]; auto. specialize (F1 b Y). specialize (F2 a X). lia. }
    f_equal. apply IH; auto. intros x. specialize (E x). split; intros X.
    + destruct (proj1 E (or_intror X)) as [->|Y]; auto. specialize (F1 x X). lia.
    + destruct (proj2 E (or_intror X)) as [->|Y]; auto. specialize (F2 x X). lia.
Qed.

Lemma NoDup_tail {A} (a b : list A) : NoDup (a ++ b) -> NoDup b.
Proof. induction a; cbn; auto. intros H. inversion H. auto. Qed.
(* ---------------------------------------------------------------- ordering *)
Lemma order_In {A} (f : A -> nat) l x : In x (order_by f l) <-> In x l.
Proof. apply isort_In. Qed.
Lemma order_sorted {A} (f : A -> nat) l : StronglySorted (fun a b => f a <= f b) (order_by f l).
Proof.
  eapply SS_impl; [|apply (isort_sorted (fun a b => f a <=? f b))].
  - cbn. intros x y _ _ H. now apply Nat.leb_le.
  - intros x y. cbn. destruct (Nat.leb_spec (f x) (f y)); auto. right. apply Nat.leb_le. lia.
  - intros x y z. cbn. rewrite !Nat.leb_le. lia.
Qed.
Lemma order_strict {A} (f : A -> nat) l : NoDup (map f l) -> StronglySorted (fun a b => f a < f b) (order_by f l).
Proof.
  intros H. pose proof (order_sorted f l) as S. assert (N : NoDup (map f (order_by f l))) by (eapply NoDup_map_perm; [symmetry; apply isort_perm|auto]).
  revert N. induction S as [|a t Ht IH Ha]; intros N; constructor.
  - apply IH. now inversion N.
  - rewrite Forall_forall in *. intros y Hy. specialize (Ha y Hy). inversion N as [|? ? X _]; subst. assert (f a <> f y) by (intros E; apply X; rewrite E; now apply in_map). lia.
Qed.
Lemma order_ids {A} (f : A -> nat) l : NoDup (map f l) -> StronglySorted lt (map f (order_by f l)).
Proof. intros H. apply SS_map. now apply order_strict. Qed.
Lemma order_head {A} (f : A -> nat) l x t : order_by f l = x :: t -> In x l /\ forall y, In y l -> f x <= f y.
Proof.
  intros E. pose proof (order_sorted f l) as S. rewrite E in S. inversion S as [|? ? _ F]; subst. split.
  - apply (order_In f). rewrite E. now left.
  - intros y Hy. apply (order_In f) in Hy. rewrite E in Hy. destruct Hy as [<-|Hy]; [lia|]. rewrite Forall_forall in F. auto.
Qed.
Lemma order_nil {A} (f : A -> nat) l : order_by f l = [] -> l = [].
Proof. intros E. destruct l as [|a t]; auto. exfalso. assert (In a (order_by f (a :: t))) by (apply order_In; now left). rewrite E in H. destruct H. Qed.

(* ---------------------------------------------------------------- scanning *)
Section Scan.
  Variables (cfg : buscfg) (now : nat) (d : bdb).
  Hypothesis W : wf d.

  Lemma scan_start_spec : match scan_start cfg now d with
    | Some start => window_start cfg now d start
    | None => forall r, In r (b_ev d) -> er_created r + c_window cfg < now end.
  Proof.
    unfold scan_start. destruct (order_by er_id _) as [|r t] eqn:E.
    - apply order_nil in E. intros r Hr. destruct (Nat.leb_spec now (er_created r + c_window cfg)) as [L|L]; auto. exfalso.
      assert (In r (filter (fun r => now <=? er_created r + c_window cfg) (b_ev d))) by (apply filter_In; split; auto; now apply Nat.leb_le). rewrite E in H. destruct H.
    - apply order_head in E. destruct E as [H1 H2]. apply filter_In in H1. destruct H1 as [H1 H3]. apply Nat.leb_le in H3. split; [eauto|].
      intros x Hx Hc. apply H2. apply filter_In. split; auto. now apply Nat.leb_le.
  Qed.

  Definition elig (start : nat) (s : srow) : bool := String.eqb (sr_service s) (c_service cfg) && is_init (sr_status s) && (start <=? sr_event s) && (sr_next s <=? now).
  Lemma elig_spec start s : elig start s = true <-> eligible cfg now start s.
  Proof.
    unfold elig, eligible. rewrite !andb_true_iff, String.eqb_eq, !Nat.leb_le.
    assert (is_init (sr_status s) = true <-> sr_status s = SInit) as -> by (destruct (sr_status s); cbn; split; congruence). tauto.
  Qed.
  (** the offset never loses a delivery *)
  Lemma offset_harmless start s0 : earliest cfg start d = Some s0 -> forall s, In s (b_sv d) -> elig (offset start s0) s = elig start s.
  Proof.
    unfold earliest. destruct (order_by sr_event _) as [|x t] eqn:E; [discriminate|]. intros [= ->]. apply order_head in E. destruct E as [H1 H2].
    apply filter_In in H1. destruct H1 as [H1 H3]. rewrite !andb_true_iff, Nat.leb_le in H3. intros s Hs. unfold elig.
    destruct (String.eqb (sr_service s) (c_service cfg)) eqn:E1; cbn; auto. destruct (is_init (sr_status s)) eqn:E2; cbn; auto.
    f_equal. unfold offset. destruct ((0 <? sr_id s0) && (start <? sr_id s0)); auto.
    destruct (Nat.leb_spec start (sr_event s)) as [L|L].
    - apply Nat.leb_le. apply H2. apply filter_In. split; auto. rewrite E1, E2. cbn. now apply Nat.leb_le.
    - apply Nat.leb_gt. destruct H3. lia.
  Qed.
  Lemma keys_of (p : srow -> bool) : (forall s, p s = true -> sr_service s = c_service cfg) -> NoDup (map sr_event (filter p (b_sv d))).
  Proof.
    intros H. pose proof (NoDup_map_filter _ p _ (wf_key d W)) as N. revert N.
    assert (F : forall s, In s (filter p (b_sv d)) -> sr_service s = c_service cfg) by (intros s Hs; apply filter_In in Hs; now apply H).
    induction (filter p (b_sv d)) as [|a t IH]; cbn; intros N; [constructor|]. inversion N as [|? ? N1 N2]; subst. constructor.
    - intros X. apply N1. apply in_map_iff in X. destruct X as (y & E & Hy). apply in_map_iff. exists y. split; auto. f_equal; [|exact E]. transitivity (c_service cfg); [apply F; now right|symmetry; apply F; now left].
    - apply IH; auto. intros s Hs. apply F. now right.
  Qed.
  Lemma due_spec start s0 : earliest cfg start d = Some s0 ->
    first_by_event (eligible cfg now start) (c_limit cfg) (b_sv d) (due cfg now (offset start s0) d).
  Proof.
    intros E. unfold due. set (l := filter _ (b_sv d)).
    assert (El : l = filter (elig start) (b_sv d)). { subst l. apply filter_ext_in. intros s Hs. now apply (offset_harmless start s0 E). }
    assert (N : NoDup (map sr_event l)). { rewrite El. apply keys_of. intros s Hs. apply elig_spec in Hs. apply Hs. }
    pose proof (order_strict sr_event l N) as S. repeat split.
    - now apply SS_firstn.
    - apply firstn_In, order_In in H. rewrite El in H. now apply filter_In in H.
    - apply firstn_In, order_In in H. rewrite El in H. apply filter_In in H. destruct H as [_ H]. apply elig_spec in H. apply H.
    - apply firstn_In, order_In in H. rewrite El in H. apply filter_In in H. destruct H as [_ H]. apply elig_spec in H. apply H.
    - apply firstn_In, order_In in H. rewrite El in H. apply filter_In in H. destruct H as [_ H]. apply elig_spec in H. apply H.
    - apply firstn_In, order_In in H. rewrite El in H. apply filter_In in H. destruct H as [_ H]. apply elig_spec in H. apply H.
    - apply firstn_le_length.
    - intros s Hs He. apply elig_spec in He.
      assert (X : In s (order_by sr_event l)) by (apply order_In; rewrite El; apply filter_In; auto).
      rewrite <- (firstn_skipn (c_limit cfg) (order_by sr_event l)) in X. apply in_app_iff in X. destruct X as [X|X]; auto. right.
      rewrite <- (firstn_skipn (c_limit cfg) (order_by sr_event l)) in S. split.
      + apply firstn_length_le. destruct (Nat.le_gt_cases (c_limit cfg) (length (order_by sr_event l))); auto. rewrite skipn_all2 in X by lia. destruct X.
      + intros x Hx. clear -S X Hx. induction (firstn (c_limit cfg) (order_by sr_event l)) as [|a t IH]; cbn in *; [tauto|]. inversion S as [|? ? T F]; subst. rewrite Forall_forall in F.
        destruct Hx as [<-|Hx]; [apply F; apply in_app_iff; auto|auto].
  Qed.
  (** the events of strictly ordered delivery records, ordered by id, match them one by one *)
  Lemma pair_match svs : StronglySorted (fun a b => sr_event a < sr_event b) svs -> (forall s, In s svs -> exists r, In r (b_ev d) /\ er_id r = sr_event s) ->
    map er_id (order_by er_id (filter (fun r => memb (er_id r) (map sr_event svs)) (b_ev d))) = map sr_event svs.
  Proof.
    intros S H. apply ss_lt_eq.
    - apply order_ids. apply NoDup_map_filter. apply (wf_ev d W).
    - now apply SS_map.
    - intros x. rewrite in_map_iff. split.
      + intros (r & <- & Hr). apply order_In in Hr. apply filter_In in Hr. now apply memb_In.
      + intros Hx. apply in_map_iff in Hx. destruct Hx as (s & <- & Hs). destruct (H s Hs) as (r & H1 & H2). exists r. split; auto. apply order_In. apply filter_In. split; auto.
        rewrite H2. apply memb_In. now apply in_map.
  Qed.
End Scan.
Lemma pair_up_snd evs : forall svs, map er_id evs = map sr_event svs -> map snd (pair_up evs svs) = svs /\ map fst (pair_up evs svs) = evs /\ forall e s, In (e, s) (pair_up evs svs) -> er_id e = sr_event s.
Proof.
  induction evs as [|e t IH]; intros [|s u] E; cbn in *; try discriminate; [repeat split; tauto|]. injection E as E1 E2. destruct (IH u E2) as (H1 & H2 & H3). rewrite H1, H2.
  repeat split; auto. intros a b [[= <- <-]|X]; auto.
Qed.
Lemma pair_up_In evs svs e s : In (e, s) (pair_up evs svs) -> In e evs /\ In s svs.
Proof. revert svs. induction evs as [|a t IH]; intros [|b u]; cbn; try tauto. intros [[= <- <-]|H]; auto. destruct (IH u H). auto. Qed.

Lemma scan_spec cfg now start d : wf d ->
  first_by_event (eligible cfg now start) (c_limit cfg) (b_sv d) (map snd (scan_events cfg now start d)) /\
  forall e s, In (e, s) (scan_events cfg now start d) -> In e (b_ev d) /\ In s (b_sv d) /\ er_id e = sr_event s.
Proof.
  intros W. unfold scan_events. destruct (earliest cfg start d) as [s0|] eqn:E.
  - pose proof (due_spec cfg now d W start s0 E) as D. set (svs := due cfg now (offset start s0) d) in *.
    assert (P : map er_id (order_by er_id (filter (fun r => memb (er_id r) (map sr_event svs)) (b_ev d))) = map sr_event svs).
    { apply pair_match; auto; [apply D|]. intros s Hs. apply (wf_ref d W). now apply D. }
    destruct (pair_up_snd _ _ P) as (H1 & H2 & H3). rewrite H1. split; auto. intros e s H. pose proof (pair_up_In _ _ _ _ H) as [X Y]. split; [|split; auto].
    + apply order_In in X. now apply filter_In in X.
    + now apply D.
  - split; [|intros ? ? []]. cbn. split; [constructor|]. split; [intros; contradiction|]. split; [apply Nat.le_0_l|].
    intros s Hs He. exfalso. unfold earliest in E. destruct (order_by sr_event _) as [|x t] eqn:E1; [|discriminate]. apply order_nil in E1.
    assert (X : In s (filter (fun s => String.eqb (sr_service s) (c_service cfg) && is_init (sr_status s) && (start <=? sr_event s)) (b_sv d))).
    { apply filter_In. split; auto. destruct He as (-> & -> & H1 & _). rewrite String.eqb_refl. cbn. now apply Nat.leb_le. }
    rewrite E1 in X. destruct X.
Qed.

(* ---------------------------------------------------------------- dispatching *)
Lemma new_events_spec trans evs : forall n, map er_ev (new_events n trans evs) = evs /\ map er_id (new_events n trans evs) = seq n (length evs) /\ length (new_events n trans evs) = length evs /\
  forall r, In r (new_events n trans evs) -> er_trans r = trans.
Proof.
  induction evs as [|e t IH]; intros n; cbn; [repeat split; tauto|]. destruct (IH (S n)) as (H1 & H2 & H3 & H4). rewrite H1, H2, H3. repeat split; auto. intros r [<-|H]; auto.
Qed.
Lemma new_deliveries_spec svc rows : forall n, map sr_id (new_deliveries n svc rows) = seq n (length rows) /\
  map (fun s => (sr_service s, sr_event s)) (new_deliveries n svc rows) = map (fun i => (svc, i)) (map er_id rows) /\
  forall s, In s (new_deliveries n svc rows) -> sr_status s = SInit /\ sr_retry s = 0 /\ exists r, In r rows /\ er_id r = sr_event s /\ sr_created s = er_created r /\ sr_next s = er_created r.
Proof.
  induction rows as [|e t IH]; intros n; cbn; [repeat split; tauto|]. destruct (IH (S n)) as (H1 & H2 & H3). rewrite H1, H2. split; auto. split; auto.
  intros s [<-|H]; cbn; [repeat split; auto; exists e; auto|]. destruct (H3 s H) as (A & B & r & C & D). repeat split; auto. exists r. tauto.
Qed.
Lemma dispatched_more trans evs svcs s d d1 rows : dispatched trans evs svcs d d1 -> b_ev d1 = b_ev d ++ rows ->
  dispatched trans evs (svcs ++ [s]) d (snd (insert_deliveries s rows d1)).
Proof.
  intros (rows' & dels & E1 & E2 & E3 & E4 & E5 & E6 & E7 & E8 & E9 & E10 & E11 & E12 & E13) R. rewrite E1 in R. apply app_inv_head in R. subst rows'.
  destruct (new_deliveries_spec s rows (b_ns d1)) as (H1 & H2 & H3). exists rows, (dels ++ new_deliveries (b_ns d1) s rows). cbn.
  assert (L : length (new_deliveries (b_ns d1) s rows) = length rows) by (rewrite <- (map_length sr_id), H1; apply seq_length).
  rewrite E5, app_assoc. repeat split; auto; try (now intros; apply E4); try lia.
  - rewrite map_app, E6, H2. clear. induction svcs as [|a t IH]; cbn; [now rewrite app_nil_r|]. now rewrite <- IH, app_assoc.
  - rewrite map_app, E7, H1, app_length, L, seq_app, E12. auto.
  - apply in_app_iff in H. destruct H as [H|H]; [now apply E8|now apply H3].
  - apply in_app_iff in H. destruct H as [H|H]; [now apply E8|now apply H3].
  - apply in_app_iff in H. destruct H as [H|H]; [now apply E8|now apply H3].
  - rewrite app_length, L. lia.
Qed.
Lemma dispatched_start trans evs d : dispatched trans evs [] d (snd (insert_events trans evs d)) /\ b_ev (snd (insert_events trans evs d)) = b_ev d ++ fst (insert_events trans evs d).
Proof.
  destruct (new_events_spec trans evs (b_ne d)) as (H1 & H2 & H3 & H4). split; auto. exists (new_events (b_ne d) trans evs), []. cbn. rewrite app_nil_r. repeat split; auto; try contradiction; lia.
Qed.
Lemma dispatched_svcs trans evs rows d : forall svcs done d1, dispatched trans evs done d d1 -> b_ev d1 = b_ev d ++ rows ->
  forall s o s' d2, deliver_all svcs rows s d1 = (o, s', d2) -> exists k, dispatched trans evs (done ++ firstn k svcs) d d2 /\ (o = Val tt -> k = length svcs).
Proof.
  induction svcs as [|v t IH]; intros done d1 D R s o s' d2 H.
  - cbn in H. injection H as <- <- <-. exists 0. cbn. rewrite app_nil_r. auto.
  - cbn in H. unfold bindM in H.
    assert (G : forall s1, deliver_all t rows s1 (snd (insert_deliveries v rows d1)) = (o, s', d2) -> exists k, dispatched trans evs (done ++ firstn k (v :: t)) d d2 /\ (o = Val tt -> k = length (v :: t))).
    { intros s1 H'. destruct (IH (done ++ [v]) (snd (insert_deliveries v rows d1)) (dispatched_more _ _ _ _ _ _ _ D R) R s1 o s' d2 H') as (k & K1 & K2).
      exists (S k). cbn. rewrite <- app_assoc in K1. split; [exact K1|]. intros X. now rewrite (K2 X). }
    destruct s as [|[| | |] s]; cbn in H; eauto.
    + injection H as <- <- <-. exists 0. cbn. rewrite app_nil_r. split; auto. discriminate.
    + injection H as <- <- <-. exists 1. cbn. split; [|discriminate]. eapply dispatched_more; eauto.
    + injection H as <- <- <-. exists 0. cbn. rewrite app_nil_r. split; auto. discriminate.
Qed.
(** every way a Dispatch can end *)
Lemma dispatch_ends trans evs s d o s' d' : dispatch trans evs s d = (o, s', d') ->
  (d' = d \/ exists k, dispatched trans evs (firstn k (b_svc d)) d d') /\ (o = Val tt -> dispatched trans evs (b_svc d) d d').
Proof.
  unfold dispatch, bindM, noop. intros H.
  assert (G1 : forall s1, match evs with [] => fail | _ => fun s d => match stmt (insert_events trans evs) s d with
      | (Val a, s', d') => (fun rows s d => match list_service s d with (Val svcs, s', d') => (fun s d => match deliver_all svcs rows s d with
          | (Val _, s', d') => stmt (fun d => (tt, d)) s' d' | (Err, s', d') => (Err, s', d') | (Crash, s', d') => (Crash, s', d') end) s' d' | (Err, s', d') => (Err, s', d') | (Crash, s', d') => (Crash, s', d') end) a s' d'
      | (Err, s', d') => (Err, s', d') | (Crash, s', d') => (Crash, s', d') end end s1 d = (o, s', d') ->
      (d' = d \/ exists k, dispatched trans evs (firstn k (b_svc d)) d d') /\ (o = Val tt -> dispatched trans evs (b_svc d) d d')).
  { intros s1 H1. destruct evs as [|e0 evs0]; [injection H1 as <- <- <-; split; [auto|discriminate]|]. set (evs := e0 :: evs0) in *.
    destruct (dispatched_start trans evs d) as [D1 R1].
    assert (G2 : forall s2, match list_service s2 (snd (insert_events trans evs d)) with (Val svcs, s', d') => (fun s d => match deliver_all svcs (fst (insert_events trans evs d)) s d with
          | (Val _, s', d') => stmt (fun d => (tt, d)) s' d' | (Err, s', d') => (Err, s', d') | (Crash, s', d') => (Crash, s', d') end) s' d' | (Err, s', d') => (Err, s', d') | (Crash, s', d') => (Crash, s', d') end = (o, s', d') -> True) by auto.
    clear G2.
    assert (G3 : forall s3, match deliver_all (b_svc d) (new_events (b_ne d) trans evs) s3 (snd (insert_events trans evs d)) with
          | (Val _, s', d') => stmt (fun d => (tt, d)) s' d' | (Err, s', d') => (Err, s', d') | (Crash, s', d') => (Crash, s', d') end = (o, s', d') ->
          (d' = d \/ exists k, dispatched trans evs (firstn k (b_svc d)) d d') /\ (o = Val tt -> dispatched trans evs (b_svc d) d d')).
    { intros s3 H3. destruct (deliver_all (b_svc d) (new_events (b_ne d) trans evs) s3 (snd (insert_events trans evs d))) as [[o3 s4] d4] eqn:E3.
      destruct (dispatched_svcs trans evs _ d (b_svc d) [] _ D1 R1 _ _ _ _ E3) as (k & K1 & K2). cbn in K1.
      assert (X : d' = d4 /\ (o = Val tt -> o3 = Val tt)).
      { destruct o3 as [[]| |]; [|injection H3 as <- <- <-; split; auto; discriminate..]. destruct s4 as [|[| | |] s4]; cbn in H3; injection H3 as <- <- <-; split; auto. }
      destruct X as [-> X]. split; [right; eauto|]. intros Y. specialize (K2 (X Y)). subst k. now rewrite firstn_all in K1. }
    assert (G4 : dispatched trans evs (firstn 0 (b_svc d)) d (snd (insert_events trans evs d))) by (now rewrite firstn_O).
    destruct s1 as [|[| | |] s1]; cbn in H1.
    - now apply (G3 []).
    - destruct s1 as [|[| | |] s1]; cbn in H1; [now apply (G3 [])|now apply (G3 s1)|..]; injection H1 as <- <- <-; split; try discriminate; right; exists 0; exact G4.
    - injection H1 as <- <- <-. split; [auto|discriminate].
    - injection H1 as <- <- <-. split; [right; exists 0; exact G4|discriminate].
    - injection H1 as <- <- <-. split; [auto|discriminate]. }
  destruct s as [|[| | |] s]; cbn in H; [now apply (G1 [])|now apply (G1 s)|..]; injection H as <- <- <-; split; auto; discriminate.
Qed.

(* ---------------------------------------------------------------- cleaning *)
Lemma filter_taken {A} (p : A -> bool) (P : A -> Prop) l : (forall x, In x l -> (p x = false <-> P x)) -> taken_out P l (filter p l).
Proof.
  induction l as [|a t IH]; intros H; cbn; [constructor|]. destruct (p a) eqn:E.
  - apply to_keep; [|apply IH; intros; apply H; now right]. intros X. apply H in X; [congruence|now left].
  - apply to_out; [|apply IH; intros; apply H; now right]. apply H; auto. now left.
Qed.
Lemma filter_filter {A} (p q : A -> bool) l : filter p (filter q l) = filter (fun x => q x && p x) l.
Proof. induction l as [|a t IH]; cbn; auto. destruct (q a); cbn; [destruct (p a)|]; rewrite ?IH; auto. Qed.

Section Clean.
  Variables (cfg : buscfg) (now : nat).
  Definition mine (s : srow) : bool := String.eqb (sr_service s) (c_service cfg).
  Definition keep_sv (ids : list nat) (d : bdb) : list srow := filter (fun s => negb (mine s && memb (sr_event s) ids)) (b_sv d).
  Definition keep_ev (ids : list nat) (d : bdb) : list erow := filter (fun r => negb (memb (er_id r) ids && negb (existsb (fun s => sr_event s =? er_id r) (keep_sv ids d)))) (b_ev d).
  Lemma delete_batch_eq ids d : delete_batch cfg ids d = mkDB (keep_ev ids d) (keep_sv ids d) (b_svc d) (b_tx d) (b_ne d) (b_ns d) (b_nt d).
  Proof.
    unfold delete_batch, keep_ev. f_equal. apply filter_ext. intros r. f_equal. fold (keep_sv ids d).
    destruct (memb (er_id r) ids && negb (existsb (fun s => sr_event s =? er_id r) (keep_sv ids d))) eqn:E.
    - apply andb_true_iff in E. destruct E as [E1 E2]. apply memb_In. apply filter_In. split; auto. now apply memb_In.
    - apply memb_nIn. intros X. apply filter_In in X. destruct X as [X1 X2]. apply memb_In in X1. rewrite X1 in E. cbn in E. unfold keep_sv, mine in E. congruence.
  Qed.
  Lemma memb_app x a b : memb x (a ++ b) = memb x a || memb x b.
  Proof. induction a as [|y t IH]; cbn; auto. now rewrite IH, orb_assoc. Qed.
  Lemma keep_sv_app a b d : keep_sv b (delete_batch cfg a d) = keep_sv (a ++ b) d.
  Proof.
    rewrite delete_batch_eq. unfold keep_sv at 1. cbn [b_sv]. unfold keep_sv. rewrite filter_filter. apply filter_ext. intros s. rewrite memb_app. destruct (mine s), (memb (sr_event s) a), (memb (sr_event s) b); auto.
  Qed.
  (** the second batch sees a database without the first; an event of the first batch still referenced by [cfg]'s service
      cannot be, for the first batch removed all those *)
  Lemma keep_ev_app a b d : (forall i, In i a -> ~ In i b) -> keep_ev b (delete_batch cfg a d) = keep_ev (a ++ b) d.
  Proof.
    intros Dj. unfold keep_ev at 1. rewrite keep_sv_app. rewrite delete_batch_eq. cbn [b_ev]. unfold keep_ev. rewrite filter_filter. apply filter_ext. intros r. rewrite memb_app.
    destruct (memb (er_id r) a) eqn:A; cbn.
    - assert (B : memb (er_id r) b = false) by (apply memb_nIn; apply Dj; now apply memb_In). rewrite B. cbn. rewrite andb_true_r. f_equal. f_equal.
      assert (X : forall l, existsb (fun s => sr_event s =? er_id r) (filter (fun s => negb (mine s && memb (sr_event s) a)) l) = existsb (fun s => sr_event s =? er_id r) (filter (fun s => negb (mine s && memb (sr_event s) (a ++ b))) l)).
      { induction l as [|s t IH]; cbn; auto. rewrite memb_app. destruct (Nat.eqb_spec (sr_event s) (er_id r)) as [E|E].
        - rewrite E, A. cbn. destruct (mine s); cbn; [apply IH|]. now rewrite E, Nat.eqb_refl.
        - destruct (mine s && memb (sr_event s) a) eqn:Y, (mine s && (memb (sr_event s) a || memb (sr_event s) b)) eqn:Z; cbn; rewrite ?IH; auto;
          apply Nat.eqb_neq in E; rewrite E; cbn; auto. }
      unfold keep_sv. now rewrite X.
    - destruct (memb (er_id r) b); cbn; auto.
  Qed.
  Lemma delete_batch_app a b d : (forall i, In i a -> ~ In i b) -> delete_batch cfg b (delete_batch cfg a d) = delete_batch cfg (a ++ b) d.
  Proof. intros Dj. rewrite (delete_batch_eq b), (delete_batch_eq (a ++ b)). f_equal; [now apply keep_ev_app|apply keep_sv_app|..]; now rewrite delete_batch_eq. Qed.
  Lemma delete_batch_nil d : delete_batch cfg [] d = d.
  Proof.
    rewrite delete_batch_eq. unfold keep_ev, keep_sv. cbn. destruct d as [ev sv svc tx ne ns nt]; cbn. f_equal.
    - clear. induction ev; cbn; congruence.
    - clear. induction sv as [|s t IH]; cbn; auto. rewrite andb_false_r. cbn. congruence.
  Qed.
  Lemma clean_loop_eq ids : forall acc d, NoDup (acc ++ ids) -> clean_loop cfg acc ids d = delete_batch cfg (acc ++ ids) d.
  Proof.
    induction ids as [|i t IH]; intros acc d N; cbn [clean_loop].
    - rewrite app_nil_r. destruct acc; auto. now rewrite delete_batch_nil.
    - assert (N' : NoDup ((acc ++ [i]) ++ t)) by now rewrite <- app_assoc.
      destruct (10 <=? length (acc ++ [i])).
      + rewrite IH by (cbn; eapply NoDup_tail; exact N'). cbn [app]. rewrite delete_batch_app; [now rewrite <- app_assoc|].
        intros x Hx Ht. clear -N' Hx Ht. induction (acc ++ [i]) as [|a u IHu]; cbn in *; [tauto|]. inversion N' as [|? ? X Y]; subst. destruct Hx as [->|Hx]; auto. apply X. apply in_app_iff. auto.
      + rewrite IH; auto. now rewrite <- app_assoc.
  Qed.
  Variable d : bdb.
  Hypothesis W : wf d.
  Definition fin (s : srow) : bool := String.eqb (sr_service s) (c_service cfg) && match sr_status s with SSuccess => true | _ => false end && (sr_created s + c_retention cfg <? now).
  Lemma fin_spec s : fin s = true <-> finished cfg now s.
  Proof. unfold fin, finished. rewrite !andb_true_iff, String.eqb_eq, Nat.ltb_lt. destruct (sr_status s); intuition congruence. Qed.
  Lemma clean_eq : clean_events cfg now d = delete_batch cfg (map sr_event (filter fin (b_sv d))) d.
  Proof.
    unfold clean_events. rewrite clean_loop_eq; auto. cbn. apply (keys_of cfg d W). intros s H. apply fin_spec in H. apply H.
  Qed.
  Lemma clean_del s : In s (b_sv d) -> (mine s && memb (sr_event s) (map sr_event (filter fin (b_sv d))) = true <-> finished cfg now s).
  Proof.
    intros Hs. rewrite andb_true_iff, memb_In. unfold mine. rewrite String.eqb_eq. split.
    - intros [H1 H2]. apply in_map_iff in H2. destruct H2 as (x & E & Hx). apply filter_In in Hx. destruct Hx as [Hx F]. apply fin_spec in F.
      assert (x = s) as <-; auto. apply (NoDup_map_inj _ _ _ _ (wf_key d W)); auto. rewrite E. f_equal. rewrite H1. apply F.
    - intros F. split; [apply F|]. apply in_map. apply filter_In. split; auto. now apply fin_spec.
  Qed.
  Lemma clean_spec : let d' := clean_events cfg now d in
    taken_out (finished cfg now) (b_sv d) (b_sv d') /\
    taken_out (fun r => (exists s, In s (b_sv d) /\ sr_event s = er_id r /\ finished cfg now s) /\ forall s, In s (b_sv d) -> sr_event s = er_id r -> finished cfg now s) (b_ev d) (b_ev d') /\
    b_svc d' = b_svc d /\ b_tx d' = b_tx d /\ b_ne d' = b_ne d /\ b_ns d' = b_ns d /\ b_nt d' = b_nt d.
  Proof.
    cbn zeta. rewrite clean_eq, delete_batch_eq. cbn. repeat split.
    - apply filter_taken. intros s Hs. rewrite negb_false_iff. now apply clean_del.
    - apply filter_taken. intros r Hr. rewrite negb_false_iff, andb_true_iff, negb_true_iff, memb_In. split.
      + intros [H1 H2]. split.
        * apply in_map_iff in H1. destruct H1 as (s & E & Hs). apply filter_In in Hs. exists s. split; [apply Hs|]. split; auto. now apply fin_spec.
        * intros s Hs E. apply clean_del; auto. destruct (mine s && memb (sr_event s) (map sr_event (filter fin (b_sv d)))) eqn:X; auto. exfalso.
          assert (Y : existsb (fun s => sr_event s =? er_id r) (keep_sv (map sr_event (filter fin (b_sv d))) d) = true); [|congruence].
          apply existsb_exists. exists s. split; [|now apply Nat.eqb_eq]. apply filter_In. split; auto. now rewrite X.
      + intros [(s & Hs & E & F) H]. split.
        * rewrite <- E. apply in_map. apply filter_In. split; auto. now apply fin_spec.
        * destruct (existsb _ _) eqn:X; auto. exfalso. apply existsb_exists in X. destruct X as (x & Hx & E'). apply Nat.eqb_eq in E'. apply filter_In in Hx. destruct Hx as [Hx N].
          specialize (H x Hx E'). apply clean_del in H; auto. rewrite H in N. discriminate.
  Qed.
End Clean.

(* ---------------------------------------------------------------- handling *)
Section Handle.
  Variable cfg : buscfg.
  (** a record of the service: no record of another service has this primary key *)
  Definition own (s : srow) (d : bdb) : Prop := sr_service s = c_service cfg /\ forall x, In x (b_sv d) -> sr_id x = sr_id s -> sr_service x = c_service cfg.
  Lemma save_row_others s d : own s d -> others cfg (save_row s d) = others cfg d.
  Proof.
    intros [E H]. unfold others, save_row. cbn. revert H. induction (b_sv d) as [|x t IH]; intros H; cbn; auto. rewrite IH by (intros; apply H; auto; now right).
    destruct (Nat.eqb_spec (sr_id x) (sr_id s)) as [X|X]; auto. rewrite E, (H x); auto; [|now left]. now rewrite String.eqb_refl.
  Qed.
  Lemma save_row_own s s' d : own s d -> own s' d -> own s' (save_row s d).
  Proof.
    intros [E H] [E' H']. split; auto. intros x Hx Ex. cbn in Hx. apply in_map_iff in Hx. destruct Hx as (y & Ey & Hy). destruct (Nat.eqb_spec (sr_id y) (sr_id s)); subst x; auto.
  Qed.
  Lemma end_event_id now r s : sr_id (end_event cfg now r s) = sr_id s /\ sr_service (end_event cfg now r s) = sr_service s /\ sr_event (end_event cfg now r s) = sr_event s /\ sr_created (end_event cfg now r s) = sr_created s.
  Proof. unfold end_event, do_retry. destruct r; cbn; auto; destruct (strat_next _ _ _) as [[n t]|]; cbn; auto. Qed.
  Lemma own_end now r s d : own s d -> own (end_event cfg now r s) d.
  Proof. destruct (end_event_id now r s) as (E1 & E2 & _). unfold own. now rewrite E1, E2. Qed.
  Lemma handle_event_shape now start env e s d d' c : handle_event cfg now start env e s d = (d', c) ->
    d' = d \/ exists s', d' = save_row s' d /\ (s' = s \/ s' = end_event cfg now (he_res env) s).
  Proof.
    unfold handle_event. destruct (begin_event _ _ _ _ _ _ _); [intros [= <- <-]; auto|..]; intros [= <- <-]; destruct (he_save env); eauto.
  Qed.
  Lemma handle_event_others now start env e s d : own s d -> others cfg (fst (handle_event cfg now start env e s d)) = others cfg d /\ (forall s', own s' d -> own s' (fst (handle_event cfg now start env e s d))).
  Proof.
    intros O. destruct (handle_event cfg now start env e s d) as [d' c] eqn:E. cbn. destruct (handle_event_shape _ _ _ _ _ _ _ _ E) as [->|(s1 & -> & H)]; auto.
    assert (own s1 d) by (destruct H as [-> | ->]; auto; now apply own_end). split; [now apply save_row_others|]. intros s' O'. now apply save_row_own.
  Qed.
  Lemma handle_event_rest now start env e s d : let d' := fst (handle_event cfg now start env e s d) in b_ev d' = b_ev d /\ b_svc d' = b_svc d /\ b_tx d' = b_tx d /\ map sr_id (b_sv d') = map sr_id (b_sv d).
  Proof.
    cbn zeta. destruct (handle_event cfg now start env e s d) as [d' c] eqn:E. cbn. destruct (handle_event_shape _ _ _ _ _ _ _ _ E) as [->|(s1 & -> & H)]; auto.
    repeat split; auto. cbn. rewrite map_map. apply map_ext. intros x. destruct (Nat.eqb_spec (sr_id x) (sr_id s1)); auto.
  Qed.
  Lemma handle_batch_others now start : forall l envs d, (forall e s, In (e, s) l -> own s d) ->
    others cfg (fst (handle_batch cfg now start envs l d)) = others cfg d /\ b_ev (fst (handle_batch cfg now start envs l d)) = b_ev d /\ b_svc (fst (handle_batch cfg now start envs l d)) = b_svc d /\ b_tx (fst (handle_batch cfg now start envs l d)) = b_tx d.
  Proof.
    induction l as [|[e s] t IH]; intros envs d H; cbn [handle_batch]; [auto|].
    pose proof (handle_event_others now start (envs 0) e s d (H e s (or_introl eq_refl))) as [O1 O2]. pose proof (handle_event_rest now start (envs 0) e s d) as (R1 & R2 & R3 & _).
    destruct (handle_event cfg now start (envs 0) e s d) as [d1 c]. cbn [fst] in *.
    destruct (IH (fun i => envs (S i)) d1) as (I1 & I2 & I3 & I4). { intros e' s' X. apply O2. apply (H e' s'). now right. }
    destruct (handle_batch cfg now start (fun i => envs (S i)) t d1) as [d2 cs]. cbn [fst] in *. repeat split; congruence.
  Qed.
  Lemma wf_own s d : wf d -> In s (b_sv d) -> sr_service s = c_service cfg -> own s d.
  Proof. intros W Hs E. split; auto. intros x Hx Ex. rewrite (NoDup_map_inj _ _ _ _ (wf_sv d W) Hx Hs Ex). auto. Qed.
  Lemma handle_events_others now envs d : wf d -> let d' := fst (handle_events cfg now envs d) in
    others cfg d' = others cfg d /\ b_ev d' = b_ev d /\ b_svc d' = b_svc d /\ b_tx d' = b_tx d.
  Proof.
    intros W. unfold handle_events. destruct (scan_start cfg now d) as [start|]; [|cbn; auto]. apply handle_batch_others. intros e s H.
    destruct (scan_spec cfg now start d W) as [S1 S2]. apply wf_own; auto; [now apply (S2 e s)|]. apply S1. change s with (snd (e, s)). now apply in_map.
  Qed.
  Lemma clean_others now d : wf d -> others cfg (clean_events cfg now d) = others cfg d.
  Proof.
    intros W. rewrite (clean_eq cfg now d W), delete_batch_eq. unfold others, keep_sv. cbn. rewrite filter_filter. apply filter_ext. intros s. unfold mine. destruct (String.eqb _ _); cbn; auto. now rewrite andb_false_r.
  Qed.
End Handle.

(* ---------------------------------------------------------------- consistency is kept *)
Lemma NoDup_app_intro {A} (a b : list A) : NoDup a -> NoDup b -> (forall x, In x a -> ~ In x b) -> NoDup (a ++ b).
Proof.
  induction a as [|x t IH]; cbn; intros H1 H2 H3; auto. inversion H1; subst. constructor; [|apply IH; auto].
  intros X. apply in_app_iff in X. destruct X as [X|X]; auto. apply (H3 x); auto.
Qed.
Lemma NoDup_list_prod {A B} (a : list A) (b : list B) : NoDup a -> NoDup b -> NoDup (list_prod a b).
Proof.
  induction a as [|x t IH]; cbn; intros H1 H2; [constructor|]. inversion H1; subst. apply NoDup_app_intro; auto.
  - apply FinFun.Injective_map_NoDup; auto. intros u v [=]. auto.
  - intros [u v] X Y. apply in_map_iff in X. destruct X as (w & [= <- <-] & _). apply in_prod_iff in Y. destruct Y. contradiction.
Qed.
Lemma dispatched_wf trans evs svcs d d' : wf d -> dispatched trans evs svcs d d' -> NoDup svcs -> wf d'.
Proof.
  intros W (rows & dels & E1 & E2 & E3 & E4 & E5 & E6 & E7 & E8 & E9 & E10 & E11 & E12 & E13) N.
  assert (Rid : forall r, In r rows -> b_ne d <= er_id r < b_ne d + length evs) by (intros r Hr; apply (in_map er_id) in Hr; rewrite E3, in_seq in Hr; lia).
  assert (Did : forall s, In s dels -> b_ns d <= sr_id s < b_ns d + length dels) by (intros s Hs; apply (in_map sr_id) in Hs; rewrite E7, in_seq in Hs; lia).
  assert (Dev : forall s, In s dels -> exists r, In r rows /\ er_id r = sr_event s) by (intros s Hs; destruct (E8 s Hs) as (_ & _ & r & H1 & H2 & _); eauto).
  pose proof (wf_pos d W) as P. constructor.
  - rewrite E1, map_app, E3. apply NoDup_app_intro; [apply W|apply seq_NoDup|]. intros x X Y. apply in_map_iff in X. destruct X as (r & <- & Hr). apply in_seq in Y. pose proof (wf_evn d W r Hr). lia.
  - intros r Hr. rewrite E1 in Hr. apply in_app_iff in Hr. rewrite E11. destruct Hr as [Hr|Hr]; [pose proof (wf_evn d W r Hr)|pose proof (Rid r Hr)]; lia.
  - rewrite E5, map_app, E7. apply NoDup_app_intro; [apply W|apply seq_NoDup|]. intros x X Y. apply in_map_iff in X. destruct X as (r & <- & Hr). apply in_seq in Y. pose proof (wf_svn d W r Hr). lia.
  - intros s Hs. rewrite E5 in Hs. apply in_app_iff in Hs. rewrite E12. destruct Hs as [Hs|Hs]; [pose proof (wf_svn d W s Hs)|pose proof (Did s Hs)]; lia.
  - rewrite E5, map_app, E6. apply NoDup_app_intro; [apply W|apply NoDup_list_prod; auto; rewrite E3; apply seq_NoDup|]. intros [v i] X Y. apply in_prod_iff in Y. destruct Y as [_ Y]. rewrite E3, in_seq in Y.
    apply in_map_iff in X. destruct X as (s & [= <- <-] & Hs). destruct (wf_ref d W s Hs) as (r & Hr & Er). pose proof (wf_evn d W r Hr). lia.
  - intros s Hs. rewrite E5 in Hs. rewrite E1. apply in_app_iff in Hs. destruct Hs as [Hs|Hs].
    + destruct (wf_ref d W s Hs) as (r & Hr & Er). exists r. split; auto. apply in_app_iff. auto.
    + destruct (Dev s Hs) as (r & Hr & Er). exists r. split; auto. apply in_app_iff. auto.
  - rewrite E9. apply W.
  - rewrite E11, E12. lia.
Qed.
Lemma init_service_wf name d : wf d -> wf (init_service name d).
Proof.
  intros W. unfold init_service. destruct (existsb _ _) eqn:E; auto. destruct W. constructor; auto. cbn. apply NoDup_app_intro; auto; [repeat constructor; tauto|].
  intros x X [<-|[]]. assert (existsb (String.eqb name) (b_svc d) = true); [|congruence]. apply existsb_exists. exists name. split; auto. apply String.eqb_refl.
Qed.
(** saving a record that differs from the stored one at most in retry count, status and next time *)
Lemma save_row_wf s d : wf d -> (forall x, In x (b_sv d) -> sr_id x = sr_id s -> sr_service x = sr_service s /\ sr_event x = sr_event s) -> wf (save_row s d).
Proof.
  intros W H. destruct W as [A1 A2 A3 A4 A5 A6 A7 A8]. constructor; auto; cbn.
  - rewrite map_map. erewrite map_ext; [exact A3|]. intros x. cbn. destruct (Nat.eqb_spec (sr_id x) (sr_id s)); auto.
  - intros x X. apply in_map_iff in X. destruct X as (y & <- & Hy). destruct (Nat.eqb_spec (sr_id y) (sr_id s)) as [E|E]; auto. rewrite <- E. auto.
  - rewrite map_map. erewrite map_ext_in; [exact A5|]. intros x Hx. cbn. destruct (Nat.eqb_spec (sr_id x) (sr_id s)) as [E|E]; auto. destruct (H x Hx E) as [-> ->]. auto.
  - intros x X. apply in_map_iff in X. destruct X as (y & <- & Hy). destruct (Nat.eqb_spec (sr_id y) (sr_id s)) as [E|E]; auto. destruct (H y Hy E) as [_ <-]. auto.
Qed.
Lemma taken_out_In {A} (P : A -> Prop) l l' x : taken_out P l l' -> (In x l' -> In x l) /\ (In x l -> ~ P x -> In x l').
Proof.
  induction 1 as [|y l l' Hy T [I1 I2]|y l l' Hy T [I1 I2]]; cbn; [tauto|..].
  - split; auto. intros [->|X] N; [contradiction|auto].
  - split; intros [->|X]; auto.
Qed.
Lemma taken_out_gone {A} (P : A -> Prop) l l' x : taken_out P l l' -> NoDup l -> In x l -> P x -> ~ In x l'.
Proof.
  induction 1 as [|y l l' Hy T IH|y l l' Hy T IH]; cbn; intros N Hx Px; [tauto|..]; inversion N; subst.
  - destruct Hx as [->|Hx]; [|auto]. intros X. apply (taken_out_In _ _ _ x T) in X. contradiction.
  - intros [->|X]; [contradiction|]. destruct Hx as [->|Hx]; [contradiction|]. now apply IH.
Qed.
Lemma taken_out_NoDup {A B} (f : A -> B) (P : A -> Prop) l l' : taken_out P l l' -> NoDup (map f l) -> NoDup (map f l').
Proof.
  induction 1 as [|y l l' Hy T IH|y l l' Hy T IH]; cbn; intros N; [constructor|..]; inversion N as [|? ? X Y]; subst; auto. constructor; auto. intros Z. apply X. apply in_map_iff in Z. destruct Z as (z & E & Hz).
  rewrite <- E. apply in_map. now apply (taken_out_In _ _ _ z T).
Qed.
Lemma clean_wf cfg now d : wf d -> wf (clean_events cfg now d).
Proof.
  intros W. destruct (clean_spec cfg now d W) as (C1 & C2 & C3 & C4 & C5 & C6 & C7). constructor; rewrite ?C3, ?C5, ?C6; try apply W.
  - eapply taken_out_NoDup; [exact C2|apply W].
  - intros r Hr. apply (wf_evn d W). now apply (taken_out_In _ _ _ r C2).
  - eapply taken_out_NoDup; [exact C1|apply W].
  - intros r Hr. apply (wf_svn d W). now apply (taken_out_In _ _ _ r C1).
  - eapply taken_out_NoDup; [exact C1|apply W].
  - intros s Hs. pose proof (proj1 (taken_out_In _ _ _ s C1) Hs) as Hs'. destruct (wf_ref d W s Hs') as (r & Hr & Er). exists r. split; auto. apply (taken_out_In _ _ _ r C2); auto.
    intros [_ X]. assert (F : finished cfg now s) by (apply X; auto). apply (taken_out_gone _ _ _ s C1); auto. apply (NoDup_of_map sr_id). apply W.
Qed.
Lemma filter_one {A} (p : A -> bool) l x : NoDup l -> In x l -> p x = true -> (forall y, In y l -> p y = true -> y = x) -> filter p l = [x].
Proof.
  induction l as [|a t IH]; cbn; intros N Hx Px H; [tauto|]. inversion N; subst. destruct Hx as [->|Hx].
  - rewrite Px. f_equal. assert (Z : forall y, In y t -> p y = false). { intros y Hy. destruct (p y) eqn:E; auto. assert (y = x) as -> by auto. contradiction. }
    clear -Z. induction t as [|b t IH]; cbn; auto. rewrite Z by now left. apply IH. intros; apply Z; now right.
  - destruct (p a) eqn:E; [assert (a = x) as -> by auto; contradiction|]. apply IH; auto.
Qed.

(** Progress of polling: the measure and the operations. *)
From Verif Require Import BusModel BusSpec BusProof BusWorld BusWorldSpec BusWorldProof BusWorldProof3 BusLiveSpec BusLive.

Lemma NoDup_map_via {A B C} (f : A -> B) (g : A -> C) l : (forall x y, In x l -> In y l -> g x = g y -> f x = f y) -> NoDup (map f l) -> NoDup (map g l).
Proof.
  intros H. induction l as [|a t IH]; cbn; intros N; constructor; inversion N as [|? ? X Y]; subst.
  - intros Z. apply X. apply in_map_iff in Z. destruct Z as (b & Eb & Hb). rewrite <- (H b a); auto; [now apply in_map|now right|now left].
  - apply IH; auto. intros x y Hx Hy. apply H; now right.
Qed.
Lemma wf_map d d' g : wf d -> b_ev d' = b_ev d -> b_svc d' = b_svc d -> b_ne d' = b_ne d -> b_ns d' = b_ns d -> b_sv d' = map g (b_sv d) ->
  (forall x, In x (b_sv d) -> sr_id (g x) = sr_id x /\ sr_service (g x) = sr_service x /\ sr_event (g x) = sr_event x) -> wf d'.
Proof.
  intros [A1 A2 A3 A4 A5 A6 A7 A8] E1 E2 E3 E4 E5 K. constructor; rewrite ?E1, ?E2, ?E3, ?E4, ?E5; auto.
  - rewrite map_map. erewrite map_ext_in; [exact A3|]. intros s Hs. now apply K.
  - intros x Hx. apply in_map_iff in Hx. destruct Hx as (y & <- & Hy). destruct (K y Hy) as (-> & _). auto.
  - rewrite map_map. erewrite map_ext_in; [exact A5|]. intros s Hs. cbn. destruct (K s Hs) as (_ & -> & ->). auto.
  - intros x Hx. apply in_map_iff in Hx. destruct Hx as (y & <- & Hy). destruct (K y Hy) as (_ & _ & ->). auto.
Qed.
Lemma scan_batch cfg now start d : wf d -> (forall e s, In (e, s) (scan_events cfg now start d) -> In s (b_sv d) /\ sr_status s = SInit) /\ NoDup (map (fun t => sr_id (snd t)) (scan_events cfg now start d)).
Proof.
  intros W. destruct (scan_spec cfg now start d W) as [(F1 & F2 & _) S2]. split.
  - intros e s H. pose proof (in_map snd _ _ H) as X. cbn in X. destruct (F2 s X) as [Y (_ & Z & _)]. auto.
  - rewrite <- map_map. apply (NoDup_map_via sr_event).
    + intros x y Hx Hy E. f_equal. apply (NoDup_map_inj _ _ _ _ (wf_sv d W)); auto; now apply F2.
    + apply ss_lt_nodup. now apply SS_map.
Qed.
(** one poll: the general effect *)
Lemma poll_effect cfg now envs d : wf d ->
  let d' := fst (handle_events cfg now envs d) in let cs := snd (handle_events cfg now envs d) in
  wf d' /\ b_ev d' = b_ev d /\ b_ne d' = b_ne d /\
  match scan_start cfg now d with
  | None => d' = d /\ cs = []
  | Some start => let l := scan_events cfg now start d in
    exists g, b_sv d' = map g (b_sv d) /\ (forall x, In x (b_sv d) -> ~ In x (map snd l) -> g x = x) /\
      (forall i e s, nth_error l i = Some (e, s) -> (g s = s \/ g s = end_event cfg now (he_res (envs i)) s) /\ (In (e, s) cs -> he_save (envs i) = true -> g s = end_event cfg now (he_res (envs i)) s)) /\
      (forall i e s, nth_error l i = Some (e, s) -> is_fifo (d_type (er_ev e)) = false -> he_lock (envs i) = true -> In (e, s) cs) /\ incl cs l
  end.
Proof.
  intros W. unfold handle_events. destruct (scan_start cfg now d) as [start|]; cbn zeta; [|auto 6].
  destruct (scan_batch cfg now start d W) as [B1 B2]. pose proof (batch_effect cfg now start (scan_events cfg now start d) envs d (wf_sv d W) B1 B2) as X. cbn zeta in X.
  destruct (handle_batch cfg now start envs (scan_events cfg now start d) d) as [d' cs]. cbn [fst snd] in *. destruct X as ((E1 & E2 & E3 & E4 & E5 & E6) & g & G1 & G2 & G3 & G4 & G5).
  split; [|split; auto; split; auto; exists g; auto]. apply (wf_map d d' g W); auto. intros x Hx.
  destruct (in_dec (fun x y : srow => ltac:(repeat decide equality) : {x = y} + {x <> y}) x (map snd (scan_events cfg now start d))) as [I|I]; [|rewrite (G2 x Hx I); auto].
  apply in_map_iff in I. destruct I as ((e & s) & E & I). cbn in E. subst s. apply In_nth_error in I. destruct I as (i & I). destruct (G3 i e x I) as [[-> | ->] _]; auto. destruct (end_event_id cfg now (he_res (envs i)) x) as (A & B & C & _). auto.
Qed.

Lemma sum_le {A} (f g : A -> nat) l : (forall x, In x l -> f x <= g x) -> list_sum (map f l) <= list_sum (map g l).
Proof. induction l as [|a t IH]; cbn; intros H; auto. specialize (IH (fun x Hx => H x (or_intror Hx))). pose proof (H a (or_introl eq_refl)). unfold list_sum in *. cbn. lia. Qed.
Lemma sum_lt {A} (f g : A -> nat) l y : (forall x, In x l -> f x <= g x) -> In y l -> f y < g y -> list_sum (map f l) < list_sum (map g l).
Proof.
  induction l as [|a t IH]; cbn; intros H Hy L; [contradiction|]. pose proof (sum_le f g t (fun x Hx => H x (or_intror Hx))) as S. pose proof (H a (or_introl eq_refl)). unfold list_sum in *. cbn. destruct Hy as [->|Hy]; [lia|].
  specialize (IH (fun x Hx => H x (or_intror Hx)) Hy L). lia.
Qed.
Lemma sum_taken {A} (P : A -> Prop) (f : A -> nat) l l' : taken_out P l l' -> list_sum (map f l') <= list_sum (map f l).
Proof. induction 1; unfold list_sum in *; cbn; lia. Qed.
Lemma sum_zero {A} (f : A -> nat) l : (forall x, In x l -> f x = 0) -> list_sum (map f l) = 0.
Proof. induction l as [|a t IH]; cbn; intros H; auto. unfold list_sum in *. cbn. rewrite (H a (or_introl eq_refl)). apply IH. auto. Qed.
Lemma sum_filter {A} (p : A -> bool) (f : A -> nat) l : (forall x, In x l -> p x = false -> f x = 0) -> list_sum (map f (filter p l)) = list_sum (map f l).
Proof. induction l as [|a t IH]; cbn; intros H; auto. unfold list_sum in *. destruct (p a) eqn:E; cbn; rewrite IH; auto. rewrite (H a); auto. Qed.

Section Measure.
  Variable cfg : buscfg.
  Variable n : nat.
  Variable e0 : erow.
  Variable s0 : srow.
  Hypothesis S0 : sr_service s0 = c_service cfg.
  Hypothesis S1 : sr_status s0 = SInit.
  Hypothesis S2 : er_id e0 = sr_event s0.
  Variable Q : erow -> srow -> Prop.

  Definition mine (s : srow) : bool := String.eqb (sr_service s) (c_service cfg).
  Definition weight (s : srow) : nat := if mine s && is_init (sr_status s) && (sr_event s <? sr_event s0) then S (n - sr_retry s) else 0.
  Definition total (d : bdb) : nat := list_sum (map weight (b_sv d)).
  Definition base (d : bdb) : Prop := wf d /\ In s0 (b_sv d) /\ In e0 (b_ev d) /\
    forall s r, In s (b_sv d) -> mine s = true -> sr_event s <= sr_event s0 -> In r (b_ev d) -> er_id r = sr_event s -> Q r s.
  (** the operations that are not polls of the service keep everything *)
  Lemma base_sub d d' : base d -> wf d' -> In s0 (b_sv d') -> In e0 (b_ev d') ->
    (forall s, In s (b_sv d') -> mine s = true -> sr_event s <= sr_event s0 -> In s (b_sv d)) -> (forall r, In r (b_ev d') -> er_id r <= sr_event s0 -> In r (b_ev d)) -> base d'.
  Proof. intros (W & A & B & C) W' A' B' H1 H2. split; auto. split; auto. split; auto. intros s r Hs Hm Hl Hr E. apply C; auto. apply H2; auto. lia. Qed.
  Lemma keep_foreign o now envs d : c_service o <> c_service cfg -> base d -> base (fst (handle_events o now envs d)) /\ total (fst (handle_events o now envs d)) = total d.
  Proof.
    intros N B. pose proof B as BB. destruct BB as (W & H0 & E0 & _). destruct (poll_effect o now envs d W) as (W' & Ev & _). destruct (handle_events_others o now envs d W) as (O & _). cbn zeta in *.
    assert (M : filter mine (b_sv (fst (handle_events o now envs d))) = filter mine (b_sv d)).
    { assert (X : forall l, filter mine (filter (fun s => negb (String.eqb (sr_service s) (c_service o))) l) = filter mine l).
      { intros l. rewrite filter_filter. apply filter_ext. intros s. unfold mine. destruct (String.eqb_spec (sr_service s) (c_service cfg)); [|now rewrite andb_false_r]. destruct (String.eqb_spec (sr_service s) (c_service o)); auto. congruence. }
      unfold others in O. rewrite <- (X (b_sv (fst _))), O. apply X. }
    assert (Mi : forall s, In s (b_sv (fst (handle_events o now envs d))) -> mine s = true -> In s (b_sv d)) by (intros s Hs Hm; apply (filter_In mine s (b_sv d)); rewrite <- M; now apply filter_In).
    split.
    - apply (base_sub d); auto; [|rewrite Ev; auto|rewrite Ev; auto]. assert (X : In s0 (filter mine (b_sv d))) by (apply filter_In; split; auto; unfold mine; rewrite S0; apply String.eqb_refl). rewrite <- M in X. now apply filter_In in X.
    - unfold total. rewrite <- (sum_filter mine weight (b_sv d)), <- (sum_filter mine weight (b_sv (fst _))), M; auto; intros x _ E; unfold weight; now rewrite E.
  Qed.
  Lemma keep_dispatch evs d : base d -> base (snd (dispatch_now evs d)) /\ total (snd (dispatch_now evs d)) = total d.
  Proof.
    intros B. pose proof B as BB. destruct BB as (W & H0 & E0 & _). destruct (dispatch_now evs d) as [rows d'] eqn:E. destruct (dispatch_now_spec _ _ _ _ E) as [D _]. cbn [snd].
    pose proof (dispatched_wf 0 evs (b_svc d) d d' W D (wf_svc d W)) as W'. destruct D as (rows' & dels & E1 & E2 & E3 & E4 & E5 & E6 & E7 & E8 & _).
    assert (L0 : sr_event s0 < b_ne d) by (rewrite <- S2; apply (wf_evn d W); auto).
    assert (Ln : forall r, In r rows' -> b_ne d <= er_id r) by (intros r Hr; apply (in_map er_id) in Hr; rewrite E3 in Hr; apply in_seq in Hr; lia).
    assert (Ld : forall s, In s dels -> b_ne d <= sr_event s) by (intros s Hs; destruct (E8 s Hs) as (_ & _ & r & R1 & R2 & _); rewrite <- R2; auto).
    split.
    - apply (base_sub d); auto.
      + rewrite E5. apply in_app_iff. auto.
      + rewrite E1. apply in_app_iff. auto.
      + intros s Hs _ L. rewrite E5 in Hs. apply in_app_iff in Hs. destruct Hs as [Hs|Hs]; auto. specialize (Ld s Hs). lia.
      + intros r Hr L. rewrite E1 in Hr. apply in_app_iff in Hr. destruct Hr as [Hr|Hr]; auto. specialize (Ln r Hr). lia.
    - unfold total. rewrite E5, map_app, list_sum_app, (sum_zero weight dels); [lia|]. intros s Hs. unfold weight. specialize (Ld s Hs). destruct (Nat.ltb_spec (sr_event s) (sr_event s0)); [lia|]. now rewrite andb_false_r.
  Qed.
  Lemma keep_register name d : base d -> base (init_service name d) /\ total (init_service name d) = total d.
  Proof.
    intros B. pose proof B as BB. destruct BB as (W & H0 & E0 & _). pose proof (init_service_wf name d W) as W'. assert (E : b_ev (init_service name d) = b_ev d /\ b_sv (init_service name d) = b_sv d) by (unfold init_service; destruct (existsb _ _); auto).
    destruct E as [E1 E2]. split; [|unfold total; now rewrite E2]. apply (base_sub d); rewrite ?E1, ?E2; auto.
  Qed.
  Lemma keep_clean c now d : base d -> base (clean_events c now d) /\ total (clean_events c now d) <= total d.
  Proof.
    intros B. pose proof B as BB. destruct BB as (W & H0 & E0 & _). pose proof (clean_wf c now d W) as W'. destruct (clean_spec c now d W) as (C1 & C2 & _).
    assert (K0 : In s0 (b_sv (clean_events c now d))) by (apply (taken_out_In _ _ _ s0 C1); auto; intros (_ & F & _); congruence).
    split; [|unfold total; eapply sum_taken; eauto]. apply (base_sub d); auto.
    - apply (taken_out_In _ _ _ e0 C2); auto. intros [_ F]. destruct (F s0 H0 (eq_sym S2)) as (_ & X & _). congruence.
    - intros s Hs _ _. now apply (taken_out_In _ _ _ s C1).
    - intros r Hr _. now apply (taken_out_In _ _ _ r C2).
  Qed.
  Variable okpoll : nat -> (nat -> henv) -> Prop.
  Hypothesis poll_step : forall now envs d, okpoll now envs -> base d ->
    In (e0, s0) (snd (handle_events cfg now envs d)) \/ (base (fst (handle_events cfg now envs d)) /\ total (fst (handle_events cfg now envs d)) < total d).
  Lemma progress : forall l d, base d -> foreign_ok cfg l -> (forall now envs, In (BPoll now envs) l -> okpoll now envs) -> total d < polls l -> In (e0, s0) (snd (bus_run cfg l d)).
  Proof.
    induction l as [|o t IH]; intros d B F P L; [unfold polls in L; cbn in L; lia|]. assert (F' : foreign_ok cfg t) by (intros o' now envs H; apply (F o' now envs); now right).
    assert (P' : forall now envs, In (BPoll now envs) t -> okpoll now envs) by (intros; apply P; now right). destruct o as [now envs|o now envs|evs|name|c now]; cbn [bus_run].
    - destruct (poll_step now envs d (P now envs (or_introl eq_refl)) B) as [H|[B' L']].
      + destruct (handle_events cfg now envs d) as [d1 c1]. destruct (bus_run cfg t d1) as [d2 c2]. cbn in *. apply in_app_iff. auto.
      + destruct (handle_events cfg now envs d) as [d1 c1]. cbn [fst] in *. specialize (IH d1 B' F' P'). destruct (bus_run cfg t d1) as [d2 c2]. cbn [snd] in *. apply in_app_iff. right. apply IH. unfold polls in *. cbn in L. lia.
    - destruct (keep_foreign o now envs d (F o now envs (or_introl eq_refl)) B) as [B' T]. apply IH; auto. rewrite T. exact L.
    - destruct (keep_dispatch evs d B) as [B' T]. apply IH; auto. rewrite T. exact L.
    - destruct (keep_register name d B) as [B' T]. apply IH; auto. rewrite T. exact L.
    - destruct (keep_clean c now d B) as [B' T]. apply IH; auto. unfold polls in *. cbn in L. lia.
  Qed.
  (** the measure in terms of the records *)
  Lemma total_bound d : total d <= (n + 1) * length (pending_before cfg d (sr_event s0)).
  Proof.
    unfold total, pending_before. induction (b_sv d) as [|s t IH]; [apply Nat.le_0_l|]. cbn [map filter]. change (list_sum (weight s :: map weight t)) with (weight s + list_sum (map weight t)). unfold weight at 1. fold (mine s).
    destruct (mine s && is_init (sr_status s) && (sr_event s <? sr_event s0)); cbn [length]; rewrite ?Nat.mul_succ_r; lia.
  Qed.
End Measure.

(** Progress of polling: the two kinds of polls that make progress. *)
From Verif Require Import BusModel BusSpec BusProof BusWorld BusWorldSpec BusWorldProof BusWorldProof3 BusLiveSpec BusLive BusLive2.

Section Progress.
  Variable cfg : buscfg.
  Variable n : nat.
  Variable e0 : erow.
  Variable s0 : srow.
  Hypothesis S0 : sr_service s0 = c_service cfg.
  Hypothesis S1 : sr_status s0 = SInit.
  Hypothesis S2 : er_id e0 = sr_event s0.
  Hypothesis Lim : 1 <= c_limit cfg.

  (** a poll at a time when the delivery is due and its event inside the window: the batch contains the delivery, or only
      deliveries of earlier events, at least one *)
  Lemma batch_cases now d : wf d -> In s0 (b_sv d) -> In e0 (b_ev d) -> sr_next s0 <= now -> now <= er_created e0 + c_window cfg ->
    exists start, scan_start cfg now d = Some start /\ start <= sr_event s0 /\
      (In (e0, s0) (scan_events cfg now start d) \/
       ((forall e s, In (e, s) (scan_events cfg now start d) -> sr_event s < sr_event s0) /\ exists e s, nth_error (scan_events cfg now start d) 0 = Some (e, s))).
  Proof.
    intros W H0 E0 N Wi. pose proof (scan_start_spec cfg now d) as X. destruct (scan_start cfg now d) as [start|]; [|specialize (X e0 E0); lia]. destruct X as [_ X]. specialize (X e0 E0 Wi).
    exists start. split; auto. split; [lia|]. destruct (scan_spec cfg now start d W) as [(F1 & F2 & F3 & F4) B].
    assert (El : eligible cfg now start s0) by (repeat split; auto; lia). destruct (F4 s0 H0 El) as [I|[L I]].
    - left. apply in_map_iff in I. destruct I as ((e & s) & E & I). cbn in E. subst s. destruct (B e s0 I) as (B1 & _ & B2). assert (e = e0) as -> by (apply (NoDup_map_inj _ _ _ _ (wf_ev d W)); auto; congruence). auto.
    - right. split.
      + intros e s Hs. apply I. apply (in_map snd) in Hs. exact Hs.
      + rewrite map_length in L. destruct (scan_events cfg now start d) as [|[e s] t]; [cbn in L; lia|]. exists e, s. reflexivity.
  Qed.
  Lemma end_weight now r s : grants (c_strategy cfg) n -> mine cfg s = true -> sr_status s = SInit -> sr_event s < sr_event s0 -> weight cfg n s0 (end_event cfg now r s) < weight cfg n s0 s.
  Proof.
    intros G M I L. destruct (end_event_id cfg now r s) as (_ & K2 & K3 & _). unfold weight, mine in *. rewrite K2, K3, M, I. cbn [andb is_init]. assert ((sr_event s <? sr_event s0) = true) as -> by now apply Nat.ltb_lt. rewrite !andb_true_r.
    unfold end_event. destruct r; cbn; [lia|..]; unfold do_retry; destruct (Nat.le_gt_cases n (sr_retry s)) as [A|A].
    1,3: rewrite (proj2 (G (sr_retry s) now) A); cbn; lia.
    all: destruct (proj1 (G (sr_retry s) now) A) as (t & ->); cbn; rewrite I; cbn; lia.
  Qed.
  Lemma end_weight_le now r s : grants (c_strategy cfg) n -> sr_status s = SInit -> weight cfg n s0 (end_event cfg now r s) <= weight cfg n s0 s.
  Proof.
    intros G I. destruct (mine cfg s) eqn:M; [|destruct (end_event_id cfg now r s) as (_ & K2 & _); unfold weight, mine in *; rewrite K2, M; cbn; lia].
    destruct (Nat.lt_ge_cases (sr_event s) (sr_event s0)) as [L|L]; [apply Nat.lt_le_incl; now apply end_weight|].
    destruct (end_event_id cfg now r s) as (_ & _ & K3 & _). unfold weight. rewrite K3. destruct (Nat.ltb_spec (sr_event s) (sr_event s0)); [lia|]. rewrite !andb_false_r. lia.
  Qed.

  (** ** handlers may fail; no ordered events *)
  Definition ok_normal (now : nat) (envs : nat -> henv) : Prop :=
    sr_next s0 <= now /\ now <= er_created e0 + c_window cfg /\ forall i, he_lock (envs i) = true /\ he_save (envs i) = true.
  Definition q_normal (r : erow) (s : srow) : Prop := is_fifo (d_type (er_ev r)) = false.
  Lemma poll_normal : grants (c_strategy cfg) n -> forall now envs d, ok_normal now envs -> base cfg e0 s0 q_normal d ->
    In (e0, s0) (snd (handle_events cfg now envs d)) \/ (base cfg e0 s0 q_normal (fst (handle_events cfg now envs d)) /\ total cfg n s0 (fst (handle_events cfg now envs d)) < total cfg n s0 d).
  Proof.
    intros G now envs d (N & Wi & En) B. pose proof B as BB. destruct BB as (W & H0 & E0 & K). destruct (batch_cases now d W H0 E0 N Wi) as (start & Es & Ls & C).
    destruct (poll_effect cfg now envs d W) as (W' & Ev & _ & P). rewrite Es in P. cbn zeta in P. destruct P as (g & G1 & G2 & G3 & G4 & _).
    destruct (scan_spec cfg now start d W) as [(F1 & F2 & _) Sp].
    assert (Mi : forall e s, In (e, s) (scan_events cfg now start d) -> mine cfg s = true /\ sr_status s = SInit /\ In s (b_sv d) /\ In e (b_ev d) /\ er_id e = sr_event s).
    { intros e s Hs. destruct (F2 s (in_map snd _ _ Hs)) as [X (Y1 & Y2 & _)]. destruct (Sp e s Hs) as (Z1 & _ & Z2). unfold mine. rewrite Y1, String.eqb_refl. auto. }
    assert (Nf : forall e s, In (e, s) (scan_events cfg now start d) -> sr_event s <= sr_event s0 -> is_fifo (d_type (er_ev e)) = false).
    { intros e s Hs L. destruct (Mi e s Hs) as (M1 & _ & M3 & M4 & M5). exact (K s e M3 M1 L M4 M5). }
    destruct C as [C|[C1 (e1 & s1 & C2)]].
    - left. destruct (In_nth_error _ _ C) as (i & Hi). apply (G4 i e0 s0 Hi); [eapply Nf; eauto|apply En].
    - right. pose proof (nth_error_In _ _ C2) as I1.
      assert (Gl : forall e s, In (e, s) (scan_events cfg now start d) -> exists r, g s = end_event cfg now r s).
      { intros e s Hs. destruct (In_nth_error _ _ Hs) as (i & Hi). exists (he_res (envs i)). apply (G3 i e s Hi); [|apply En]. apply (G4 i e s Hi); [|apply En]. apply (Nf e s Hs). specialize (C1 e s Hs). lia. }
      assert (Gd : forall x, In x (b_sv d) -> (exists e, In (e, x) (scan_events cfg now start d)) \/ g x = x).
      { intros x Hx. destruct (in_dec (fun x y : srow => ltac:(repeat decide equality) : {x = y} + {x <> y}) x (map snd (scan_events cfg now start d))) as [I|I]; [left|right; auto].
        apply in_map_iff in I. destruct I as ((e & s) & E & I). cbn in E. subst s. eauto. }
      assert (G0 : g s0 = s0). { destruct (Gd s0 H0) as [(e & He)|]; auto. specialize (C1 e s0 He). lia. }
      split.
      + split; auto. split; [rewrite G1; apply in_map_iff; eauto|]. split; [rewrite Ev; auto|]. intros s r Hs Hm Hl Hr Hi. rewrite Ev in Hr. rewrite G1 in Hs. apply in_map_iff in Hs. destruct Hs as (x & <- & Hx).
        destruct (Gd x Hx) as [(e & He)|E]; [|rewrite E in *; exact (K x r Hx Hm Hl Hr Hi)]. destruct (Gl e x He) as (y & Ey). rewrite Ey in *. destruct (end_event_id cfg now y x) as (_ & A2 & A3 & _). unfold mine in Hm. rewrite A2 in Hm. rewrite A3 in Hl, Hi. exact (K x r Hx Hm Hl Hr Hi).
      + unfold total. rewrite G1, map_map. apply (sum_lt _ _ _ s1).
        * intros x Hx. destruct (Gd x Hx) as [(e & He)|E]; [|now rewrite E]. destruct (Gl e x He) as (y & ->). apply end_weight_le; auto. apply (Mi e x He).
        * apply (Mi e1 s1 I1).
        * destruct (Gl e1 s1 I1) as (y & ->). destruct (Mi e1 s1 I1) as (M1 & M2 & _). apply end_weight; auto. apply (C1 e1 s1 I1).
  Qed.

  (** ** handlers succeed; any kind of events *)
  Definition q_fine (times : nat -> Prop) (r : erow) (s : srow) : Prop :=
    (sr_status s = SInit \/ sr_status s = SSuccess \/ sr_status s = SExpired) /\ (sr_status s = SInit -> forall t, times t -> sr_next s <= t) /\ (is_fifo (d_type (er_ev r)) = true -> d_sender (er_ev r) <> ""%string).
  Definition ok_fine (times : nat -> Prop) (now : nat) (envs : nat -> henv) : Prop :=
    times now /\ sr_next s0 <= now /\ now <= er_created e0 + c_window cfg /\ forall i, he_lock (envs i) = true /\ he_query (envs i) = true /\ he_res (envs i) = HOk /\ he_save (envs i) = true.
  Lemma batch_fine now start : forall l envs d, NoDup (map sr_id (b_sv d)) -> (forall e s, In (e, s) l -> In s (b_sv d) /\ sr_status s = SInit /\ er_id e = sr_event s) -> NoDup (map (fun t => sr_id (snd t)) l) ->
    StronglySorted (fun a b => sr_event (snd a) < sr_event (snd b)) l ->
    (forall i, he_lock (envs i) = true /\ he_query (envs i) = true /\ he_res (envs i) = HOk /\ he_save (envs i) = true) ->
    (forall e s, In (e, s) l -> sr_event s <= sr_event s0 -> is_fifo (d_type (er_ev e)) = true -> sender e <> ""%string /\
       forall a sa, In a (b_ev d) -> sender a = sender e -> er_id a < er_id e -> start <= er_id a -> In sa (b_sv d) -> sr_service sa = c_service cfg -> sr_event sa = er_id a -> sr_status sa = SSuccess \/ sr_status sa = SExpired \/ In sa (map snd l)) ->
    forall e s, In (e, s) l -> sr_event s <= sr_event s0 -> In (e, s) (snd (handle_batch cfg now start envs l d)).
  Proof.
    induction l as [|[e1 s1] t IH]; intros envs d N P U So En H e s Hin L; [destruct Hin|].
    destruct (P e1 s1 (or_introl eq_refl)) as (Si & Ini & Ee). cbn in U. inversion U as [|? ? U1 U2]; subst. inversion So as [|? ? So1 So2]; subst. rewrite Forall_forall in So2. cbn in So2.
    assert (L1 : sr_event s1 <= sr_event s0). { destruct Hin as [E|Hin]; [injection E as -> ->; auto|]. specialize (So2 (e, s) Hin). cbn in So2. lia. }
    destruct (En 0) as (En1 & En2 & En3 & En4).
    assert (Call : handle_event cfg now start (envs 0) e1 s1 d = (save_row (set_status s1 SSuccess) d, true)).
    { unfold handle_event, begin_event. rewrite En1, En2, En3, En4, Ini. cbn [andb negb is_init]. assert (existsb (fun x => sr_id x =? sr_id s1) (b_sv d) = true) as -> by (apply existsb_exists; exists s1; split; auto; apply Nat.eqb_refl). cbn [negb].
      destruct (is_fifo (d_type (er_ev e1))) eqn:Fi; [|reflexivity]. destruct (H e1 s1 (or_introl eq_refl) L1 Fi) as [Sn Pr].
      assert (check_preceding cfg true e1 start d = true) as ->; [|reflexivity]. unfold check_preceding. destruct (String.eqb_spec (d_sender (er_ev e1)) ""); [contradiction|]. cbn [negb]. pose proof (preceding_spec e1 d) as X. destruct (preceding e1 d) as [b|]; auto.
      destruct X as (X1 & X2 & X3 & X4 & _). destruct (Nat.ltb_spec (er_id b) start); auto. destruct (find _ (b_sv d)) as [sb|] eqn:F; auto. apply find_some in F. destruct F as [F1 F2]. apply andb_true_iff in F2. destruct F2 as [F2 F3]. apply String.eqb_eq in F2. apply Nat.eqb_eq in F3.
      destruct (Pr b sb X1 X2 X4) as [-> |[-> |I]]; auto; try (destruct (d_type (er_ev e1)); reflexivity).
      exfalso. cbn in I. destruct I as [<-|I]; [lia|]. apply in_map_iff in I. destruct I as ((e' & s') & E & I). cbn in E. subst s'. specialize (So2 _ I). cbn in So2. lia. }
    cbn [handle_batch]. rewrite Call. specialize (IH (fun i => envs (S i)) (save_row (set_status s1 SSuccess) d)).
    assert (Keep : forall x, In x (b_sv (save_row (set_status s1 SSuccess) d)) -> (sr_status x = SSuccess /\ sr_id x = sr_id s1) \/ (In x (b_sv d) /\ sr_id x <> sr_id s1)).
    { intros x Hx. cbn in Hx. apply in_map_iff in Hx. destruct Hx as (y & Ey & Hy). destruct (Nat.eqb_spec (sr_id y) (sr_id s1)); subst; auto. }
    assert (X : In (e, s) t -> In (e, s) (snd (handle_batch cfg now start (fun i => envs (S i)) t (save_row (set_status s1 SSuccess) d)))).
    { intros Ht. apply IH; auto.
      - cbn. rewrite map_map. erewrite map_ext; [exact N|]. intros x. cbn. destruct (Nat.eqb_spec (sr_id x) (sr_id s1)); cbn; congruence.
      - intros e' s' Ht'. destruct (P e' s' (or_intror Ht')) as (A1 & A2 & A3). split; auto. cbn. apply in_map_iff. exists s'. split; auto. destruct (Nat.eqb_spec (sr_id s') (sr_id s1)) as [E|]; auto. exfalso. apply U1. cbn. rewrite <- E. apply (in_map (fun t => sr_id (snd t)) _ (e', s')). auto.
      - intros e' s' Ht' L' Fi. destruct (H e' s' (or_intror Ht') L' Fi) as [A1 A2]. split; auto. intros a sa B1 B2 B3 B4 B5 B6 B7. destruct (Keep sa B5) as [[Z _]|[Z1 Z2]]; auto.
        destruct (A2 a sa B1 B2 B3 B4 Z1 B6 B7) as [Y|[Y|Y]]; auto. cbn in Y. destruct Y as [<-|Y]; auto. congruence. }
    destruct (handle_batch cfg now start (fun i => envs (S i)) t (save_row (set_status s1 SSuccess) d)) as [d2 cs]. cbn [snd] in *. destruct Hin as [E|Hin]; [left; auto|right; auto].
  Qed.
  Lemma poll_fine times : forall now envs d, ok_fine times now envs -> base cfg e0 s0 (q_fine times) d ->
    In (e0, s0) (snd (handle_events cfg now envs d)) \/ (base cfg e0 s0 (q_fine times) (fst (handle_events cfg now envs d)) /\ total cfg n s0 (fst (handle_events cfg now envs d)) < total cfg n s0 d).
  Proof.
    intros now envs d (Ti & N & Wi & En) B. pose proof B as BB. destruct BB as (W & H0 & E0 & K). destruct (batch_cases now d W H0 E0 N Wi) as (start & Es & Ls & C).
    destruct (poll_effect cfg now envs d W) as (W' & Ev & _ & P). rewrite Es in P. cbn zeta in P. destruct P as (g & G1 & G2 & G3 & _ & _).
    destruct (scan_spec cfg now start d W) as [(F1 & F2 & F3 & F4) Sp]. destruct (scan_batch cfg now start d W) as [Sb1 Sb2].
    assert (Mi : forall e s, In (e, s) (scan_events cfg now start d) -> mine cfg s = true /\ sr_status s = SInit /\ In s (b_sv d) /\ In e (b_ev d) /\ er_id e = sr_event s).
    { intros e s Hs. destruct (F2 s (in_map snd _ _ Hs)) as [X (Y1 & Y2 & _)]. destruct (Sp e s Hs) as (Z1 & _ & Z2). unfold mine. rewrite Y1, String.eqb_refl. auto. }
    assert (Ca : forall e s, In (e, s) (scan_events cfg now start d) -> sr_event s <= sr_event s0 -> In (e, s) (snd (handle_events cfg now envs d))).
    { intros e s Hs L. unfold handle_events. rewrite Es. apply batch_fine; auto.
      - apply W.
      - intros e' s' H'. destruct (Mi e' s' H') as (M1 & M2 & M3 & M4 & M5). auto.
      - now apply (proj1 (SS_map (fun a b => sr_event a < sr_event b) snd _)).
      - intros e' s' H' L' Fi. destruct (Mi e' s' H') as (M1 & M2 & M3 & M4 & M5). destruct (K s' e' M3 M1 L' M4 M5) as (_ & _ & Sn). split; [apply Sn; auto|].
        intros a sa A1 A2 A3 A4 A5 A6 A7. assert (Ma : mine cfg sa = true) by (unfold mine; rewrite A6; apply String.eqb_refl). assert (La : sr_event sa <= sr_event s0) by lia.
        destruct (K sa a A5 Ma La A1 (eq_sym A7)) as ([Q1|[Q1|Q1]] & Q2 & _); auto. right. right.
        assert (El : eligible cfg now start sa) by (repeat split; auto; lia). destruct (F4 sa A5 El) as [I|[I1 I2]]; auto. exfalso. apply (in_map snd) in H'. specialize (I2 s' H'). lia. }
    destruct C as [C|[C1 (e1 & s1 & C2)]]; [left; apply (Ca e0 s0 C); lia|]. right. pose proof (nth_error_In _ _ C2) as I1.
    assert (Gl : forall e s, In (e, s) (scan_events cfg now start d) -> g s = set_status s SSuccess).
    { intros e s Hs. destruct (In_nth_error _ _ Hs) as (i & Hi). destruct (En i) as (_ & _ & X1 & X2). destruct (G3 i e s Hi) as [_ Y]. rewrite Y; auto; [now rewrite X1|]. apply Ca; auto. specialize (C1 e s Hs). lia. }
    assert (Gd : forall x, In x (b_sv d) -> (exists e, In (e, x) (scan_events cfg now start d)) \/ g x = x).
    { intros x Hx. destruct (in_dec (fun x y : srow => ltac:(repeat decide equality) : {x = y} + {x <> y}) x (map snd (scan_events cfg now start d))) as [I|I]; [left|right; auto].
      apply in_map_iff in I. destruct I as ((e & s) & E & I). cbn in E. subst s. eauto. }
    assert (G0 : g s0 = s0). { destruct (Gd s0 H0) as [(e & He)|]; auto. specialize (C1 e s0 He). lia. }
    split.
    - split; auto. split; [rewrite G1; apply in_map_iff; eauto|]. split; [rewrite Ev; auto|]. intros s r Hs Hm Hl Hr Hi. rewrite Ev in Hr. rewrite G1 in Hs. apply in_map_iff in Hs. destruct Hs as (x & <- & Hx).
      destruct (Gd x Hx) as [(e & He)|E]; [|rewrite E in *; exact (K x r Hx Hm Hl Hr Hi)]. rewrite (Gl e x He) in *. unfold mine in Hm. cbn in Hm, Hl, Hi. destruct (K x r Hx Hm Hl Hr Hi) as (_ & _ & Q3). split; [cbn; auto|]. split; [discriminate|exact Q3].
    - assert (Ws : forall e s, In (e, s) (scan_events cfg now start d) -> weight cfg n s0 (g s) = 0 /\ 0 < weight cfg n s0 s).
      { intros e s Hs. rewrite (Gl e s Hs). destruct (Mi e s Hs) as (M1 & M2 & _). specialize (C1 e s Hs). unfold weight, mine in *. cbn [set_status sr_service sr_status sr_event is_init]. rewrite M1, M2. apply Nat.ltb_lt in C1. rewrite C1. cbn. split; [reflexivity|lia]. }
      unfold total. rewrite G1, map_map. apply (sum_lt _ _ _ s1).
      + intros x Hx. destruct (Gd x Hx) as [(e & He)|E]; [|now rewrite E]. destruct (Ws e x He) as [-> _]. lia.
      + apply (Mi e1 s1 I1).
      + destruct (Ws e1 s1 I1) as [-> X]. exact X.
  Qed.
End Progress.

(** Progress of LaxFIFO events although handlers fail. *)
From Verif Require Import BusModel BusSpec BusProof BusWorld BusWorldSpec BusWorldProof BusWorldProof3 BusLiveSpec BusLiveSpec2 BusLive BusLive2 BusLive3.

(** a delivery that is not handed over keeps its record *)
Lemma save_keeps s' s d : In s (b_sv d) -> (sr_id s = sr_id s' -> s = s') -> In s (b_sv (save_row s' d)).
Proof. intros H E. cbn. apply in_map_iff. exists s. split; auto. destruct (Nat.eqb_spec (sr_id s) (sr_id s')) as [X|X]; auto. now rewrite (E X). Qed.
Lemma uncalled_kept cfg now start e s : forall l envs d, In s (b_sv d) -> (forall e' s', In (e', s') l -> sr_id s = sr_id s' -> (e', s') = (e, s)) ->
  ~ In (e, s) (snd (handle_batch cfg now start envs l d)) -> In s (b_sv (fst (handle_batch cfg now start envs l d))).
Proof.
  induction l as [|[e1 s1] t IH]; intros envs d H U N; auto. cbn [handle_batch] in *. specialize (IH (fun i => envs (S i)) (fst (handle_event cfg now start (envs 0) e1 s1 d))).
  assert (X : snd (handle_event cfg now start (envs 0) e1 s1 d) = false \/ (e1, s1) <> (e, s) -> In s (b_sv (fst (handle_event cfg now start (envs 0) e1 s1 d)))).
  { intros X. unfold handle_event in *. destruct (begin_event _ _ _ _ _ _ _); cbn [fst snd] in *; auto; destruct (he_save (envs 0)); auto; apply save_keeps; auto.
    - intros E. specialize (U e1 s1 (or_introl eq_refl) E). congruence.
    - destruct (end_event_id cfg now (he_res (envs 0)) s1) as (-> & _). intros E. specialize (U e1 s1 (or_introl eq_refl) E). destruct X; [discriminate|contradiction]. }
  destruct (handle_event cfg now start (envs 0) e1 s1 d) as [d1 c1]. destruct (handle_batch cfg now start (fun i => envs (S i)) t d1) as [d2 cs] eqn:B. cbn [fst snd] in *. rewrite B in IH. cbn [fst snd] in IH. apply IH.
  - apply X. destruct c1; auto. right. intros E. apply N. rewrite E. now left.
  - intros; apply U; auto. now right.
  - intros Y. apply N. destruct c1; [now right|auto].
Qed.

Section Lax.
  Variable cfg : buscfg.
  Variables n D : nat.
  Variable e0 : erow.
  Variable s0 : srow.
  Hypothesis S0 : sr_service s0 = c_service cfg.
  Hypothesis S1 : sr_status s0 = SInit.
  Hypothesis S2 : er_id e0 = sr_event s0.
  Hypothesis Lim : 1 <= c_limit cfg.
  Hypothesis G : grants (c_strategy cfg) n.
  Hypothesis Soon : pauses_within D (c_strategy cfg).

  Definition q_lax (T : nat) (r : erow) (s : srow) : Prop :=
    d_type (er_ev r) <> STFIFO /\ (d_type (er_ev r) = STLaxFIFO -> d_sender (er_ev r) <> ""%string) /\ (sr_status s = SInit -> sr_next s <= T).
  Definition ok_lax (now : nat) (envs : nat -> henv) : Prop :=
    now <= er_created e0 + c_window cfg /\ forall i, he_lock (envs i) = true /\ he_query (envs i) = true /\ he_save (envs i) = true.
  Lemma q_later T T' r s : T <= T' -> q_lax T r s -> q_lax T' r s.
  Proof. intros L (A & B & C). split; auto. split; auto. intros I. specialize (C I). lia. Qed.
  Lemma base_later T T' d : T <= T' -> base cfg e0 s0 (q_lax T) d -> base cfg e0 s0 (q_lax T') d.
  Proof. intros L (A & B & C & K). split; auto. split; auto. split; auto. intros s r H1 H2 H3 H4 H5. apply (q_later T); auto. Qed.
  Lemma end_next now r s : sr_next s <= now -> sr_status (end_event cfg now r s) = SInit -> sr_next (end_event cfg now r s) <= now + D.
  Proof.
    intros L. unfold end_event. destruct r; [discriminate|..]; unfold do_retry; destruct (strat_next (c_strategy cfg) (sr_retry s) now) as [[c t]|] eqn:E; cbn; try discriminate; intros _; exact (Soon _ _ _ _ E).
  Qed.
  Lemma poll_lax T now envs d : T <= now -> ok_lax now envs -> base cfg e0 s0 (q_lax T) d ->
    In (e0, s0) (snd (handle_events cfg now envs d)) \/ (base cfg e0 s0 (q_lax (now + D)) (fst (handle_events cfg now envs d)) /\ total cfg n s0 (fst (handle_events cfg now envs d)) < total cfg n s0 d).
  Proof.
    intros LT (Wi & En) B. pose proof B as BB. destruct BB as (W & H0 & E0 & K).
    assert (N0 : sr_next s0 <= now). { destruct (K s0 e0 H0) as (_ & _ & X); auto; [unfold mine; rewrite S0; apply String.eqb_refl|]. specialize (X S1). lia. }
    destruct (batch_cases cfg e0 s0 S0 S1 S2 Lim now d W H0 E0 N0 Wi) as (start & Es & Ls & C).
    destruct (poll_effect cfg now envs d W) as (W' & Ev & _ & P). rewrite Es in P. cbn zeta in P. destruct P as (g & G1 & G2 & G3 & _ & _).
    destruct (scan_spec cfg now start d W) as [(F1 & F2 & F3 & F4) Sp].
    assert (Mi : forall e s, In (e, s) (scan_events cfg now start d) -> mine cfg s = true /\ sr_status s = SInit /\ In s (b_sv d) /\ In e (b_ev d) /\ er_id e = sr_event s /\ sr_next s <= now).
    { intros e s Hs. destruct (F2 s (in_map snd _ _ Hs)) as [X (Y1 & Y2 & _ & Y4)]. destruct (Sp e s Hs) as (Z1 & _ & Z2). unfold mine. rewrite Y1, String.eqb_refl. auto 7. }
    (* the first of the batch is called *)
    assert (First : forall e1 s1, nth_error (scan_events cfg now start d) 0 = Some (e1, s1) -> sr_event s1 <= sr_event s0 -> In (e1, s1) (snd (handle_events cfg now envs d))).
    { intros e1 s1 Hn L1. pose proof (nth_error_In _ _ Hn) as I1. destruct (Mi e1 s1 I1) as (M1 & M2 & M3 & M4 & M5 & M6). destruct (En 0) as (En1 & En2 & En3).
      unfold handle_events. rewrite Es. destruct (scan_events cfg now start d) as [|[e s] t] eqn:El; [discriminate|]. cbn in Hn. injection Hn as -> ->.
      assert (Call : begin_event cfg true true start e1 s1 d = VCall).
      { unfold begin_event. rewrite M2. cbn [andb negb is_init]. assert (existsb (fun x => sr_id x =? sr_id s1) (b_sv d) = true) as -> by (apply existsb_exists; exists s1; split; auto; apply Nat.eqb_refl). cbn [negb].
        destruct (K s1 e1 M3 M1 L1 M4 M5) as (T1 & T2 & _). destruct (d_type (er_ev e1)) eqn:Ty; cbn [is_fifo andb]; auto; [contradiction|].
        assert (check_preceding cfg true e1 start d = true) as ->; [|reflexivity]. unfold check_preceding. destruct (String.eqb_spec (d_sender (er_ev e1)) ""); [specialize (T2 eq_refl); contradiction|]. cbn [negb]. pose proof (preceding_spec e1 d) as X. destruct (preceding e1 d) as [b|]; auto.
        destruct X as (X1 & X2 & X3 & X4 & _). destruct (Nat.ltb_spec (er_id b) start); auto. destruct (find _ (b_sv d)) as [sb|] eqn:F; auto. rewrite Ty. apply find_some in F. destruct F as [Fa F]. apply andb_true_iff in F. destruct F as [Fb Fc]. apply String.eqb_eq in Fb. apply Nat.eqb_eq in Fc.
        destruct (sr_status sb) eqn:St; auto. exfalso.
        assert (Mb : mine cfg sb = true) by (unfold mine; rewrite Fb; apply String.eqb_refl). destruct (K sb b Fa Mb ltac:(lia) X1 (eq_sym Fc)) as (_ & _ & Nb). specialize (Nb St).
        assert (Elb : eligible cfg now start sb) by (repeat split; auto; lia). cbn [map snd] in F1, F4. apply StronglySorted_inv in F1. destruct F1 as [_ F1]. rewrite Forall_forall in F1.
        destruct (F4 sb Fa Elb) as [[<-|I]|[_ I]]; [lia|specialize (F1 sb I); lia|specialize (I s1 (or_introl eq_refl)); lia]. }
      cbn [handle_batch]. unfold handle_event. rewrite En1, En2, Call. destruct (handle_batch cfg now start (fun i => envs (S i)) t _) as [d2 cs]. left. reflexivity. }
    destruct (in_dec (fun x y : erow * srow => ltac:(repeat decide equality) : {x = y} + {x <> y}) (e0, s0) (snd (handle_events cfg now envs d))) as [Y|NY]; [now left|right].
    assert (Ne : exists e1 s1, nth_error (scan_events cfg now start d) 0 = Some (e1, s1) /\ sr_event s1 < sr_event s0).
    { destruct C as [C|[C1 (e1 & s1 & C2)]]; [|exists e1, s1; split; auto; apply (C1 e1 s1 (nth_error_In _ _ C2))].
      destruct (scan_events cfg now start d) as [|[e1 s1] t] eqn:El; [destruct C|]. exists e1, s1. split; [reflexivity|]. destruct C as [C|C].
      - injection C as -> ->. exfalso. apply NY. apply (First e0 s0); auto.
      - cbn [map snd] in F1. apply StronglySorted_inv in F1. destruct F1 as [_ F1]. rewrite Forall_forall in F1. apply F1. now apply (in_map snd t (e0, s0)). }
    destruct Ne as (e1 & s1 & Hn & L1). pose proof (nth_error_In _ _ Hn) as I1.
    assert (Gl : forall e s, In (e, s) (scan_events cfg now start d) -> g s = s \/ exists r, g s = end_event cfg now r s).
    { intros e s Hs. destruct (In_nth_error _ _ Hs) as (i & Hi). destruct (G3 i e s Hi) as [[E|E] _]; eauto. }
    assert (Gd : forall x, In x (b_sv d) -> (exists e, In (e, x) (scan_events cfg now start d)) \/ g x = x).
    { intros x Hx. destruct (in_dec (fun x y : srow => ltac:(repeat decide equality) : {x = y} + {x <> y}) x (map snd (scan_events cfg now start d))) as [I|I]; [left|right; auto].
      apply in_map_iff in I. destruct I as ((e & s) & E & I). cbn in E. subst s. eauto. }
    assert (Hs0 : In s0 (b_sv (fst (handle_events cfg now envs d)))).
    { unfold handle_events in NY |- *. rewrite Es in NY |- *. apply (uncalled_kept cfg now start e0 s0); auto. intros e s Hs E. destruct (Sp e s Hs) as (Z1 & Z2 & Z3). assert (s = s0) as -> by (apply (NoDup_map_inj _ _ _ _ (wf_sv d W)); auto).
      assert (e = e0) as -> by (apply (NoDup_map_inj _ _ _ _ (wf_ev d W)); auto; congruence). reflexivity. }
    split.
    - split; auto. split; auto. split; [rewrite Ev; auto|]. intros s r Hs Hm Hl Hr Hi. rewrite Ev in Hr. rewrite G1 in Hs. apply in_map_iff in Hs. destruct Hs as (x & <- & Hx).
      assert (Same : g x = x -> q_lax (now + D) r (g x)). { intros E. rewrite E in *. apply (q_later T); [lia|]. exact (K x r Hx Hm Hl Hr Hi). }
      destruct (Gd x Hx) as [(e & He)|E]; auto. destruct (Gl e x He) as [E|(y & Ey)]; auto. destruct (Mi e x He) as (_ & _ & _ & _ & _ & M6). rewrite Ey in *. destruct (end_event_id cfg now y x) as (_ & A2 & A3 & _). unfold mine in Hm. rewrite A2 in Hm. rewrite A3 in Hl, Hi.
      destruct (K x r Hx Hm Hl Hr Hi) as (Q1 & Q2 & _). split; auto. split; auto. now apply end_next.
    - unfold total. rewrite G1, map_map. apply (sum_lt _ _ _ s1).
      + intros x Hx. destruct (Gd x Hx) as [(e & He)|E]; [|now rewrite E]. destruct (Gl e x He) as [E|(y & E)]; rewrite E; auto. apply (end_weight_le cfg n e0 s0 S2); auto. apply (Mi e x He).
      + apply (Mi e1 s1 I1).
      + destruct (G3 0 e1 s1 Hn) as [_ X]. rewrite X; [|apply First; auto; lia|apply En]. destruct (Mi e1 s1 I1) as (M1 & M2 & _). apply (end_weight cfg n e0 s0 S2); auto.
  Qed.
  Lemma progress_lax : forall l T d, base cfg e0 s0 (q_lax T) d -> foreign_ok cfg l -> apart D T l -> (forall now envs, In (BPoll now envs) l -> ok_lax now envs) -> total cfg n s0 d < polls l -> In (e0, s0) (snd (bus_run cfg l d)).
  Proof.
    induction l as [|o t IH]; intros T d B F A P L; [unfold polls in L; cbn in L; lia|]. assert (F' : foreign_ok cfg t) by (intros o' now envs H; apply (F o' now envs); now right).
    assert (P' : forall now envs, In (BPoll now envs) t -> ok_lax now envs) by (intros; apply P; now right). destruct o as [now envs|o now envs|evs|name|c now]; cbn [bus_run apart] in *.
    - destruct A as [A1 A2]. destruct (poll_lax T now envs d A1 (P now envs (or_introl eq_refl)) B) as [H|[B' L']].
      + destruct (handle_events cfg now envs d) as [d1 c1]. destruct (bus_run cfg t d1) as [d2 c2]. cbn in *. apply in_app_iff. auto.
      + destruct (handle_events cfg now envs d) as [d1 c1]. cbn [fst] in *. specialize (IH _ d1 B' F' A2 P'). destruct (bus_run cfg t d1) as [d2 c2]. cbn [snd] in *. apply in_app_iff. right. apply IH. unfold polls in *. cbn in L. lia.
    - destruct (keep_foreign cfg n e0 s0 S0 S2 (q_lax T) o now envs d (F o now envs (or_introl eq_refl)) B) as [B' E]. apply (IH T); auto. rewrite E. exact L.
    - destruct (keep_dispatch cfg n e0 s0 S2 (q_lax T) evs d B) as [B' E]. apply (IH T); auto. rewrite E. exact L.
    - destruct (keep_register cfg n e0 s0 S2 (q_lax T) name d B) as [B' E]. apply (IH T); auto. rewrite E. exact L.
    - destruct (keep_clean cfg n e0 s0 S1 S2 (q_lax T) c now d B) as [B' E]. apply (IH T); auto. unfold polls in *. cbn in L. lia.
  Qed.
End Lax.

(** Progress of polling. *)
From Verif Require Import BusModel BusSpec BusProof BusWorld BusWorldSpec BusWorldProof BusWorldProof3 BusLiveSpec.

Section Batch.
  Variable cfg : buscfg.
  Variables now start : nat.

  (** what a batch does to the delivery records *)
  Lemma batch_effect : forall l envs d, NoDup (map sr_id (b_sv d)) -> (forall e s, In (e, s) l -> In s (b_sv d) /\ sr_status s = SInit) -> NoDup (map (fun t => sr_id (snd t)) l) ->
    let d' := fst (handle_batch cfg now start envs l d) in let cs := snd (handle_batch cfg now start envs l d) in
    (b_ev d' = b_ev d /\ b_svc d' = b_svc d /\ b_tx d' = b_tx d /\ b_ne d' = b_ne d /\ b_ns d' = b_ns d /\ b_nt d' = b_nt d) /\
    exists g, b_sv d' = map g (b_sv d) /\ (forall x, In x (b_sv d) -> ~ In x (map snd l) -> g x = x) /\
      (forall i e s, nth_error l i = Some (e, s) -> (g s = s \/ g s = end_event cfg now (he_res (envs i)) s) /\ (In (e, s) cs -> he_save (envs i) = true -> g s = end_event cfg now (he_res (envs i)) s)) /\
      (forall i e s, nth_error l i = Some (e, s) -> is_fifo (d_type (er_ev e)) = false -> he_lock (envs i) = true -> In (e, s) cs) /\ incl cs l.
  Proof.
    induction l as [|[e s] t IH]; intros envs d N P U; cbn zeta.
    - cbn. split; [auto 7|]. exists (fun x => x). rewrite map_id. split; auto. split; auto. split; [intros [|i] e s E; discriminate|]. split; [intros [|i] e s E; discriminate|]. intros x [].
    - destruct (handle_event cfg now start (envs 0) e s d) as [d1 called] eqn:H. cbn [handle_batch]. rewrite H.
      destruct (P e s (or_introl eq_refl)) as [Si Ini]. cbn in U. inversion U as [|? ? U1 U2]; subst.
      (* the first event *)
      assert (F : (b_ev d1 = b_ev d /\ b_svc d1 = b_svc d /\ b_tx d1 = b_tx d /\ b_ne d1 = b_ne d /\ b_ns d1 = b_ns d /\ b_nt d1 = b_nt d) /\
        exists s', sr_id s' = sr_id s /\ (s' = s \/ s' = end_event cfg now (he_res (envs 0)) s) /\ (called = true -> he_save (envs 0) = true -> s' = end_event cfg now (he_res (envs 0)) s) /\
        b_sv d1 = map (fun x => if sr_id x =? sr_id s then s' else x) (b_sv d)).
      { assert (Same : map (fun x => if sr_id x =? sr_id s then s else x) (b_sv d) = b_sv d).
        { transitivity (map (fun x => x) (b_sv d)); [|apply map_id]. apply map_ext_in. intros x Hx. destruct (Nat.eqb_spec (sr_id x) (sr_id s)); auto. symmetry. eapply NoDup_map_inj; eauto. }
        destruct (end_event_id cfg now (he_res (envs 0)) s) as (K1 & _). unfold handle_event in H. destruct (begin_event _ _ _ _ _ _ _).
        - injection H as <- <-. split; [repeat split; auto|]. exists s. split; auto. split; auto. split; [discriminate|]. now rewrite Same.
        - injection H as <- <-. split; [destruct (he_save (envs 0)); repeat split; auto|]. exists s. split; auto. split; auto. split; [discriminate|]. destruct (he_save (envs 0)); cbn; now rewrite Same.
        - injection H as <- <-. split; [destruct (he_save (envs 0)); repeat split; auto|]. destruct (he_save (envs 0)).
          + exists (end_event cfg now (he_res (envs 0)) s). split; auto. split; auto. split; auto. cbn. apply map_ext. intros x. now rewrite K1.
          + exists s. split; auto. split; auto. split; [discriminate|]. now rewrite Same. }
      destruct F as (F0 & s' & F1 & F2 & F3 & F4).
      assert (N1 : NoDup (map sr_id (b_sv d1))). { rewrite F4, map_map. erewrite map_ext; [exact N|]. intros x. cbn. destruct (Nat.eqb_spec (sr_id x) (sr_id s)); congruence. }
      assert (P1 : forall e0 s0, In (e0, s0) t -> In s0 (b_sv d1) /\ sr_status s0 = SInit).
      { intros e0 s0 Ht. destruct (P e0 s0 (or_intror Ht)) as [A B]. split; auto. rewrite F4. apply in_map_iff. exists s0. split; auto. destruct (Nat.eqb_spec (sr_id s0) (sr_id s)) as [E|]; auto. exfalso. apply U1. rewrite <- E. apply (in_map (fun t => sr_id (snd t)) _ (e0, s0)). auto. }
      specialize (IH (fun i => envs (S i)) d1 N1 P1 U2). cbn zeta in IH. destruct (handle_batch cfg now start (fun i => envs (S i)) t d1) as [d2 cs]. cbn [fst snd] in *.
      destruct IH as (G0 & g & G1 & G2 & G3 & G4 & G5). split.
      { destruct F0 as (A1 & A2 & A3 & A4 & A5 & A6), G0 as (B1 & B2 & B3 & B4 & B5 & B6). repeat split; congruence. }
      exists (fun x => g (if sr_id x =? sr_id s then s' else x)). split; [rewrite G1, F4, map_map; reflexivity|].
      assert (Gs : g s' = s'). { apply G2; [rewrite F4; apply in_map_iff; exists s; rewrite Nat.eqb_refl; auto|]. intros Hs. apply U1. apply in_map_iff in Hs. destruct Hs as ((e0 & s0) & E & Hs). cbn in E. subst s0. rewrite <- F1. apply (in_map (fun t => sr_id (snd t)) _ (e0, s')). auto. }
      assert (Ne : forall e0 s0, In (e0, s0) t -> sr_id s0 <> sr_id s). { intros e0 s0 Ht E. apply U1. rewrite <- E. apply (in_map (fun t => sr_id (snd t)) _ (e0, s0)). auto. }
      split; [|split; [|split]].
      + intros x Hx Nx. cbn in Nx. destruct (Nat.eqb_spec (sr_id x) (sr_id s)) as [E|E].
        * exfalso. apply Nx. left. exact (eq_sym (NoDup_map_inj sr_id _ x s N Hx Si E)).
        * apply G2; [rewrite F4; apply in_map_iff; exists x; split; auto; destruct (Nat.eqb_spec (sr_id x) (sr_id s)); congruence|tauto].
      + intros [|i] e0 s0 Hi; cbn in Hi.
        * injection Hi as <- <-. rewrite Nat.eqb_refl, Gs. split; auto. intros Hc Hs. destruct called; auto. exfalso. apply G5 in Hc. destruct (Ne e s Hc); auto.
        * pose proof (nth_error_In _ _ Hi) as Ht. destruct (Nat.eqb_spec (sr_id s0) (sr_id s)) as [E|E]; [now destruct (Ne e0 s0 Ht)|]. destruct (G3 i e0 s0 Hi) as [Q1 Q2]. split; auto. intros Hc Hs. apply Q2; auto. destruct called; auto. destruct Hc as [Hc|Hc]; auto. injection Hc as -> ->. congruence.
      + intros [|i] e0 s0 Hi Hf Hl; cbn in Hi.
        * injection Hi as <- <-. assert (called = true) as ->; [|now left]. unfold handle_event, begin_event in H. rewrite Hl, Hf, Ini in H. cbn [andb negb is_init] in H.
          assert (X : existsb (fun x => sr_id x =? sr_id s) (b_sv d) = true) by (apply existsb_exists; exists s; split; auto; apply Nat.eqb_refl). rewrite X in H. cbn in H. congruence.
        * pose proof (G4 i e0 s0 Hi Hf Hl). destruct called; auto. now right.
      + destruct called; [apply incl_cons; [now left|]|]; now apply incl_tl.
  Qed.
End Batch.

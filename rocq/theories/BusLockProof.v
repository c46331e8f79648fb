(** Row locks and calls in progress, under every schedule. *)
From Verif Require Import BusModel BusSpec BusProof BusWorld BusWorldSpec BusWorldProof BusWorldProof2 BusWorldProof4 BusWorldProof6.

Section Locks.
  Variable cfgs : nat -> buscfg.
  Definition rids (w : world) (p : nat) : list nat := map (fun t => sr_id (snd t)) (running (w_poll w p)).
  Record invL (w : world) : Prop := {
    l_nodup : forall p, NoDup (rids w p);
    l_disj : forall p q x, In x (rids w p) -> In x (rids w q) -> p = q;
    l_locks : forall x, In x (w_locks w) <-> exists p, In x (rids w p) }.
  Lemma invL0 : invL world0.
  Proof. constructor; cbn; [intros; constructor|tauto|]. intros x. split; [tauto|]. intros (p & []). Qed.
  Lemma invL_same w w' : invL w -> (forall p, running (w_poll w' p) = running (w_poll w p)) -> w_locks w' = w_locks w -> invL w'.
  Proof.
    intros [N D L] H E. assert (X : forall p, rids w' p = rids w p) by (intros p; unfold rids; now rewrite H). constructor.
    - intros p. rewrite X. auto.
    - intros p q x. rewrite !X. apply D.
    - intros x. rewrite E, L. split; intros (p & Hp); exists p; [rewrite X|rewrite <- X]; auto.
  Qed.
  Lemma NoDup_remove {A} (l : list A) : forall i, NoDup l -> NoDup (remove_nth i l).
  Proof. induction l as [|a t IH]; intros [|i] H; cbn; auto; inversion H as [|? ? X Y]; subst; auto. constructor; auto. intros Z. apply X. eapply remove_nth_In; eauto. Qed.
  Lemma map_remove {A B} (f : A -> B) l : forall i, map f (remove_nth i l) = remove_nth i (map f l).
  Proof. induction l as [|a t IH]; intros [|i]; cbn; auto. now rewrite IH. Qed.
  Lemma remove_keeps {A} (x y : A) l : forall i, nth_error l i = Some y -> In x l -> x <> y -> In x (remove_nth i l).
  Proof. induction l as [|a t IH]; intros [|i] E H N; cbn in *; try discriminate; destruct H as [->|H]; auto; try (right; eauto; fail); congruence. Qed.
  Lemma remove_gone {A} (y : A) l : forall i, NoDup l -> nth_error l i = Some y -> ~ In y (remove_nth i l).
  Proof.
    induction l as [|a t IH]; intros [|i] N E H; cbn in *; try discriminate; inversion N as [|? ? X Y]; subst.
    - injection E as ->. contradiction.
    - destruct H as [->|H]; [apply X; eapply nth_error_In; eauto|]. eapply IH; eauto.
  Qed.

  Lemma invL_step w a w' : invL w -> exec cfgs a w = Some w' -> invL w'.
  Proof.
    intros I Ex. destruct w as [d now po lk js h]. pose proof I as II. destruct II as [N D L]. unfold rids in N, D, L. cbn [w_poll w_locks] in N, D, L.
    destruct a as [k|name|evs|j evs|j|j|p|p|p|p|p lock qok|p i r saved|p|p|v ev x]; cbn [exec] in Ex.
    - injection Ex as <-. apply (invL_same _ _ I); auto.
    - injection Ex as <-. apply (invL_same _ _ I); auto.
    - destruct evs as [|e0 evs]; [discriminate|]. destruct (dispatch_now (e0 :: evs) d) as [rows d']. injection Ex as <-. apply (invL_same _ _ I); auto.
    - destruct evs as [|e0 evs]; [discriminate|]. destruct (js j); [discriminate|]. destruct (insert_events _ _ d) as [rows d']. injection Ex as <-. apply (invL_same _ _ I); auto.
    - destruct (js j) as [[|]|]; try discriminate. injection Ex as <-. apply (invL_same _ _ I); auto.
    - destruct (js j) as [[|? [|]]|]; try discriminate. injection Ex as <-. apply (invL_same _ _ I); auto.
    - destruct (po p) eqn:Ep; try discriminate. injection Ex as <-. apply (invL_same _ _ I); auto. cbn. intros q. destruct (scan_start _ _ _); auto. apply running_upd. now rewrite Ep.
    - destruct (po p) eqn:Ep; try discriminate. injection Ex as <-. apply (invL_same _ _ I); auto. cbn. apply running_upd. rewrite Ep. destruct (earliest _ _ _); auto.
    - destruct (po p) eqn:Ep; try discriminate. injection Ex as <-. apply (invL_same _ _ I); auto. cbn. apply running_upd. now rewrite Ep.
    - destruct (po p) eqn:Ep; try discriminate. injection Ex as <-. apply (invL_same _ _ I); auto. cbn. apply running_upd. now rewrite Ep.
    - destruct (po p) as [| | | |st todo run] eqn:Ep; try discriminate. destruct todo as [|[e s] todo].
      { destruct run; [|discriminate]. injection Ex as <-. apply (invL_same _ _ I); auto. cbn. apply running_upd. now rewrite Ep. }
      destruct (begin_event _ _ _ _ _ _ _) eqn:Bg; injection Ex as <-.
      1,2: apply (invL_same _ _ I); auto; cbn; apply running_upd; now rewrite Ep.
      apply begin_call in Bg. destruct Bg as (B1 & _). apply andb_true_iff in B1. destruct B1 as [_ B1]. apply negb_true_iff in B1. unfold locked in B1. cbn [w_locks] in B1.
      assert (F : ~ In (sr_id s) lk) by (intros X; apply memb_In in X; congruence).
      assert (F' : forall q, ~ In (sr_id s) (map (fun t => sr_id (snd t)) (running (po q)))) by (intros q Hq; apply F, L; eauto).
      assert (R : forall q x, In x (map (fun t => sr_id (snd t)) (running (upd po p (PRun st todo (run ++ [(e, s)])) q))) <-> In x (map (fun t => sr_id (snd t)) (running (po q))) \/ (q = p /\ x = sr_id s)).
      { intros q x. unfold upd. destruct (Nat.eqb_spec q p) as [->|Nq].
        - rewrite Ep. cbn [running]. rewrite map_app, in_app_iff. cbn. split; [intros [H|[H|[]]]; auto|]. intros [H|[_ H]]; auto.
        - split; auto. intros [H|[H _]]; auto. contradiction. }
      constructor; unfold rids; cbn [w_poll w_locks].
      + intros q. unfold upd. destruct (Nat.eqb_spec q p) as [->|]; auto. cbn [running]. rewrite map_app. cbn. specialize (N p). specialize (F' p). rewrite Ep in N, F'. cbn [running] in N, F'.
        apply (Permutation_NoDup (Permutation_cons_append _ _)). constructor; auto.
      + intros q q' x H1 H2. apply R in H1. apply R in H2. destruct H1 as [H1|[-> ->]], H2 as [H2|[-> H2]]; auto; [eapply D; eauto|subst x; exfalso; eapply F'; eauto|exfalso; eapply F'; eauto].
      + intros x. cbn. rewrite L. split.
        * intros [<-|(q & Hq)]; [exists p; apply R; auto|exists q; apply R; auto].
        * intros (q & Hq). apply R in Hq. destruct Hq as [Hq|[-> ->]]; eauto.
    - destruct (po p) as [| | | |st todo run] eqn:Ep; try discriminate. destruct (nth_error run i) as [[e s]|] eqn:En; [|discriminate]. injection Ex as <-.
      assert (En' : nth_error (map (fun t : erow * srow => sr_id (snd t)) run) i = Some (sr_id s)) by (rewrite nth_error_map, En; reflexivity).
      pose proof (N p) as Np. rewrite Ep in Np. cbn [running] in Np.
      assert (R : forall q x, In x (map (fun t => sr_id (snd t)) (running (upd po p (PRun st todo (remove_nth i run)) q))) <-> In x (map (fun t => sr_id (snd t)) (running (po q))) /\ x <> sr_id s).
      { intros q x. unfold upd. destruct (Nat.eqb_spec q p) as [->|Nq].
        - rewrite Ep. cbn [running]. rewrite map_remove. split.
          + intros H. split; [eapply remove_nth_In; eauto|]. intros ->. eapply remove_gone; eauto.
          + intros [H1 H2]. eapply remove_keeps; eauto.
        - split; [|tauto]. intros H. split; auto. intros ->. apply Nq. apply (D q p (sr_id s)); auto. rewrite Ep. eapply nth_error_In; eauto. }
      constructor; unfold rids; cbn [w_poll w_locks].
      + intros q. unfold upd. destruct (Nat.eqb_spec q p) as [->|]; auto. cbn [running]. rewrite map_remove. now apply NoDup_remove.
      + intros q q' x H1 H2. apply R in H1. apply R in H2. eapply D; [apply H1|apply H2].
      + intros x. rewrite filter_In, L, negb_true_iff, Nat.eqb_neq. split.
        * intros [(q & Hq) Hx]. exists q. apply R. auto.
        * intros (q & Hq). apply R in Hq. destruct Hq. eauto.
    - injection Ex as <-.
      assert (E0 : (match po p with PRun _ _ run => map (fun t => sr_id (snd t)) run | _ => [] end) = map (fun t => sr_id (snd t)) (running (po p))) by (destruct (po p); reflexivity).
      rewrite E0.
      assert (R : forall q x, In x (map (fun t => sr_id (snd t)) (running (upd po p PIdle q))) <-> In x (map (fun t => sr_id (snd t)) (running (po q))) /\ q <> p).
      { intros q x. unfold upd. destruct (Nat.eqb_spec q p) as [->|Nq]; cbn; tauto. }
      constructor; unfold rids; cbn [w_poll w_locks].
      + intros q. unfold upd. destruct (Nat.eqb_spec q p) as [->|]; auto. constructor.
      + intros q q' x H1 H2. apply R in H1. apply R in H2. eapply D; [apply H1|apply H2].
      + intros x. rewrite filter_In, L, negb_true_iff. split.
        * intros [(q & Hq) Hx]. exists q. apply R. split; auto. intros ->. apply memb_In in Hq. congruence.
        * intros (q & Hq). apply R in Hq. destruct Hq as [Hq Nq]. split; [eauto|]. destruct (memb x _) eqn:M; auto. apply memb_In in M. exfalso. apply Nq. eapply D; eauto.
    - destruct (existsb _ (b_sv d)); [discriminate|]. injection Ex as <-. apply (invL_same _ _ I); auto.
    - destruct (existsb _ (b_sv d)); [discriminate|]. injection Ex as <-. apply (invL_same _ _ I); auto.
  Qed.
  Lemma invL_reach m w : reachable cfgs m w -> invL w.
  Proof. unfold reachable. remember world0 as w0. induction 1 as [w|w1 w2 w3 S IH T]; [subst; apply invL0|]. specialize (IH Heqw0). destruct T as (a & A & E). eapply invL_step; eauto. Qed.

  (** the record of a call in progress is in the table *)
  Definition invR (w : world) : Prop := forall p e s, In (e, s) (running (w_poll w p)) -> exists x, In x (b_sv (w_db w)) /\ sr_id x = sr_id s.
  Lemma invR_same w w' : invR w -> (forall p, running (w_poll w' p) = running (w_poll w p)) -> (forall x, In x (b_sv (w_db w)) -> exists y, In y (b_sv (w_db w')) /\ sr_id y = sr_id x) -> invR w'.
  Proof. intros I H K p e s Hs. rewrite H in Hs. destruct (I p e s Hs) as (x & X1 & X2). destruct (K x X1) as (y & Y1 & Y2). exists y. split; auto. congruence. Qed.
  Lemma invR_step m w a w' : m_split m = false -> m_cleanrace m = false -> inv cfgs w -> invL w -> invR w -> allowed cfgs m w a -> exec cfgs a w = Some w' -> invR w'.
  Proof.
    intros M1 M2 I L R Al Ex. destruct w as [d now po lk js h]. pose proof (i_wf _ _ I) as W. cbn [w_db] in W.
    assert (Triv : forall x, In x (b_sv d) -> exists y, In y (b_sv d) /\ sr_id y = sr_id x) by eauto.
    assert (Sv : forall s' x, In x (b_sv d) -> exists y, In y (b_sv (save_row s' d)) /\ sr_id y = sr_id x).
    { intros s' x Hx. exists (if sr_id x =? sr_id s' then s' else x). split; [unfold save_row; cbn; apply in_map_iff; exists x; auto|]. destruct (Nat.eqb_spec (sr_id x) (sr_id s')); congruence. }
    destruct a as [k|name|evs|j evs|j|j|p|p|p|p|p lock qok|p i r saved|p|p|v ev x]; cbn [exec] in Ex.
    - injection Ex as <-. apply (invR_same _ _ R); auto.
    - injection Ex as <-. apply (invR_same _ _ R); auto. cbn. unfold init_service. destruct (existsb _ _); auto.
    - destruct evs as [|e0 evs]; [discriminate|]. destruct (dispatch_now (e0 :: evs) d) as [rows d'] eqn:E. injection Ex as <-. apply (invR_same _ _ R); auto. cbn [w_db]. destruct (dispatch_now_spec _ _ _ _ E) as [D _].
      destruct D as (rows' & dels & E1 & E2 & E3 & E4 & E5 & _). intros x Hx. exists x. rewrite E5. split; auto. apply in_app_iff. auto.
    - cbn in Al. congruence.
    - pose proof (i_jobs _ _ I j) as Jb. cbn in Jb. rewrite Jb in Ex. discriminate.
    - pose proof (i_jobs _ _ I j) as Jb. cbn in Jb. rewrite Jb in Ex. discriminate.
    - destruct (po p) eqn:Ep; try discriminate. injection Ex as <-. apply (invR_same _ _ R); auto. cbn. intros q. destruct (scan_start _ _ _); auto. apply running_upd. now rewrite Ep.
    - destruct (po p) eqn:Ep; try discriminate. injection Ex as <-. apply (invR_same _ _ R); auto. cbn. apply running_upd. rewrite Ep. destruct (earliest _ _ _); auto.
    - destruct (po p) eqn:Ep; try discriminate. injection Ex as <-. apply (invR_same _ _ R); auto. cbn. apply running_upd. now rewrite Ep.
    - destruct (po p) eqn:Ep; try discriminate. injection Ex as <-. apply (invR_same _ _ R); auto. cbn. apply running_upd. now rewrite Ep.
    - destruct (po p) as [| | | |st todo run] eqn:Ep; try discriminate. destruct todo as [|[e s] todo].
      { destruct run; [|discriminate]. injection Ex as <-. apply (invR_same _ _ R); auto. cbn. apply running_upd. now rewrite Ep. }
      destruct (begin_event _ _ _ _ _ _ _) eqn:Bg; injection Ex as <-.
      + apply (invR_same _ _ R); auto; cbn; apply running_upd; now rewrite Ep.
      + apply (invR_same _ _ R); auto; [|apply Sv]. cbn; apply running_upd; now rewrite Ep.
      + apply begin_call in Bg. destruct Bg as (_ & _ & B3 & _). intros q e' s' H. cbn [w_db]. cbn [w_poll] in H. unfold upd in H. destruct (Nat.eqb_spec q p) as [->|Nq]; [|apply (R q e' s' H)].
        cbn [running] in H. apply in_app_iff in H. destruct H as [H|[[= <- <-]|[]]]; auto. apply (R p e' s'). cbn. rewrite Ep. auto.
    - destruct (po p) as [| | | |st todo run] eqn:Ep; try discriminate. destruct (nth_error run i) as [[e s]|] eqn:En; [|discriminate]. injection Ex as <-.
      intros q e' s' H. cbn [w_db]. cbn [w_poll] in H. assert (H' : In (e', s') (running (po q))).
      { unfold upd in H. destruct (Nat.eqb_spec q p) as [->|Nq]; auto. rewrite Ep. cbn [running] in *. eapply remove_nth_In; eauto. }
      destruct (R q e' s' H') as (x & X1 & X2). cbn [w_db] in X1. destruct saved; [|eauto]. destruct (Sv (end_event (cfgs p) now r s) x X1) as (y & Y1 & Y2). exists y. split; auto. congruence.
    - injection Ex as <-. intros q e' s' H. cbn [w_db]. cbn [w_poll] in H. unfold upd in H. destruct (Nat.eqb_spec q p) as [->|Nq]; [destruct H|]. apply (R q e' s' H).
    - destruct (existsb _ (b_sv d)) eqn:Eb; [discriminate|]. injection Ex as <-. intros q e s H. cbn [w_db w_poll] in *. destruct (R q e s H) as (x & X1 & X2). exists x. split; auto. cbn [w_db] in X1.
      destruct (clean_spec (cfgs p) now d W) as (C1 & _). apply (taken_out_In _ _ _ x C1); auto. intros (F1 & F2 & F3).
      assert (Lx : In (sr_id x) lk). { apply (proj2 (l_locks _ L (sr_id x))). exists q. unfold rids. cbn. rewrite X2. apply (in_map (fun t => sr_id (snd t)) _ (e, s)). exact H. }
      enough (Eb' : existsb (fun s => cleanable (cfgs p) now s && locked (mkW d now po lk js h) (sr_id s)) (b_sv d) = true) by congruence.
      apply existsb_exists. exists x. split; auto. unfold cleanable, locked. cbn [w_locks]. rewrite F1, F2, String.eqb_refl, (proj2 (memb_In _ _) Lx), andb_true_r. cbn. now apply Nat.ltb_lt.
    - destruct (existsb _ (b_sv d)); [discriminate|]. injection Ex as <-. apply (invR_same _ _ R); auto. intros y Hy. cbn. eexists. split; [apply in_map_iff; exists y; split; [reflexivity|exact Hy]|]. destruct (_ && _); reflexivity.
  Qed.
  Lemma invR_reach m w : m_split m = false -> m_cleanrace m = false -> reachable cfgs m w -> invR w.
  Proof.
    intros M1 M2. unfold reachable. remember world0 as w0. induction 1 as [w|w1 w2 w3 S IH T]; [subst; intros p e s []|]. pose proof (IH Heqw0) as R. subst w1. destruct T as (a & A & E).
    eapply (invR_step m w2 a w3); eauto; [eapply inv_reach; eauto|eapply invL_reach; eauto].
  Qed.

  Lemma running_ok w p e s : inv cfgs w -> In (e, s) (running (w_poll w p)) -> tuple_ok (cfgs p) (w_db w) s /\ er_id e = sr_event s.
  Proof. intros I H. pose proof (i_poll _ _ I p) as P. destruct (w_poll w p) as [| | | |st todo run]; cbn in H; try contradiction. destruct P as (_ & P & _). destruct (P e s) as (T & E & _); auto. apply in_app_iff. auto. Qed.
  (** a record determines the service and the event, and the other way round *)
  Lemma same_record w p q e s e' s' : inv cfgs w -> invR w -> In (e, s) (running (w_poll w p)) -> tuple_ok (cfgs q) (w_db w) s' -> er_id e' = sr_event s' ->
    (exists x, In x (b_sv (w_db w)) /\ sr_id x = sr_id s') -> (sr_id s = sr_id s' <-> c_service (cfgs p) = c_service (cfgs q) /\ er_id e = er_id e').
  Proof.
    intros I R H T' E' (x' & X1' & X2'). destruct (running_ok w p e s I H) as [T E]. destruct (R p e s H) as (x & X1 & X2).
    destruct T as (T1 & T2 & T3 & T4), T' as (U1 & U2 & U3 & U4). specialize (T4 x X1 X2). specialize (U4 x' X1' X2').
    pose proof (i_wf _ _ I) as W. split.
    - intros Es. assert (x = x') as <- by (apply (NoDup_map_inj _ _ _ _ (wf_sv _ W)); auto; congruence). destruct T4 as (A1 & A2), U4 as (B1 & B2). split; congruence.
    - intros [Es Ee]. assert (x = x') as <-; [|congruence]. apply (NoDup_map_inj _ _ _ _ (wf_key _ W)); auto. destruct T4 as (A1 & A2), U4 as (B1 & B2). congruence.
  Qed.
End Locks.

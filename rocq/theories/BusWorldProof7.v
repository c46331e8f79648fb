(** The event right before. *)
From Verif Require Import BusModel BusSpec BusProof BusWorld BusWorldSpec BusWorldProof BusWorldProof2 BusWorldProof3.

(** a claim about calls holds of the whole history if it holds whenever a call is made *)
Lemma call_suffix cfgs m (Q : hev -> list hev -> Prop) : m_split m = false -> m_cleanrace m = false ->
  (forall x h, match x with HCall _ _ _ _ => False | _ => True end -> Q x h) ->
  (forall w p st qok e s, inv cfgs w -> start_ok (cfgs p) w st -> was_dispatched (w_hist w) e -> (is_fifo (d_type (er_ev e)) = true -> check_preceding (cfgs p) qok e st (w_db w) = true) ->
     Q (HCall (w_now w) (c_service (cfgs p)) e s) (w_hist w)) ->
  forall w, reachable cfgs m w -> all_suffix Q (w_hist w).
Proof.
  intros H1 H2 Q1 Q2 w. unfold reachable. remember world0 as w0. induction 1 as [w|w1 w2 w3 S IH T]; [subst; cbn; auto|]. specialize (IH Heqw0). subst w1. pose proof (inv_reach cfgs m H1 H2 w2 S) as I.
  destruct T as (a & A & E). destruct w2 as [d now po lk js h]. cbn [w_hist] in IH.
  destruct a as [n|name|evs|j evs|j|j|p|p|p|p|p lock qok|p i r saved|p|p|svc ev x]; cbn [exec] in E.
  - injection E as <-. auto.
  - injection E as <-. auto.
  - destruct evs; [discriminate|]. destruct (dispatch_now _ d) as [rows d']. injection E as <-. cbn [w_hist all_suffix]. split; [now apply Q1|exact IH].
  - destruct evs; [discriminate|]. destruct (js j); [discriminate|]. destruct (insert_events _ _ d) as [rows d']. injection E as <-. auto.
  - destruct (js j) as [[|]|]; try discriminate. injection E as <-. auto.
  - destruct (js j) as [[|? [|]]|]; try discriminate. injection E as <-. auto.
  - destruct (po p); try discriminate. injection E as <-. auto.
  - destruct (po p); try discriminate. injection E as <-. auto.
  - destruct (po p); try discriminate. injection E as <-. auto.
  - destruct (po p); try discriminate. injection E as <-. auto.
  - destruct (po p) as [| | | |st todo run] eqn:Ep; try discriminate. destruct todo as [|[e s] todo]; [destruct run; [|discriminate]; injection E as <-; auto|].
    destruct (begin_event _ _ _ _ _ _ _) eqn:B; injection E as <-; auto. cbn [w_hist]. cbn [all_suffix]. split; auto.
    apply begin_call in B. destruct B as (_ & _ & _ & B). pose proof (i_poll _ _ I p) as Pp. cbn [w_poll] in Pp. rewrite Ep in Pp. destruct Pp as (P1 & P2 & _).
    apply (Q2 (mkW d now po lk js h) p st qok e s I P1); auto. apply (P2 e s). now left.
  - destruct (po p) as [| | | |st todo run]; try discriminate. destruct (nth_error run i) as [[e s]|]; [|discriminate]. destruct saved; injection E as <-; cbn [w_hist all_suffix]; [split; [now apply Q1|exact IH]|exact IH].
  - injection E as <-. auto.
  - destruct (existsb _ (b_sv d)); [discriminate|]. injection E as <-. auto.
  - destruct (existsb _ (b_sv d)); [discriminate|]. injection E as <-. cbn [w_hist all_suffix]. split; [now apply Q1|exact IH].
Qed.

Definition direct (win : nat) (x : hev) (l : list hev) : Prop :=
  match x with
  | HCall t svc e s => is_fifo (type e) = true -> forall a, dispatched_to l svc a -> right_before l a e -> t <= er_created a + win ->
      (type e = STFIFO -> processed l svc a \/ set_by_hand l svc a SExpired) /\ (settled l svc a \/ exists x, set_by_hand l svc a x)
  | _ => True
  end.
Lemma direct_call cfgs win w p st qok e s : inv cfgs w -> c_window (cfgs p) = win -> start_ok (cfgs p) w st -> was_dispatched (w_hist w) e ->
  (is_fifo (d_type (er_ev e)) = true -> check_preceding (cfgs p) qok e st (w_db w) = true) -> direct win (HCall (w_now w) (c_service (cfgs p)) e s) (w_hist w).
Proof.
  intros [W Jb Po Ev Lt Sv Go Ti Ha Ro St] Ew [S1 S2] De Ck Fi a A1 (B1 & B2 & B3 & B4 & B5) A4. set (h := w_hist w) in *. set (d := w_db w) in *. set (svc := c_service (cfgs p)) in *.
  specialize (Ck Fi). unfold check_preceding in Ck. destruct (String.eqb (d_sender (er_ev e)) ""); [discriminate|]. destruct (negb qok); [discriminate|].
  assert (Rd : forall r s1 x s1', In (HRec svc r s1 x s1') h -> was_dispatched h r /\ (x = HOk -> sr_status s1' = SSuccess)).
  { intros r s1 x s1' R. destruct (all_suffix_in _ _ _ Go R) as (l1 & l2 & El & ((t0 & X) & Y) & G2). destruct (all_suffix_in _ _ _ G2 X) as (l3 & l4 & El2 & (D & _) & G4). split; auto.
    rewrite El. apply (disp_app l1). apply disp_cons. rewrite El2. apply (disp_app l3). now apply disp_cons. }
  assert (Ps : processed h svc a -> (type e = STFIFO -> processed h svc a \/ set_by_hand h svc a SExpired) /\ (settled h svc a \/ exists x, set_by_hand h svc a x)).
  { intros P. split; auto. left. destruct P as (s1 & s1' & R). exists s1, HOk, s1'. split; auto. destruct (Rd _ _ _ _ R) as [_ X]. rewrite X; auto. discriminate. }
  assert (Ca : (exists s1, In s1 (b_sv d) /\ sr_service s1 = svc /\ sr_event s1 = er_id a) \/ processed h svc a) by (apply Ha; auto).
  destruct Ca as [(s1 & H1 & H2 & H3)|H]; [|auto].
  assert (Ia : In a (b_ev d)). { destruct (wf_ref d W s1 H1) as (r' & R1 & R2). assert (r' = a) as <-; auto. apply (disp_uniq h); auto. congruence. }
  pose proof (preceding_spec e d) as P. destruct (preceding e d) as [b|]; [|specialize (P a Ia B2 B3); lia].
  destruct P as (P1 & P2 & P3 & P4 & P5). pose proof (Ev b P1) as Db.
  assert (b = a) as ->.
  { destruct (B5 b Db P2 P3 P4) as [->|X]; auto. destruct (P5 a Ia B2 B3 B4) as [->|Y]; auto. exfalso. unfold later_first in Y. rewrite orb_true_iff, andb_true_iff, Nat.ltb_lt, Nat.eqb_eq in Y.
    destruct X as [X|[X1 X2]], Y as [Y|[Y1 Y2]]; try lia. unfold str_leb in Y2. rewrite X2 in Y2. discriminate. }
  destruct (Nat.ltb_spec (er_id a) st) as [Lb|Lb]; [specialize (S2 a P1 Lb); lia|].
  destruct (find _ (b_sv d)) as [s0|] eqn:F.
  - apply find_some in F. destruct F as [F1 F2]. apply andb_true_iff in F2. destruct F2 as [F2 F3]. apply String.eqb_eq in F2. apply Nat.eqb_eq in F3. fold svc in F2.
    assert (Good : sr_status s0 <> SInit /\ (type e = STFIFO -> sr_status s0 = SSuccess \/ sr_status s0 = SExpired)).
    { unfold type in *. destruct (d_type (er_ev e)); try discriminate Fi; destruct (sr_status s0); split; auto; discriminate. }
    destruct Good as [G1 G2]. destruct (St s0 F1 G1) as [(r & s2 & x & s2' & R1 & R2 & R3 & R4)|[R1 R2]].
    + rewrite F2 in R1. destruct (Rd _ _ _ _ R1) as [Dr _]. assert (r = a) as -> by (apply (disp_uniq h); auto; congruence). split.
      * intros T. left. destruct R4 as [[_ ->]|R4]; [exists s2, s2'; auto|]. destruct (G2 T); congruence.
      * left. exists s2, x, s2'. split; auto. congruence.
    + rewrite F2, F3 in R1. split; [|right; eexists; exact R1]. intros T. right. destruct (G2 T) as [X|X]; [rewrite X in R2; destruct R2; discriminate|]. unfold set_by_hand. now rewrite X in R1.
  - exfalso. pose proof (find_none _ _ F s1 H1) as X. cbn in X. unfold svc in H2. rewrite H2, H3, String.eqb_refl, Nat.eqb_refl in X. discriminate.
Qed.
Lemma directs cfgs m win w : m_split m = false -> m_cleanrace m = false -> (forall p, c_window (cfgs p) = win) -> reachable cfgs m w -> all_suffix (direct win) (w_hist w).
Proof.
  intros H1 H2 Hw. apply (call_suffix cfgs m (direct win) H1 H2).
  - intros [| | |] h; cbn; tauto.
  - intros w0 p st qok e s I S D C. apply (direct_call cfgs win w0 p st qok e s I (Hw p) S D C).
Qed.

(** Ordered events: when the handler is called for an event, the earlier events of its sender are dealt with. *)
From Verif Require Import BusModel BusSpec BusProof BusWorld BusWorldSpec BusWorldProof BusWorldProof2.

Lemma later_first_total x y : later_first x y = true \/ later_first y x = true.
Proof.
  unfold later_first. destruct (Nat.ltb_spec (er_created y) (er_created x)); auto. destruct (Nat.ltb_spec (er_created x) (er_created y)); auto.
  assert (er_created x = er_created y) as -> by lia. rewrite Nat.eqb_refl. cbn. apply str_leb_total.
Qed.
Lemma later_first_trans x y z : later_first x y = true -> later_first y z = true -> later_first x z = true.
Proof.
  unfold later_first. rewrite !orb_true_iff, !andb_true_iff, !Nat.ltb_lt, !Nat.eqb_eq. intros [A|[A1 A2]] [B|[B1 B2]]; try (left; lia). right. split; [lia|]. eapply str_leb_trans; eauto.
Qed.
(** the preceding event is a latest one among the earlier events of the sender *)
Lemma preceding_spec e d : match preceding e d with
  | None => forall r, In r (b_ev d) -> sender r = sender e -> er_created r <= er_created e -> er_id e <= er_id r
  | Some p => In p (b_ev d) /\ sender p = sender e /\ er_created p <= er_created e /\ er_id p < er_id e /\
      forall r, In r (b_ev d) -> sender r = sender e -> er_created r <= er_created e -> er_id r < er_id e -> r = p \/ later_first p r = true
  end.
Proof.
  unfold preceding. set (f := fun r => _ && _ && _). pose proof (isort_sorted later_first later_first_total later_first_trans (filter f (b_ev d))) as S.
  assert (F : forall r, In r (isort later_first (filter f (b_ev d))) <-> In r (b_ev d) /\ sender r = sender e /\ er_created r <= er_created e /\ er_id r < er_id e).
  { intros r. rewrite isort_In, filter_In. unfold f. rewrite !andb_true_iff, String.eqb_eq, Nat.leb_le, Nat.ltb_lt. unfold sender. tauto. }
  destruct (isort later_first (filter f (b_ev d))) as [|p t].
  - intros r H1 H2 H3. destruct (Nat.le_gt_cases (er_id e) (er_id r)) as [H|H]; auto. exfalso. apply (proj2 (F r)). auto.
  - destruct (proj1 (F p) (or_introl eq_refl)) as (P1 & P2 & P3 & P4). repeat split; auto. intros r H1 H2 H3 H4. destruct (proj2 (F r)) as [->|H]; auto. right. inversion S as [|? ? _ X]; subst. rewrite Forall_forall in X. auto.
Qed.

Section Chain.
  Variable win : nat.
  Variable strict : bool.
  Definition ordered_type (t : sendtype) : Prop := if strict then t = STFIFO else t = STFIFO \/ t = STLaxFIFO.
  Definition dealt (h : list hev) (svc : string) (a : erow) : Prop :=
    if strict then processed h svc a \/ set_by_hand h svc a SExpired else settled h svc a \/ exists x, set_by_hand h svc a x.
  Definition claim (x : hev) (l : list hev) : Prop :=
    match x with
    | HCall t svc e s =>
        (forall r, was_dispatched l r -> sender r = sender e -> ordered_type (type r)) -> in_creation_order l (sender e) ->
        forall a, dispatched_to l svc a -> sender a = sender e -> er_id a < er_id e -> t <= er_created a + win -> untouched_between l svc a e -> dealt l svc a
    | _ => True
    end.
  Lemma dealt_app l h svc a : dealt h svc a -> dealt (l ++ h) svc a.
  Proof.
    unfold dealt, processed, settled, set_by_hand. destruct strict.
    - intros [(s & s' & H)|H]; [left; exists s, s'|right]; apply in_app_iff; auto.
    - intros [(s & x & s' & H1 & H2)|(x & H)]; [left; exists s, x, s'; split; auto|right; exists x]; apply in_app_iff; auto.
  Qed.
  (** an event with a recorded call: the claim for that call speaks about all earlier events *)
  Lemma chain_rec h svc p s1 x s1' t a : all_suffix good h -> all_suffix claim h -> In (HRec svc p s1 x s1') h -> (forall t' v e s, In (HCall t' v e s) h -> t' <= t) ->
    (forall r, was_dispatched h r -> sender r = sender p -> ordered_type (type r)) -> in_creation_order h (sender p) ->
    dispatched_to h svc a -> sender a = sender p -> er_id a < er_id p -> t <= er_created a + win -> untouched_between h svc a p -> dealt h svc a.
  Proof.
    intros G C R T Ty O A1 A2 A3 A4 U. destruct (all_suffix_in _ _ _ G R) as (l1 & l2 & El & ((t0 & X) & _) & G2). destruct (all_suffix_in _ _ _ G2 X) as (l3 & l4 & El2 & (D & _) & G4).
    assert (E : h = (l1 ++ HRec svc p s1 x s1' :: l3 ++ [HCall t0 svc p s1]) ++ l4) by (rewrite El, El2, <- !app_assoc; cbn; rewrite <- app_assoc; reflexivity).
    assert (Cl : claim (HCall t0 svc p s1) l4).
    { assert (E' : h = (l1 ++ HRec svc p s1 x s1' :: l3) ++ HCall t0 svc p s1 :: l4) by (rewrite El, El2, <- !app_assoc; cbn; reflexivity). eapply all_suffix_at; eauto. }
    assert (T0 : t0 <= t). { apply (T t0 svc p s1). rewrite El. apply in_app_iff. right. right. auto. }
    set (pre := l1 ++ HRec svc p s1 x s1' :: l3 ++ [HCall t0 svc p s1]) in *. rewrite E. apply dealt_app. rewrite E in *. apply Cl; auto.
    - intros r Hr. apply Ty. now apply disp_app.
    - intros b c Hb Hc. apply O; now apply disp_app.
    - apply (disp_earlier pre l4 G a p svc); auto.
    - lia.
    - intros c Hc Hs L y Hy. apply (U c (disp_app _ _ _ Hc) Hs L y). unfold set_by_hand in *. apply in_app_iff. auto.
  Qed.

  Lemma new_claim cfgs w p st qok e s : inv cfgs w -> c_window (cfgs p) = win -> start_ok (cfgs p) w st -> was_dispatched (w_hist w) e ->
    all_suffix claim (w_hist w) -> (is_fifo (d_type (er_ev e)) = true -> check_preceding (cfgs p) qok e st (w_db w) = true) ->
    claim (HCall (w_now w) (c_service (cfgs p)) e s) (w_hist w).
  Proof.
    intros [W Jb Po Ev Lt Sv Go Ti Ha Ro St] Ew [S1 S2] De Cl Ck Ty O a A1 A2 A3 A4 U. set (h := w_hist w) in *. set (d := w_db w) in *. set (svc := c_service (cfgs p)) in *.
    assert (Te : ordered_type (type e)) by (apply Ty; auto).
    assert (Fi : is_fifo (d_type (er_ev e)) = true). { unfold ordered_type, type in Te. destruct strict; [now rewrite Te|destruct Te as [-> | ->]; auto]. }
    specialize (Ck Fi). unfold check_preceding in Ck. destruct (String.eqb (d_sender (er_ev e)) ""); [discriminate|]. destruct (negb qok); [discriminate|].
    assert (Rd : forall r s1 x s1', In (HRec svc r s1 x s1') h -> was_dispatched h r /\ (x = HOk -> sr_status s1' = SSuccess)).
    { intros r s1 x s1' R. destruct (all_suffix_in _ _ _ Go R) as (l1 & l2 & El & ((t0 & X) & Y) & G2). destruct (all_suffix_in _ _ _ G2 X) as (l3 & l4 & El2 & (D & _) & G4). split; auto.
      rewrite El. apply (disp_app l1). apply disp_cons. rewrite El2. apply (disp_app l3). now apply disp_cons. }
    assert (Ca : forall r, dispatched_to h svc r -> ~ In r (b_ev d) -> processed h svc r).
    { intros r D N. destruct (Ha svc r D) as [(s1 & H1 & H2 & H3)|H]; auto. exfalso. apply N. destruct (wf_ref d W s1 H1) as (r' & R1 & R2). assert (r' = r) as <-; auto.
      apply (disp_uniq h); auto; [eapply disp_to_disp; eauto|congruence]. }
    assert (Ps : forall r, processed h svc r -> dealt h svc r).
    { intros r P. unfold dealt. destruct strict; auto. left. destruct P as (s1 & s1' & R). exists s1, HOk, s1'. split; auto. destruct (Rd _ _ _ _ R) as [_ X]. rewrite X; auto. discriminate. }
    (* once the next event [b] is known to have had a recorded call, [a] is dealt with *)
    assert (Cr : forall b s1 x s1', In (HRec svc b s1 x s1') h -> was_dispatched h b -> sender b = sender e -> er_id a < er_id b -> er_id b < er_id e -> dealt h svc a).
    { intros b s1 x s1' R D Sb L1 L2. eapply (chain_rec h svc b s1 x s1' (w_now w) a); eauto; rewrite ?Sb; auto. intros c Hc Hs L y. apply (U c Hc); [congruence|lia]. }
    assert (Aw : was_dispatched h a) by (eapply disp_to_disp; eauto).
    destruct (in_dec (fun x y : erow => ltac:(repeat decide equality) : {x = y} + {x <> y}) a (b_ev d)) as [Ia|Na]; [|apply Ps, Ca; auto].
    assert (Ce : er_created a <= er_created e) by (destruct (O a e Aw De A2 eq_refl A3); lia).
    pose proof (preceding_spec e d) as P. destruct (preceding e d) as [b|]; [|specialize (P a Ia A2 Ce); lia].
    destruct P as (P1 & P2 & P3 & P4 & P5). pose proof (Ev b P1) as Db.
    assert (Lab : a = b \/ er_id a < er_id b).
    { destruct (Nat.lt_trichotomy (er_id a) (er_id b)) as [H|[H|H]]; auto; [left; now apply (disp_uniq h)|]. exfalso. destruct (P5 a Ia A2 Ce A3) as [->|X]; [lia|].
      unfold later_first in X. rewrite orb_true_iff, andb_true_iff, Nat.ltb_lt, Nat.eqb_eq in X. destruct (O b a Db Aw P2 A2 H) as [Y|[Y1 Y2]]; destruct X as [X|[X1 X2]]; try lia.
      unfold str_leb in X2. rewrite Y2 in X2. discriminate. }
    assert (Cab : er_created a <= er_created b). { destruct Lab as [->|L]; auto. destruct (O a b Aw Db A2 P2 L); lia. }
    destruct (Nat.ltb_spec (er_id b) st) as [Lb|Lb]; [specialize (S2 b P1 Lb); lia|].
    destruct (find _ (b_sv d)) as [s0|] eqn:F.
    - apply find_some in F. destruct F as [F1 F2]. apply andb_true_iff in F2. destruct F2 as [F2 F3]. apply String.eqb_eq in F2. apply Nat.eqb_eq in F3. fold svc in F2.
      assert (Good : sr_status s0 <> SInit /\ (strict = true -> sr_status s0 = SSuccess \/ sr_status s0 = SExpired)).
      { unfold ordered_type, type in Te. destruct strict; [rewrite Te in Ck|destruct Te as [X|X]; rewrite X in Ck]; destruct (sr_status s0); split; auto; discriminate. }
      destruct Good as [G1 G2]. destruct (St s0 F1 G1) as [(r & s1 & x & s1' & R1 & R2 & R3 & R4)|[R1 R2]].
      + rewrite F2 in R1. destruct (Rd _ _ _ _ R1) as [Dr _]. assert (r = b) as -> by (apply (disp_uniq h); auto; congruence).
        destruct Lab as [->|L]; [|eapply Cr; eauto]. unfold dealt. destruct strict.
        * left. destruct R4 as [[_ ->]|R4]; [exists s1, s1'; auto|]. destruct (G2 eq_refl); congruence.
        * left. exists s1, x, s1'. split; auto. congruence.
      + rewrite F2, F3 in R1. destruct Lab as [->|L].
        * unfold dealt. destruct strict; [right|right; eexists; exact R1]. destruct (G2 eq_refl) as [X|X]; [rewrite X in R2; destruct R2; discriminate|]. unfold set_by_hand. now rewrite X in R1.
        * exfalso. apply (U b Db P2 (conj L P4) (sr_status s0)). exact R1.
    - assert (Nb : forall s0, In s0 (b_sv d) -> sr_service s0 = svc -> sr_event s0 = er_id b -> False).
      { intros s0 H1 H2 H3. pose proof (find_none _ _ F s0 H1) as X. cbn in X. unfold svc in H2. rewrite H2, H3, String.eqb_refl, Nat.eqb_refl in X. discriminate. }
      assert (Tb : dispatched_to h svc b). { destruct Lab as [->|L]; auto. eapply disp_mono; eauto. }
      destruct (Ha svc b Tb) as [(s0 & H1 & H2 & H3)|Pb]; [exfalso; eauto|]. destruct Lab as [->|L]; [auto|]. destruct Pb as (s1 & s1' & R). eapply Cr; eauto.
  Qed.

  Lemma claims cfgs m w : m_split m = false -> m_cleanrace m = false -> (forall p, c_window (cfgs p) = win) -> reachable cfgs m w -> all_suffix claim (w_hist w).
  Proof.
    intros H1 H2 Hw. unfold reachable. remember world0 as w0. induction 1 as [w|w1 w2 w3 S IH T]; [subst; cbn; auto|]. specialize (IH Heqw0). subst w1. pose proof (inv_reach cfgs m H1 H2 w2 S) as I.
    destruct T as (a & A & E). destruct w2 as [d now po lk js h]. cbn [w_hist] in IH.
    destruct a as [n|name|evs|j evs|j|j|p|p|p|p|p lock qok|p i r saved|p|p|svc ev x]; cbn [exec] in E.
    - injection E as <-. auto.
    - injection E as <-. auto.
    - destruct evs; [discriminate|]. destruct (dispatch_now _ d) as [rows d']. injection E as <-. cbn. auto.
    - destruct evs; [discriminate|]. destruct (js j); [discriminate|]. destruct (insert_events _ _ d) as [rows d']. injection E as <-. auto.
    - destruct (js j) as [[|]|]; try discriminate. injection E as <-. auto.
    - destruct (js j) as [[|? [|]]|]; try discriminate. injection E as <-. auto.
    - destruct (po p); try discriminate. injection E as <-. auto.
    - destruct (po p); try discriminate. injection E as <-. auto.
    - destruct (po p); try discriminate. injection E as <-. auto.
    - destruct (po p); try discriminate. injection E as <-. auto.
    - destruct (po p) as [| | | |st todo run] eqn:Ep; try discriminate. destruct todo as [|[e s] todo]; [destruct run; [|discriminate]; injection E as <-; auto|].
      destruct (begin_event _ _ _ _ _ _ _) eqn:B; injection E as <-; auto. cbn [w_hist]. cbn [all_suffix]. split; auto.
      apply begin_call in B. destruct B as (_ & _ & _ & B). pose proof (i_poll _ _ I p) as Pp. cbn [w_poll] in Pp. rewrite Ep in Pp. destruct Pp as (P1 & P2 & _).
      apply (new_claim cfgs (mkW d now po lk js h) p st qok e s I (Hw p) P1); auto. apply (P2 e s). now left.
    - destruct (po p) as [| | | |st todo run]; try discriminate. destruct (nth_error run i) as [[e s]|]; [|discriminate]. destruct saved; injection E as <-; cbn; auto.
    - injection E as <-. auto.
    - destruct (existsb _ (b_sv d)); [discriminate|]. injection E as <-. auto.
    - destruct (existsb _ (b_sv d)); [discriminate|]. injection E as <-. cbn. auto.
  Qed.
End Chain.

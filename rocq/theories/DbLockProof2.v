From Verif Require Export DbLockProof.

Definition sid (s : stg) : option nat := match s with T0 => None | T1 i | T2 i | T3 i _ | T4 i _ | T5 i _ | T6 i _ _ => Some i end.
Definition srow (s : stg) : option lrow := match s with T4 _ r | T5 _ r | T6 _ r _ => Some r | _ => None end.
Definition sts (s : stg) : option nat := match s with T3 _ ts | T6 _ _ ts => Some ts | _ => None end.
Definition pre (v : view) : option nat := match v with VL _ s => sid s | _ => None end.
Definition owns (v : view) : option handle := match v with VH h | VU h => Some h | _ => None end.
Definition uses (v : view) : option nat := match v with VL _ s => sid s | VH h | VU h => Some (h_id h) | V0 => None end.
Definition rdrow (v : view) : option lrow := match v with VL _ s => srow s | _ => None end.
Definition vts (v : view) : option nat := match v with VL _ s => sts s | _ => None end.
Definition rh (r : rview) : option handle := match r with R0 => None | R1 h | R2 h _ => Some h end.
Definition rts (r : rview) : option nat := match r with R2 _ ts => Some ts | _ => None end.

Record ginv (a : aw) : Prop := mkG {
  g_use : forall c i, uses (a_v a c) = Some i -> i < a_next a;
  g_dist : forall c c' i, uses (a_v a c) = Some i -> uses (a_v a c') = Some i -> c = c';
  g_ren : forall c h, rh (a_r a c) = Some h -> h_id h < a_next a /\ (a_v a c = VH h \/ a_v a c = VU h \/ uses (a_v a c) <> Some (h_id h));
  g_rdist : forall c c' h, rh (a_r a c) = Some h -> uses (a_v a c') = Some (h_id h) -> c = c';
  g_rr : forall c c' h h', rh (a_r a c) = Some h -> rh (a_r a c') = Some h' -> h_id h = h_id h' -> c = c';
  g_tab : forall k r, a_tab a k = Some r -> lr_id r < a_next a /\ lr_upd r <= a_now a;
  g_read : forall c r, rdrow (a_v a c) = Some r -> lr_id r < a_next a /\ lr_upd r <= a_now a;
  g_ts : forall c ts, vts (a_v a c) = Some ts -> ts <= a_now a;
  g_rts : forall c ts, rts (a_r a c) = Some ts -> ts <= a_now a;
  g_pre : forall c i, pre (a_v a c) = Some i -> (forall k r, a_tab a k = Some r -> lr_id r <> i) /\ (forall c' r, rdrow (a_v a c') = Some r -> lr_id r <> i) /\
            (forall e, In e (a_hist a) -> ~ writes_id e i);
  g_hist : forall e i, In e (a_hist a) -> writes_id e i -> i < a_next a /\ (forall c, uses (a_v a c) = Some i -> e_who e = c) /\ (forall c h, rh (a_r a c) = Some h -> h_id h = i -> e_who e = c)
}.
(** what a statement can do to the table *)
Lemma eff_cases o q t : eff_of o q t = t \/
  match q with
  | QSelect _ => False
  | QInsert k id ts => t k = None /\ eff_of o q t = tset t k (Some (mkRow id ts))
  | QUpdate k wid id ts => exists r, t k = Some r /\ lr_id r = wid /\ eff_of o q t = tset t k (Some (mkRow id ts))
  | QDelete k wid => exists r, t k = Some r /\ lr_id r = wid /\ eff_of o q t = tset t k None
  end.
Proof.
  assert (D : sql_effect q t = t \/ match q with
    | QSelect _ => False
    | QInsert k id ts => t k = None /\ sql_effect q t = tset t k (Some (mkRow id ts))
    | QUpdate k wid id ts => exists r, t k = Some r /\ lr_id r = wid /\ sql_effect q t = tset t k (Some (mkRow id ts))
    | QDelete k wid => exists r, t k = Some r /\ lr_id r = wid /\ sql_effect q t = tset t k None
    end).
  { destruct q; cbn; [now left|..]; destruct (t key) as [r|] eqn:E; auto; destruct (Nat.eqb_spec (lr_id r) wid); auto; right; exists r; auto. }
  destruct o; cbn [eff_of]; [exact D|now left|exact D].
Qed.
Lemma tset_at t k v : tset t k v k = v.
Proof. unfold tset. now rewrite String.eqb_refl. Qed.
Lemma tset_off t k v k' : k' <> k -> tset t k v k' = t k'.
Proof. unfold tset. intros H. destruct (String.eqb_spec k' k); congruence. Qed.
Lemma eff_row o q t k r : eff_of o q t k = Some r -> t k = Some r \/
  match q with QInsert k' id ts => k' = k /\ r = mkRow id ts | QUpdate k' wid id ts => k' = k /\ r = mkRow id ts /\ (exists r0, t k = Some r0 /\ lr_id r0 = wid) | _ => False end.
Proof.
  intros H. destruct (eff_cases o q t) as [E|E]; [rewrite E in H; auto|]. destruct q; [destruct E|..].
  - destruct E as [E1 E2]. rewrite E2 in H. destruct (string_dec k key) as [->|N]; [rewrite tset_at in H; injection H as <-; auto|rewrite tset_off in H; auto].
  - destruct E as (r0 & E0 & Ei & E2). rewrite E2 in H. destruct (string_dec k key) as [->|N]; [rewrite tset_at in H; injection H as <-; right; eauto|rewrite tset_off in H; auto].
  - destruct E as (r0 & E0 & Ei & E2). rewrite E2 in H. destruct (string_dec k key) as [->|N]; [rewrite tset_at in H; discriminate|rewrite tset_off in H; auto].
Qed.

(** local steps keep the invariant if the new view of [c] is no wilder than the old one *)
Definition calmer (a : aw) (x y : view) : Prop :=
  (forall i, uses y = Some i -> uses x = Some i) /\ (forall i, pre y = Some i -> pre x = Some i) /\ (forall r, rdrow y = Some r -> rdrow x = Some r \/ exists k, a_tab a k = Some r) /\
  (forall ts, vts y = Some ts -> vts x = Some ts \/ ts = a_now a) /\ (forall h, x = VH h -> y = VH h \/ y = VU h \/ uses y = None) /\ (forall h, x = VU h -> y = VU h \/ uses y = None).
Ltac fcase c' c := unfold fset in *; destruct (Nat.eqb_spec c' c); subst.
Lemma calmer_refl a x : calmer a x x.
Proof. unfold calmer. intuition auto. Qed.
Lemma ginv_local a c y v' : ginv a -> calmer a (a_v a c) y -> (forall d, v' d = fset (a_v a) c y d) -> ginv (a_local a v' (a_r a)).
Proof.
  intros G (C1 & C2 & C3 & C4 & C5 & C6) Hv. destruct G.
  assert (U : forall d i, uses (v' d) = Some i -> uses (a_v a d) = Some i) by (intros d i; rewrite Hv; fcase d c; auto).
  assert (R : forall d r, rdrow (v' d) = Some r -> rdrow (a_v a d) = Some r \/ exists k, a_tab a k = Some r) by (intros d r; rewrite Hv; fcase d c; auto).
  constructor; cbn; eauto.
  - intros d h H. destruct (g_ren0 d h H) as [H1 H2]. split; auto. rewrite Hv. fcase d c; auto. destruct H2 as [H2|[H2|H2]].
    + destruct (C5 h H2) as [->|[->|E]]; auto. right. right. congruence.
    + destruct (C6 h H2) as [->|E]; auto. right. right. congruence.
    + right. right. intros E. auto.
  - intros d r H. destruct (R d r H) as [H'|(k & H')]; eauto.
  - intros d ts H. rewrite Hv in H. fcase d c; [|eauto]. destruct (C4 ts H) as [H'| -> ]; eauto.
  - intros d i H. assert (H' : pre (a_v a d) = Some i) by (rewrite Hv in H; fcase d c; auto). destruct (g_pre0 d i H') as (A & B & C). split; auto. split; auto.
    intros c' r Hr. destruct (R c' r Hr) as [Hr'|(k & Hr')]; eauto.
  - intros e i Hi Hw. destruct (g_hist0 e i Hi Hw) as (A & B & C). repeat split; eauto.
Qed.
(** a statement that writes no identity and changes no row *)
Lemma ginv_exec a c o q y v' r' : ginv a -> calmer a (a_v a c) y -> (forall d, v' d = fset (a_v a) c y d) ->
  (forall d h, rh (r' d) = Some h -> rh (a_r a d) = Some h) -> (forall d ts, rts (r' d) = Some ts -> rts (a_r a d) = Some ts) ->
  (forall k r, eff_of o q (a_tab a) k = Some r -> a_tab a k = Some r \/ ((uses (a_v a c) = Some (lr_id r) /\ pre y = None \/ exists h, rh (a_r a c) = Some h /\ h_id h = lr_id r) /\ lr_upd r <= a_now a)) ->
  (forall i, writes_id (mkEv c q (rep_of o q (a_tab a)) (done_of o) (a_now a)) i -> uses (a_v a c) = Some i /\ pre y = None \/ exists h, rh (a_r a c) = Some h /\ h_id h = i) ->
  ginv (a_exec a c o q v' r').
Proof.
  intros G C Hv Hrh Hrt Htab Hw. pose proof (ginv_local a c y v' G C Hv) as L. destruct G, L. cbn in *.
  assert (RP : forall d h, rh (a_r a d) = Some h -> forall c', pre (a_v a c') <> Some (h_id h)).
  { intros d h H c' Hp. assert (Hu : uses (a_v a c') = Some (h_id h)) by (destruct (a_v a c'); cbn in *; auto; discriminate).
    pose proof (g_rdist0 _ _ _ H Hu). subst c'. destruct (g_ren0 d h H) as [_ [E|[E|E]]]; [rewrite E in *; discriminate..|contradiction]. }
  assert (PN : forall d i, pre (v' d) = Some i -> pre (a_v a d) = Some i).
  { intros d i. rewrite Hv. fcase d c; auto. destruct C as (_ & C & _). apply C. }
  assert (OK : forall i, uses (a_v a c) = Some i /\ pre y = None \/ (exists h, rh (a_r a c) = Some h /\ h_id h = i) -> i < a_next a /\ forall d, pre (v' d) = Some i -> False).
  { intros i [[H1 H2]|(h & H1 & H2)].
    - split; eauto. intros d Hd. assert (d <> c) by (intros ->; rewrite Hv in Hd; unfold fset in Hd; rewrite Nat.eqb_refl in Hd; congruence).
      apply PN in Hd. assert (Hu : uses (a_v a d) = Some i) by (destruct (a_v a d); cbn in *; auto; discriminate). eauto.
    - subst i. split; [apply (g_ren0 c h H1)|]. intros d Hd. apply PN in Hd. exact (RP c h H1 d Hd). }
  constructor; cbn; eauto.
  - intros k r H. destruct (Htab k r H) as [H1|[H1 H2]]; [eauto|]. split; auto. exact (proj1 (OK _ H1)).
  - intros d i H. destruct (g_pre1 d i H) as (A1 & A2 & A3). split; [|split; auto].
    + intros k r H1 E. subst i. destruct (Htab k r H1) as [H2|[H2 _]]; [exact (A1 k r H2 eq_refl)|]. exact (proj2 (OK _ H2) d H).
    + intros e He Hx. apply in_app_iff in He. destruct He as [He|[<-|[]]]; [exact (A3 e He Hx)|]. exact (proj2 (OK _ (Hw i Hx)) d H).
  - intros e i He Hx. apply in_app_iff in He. destruct He as [He|[<-|[]]].
    + destruct (g_hist1 e i He Hx) as (B1 & B2 & B3). repeat split; eauto.
    + destruct (OK _ (Hw i Hx)) as [B1 B2]. split; auto. cbn. split.
      * intros d Hd. assert (Hd' : uses (a_v a d) = Some i) by (rewrite Hv in Hd; fcase d c; auto; destruct C as (C & _); auto).
        destruct (Hw i Hx) as [[H1 H2]|(h & H1 & H2)]; [eauto|subst i; eauto].
      * intros d h Hd E. apply Hrh in Hd. subst i. destruct (Hw _ Hx) as [[H1 H2]|(h' & H1 & H2)]; [symmetry; eauto|].
        eauto.
Qed.
Lemma ginv_rless a v' r' : ginv a -> (forall d, v' d = a_v a d) -> (forall d h, rh (r' d) = Some h -> rh (a_r a d) = Some h) -> (forall d ts, rts (r' d) = Some ts -> rts (a_r a d) = Some ts \/ ts = a_now a) ->
  ginv (a_local a v' r').
Proof.
  intros G Hv H1 H2. destruct G. constructor; cbn; eauto; try (intros d; rewrite ?Hv; eauto; fail).
  - intros d d' i. rewrite !Hv. eauto.
  - intros d d' h. rewrite Hv. eauto.
  - intros d ts H. destruct (H2 d ts H) as [H'| -> ]; eauto.
  - intros d i. rewrite Hv. intros H. destruct (g_pre0 d i H) as (A & B & C). split; auto. split; auto. intros c' r. rewrite Hv. eauto.
  - intros e i H H'. destruct (g_hist0 e i H H') as (A & B & C). split; auto. split; [intros c; rewrite Hv|]; eauto.
Qed.
Lemma retried_calm a key v x : retried key v -> calmer a x v.
Proof. intros [-> | ->]; unfold calmer; cbn; intuition (try discriminate). Qed.
Lemma fset_same {A} (f : nat -> A) c d : fset f c (f c) d = f d.
Proof. unfold fset. destruct (Nat.eqb_spec d c); subst; auto. Qed.

Section Inv.
  Variables (ttl : nat) (runs : bool).
  Lemma ginv_step a a' : astep ttl runs a a' -> ginv a -> ginv a'.
  Proof.
    intros H G. destruct H.
    - destruct G. constructor; cbn; eauto.
      + intros k r H. destruct (g_tab0 k r H). lia.
      + intros k r H. destruct (g_read0 k r H). lia.
      + intros c ts H. specialize (g_ts0 c ts H). lia.
      + intros c ts H. specialize (g_rts0 c ts H). lia.
    - assert (L : ginv (a_local a (fset (a_v a) c (VL key T0)) (a_r a))).
      { apply (ginv_local a c (VL key T0)); auto. rewrite H. unfold calmer; cbn; intuition discriminate. }
      eapply (ginv_rless _ (fset (a_v a) c (VL key T0)) (fset (a_r a) c R0) L); auto; intros d x; cbn; fcase d c; cbn; auto; discriminate.
    - (* a new identity *)
      destruct G. set (v' := fset (a_v a) c (VL key (T1 (a_next a)))).
      assert (U : forall d i, uses (v' d) = Some i -> (d = c /\ i = a_next a) \/ (d <> c /\ uses (a_v a d) = Some i)).
      { intros d i. unfold v'. fcase d c; cbn; auto. intros [= <-]. auto. }
      assert (R : forall d r, rdrow (v' d) = Some r -> rdrow (a_v a d) = Some r) by (intros d r; unfold v'; fcase d c; cbn; auto; discriminate).
      constructor; cbn; fold v'; eauto.
      + intros d i Hd. destruct (U d i Hd) as [[_ ->]|[_ Hd']]; [lia|]. specialize (g_use0 d i Hd'). lia.
      + intros d d' i Hd Hd'. destruct (U d i Hd) as [[-> ->]|[N Hd1]]; destruct (U d' _ Hd') as [[-> E]|[N' Hd2]]; auto.
        * specialize (g_use0 d' _ Hd2). lia.
        * subst i. specialize (g_use0 d _ Hd1). lia.
        * eauto.
      + intros d h Hd. destruct (g_ren0 d h Hd) as [A B]. split; [lia|]. unfold v'. fcase d c; auto. rewrite H in B. cbn in B.
        right. right. cbn. intros [= E]. lia.
      + intros d d' h Hd Hd'. destruct (U d' _ Hd') as [[-> E]|[N' Hd2]]; eauto. destruct (g_ren0 d h Hd). lia.
      + intros k r Hr. destruct (g_tab0 k r Hr). lia.
      + intros d r Hr. apply R in Hr. destruct (g_read0 d r Hr). lia.
      + intros d ts Hd. unfold v' in Hd. fcase d c; [discriminate|eauto].
      + intros d i Hd. unfold v' in Hd. fcase d c.
        * cbn in Hd. injection Hd as <-. split; [|split].
          -- intros k r Hr. destruct (g_tab0 k r Hr). lia.
          -- intros d r Hr. apply R in Hr. destruct (g_read0 d r Hr). lia.
          -- intros e He Hx. destruct (g_hist0 e _ He Hx) as (A & _). lia.
        * destruct (g_pre0 d i Hd) as (A & B & C). split; auto. split; auto. intros d' r Hr. apply R in Hr. eauto.
      + intros e i He Hx. destruct (g_hist0 e _ He Hx) as (A & B & C). split; [lia|]. split; auto. intros d Hd. destruct (U d i Hd) as [[-> ->]|[N Hd1]]; auto. lia.
    - apply (ginv_exec a c o (QSelect key) v); auto.
      + rewrite H. destruct (rep_of o (QSelect key) (a_tab a)) eqn:E; try (now apply (retried_calm a key)); subst v; unfold calmer; cbn; intuition try discriminate.
        right. exists key. destruct o; cbn in E; try discriminate. destruct (a_tab a key); congruence.
      + intros k r Hr. left. destruct o; exact Hr.
      + cbn. contradiction.
    - apply (ginv_local a c (VL key (T3 id (a_now a)))); auto. rewrite H. unfold calmer; cbn. intuition congruence.
    - assert (Hy : pre v = None) by (destruct (rep_of o (QInsert key id ts) (a_tab a)); try (destruct H0 as [-> | ->]; reflexivity); subst v; reflexivity).
      apply (ginv_exec a c o _ v); auto.
      + rewrite H. destruct (rep_of o (QInsert key id ts) (a_tab a)); try (now apply (retried_calm a key)). subst v. unfold calmer; cbn. intuition discriminate.
      + intros k r Hr. destruct (eff_row _ _ _ _ _ Hr) as [E|[-> -> ]]; auto. right. rewrite H. cbn. split; auto. apply (g_ts a G c). now rewrite H.
      + intros i. cbn. intros <-. left. now rewrite H.
    - apply (ginv_local a c v); auto. now apply (retried_calm a key).
    - apply (ginv_local a c (VL key (T5 id row))); auto. rewrite H. unfold calmer; cbn. intuition congruence.
    - apply (ginv_local a c (VL key (T6 id row (a_now a)))); auto. rewrite H. unfold calmer; cbn. intuition congruence.
    - assert (Hy : pre v = None).
      { destruct (rep_of o (QUpdate key (lr_id row) id ts) (a_tab a)) as [| | | |[|n]]; try (destruct H0 as [-> | ->]; reflexivity); subst v; reflexivity. }
      apply (ginv_exec a c o _ v); auto.
      + rewrite H. destruct (rep_of o (QUpdate key (lr_id row) id ts) (a_tab a)) as [| | | |[|n]]; try (now apply (retried_calm a key)). subst v. unfold calmer; cbn. intuition discriminate.
      + intros k r Hr. destruct (eff_row _ _ _ _ _ Hr) as [E|(-> & -> & _)]; auto. right. rewrite H. cbn. split; auto. apply (g_ts a G c). now rewrite H.
      + intros i. cbn. intros <-. left. now rewrite H.
    - apply (ginv_local a c (VU h)); auto. rewrite H. unfold calmer; cbn. intuition congruence.
    - apply (ginv_exec a c o _ V0); auto.
      + rewrite H. unfold calmer; cbn. intuition congruence.
      + intros k r Hr. destruct (eff_row _ _ _ _ _ Hr) as [E|[]]; auto.
      + cbn. contradiction.
    - (* a renewal starts *)
      assert (U : uses (a_v a c) = Some (h_id h)) by now rewrite H0.
      assert (RH : forall d h', rh (fset (a_r a) c (R1 h) d) = Some h' -> (d = c /\ h' = h) \/ (d <> c /\ rh (a_r a d) = Some h')).
      { intros d h'. fcase d c; cbn; auto. intros [= <-]. auto. }
      destruct G. constructor; cbn; eauto.
      + intros d h' Hd. destruct (RH d h' Hd) as [[-> ->]|[N Hd']]; eauto.
      + intros d d' h' Hd Hd'. destruct (RH d h' Hd) as [[-> ->]|[N Hd1]]; eauto.
      + intros d d' h1 h2 Hd Hd' E. destruct (RH d h1 Hd) as [[-> ->]|[N Hd1]]; destruct (RH d' h2 Hd') as [[-> ->]|[N' Hd2]]; eauto; symmetry; [eapply g_rdist0; eauto; congruence|].
        symmetry. eapply g_rdist0; eauto; congruence.
      + intros d ts Hd. fcase d c; [discriminate|eauto].
      + intros e i He Hx. destruct (g_hist0 e _ He Hx) as (A & B & C). split; auto. split; auto. intros d h' Hd E. destruct (RH d h' Hd) as [[-> ->]|[N Hd1]]; eauto. apply B. congruence.
    - apply ginv_rless; auto; intros d x; fcase d c; cbn; auto; rewrite H; auto. intros [= <-]. auto.
    - apply (ginv_exec a c o _ (a_v a c)); auto.
      + apply calmer_refl.
      + intros d. symmetry. apply fset_same.
      + intros d x. fcase d c; cbn; auto. discriminate.
      + intros d x. fcase d c; cbn; auto. discriminate.
      + intros k r Hr. destruct (eff_row _ _ _ _ _ Hr) as [E|(_ & -> & _)]; auto. right. cbn. split; [right; exists h; rewrite H; auto|]. apply (g_rts a G c). now rewrite H.
      + intros i. cbn. intros <-. right. exists h. now rewrite H.
    - assert (L : ginv (a_local a (fset (a_v a) c V0) (a_r a))).
      { apply (ginv_local a c V0); auto. unfold calmer; cbn; intuition discriminate. }
      eapply (ginv_rless _ (fset (a_v a) c V0) (fset (a_r a) c R0) L); auto; intros d x; cbn; fcase d c; cbn; auto; discriminate.
  Qed.
  Lemma ginv_initial w : initial w -> exists a, rel ttl w a /\ ginv a /\ (forall c, a_v a c = V0) /\ (forall c, a_r a c = R0) /\ a_hist a = [].
  Proof.
    intros (H1 & H2 & H3). exists (mkA (w_tab w) (w_now w) (w_next w) (fun _ => V0) (fun _ => R0) []). split; [|split; [|auto]].
    - repeat split; auto; intros c; rewrite H1; constructor.
    - constructor; cbn; try discriminate; auto. contradiction.
  Qed.
End Inv.

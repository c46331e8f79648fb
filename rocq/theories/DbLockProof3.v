From Verif Require Export DbLockProof2.

Lemma lease_snoc h e c : lease_of (h ++ [e]) c = if Nat.eqb (e_who e) c then match confirmed_ts e with Some ts => Some ts | None => lease_of h c end else lease_of h c.
Proof. unfold lease_of. now rewrite fold_left_app. Qed.

Ltac gcase c' c := unfold fset in *; destruct (Nat.eqb_spec c' c) as [->|?].
(** * Without renewal *)
Section NoRen.
  Variable ttl : nat.
  Record finv (a : aw) : Prop := mkF {
    f_ren : forall c, a_r a c = R0;
    f_read : forall c key s row, a_v a c = VL key s -> srow s = Some row -> forall r, a_tab a key = Some r -> lr_id r = lr_id row -> r = row;
    f_exp : forall c key s row, a_v a c = VL key s -> match s with T5 _ r | T6 _ r _ => r = row | _ => False end -> ttl <= a_now a - lr_upd row;
    f_held : forall c h, a_v a c = VH h -> exists ts, lease_of (a_hist a) c = Some ts /\ ts <= a_now a /\ (a_tab a (h_key h) = Some (mkRow (h_id h) ts) \/ ttl <= a_now a - ts)
  }.
  (** a statement of [c], whose new view is [v] *)
  Lemma finv_exec a c o q v : ginv a -> finv a ->
    (forall key s row, v = VL key s -> srow s = Some row -> q = QSelect key /\ a_tab a key = Some row) ->
    (forall key s, v = VL key s -> match s with T5 _ _ | T6 _ _ _ => False | _ => True end) ->
    (forall h, v = VH h -> exists ts, confirmed_ts (mkEv c q (rep_of o q (a_tab a)) (done_of o) (a_now a)) = Some ts /\ ts <= a_now a /\ eff_of o q (a_tab a) (h_key h) = Some (mkRow (h_id h) ts)) ->
    (* a new row has an identity that nobody has read, and replaces nothing or an expired row that [c] has read *)
    match q with
    | QSelect _ => True
    | QInsert _ id _ => pre (a_v a c) = Some id
    | QUpdate key wid id _ => pre (a_v a c) = Some id /\ exists s row, a_v a c = VL key s /\ srow s = Some row /\ lr_id row = wid /\ ttl <= a_now a - lr_upd row
    | QDelete key wid => uses (a_v a c) = Some wid
    end ->
    finv (a_exec a c o q (fset (a_v a) c v) (a_r a)).
  Proof.
    intros G F Hr Hs Hh Hq. destruct F as [f1 f2 f3 f4]. constructor; cbn [a_exec a_local a_v a_r a_tab a_hist a_now a_next]; auto.
    - intros d key s row Hd Hs' r Hrow Hid. gcase d c.
      + destruct (Hr key s row Hd Hs') as [-> E]. assert (eff_of o (QSelect key) (a_tab a) = a_tab a) as E' by now destruct o. rewrite E' in Hrow. congruence.
      + destruct (eff_row _ _ _ _ _ Hrow) as [H0|H0]; [eauto|]. exfalso. destruct q; try contradiction.
        * destruct H0 as [-> -> ]. destruct (g_pre a G c id Hq) as (_ & B & _). eapply (B d row); [now rewrite Hd|]. cbn in Hid. congruence.
        * destruct H0 as (-> & -> & _). destruct Hq as [Hq _]. destruct (g_pre a G c id Hq) as (_ & B & _). eapply (B d row); [now rewrite Hd|]. cbn in Hid. congruence.
    - intros d key s row Hd. gcase d c; [|eauto]. specialize (Hs key s Hd). destruct s; tauto.
    - intros d h Hd. rewrite lease_snoc. cbn [e_who]. gcase d c.
      + rewrite Nat.eqb_refl. destruct (Hh h Hd) as (ts & -> & Hle & E). eauto 6.
      + destruct (Nat.eqb_spec c d); [congruence|]. destruct (f4 d h Hd) as (ts & E & Hle & H0). exists ts. split; auto. split; auto. destruct H0 as [H0|H0]; auto.
        destruct (eff_cases o q (a_tab a)) as [->|H1]; auto. destruct q; [destruct H1|..].
        * destruct H1 as [H1 ->]. left. rewrite tset_off; auto. intros <-. congruence.
        * destruct H1 as (r & H1 & H2 & ->). destruct (string_dec (h_key h) key) as [<-|N]; [|left; now rewrite tset_off]. right.
          destruct Hq as (_ & s & row & E1 & E2 & E3 & E4). rewrite H0 in H1. injection H1 as <-. cbn in H2.
          assert (mkRow (h_id h) ts = row) as <- by (eapply (f2 c); eauto; cbn; congruence). exact E4.
        * destruct H1 as (r & H1 & H2 & ->). destruct (string_dec (h_key h) key) as [<-|N]; [|left; now rewrite tset_off]. exfalso.
          rewrite H0 in H1. injection H1 as <-. cbn in H2. apply n. apply (g_dist a G d c wid); auto. rewrite Hd. cbn. congruence.
  Qed.
  Lemma finv_local a c v v' : finv a -> (forall d, v' d = fset (a_v a) c v d) ->
    (forall key s row, v = VL key s -> srow s = Some row -> exists s', a_v a c = VL key s' /\ srow s' = Some row) ->
    (forall key s row, v = VL key s -> match s with T5 _ r | T6 _ r _ => r = row | _ => False end -> ttl <= a_now a - lr_upd row) ->
    (forall h, v = VH h -> a_v a c = VH h) -> finv (a_local a v' (a_r a)).
  Proof.
    intros F Hv H1 H2 H3. destruct F as [f1 f2 f3 f4]. constructor; cbn [a_exec a_local a_v a_r a_tab a_hist a_now a_next]; auto.
    - intros d key s row Hd Hs. rewrite Hv in Hd. gcase d c; [|eauto]. destruct (H1 _ _ _ Hd Hs) as (s' & E1 & E2). eauto.
    - intros d key s row Hd Hs. rewrite Hv in Hd. gcase d c; eauto.
    - intros d h Hd. rewrite Hv in Hd. gcase d c; eauto.
  Qed.
  Lemma finv_step a a' : astep ttl false a a' -> ginv a -> finv a -> finv a'.
  Proof.
    intros H G F.
    assert (E0 : forall key v, retried key v -> (forall k s row, v = VL k s -> srow s = Some row -> False) /\ (forall k s, v = VL k s -> s = T0) /\ (forall h, v <> VH h)).
    { intros key v [-> | ->]; (split; [|split]); try discriminate; intros k s; [intros row|]; intros [= <- <-]; cbn; congruence. }
    destruct H.
    - destruct F as [f1 f2 f3 f4]. constructor; cbn [a_exec a_local a_v a_r a_tab a_hist a_now a_next]; auto.
      + intros c key s row Hd Hs. specialize (f3 c key s row Hd Hs). lia.
      + intros c h Hd. destruct (f4 c h Hd) as (ts & E & Hle & Hx). exists ts. split; auto. split; [lia|]. destruct Hx; auto. right. lia.
    - eapply (finv_local a c (VL key T0) (fset (a_v a) c (VL key T0))) in F; auto.
      + destruct F as [f1 f2 f3 f4]. constructor; cbn [a_exec a_local a_v a_r a_tab a_hist a_now a_next]; auto. intros d. cbn in f1. gcase d c; auto.
      + intros k s row [= <- <-]. discriminate.
      + intros k s row [= <- <-]. contradiction.
      + discriminate.
    - eapply (finv_local a c (VL key (T1 (a_next a))) (fset (a_v a) c (VL key (T1 (a_next a))))) in F; auto.
      + destruct F as [f1 f2 f3 f4]. constructor; cbn [a_exec a_local a_v a_r a_tab a_hist a_now a_next]; auto.
      + intros k s row [= <- <-]. discriminate.
      + intros k s row [= <- <-]. contradiction.
      + discriminate.
    - apply finv_exec; auto.
      + intros k s row Ev Hs. destruct (rep_of o (QSelect key) (a_tab a)) eqn:E; try (now destruct (proj1 (E0 key v H0) k s row Ev Hs)); subst v; injection Ev as <- <-; cbn in Hs; try discriminate.
        injection Hs as <-. split; auto. destruct o; cbn in E; try discriminate. destruct (a_tab a key); congruence.
      + intros k s Ev. destruct (rep_of o (QSelect key) (a_tab a)) eqn:E; try (now rewrite (proj1 (proj2 (E0 key v H0)) k s Ev)); subst v; now injection Ev as <- <-.
      + intros h Ev. exfalso. destruct (rep_of o (QSelect key) (a_tab a)) eqn:E; try (now apply (proj2 (proj2 (E0 key v H0)) h)); congruence.
    - eapply (finv_local a c (VL key (T3 id (a_now a)))); auto; intros k s; [intros row [= <- <-]; discriminate|intros row [= <- <-]; contradiction|discriminate].
    - apply finv_exec; auto.
      + intros k s row Ev Hs. exfalso. destruct (rep_of o (QInsert key id ts) (a_tab a)); try (exact (proj1 (E0 key v H0) k s row Ev Hs)). congruence.
      + intros k s Ev. destruct (rep_of o (QInsert key id ts) (a_tab a)); try (now rewrite (proj1 (proj2 (E0 key v H0)) k s Ev)). congruence.
      + intros h Ev. unfold confirmed_ts. cbn. destruct o; cbn in *; try (now destruct (proj2 (proj2 (E0 key v H0)) h)).
        destruct (a_tab a key) eqn:E; [now destruct (proj2 (proj2 (E0 key v H0)) h)|]. assert (h = mkH key id) as -> by congruence. exists ts. cbn. rewrite tset_at. split; auto. split; auto. apply (g_ts a G c). now rewrite H.
      + now rewrite H.
    - eapply (finv_local a c v); auto; [intros k s row' Ev Hs; now destruct (proj1 (E0 key v H1) k s row' Ev Hs)| |intros h Ev; now destruct (proj2 (proj2 (E0 key v H1)) h)].
      intros k s row' Ev. now rewrite (proj1 (proj2 (E0 key v H1)) k s Ev).
    - eapply (finv_local a c (VL key (T5 id row))); auto; [| |discriminate].
      + intros k s r [= <- <-] [= <-]. rewrite H. eauto.
      + intros k s r [= <- <-] <-. auto.
    - eapply (finv_local a c (VL key (T6 id row (a_now a)))); auto; [| |discriminate].
      + intros k s r [= <- <-] [= <-]. rewrite H. eauto.
      + intros k s r [= <- <-] <-. apply (f_exp a F c key (T5 id row)); auto.
    - apply finv_exec; auto.
      + intros k s r Ev Hs. exfalso. destruct (rep_of o (QUpdate key (lr_id row) id ts) (a_tab a)) as [| | | |[|n]]; try (exact (proj1 (E0 key v H0) k s r Ev Hs)). congruence.
      + intros k s Ev. destruct (rep_of o (QUpdate key (lr_id row) id ts) (a_tab a)) as [| | | |[|n]]; try (now rewrite (proj1 (proj2 (E0 key v H0)) k s Ev)). congruence.
      + intros h Ev. unfold confirmed_ts. cbn. destruct o; cbn in *; try (now destruct (proj2 (proj2 (E0 key v H0)) h)).
        destruct (a_tab a key) as [r|] eqn:E; [|now destruct (proj2 (proj2 (E0 key v H0)) h)]. destruct (Nat.eqb (lr_id r) (lr_id row)); [|now destruct (proj2 (proj2 (E0 key v H0)) h)].
        assert (h = mkH key id) as -> by congruence. exists ts. cbn. rewrite tset_at. split; auto. split; auto. apply (g_ts a G c). now rewrite H.
      + rewrite H. split; auto. exists (T6 id row ts), row. split; auto. split; auto. split; auto. apply (f_exp a F c key (T6 id row ts)); auto.
    - eapply (finv_local a c (VU h)); auto; discriminate.
    - apply finv_exec; auto; try discriminate. now rewrite H.
    - discriminate.
    - exfalso. pose proof (f_ren a F c). congruence.
    - exfalso. pose proof (f_ren a F c). congruence.
    - eapply (finv_local a c V0 (fset (a_v a) c V0)) in F; auto; try discriminate.
      destruct F as [f1 f2 f3 f4]. constructor; cbn [a_exec a_local a_v a_r a_tab a_hist a_now a_next]; auto. intros d. cbn in f1. gcase d c; auto.
  Qed.
  Lemma reach_false retry w : reachable ttl retry false w -> exists a, rel ttl w a /\ ginv a /\ finv a.
  Proof.
    intros (w0 & Hi & Hs). induction Hs as [|w1 w2 w3 Hs IH Hst].
    - destruct (ginv_initial ttl _ Hi) as (a & R & G & V & RR & Hh). exists a. split; auto. split; auto. constructor; auto; intros c; rewrite V; discriminate.
    - destruct (IH Hi) as (a & R & G & F). destruct (simulates ttl retry false _ _ a Hst R) as (a' & St & R'). exists a'. split; auto. split; [eapply ginv_step; eauto|eapply finv_step; eauto].
  Qed.
  Lemma reach_any retry runs w : reachable ttl retry runs w -> exists a, rel ttl w a /\ ginv a.
  Proof.
    intros (w0 & Hi & Hs). induction Hs as [|w1 w2 w3 Hs IH Hst].
    - destruct (ginv_initial ttl _ Hi) as (a & R & G & _). eauto.
    - destruct (IH Hi) as (a & R & G). destruct (simulates ttl retry runs _ _ a Hst R) as (a' & St & R'). exists a'. split; auto. eapply ginv_step; eauto.
  Qed.
  Lemma exclusive retry w c1 c2 k : reachable ttl retry false w -> holding w c1 k -> holding w c2 k -> lease_valid ttl w c1 -> lease_valid ttl w c2 -> c1 = c2.
  Proof.
    intros Hr (h1 & P1 & K1) (h2 & P2 & K2) (t1 & L1 & V1) (t2 & L2 & V2). destruct (reach_false retry w Hr) as (a & (Et & En & Ex & Eh & S & _) & G & F).
    pose proof (S c1) as S1. rewrite P1 in S1. inversion S1 as [| | | | |? X1 Y1|]. subst.
    pose proof (S c2) as S2. rewrite P2 in S2. inversion S2 as [| | | | |? X2 Y2|]. subst. symmetry in Y1, Y2.
    destruct (f_held a F c1 h1 Y1) as (u1 & M1 & O1 & N1). destruct (f_held a F c2 h2 Y2) as (u2 & M2 & O2 & N2).
    rewrite Eh in *. rewrite En in *. assert (u1 = t1) by congruence. assert (u2 = t2) by congruence. subst u1 u2.
    assert (Z : forall t, ttl <= a_now a - t -> a_now a < t + ttl -> t <= a_now a -> False) by (intros; lia).
    destruct N1 as [N1|N1]; [|exfalso].
    - destruct N2 as [N2|N2]; [|exfalso].
      + rewrite K2, N1 in N2. injection N2 as E _. apply (g_dist a G c1 c2 (h_id h1)); [now rewrite Y1|rewrite Y2; cbn; congruence].
      + eauto.
    - eauto.
  Qed.
End NoRen.

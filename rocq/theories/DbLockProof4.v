From Verif Require Export DbLockProof3.

(** * With renewal *)
Section Ren.
  Variables (ttl margin : nat) (runs : bool).
  Definition last_select (hist : list levent) (c : nat) (key : string) (tau : nat) : Prop :=
    exists p e m, hist = p ++ e :: m /\ e_who e = c /\ e_stmt e = QSelect key /\ e_time e = tau /\ forall x, In x m -> e_who x <> c.
  Lemma last_select_keep hist c key tau e : last_select hist c key tau -> e_who e <> c -> last_select (hist ++ [e]) c key tau.
  Proof.
    intros (p & e1 & m & -> & H1 & H2 & H3 & H4) He. exists p, e1, (m ++ [e]). split; [now rewrite <- app_assoc|]. repeat split; auto.
    intros x Hx. apply in_app_iff in Hx. destruct Hx as [Hx|[<-|[]]]; auto.
  Qed.
  Record binv (a : aw) : Prop := mkB {
    b_vl : forall c key s, a_v a c = VL key s -> a_r a c = R0;
    b_rh : forall c h h', rh (a_r a c) = Some h' -> a_v a c = VH h -> h = h';
    b_read : forall c key s row, a_v a c = VL key s -> srow s = Some row -> exists tau, last_select (a_hist a) c key tau /\
       forall d h, a_v a d = VH h -> h_key h = key -> h_id h = lr_id row -> tau + margin < lr_upd row + ttl;
    b_exp : forall c key s row, a_v a c = VL key s -> match s with T5 _ r | T6 _ r _ => r = row | _ => False end -> ttl <= a_now a - lr_upd row;
    b_held : forall c h, a_v a c = VH h -> exists row ts, a_tab a (h_key h) = Some row /\ lr_id row = h_id h /\ lease_of (a_hist a) c = Some ts /\ ts <= lr_upd row;
    b_ren : forall c h ts, a_v a c = VH h -> a_r a c = R2 h ts -> forall row, a_tab a (h_key h) = Some row -> lr_upd row <= ts
  }.
  Definition a_in_time (a : aw) : Prop := forall c h, a_v a c = VH h -> exists ts, lease_of (a_hist a) c = Some ts /\ a_now a + margin < ts + ttl.

  Lemma binv_local a c v v' : binv a -> (forall d, v' d = fset (a_v a) c v d) -> (forall h, v = VH h -> a_v a c = VH h) ->
    (forall key s, v = VL key s -> exists s', a_v a c = VL key s' /\ forall row, srow s = Some row -> srow s' = Some row) ->
    (forall key s row, v = VL key s -> match s with T5 _ r | T6 _ r _ => r = row | _ => False end -> ttl <= a_now a - lr_upd row) ->
    binv (a_local a v' (a_r a)).
  Proof.
    intros B Hv H0 H1 H2. destruct B as [b1 b2 b3 b4 b5 b6].
    assert (V : forall d h, v' d = VH h -> a_v a d = VH h) by (intros d h Hd; rewrite Hv in Hd; gcase d c; auto).
    assert (W : forall d key s, v' d = VL key s -> exists s', a_v a d = VL key s' /\ forall row, srow s = Some row -> srow s' = Some row).
    { intros d key s Hd. rewrite Hv in Hd. gcase d c; eauto. }
    constructor; cbn [a_local a_v a_r a_tab a_hist a_now a_next]; eauto.
    - intros d key s Hd. destruct (W d key s Hd) as (s' & E & _). eauto.
    - intros d key s row Hd Hs. destruct (W d key s Hd) as (s' & E & E'). destruct (b3 d key s' row E (E' row Hs)) as (tau & L & M). eauto.
    - intros d key s row Hd Hs. rewrite Hv in Hd. gcase d c; eauto.
  Qed.
  Lemma held_off a o q d h row : a_tab a (h_key h) = Some row -> lr_id row = h_id h ->
    match q with QSelect _ => True | QInsert _ _ _ => True | QUpdate key wid _ _ => key = h_key h -> wid <> h_id h | QDelete key wid => key = h_key h -> wid <> h_id h end ->
    a_v a d = VH h -> eff_of o q (a_tab a) (h_key h) = Some row.
  Proof.
    intros H1 H2 H3 _. destruct (eff_cases o q (a_tab a)) as [->|H]; auto. destruct q; [destruct H|..].
    - destruct H as [H ->]. rewrite tset_off; auto. intros E. rewrite <- E in H. congruence.
    - destruct H as (r & E1 & E2 & ->). destruct (string_dec (h_key h) key) as [<-|N]; [|now rewrite tset_off]. exfalso. apply H3; auto. congruence.
    - destruct H as (r & E1 & E2 & ->). destruct (string_dec (h_key h) key) as [<-|N]; [|now rewrite tset_off]. exfalso. apply H3; auto. congruence.
  Qed.
  Lemma binv_exec a c o q v : ginv a -> binv a -> (a_r a c = R0 \/ forall h, v <> VH h) -> (forall key s, v = VL key s -> a_r a c = R0) ->
    (forall d h, d <> c -> a_v a d = VH h -> match q with QSelect _ => True | QInsert _ _ _ => True | QUpdate key wid _ _ => key = h_key h -> wid <> h_id h | QDelete key wid => key = h_key h -> wid <> h_id h end) ->
    (forall key s row, v = VL key s -> srow s = Some row -> q = QSelect key /\ forall d h, d <> c -> a_v a d = VH h -> h_key h = key -> h_id h = lr_id row -> a_now a + margin < lr_upd row + ttl) ->
    (forall key s, v = VL key s -> match s with T5 _ _ | T6 _ _ _ => False | _ => True end) ->
    (forall h, v = VH h -> pre (a_v a c) = Some (h_id h) /\ exists ts, confirmed_ts (mkEv c q (rep_of o q (a_tab a)) (done_of o) (a_now a)) = Some ts /\ eff_of o q (a_tab a) (h_key h) = Some (mkRow (h_id h) ts)) ->
    binv (a_exec a c o q (fset (a_v a) c v) (a_r a)).
  Proof.
    intros G B Hr Hl Ho Hs He Hh. destruct B as [b1 b2 b3 b4 b5 b6]. constructor; cbn [a_exec a_v a_r a_tab a_hist a_now a_next]; auto.
    - intros d key s Hd. gcase d c; eauto.
    - intros d h h' Hd Hd'. gcase d c; eauto. destruct Hr as [Hr|Hr]; [rewrite Hr in Hd; discriminate|now destruct (Hr h)].
    - intros d key s row Hd Hsr. gcase d c.
      + destruct (Hs key s row Hd Hsr) as [-> H0]. exists (a_now a). split.
        * exists (a_hist a). eexists. exists []. split; [reflexivity|]. repeat split; auto.
        * intros d h Hd'. gcase d c; [|eauto]. congruence.
      + destruct (b3 d key s row Hd Hsr) as (tau & L & M). exists tau. split; [apply last_select_keep; auto; cbn; congruence|].
        intros d' h Hd' Hk Hi. gcase d' c; [|eauto]. exfalso. destruct (Hh h Hd') as [Hp _]. destruct (g_pre a G c _ Hp) as (_ & X & _).
        apply (X d row); [now rewrite Hd|congruence].
    - intros d key s row Hd Hx. gcase d c; [|eauto]. specialize (He key s Hd). destruct s; tauto.
    - intros d h Hd. rewrite lease_snoc. cbn [e_who]. gcase d c.
      + rewrite Nat.eqb_refl. destruct (Hh h Hd) as (_ & ts & -> & E). exists (mkRow (h_id h) ts), ts. auto.
      + destruct (Nat.eqb_spec c d); [congruence|]. destruct (b5 d h Hd) as (row & ts & E1 & E2 & E3 & E4). exists row, ts. split; [|auto].
        apply (held_off a o q d h row E1 E2); auto. apply (Ho d h n Hd).
    - intros d h ts Hd Hd' row Hrow. gcase d c.
      + destruct Hr as [Hr|Hr]; [congruence|now destruct (Hr h)].
      + destruct (b5 d h Hd) as (row' & ts' & E1 & E2 & E3 & E4). pose proof (held_off a o q d h row' E1 E2 (Ho d h n Hd) Hd) as E. rewrite Hrow in E. injection E as ->. eauto.
  Qed.
  Lemma binv_step a a' : astep ttl runs a a' -> ginv a -> binv a -> a_in_time a -> prompt margin (a_hist a') -> binv a'.
  Proof.
    intros H G B T Pr.
    assert (E0 : forall key v, retried key v -> (forall k s row, v = VL k s -> srow s = Some row -> False) /\ (forall k s, v = VL k s -> s = T0) /\ (forall h, v <> VH h)).
    { intros key v [-> | ->]; (split; [|split]); try discriminate; intros k s; [intros row|]; intros [= <- <-]; cbn; congruence. }
    assert (RL : forall c key s, a_v a c = VL key s -> a_r a c = R0) by (intros; eapply b_vl; eauto).
    destruct H.
    - destruct B as [b1 b2 b3 b4 b5 b6]. constructor; cbn [a_exec a_local a_v a_r a_tab a_hist a_now a_next]; eauto.
      intros c key s row Hd Hs. specialize (b4 c key s row Hd Hs). lia.
    - destruct B as [b1 b2 b3 b4 b5 b6]. constructor; cbn [a_exec a_local a_v a_r a_tab a_hist a_now a_next].
      + intros d k s Hd. gcase d c; eauto.
      + intros d h h' Hd Hd'. gcase d c; [discriminate|eauto].
      + intros d k s row Hd Hs. gcase d c; [injection Hd as <- <-; discriminate|]. destruct (b3 d k s row Hd Hs) as (tau & L & M). exists tau. split; auto.
        intros d' h Hd'. gcase d' c; [discriminate|eauto].
      + intros d k s row Hd Hs. gcase d c; [injection Hd as <- <-; contradiction|eauto].
      + intros d h Hd. gcase d c; [discriminate|eauto].
      + intros d h ts Hd Hd'. gcase d c; [discriminate|eauto].
    - eapply (binv_local a c (VL key (T1 (a_next a))) (fset (a_v a) c (VL key (T1 (a_next a))))) in B; auto.
      + destruct B as [b1 b2 b3 b4 b5 b6]. constructor; auto.
      + discriminate.
      + intros k s [= <- <-]. exists T0. split; auto; discriminate.
      + intros k s row [= <- <-]. contradiction.
    - apply binv_exec; auto.
      + eauto.
      + eauto.
      + intros k s row Ev Hs. destruct (rep_of o (QSelect key) (a_tab a)) eqn:E; try (now destruct (proj1 (E0 key v H0) k s row Ev Hs)); subst v; injection Ev as <- <-; cbn in Hs; try discriminate.
        injection Hs as <-. split; auto. intros d h N Hd Hk Hi. destruct (b_held a B d h Hd) as (row & ts & E1 & E2 & E3 & E4). destruct (T d h Hd) as (ts' & E5 & E6).
        assert (row = r) as -> by (destruct o; cbn in E; try discriminate; subst key; rewrite E1 in E; congruence). assert (ts' = ts) as -> by congruence. lia.
      + intros k s Ev. destruct (rep_of o (QSelect key) (a_tab a)) eqn:E; try (now rewrite (proj1 (proj2 (E0 key v H0)) k s Ev)); subst v; now injection Ev as <- <-.
      + intros h Ev. exfalso. destruct (rep_of o (QSelect key) (a_tab a)) eqn:E; try (now apply (proj2 (proj2 (E0 key v H0)) h)); congruence.
    - eapply (binv_local a c (VL key (T3 id (a_now a)))); auto; [discriminate|intros k s [= <- <-]; eexists; split; [exact H|discriminate]|intros k s row [= <- <-]; contradiction].
    - apply binv_exec; auto.
      + eauto.
      + eauto.
      + intros k s row Ev Hs. exfalso. destruct (rep_of o (QInsert key id ts) (a_tab a)); try (exact (proj1 (E0 key v H0) k s row Ev Hs)). congruence.
      + intros k s Ev. destruct (rep_of o (QInsert key id ts) (a_tab a)); try (now rewrite (proj1 (proj2 (E0 key v H0)) k s Ev)). congruence.
      + intros h Ev. unfold confirmed_ts. cbn. destruct o; cbn in *; try (now destruct (proj2 (proj2 (E0 key v H0)) h)).
        destruct (a_tab a key) eqn:E; [now destruct (proj2 (proj2 (E0 key v H0)) h)|]. assert (h = mkH key id) as -> by congruence. rewrite H. split; auto. exists ts. cbn. rewrite tset_at. auto.
    - eapply (binv_local a c v); auto; [intros h Ev; now destruct (proj2 (proj2 (E0 key v H1)) h)|intros k s Ev|intros k s row' Ev; now rewrite (proj1 (proj2 (E0 key v H1)) k s Ev)].
      pose proof (proj1 (proj2 (E0 key v H1)) k s Ev). subst s. destruct H1 as [-> | ->]; [discriminate|]. injection Ev as <-. eexists. split; [exact H|discriminate].
    - eapply (binv_local a c (VL key (T5 id row))); auto; [discriminate|intros k s [= <- <-]; eexists; split; [exact H|auto]|].
      intros k s r [= <- <-] <-. auto.
    - eapply (binv_local a c (VL key (T6 id row (a_now a)))); auto; [discriminate|intros k s [= <- <-]; eexists; split; [exact H|auto]|].
      intros k s r [= <- <-] <-. apply (b_exp a B c key (T5 id row)); auto.
    - apply binv_exec; auto.
      + eauto.
      + eauto.
      + intros d h N Hd Hk Hi. destruct (b_read a B c key _ row H eq_refl) as (tau & L & M). specialize (M d h Hd (eq_sym Hk) (eq_sym Hi)).
        pose proof (b_exp a B c key _ row H eq_refl) as Hx. destruct (g_read a G c row) as [_ Hy]; [now rewrite H|].
        destruct L as (p & e & m & Ehist & L1 & L2 & L3 & L4). cbn [a_exec a_hist] in Pr.
        assert (a_now a <= e_time e + margin); [|lia].
        apply (Pr p m [] e (mkEv c (QUpdate key (lr_id row) id ts) (rep_of o (QUpdate key (lr_id row) id ts) (a_tab a)) (done_of o) (a_now a)) key); auto.
        * rewrite Ehist, <- app_assoc. reflexivity.
        * rewrite L1. exact L4.
        * cbn. eauto.
      + intros k s r Ev Hs. exfalso. destruct (rep_of o (QUpdate key (lr_id row) id ts) (a_tab a)) as [| | | |[|n]]; try (exact (proj1 (E0 key v H0) k s r Ev Hs)). congruence.
      + intros k s Ev. destruct (rep_of o (QUpdate key (lr_id row) id ts) (a_tab a)) as [| | | |[|n]]; try (now rewrite (proj1 (proj2 (E0 key v H0)) k s Ev)). congruence.
      + intros h Ev. unfold confirmed_ts. cbn. destruct o; cbn in *; try (now destruct (proj2 (proj2 (E0 key v H0)) h)).
        destruct (a_tab a key) as [r|] eqn:E; [|now destruct (proj2 (proj2 (E0 key v H0)) h)]. destruct (Nat.eqb (lr_id r) (lr_id row)); [|now destruct (proj2 (proj2 (E0 key v H0)) h)].
        assert (h = mkH key id) as -> by congruence. rewrite H. split; auto. exists ts. cbn. rewrite tset_at. auto.
    - eapply (binv_local a c (VU h)); auto; discriminate.
    - apply binv_exec; auto; try discriminate.
      + right. discriminate.
      + intros d h' N Hd _ E. apply N. apply (g_dist a G d c (h_id h)); [rewrite Hd; cbn; congruence|now rewrite H].
    - destruct B as [b1 b2 b3 b4 b5 b6]. constructor; cbn [a_exec a_local a_v a_r a_tab a_hist a_now a_next]; eauto.
      + intros d k s Hd. gcase d c; [congruence|eauto].
      + intros d h1 h' Hd Hd'. gcase d c; [|eauto]. cbn in Hd. congruence.
      + intros d h' ts Hd Hd'. gcase d c; [discriminate|eauto].
    - destruct B as [b1 b2 b3 b4 b5 b6]. constructor; cbn [a_exec a_local a_v a_r a_tab a_hist a_now a_next]; eauto.
      + intros d k s Hd. gcase d c; [|eauto]. specialize (b1 c k s Hd). congruence.
      + intros d h1 h' Hd Hd'. gcase d c; [|eauto]. apply (b2 c h1 h'); auto. rewrite H. exact Hd.
      + intros d h' ts Hd Hd' row Hrow. gcase d c; [|eauto]. injection Hd' as _ <-. apply (g_tab a G _ _ Hrow).
    - destruct B as [b1 b2 b3 b4 b5 b6].
      assert (RF : forall d h', d <> c -> a_v a d = VH h' -> h_id h <> h_id h').
      { intros d h' N Hd E. apply N. symmetry. apply (g_rdist a G c d h); [now rewrite H|rewrite Hd; cbn; congruence]. }
      constructor; cbn [a_exec a_local a_v a_r a_tab a_hist a_now a_next]; eauto.
      + intros d k s Hd. gcase d c; eauto.
      + intros d h1 h' Hd Hd'. gcase d c; [discriminate|eauto].
      + intros d k s row Hd Hs. destruct (b3 d k s row Hd Hs) as (tau & L & M). exists tau. split; auto. apply last_select_keep; auto. cbn. intros <-. specialize (b1 c k s Hd). congruence.
      + intros d h' Hd. rewrite lease_snoc. cbn [e_who]. destruct (b5 d h' Hd) as (row & ts' & E1 & E2 & E3 & E4). destruct (Nat.eqb_spec c d) as [<-|N].
        * assert (h' = h) as -> by (apply (b2 c h' h); auto; now rewrite H). specialize (b6 c h ts Hd H row E1). unfold confirmed_ts. cbn.
          destruct o; cbn; rewrite ?E1, ?E2, ?Nat.eqb_refl, ?tset_at; eauto 6.
          -- exists (mkRow (h_id h) ts), ts'. cbn. split; auto. split; auto. split; auto. lia.
        * exists row, ts'. split; [|auto]. apply (held_off a o _ d h' row E1 E2); auto. intros _. exact (RF d h' (fun e => N (eq_sym e)) Hd).
      + intros d h' ts' Hd Hd' row Hrow. gcase d c; [discriminate|]. destruct (b5 d h' Hd) as (row' & ts1 & E1 & E2 & E3 & E4).
        assert (E : eff_of o (QUpdate (h_key h) (h_id h) (h_id h) ts) (a_tab a) (h_key h') = Some row') by (apply (held_off a o _ d h' row' E1 E2); auto; intros _; eauto).
        rewrite Hrow in E. injection E as ->. eauto.
    - destruct B as [b1 b2 b3 b4 b5 b6]. constructor; cbn [a_exec a_local a_v a_r a_tab a_hist a_now a_next].
      + intros d k s Hd. gcase d c; eauto.
      + intros d h h' Hd Hd'. gcase d c; [discriminate|eauto].
      + intros d k s row Hd Hs. gcase d c; [discriminate|]. destruct (b3 d k s row Hd Hs) as (tau & L & M). exists tau. split; auto.
        intros d' h Hd'. gcase d' c; [discriminate|eauto].
      + intros d k s row Hd Hs. gcase d c; [discriminate|eauto].
      + intros d h Hd. gcase d c; [discriminate|eauto].
      + intros d h ts Hd Hd'. gcase d c; [discriminate|eauto].
  Qed.
  Lemma in_time_rel w a : rel ttl w a -> in_time ttl margin w -> a_in_time a.
  Proof.
    intros (Et & En & Ex & Eh & S & _) T c h Hc. rewrite <- Eh, <- En. apply (T c (h_key h)). exists h. split; auto.
    specialize (S c). rewrite Hc in S. now inversion S.
  Qed.
  Lemma reach_ren retry w0 w : initial w0 -> steps_in ttl retry runs (fun w => in_time ttl margin w /\ prompt margin (w_hist w)) w0 w ->
    exists a, rel ttl w a /\ ginv a /\ binv a.
  Proof.
    intros Hi Hs. induction Hs as [w [P1 P2]|w1 w2 w3 Hs IH Hst [P1 P2]].
    - destruct (ginv_initial ttl _ Hi) as (a & R & G & V & RR & Hh). exists a. split; auto. split; auto. constructor; intros c; rewrite ?V; intros; try discriminate; congruence.
    - destruct (IH Hi) as (a & R & G & F). destruct (simulates ttl retry runs _ _ a Hst R) as (a' & St & R'). exists a'. split; auto. split; [eapply ginv_step; eauto|].
      assert (P0 : in_time ttl margin w2) by (destruct Hs; tauto).
      eapply binv_step; eauto; [eapply in_time_rel; eauto|]. destruct R' as (_ & _ & _ & <- & _). exact P2.
  Qed.
  Lemma holders_agree retry w0 w c1 c2 k : initial w0 -> steps_in ttl retry runs (fun w => in_time ttl margin w /\ prompt margin (w_hist w)) w0 w ->
    holding w c1 k -> holding w c2 k -> c1 = c2.
  Proof.
    intros Hi Hs (h1 & P1 & K1) (h2 & P2 & K2). destruct (reach_ren retry w0 w Hi Hs) as (a & (Et & En & Ex & Eh & S & _) & G & F).
    pose proof (S c1) as S1. rewrite P1 in S1. inversion S1 as [| | | | |? X1 Y1|]. subst.
    pose proof (S c2) as S2. rewrite P2 in S2. inversion S2 as [| | | | |? X2 Y2|]. subst. symmetry in Y1, Y2.
    destruct (b_held a F c1 h1 Y1) as (u1 & ? & M1 & O1 & _). destruct (b_held a F c2 h2 Y2) as (u2 & ? & M2 & O2 & _).
    apply (g_dist a G c1 c2 (h_id h1)); [now rewrite Y1|rewrite Y2; cbn; congruence].
  Qed.
End Ren.

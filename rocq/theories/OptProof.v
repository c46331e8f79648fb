(** Proofs for run options. *)
From Verif Require Export OptSpec.

Lemma set_nth_length {A} n (x : A) l : length (set_nth n x l) = length l.
Proof. revert n; induction l; intros [|n]; cbn; auto. Qed.
Lemma set_nth_same {A} n (x : A) l : n < length l -> nth_error (set_nth n x l) n = Some x.
Proof. revert n; induction l; intros [|n] H; cbn in *; try lia; auto. apply IHl; lia. Qed.
Lemma set_nth_other {A} n m (x : A) l : n <> m -> nth_error (set_nth n x l) m = nth_error l m.
Proof. revert n m; induction l; intros [|n] [|m] H; cbn in *; auto; try lia. Qed.
Lemma array_set_same a x h : a < length h -> array (set_nth a x h) a = x.
Proof. intros H. unfold array. apply nth_error_nth. now apply set_nth_same. Qed.
Lemma array_set_other a b x h : a <> b -> array (set_nth a x h) b = array h b.
Proof.
  unfold array. revert a b; induction h; intros [|a'] [|b] H; cbn; auto; try lia.
Qed.
Lemma array_app_old h l a : a < length h -> array (h ++ l) a = array h a.
Proof. intros H. unfold array. now rewrite app_nth1. Qed.
Lemma array_app_new h l : array (h ++ [l]) (length h) = l.
Proof. unfold array. rewrite app_nth2, Nat.sub_diag; auto. Qed.
Lemma firstn_set_nth {A} n (x : A) l : n < length l -> firstn (S n) (set_nth n x l) = firstn n l ++ [x].
Proof. revert n; induction l; intros [|n] H; cbn in *; try lia; auto. f_equal. apply IHl; lia. Qed.
Lemma firstn_set_nth_le {A} k n (x : A) l : k <= n -> firstn k (set_nth n x l) = firstn k l.
Proof. revert k n; induction l; intros [|k] [|n] H; cbn in *; try lia; auto. f_equal. apply IHl; lia. Qed.

Section Proofs.
  Variable grow : nat -> nat.
  Hypothesis Hgrow : forall c, c < grow c.

  Definition slice_ok (h : list (list nat)) (s : slice) : Prop :=
    sl_arr s < length h /\ length (array h (sl_arr s)) = sl_cap s /\ sl_len s <= sl_cap s.

  Lemma append_spec h s x h' s' : append grow h s x = (h', s') -> slice_ok h s ->
    slice_ok h' s' /\ sl_len s' = S (sl_len s) /\ elems h' s' = elems h s ++ [x] /\ length h <= length h' /\
    ((sl_len s < sl_cap s /\ sl_arr s' = sl_arr s /\ sl_cap s' = sl_cap s /\ (forall a, a <> sl_arr s -> array h' a = array h a) /\
      (forall k, k <= sl_len s -> firstn k (array h' (sl_arr s)) = firstn k (array h (sl_arr s))) /\ length (array h' (sl_arr s)) = length (array h (sl_arr s)) /\ length h' = length h)
     \/ (sl_len s = sl_cap s /\ sl_arr s' = length h /\ sl_cap s' = grow (sl_cap s) /\ forall a, a < length h -> array h' a = array h a)).
  Proof.
    destruct s as [a n c]. unfold append, slice_ok, elems; cbn [sl_arr sl_len sl_cap]. intros E (Ha & Hl & Hn).
    destruct (n <? c) eqn:L.
    - apply Nat.ltb_lt in L. injection E as <- <-. cbn [sl_arr sl_len sl_cap]. rewrite !set_nth_length, !array_set_same, !set_nth_length by lia.
      rewrite firstn_set_nth by lia. repeat split; try lia; auto. left. repeat split; auto.
      + intros b Hb. apply array_set_other; auto.
      + intros k Hk. now apply firstn_set_nth_le.
    - apply Nat.ltb_ge in L. injection E as <- <-. cbn [sl_arr sl_len sl_cap]. rewrite app_length, array_app_new. cbn [length].
      assert (n = c) by lia. subst n. specialize (Hgrow c).
      assert (Lf : length (firstn c (array h a)) = c) by (rewrite firstn_length; lia).
      rewrite app_length. cbn [length]. rewrite repeat_length. repeat split; try lia.
      + rewrite firstn_app, Lf. rewrite firstn_all2 by lia. replace (S c - c) with 1 by lia. reflexivity.
      + right. repeat split; auto. intros b Hb. now apply array_app_old.
  Qed.

  (** the plain fields *)
  Lemma apply_vals_latest (os : list opt) : forall v, let v' := fold_left apply_val os v in
    v_tx v' = latest tx_of os (v_tx v) /\ v_rec v' = latest rec_of os (v_rec v) /\ v_dry v' = latest dry_of os (v_dry v) /\
    v_locker v' = latest locker_of os (v_locker v) /\ v_exec v' = latest exec_of os (v_exec v) /\ v_persist v' = latest persist_of os (v_persist v) /\
    v_log v' = latest log_of os (v_log v) /\ v_bus v' = latest bus_of os (v_bus v) /\ v_timer v' = latest timer_of os (v_timer v) /\ v_idgen v' = latest idgen_of os (v_idgen v).
  Proof.
    unfold latest. induction os as [|o os IH]; intros v; [cbn; tauto|]. specialize (IH (apply_val v o)). cbn in IH |- *. destruct v, o; exact IH.
  Qed.

  Lemma apply_opt_vals h p o h' p' : apply_opt grow h p o = (h', p') -> o_vals p' = apply_val (o_vals p) o.
  Proof.
    destruct o; cbn; intros E; try (injection E as <- <-; reflexivity).
    destruct (append grow h (o_hooks p) x) as [h1 s1]. injection E as <- <-. cbn. destruct (o_vals p); reflexivity.
  Qed.

  (** making an engine: only new arrays are touched *)
  Lemma apply_opts_new os : forall h0 h p h' p', apply_opts grow h p os = (h', p') -> slice_ok h (o_hooks p) -> h0 <= sl_arr (o_hooks p) ->
    sl_cap (o_hooks p) = cap_after grow (sl_len (o_hooks p)) ->
    slice_ok h' (o_hooks p') /\ length h <= length h' /\ h0 <= sl_arr (o_hooks p') /\ (forall a, a < h0 -> array h' a = array h a) /\
    sl_len (o_hooks p') = sl_len (o_hooks p) + length (hooks_in os) /\ elems h' (o_hooks p') = elems h (o_hooks p) ++ hooks_in os /\
    o_vals p' = fold_left apply_val os (o_vals p) /\ sl_cap (o_hooks p') = cap_after grow (sl_len (o_hooks p')).
  Proof.
    induction os as [|o os IH]; intros h0 h p h' p' E Hok H0 Hc.
    { cbn in E. injection E as <- <-. cbn. rewrite app_nil_r. repeat split; auto; try apply Hok; lia. }
    cbn in E. destruct (apply_opt grow h p o) as [h1 p1] eqn:E1.
    assert (Hv := apply_opt_vals _ _ _ _ _ E1).
    assert (Q : slice_ok h1 (o_hooks p1) /\ h0 <= sl_arr (o_hooks p1) /\ length h <= length h1 /\ (forall a, a < h0 -> array h1 a = array h a) /\
      sl_len (o_hooks p1) = sl_len (o_hooks p) + length (hooks_in [o]) /\ elems h1 (o_hooks p1) = elems h (o_hooks p) ++ hooks_in [o] /\ sl_cap (o_hooks p1) = cap_after grow (sl_len (o_hooks p1))).
    { destruct o; cbn in E1; try (injection E1 as <- <-; cbn; rewrite app_nil_r; repeat split; try apply Hok; auto; lia).
      destruct (append grow h (o_hooks p) x) as [h2 s2] eqn:E2. injection E1 as <- <-. cbn [o_hooks]. cbn [hooks_in flat_map app length].
      destruct (append_spec _ _ _ _ _ E2 Hok) as (A & B & C & D & F). repeat split; try apply A; auto; try lia.
      - destruct F as [F|F]; [lia|]. destruct Hok. lia.
      - intros a Ha. destruct F as [(_ & _ & _ & F & _)|(_ & _ & _ & F)]; apply F; destruct Hok; lia.
      - rewrite B. cbn [cap_after]. rewrite <- Hc. destruct F as [(F1 & _ & F2 & _)|(F1 & _ & F2 & _)]; rewrite F2.
        + apply Nat.ltb_lt in F1. now rewrite F1.
        + assert (X : sl_len (o_hooks p) <? sl_cap (o_hooks p) = false) by (apply Nat.ltb_ge; lia). now rewrite X. }
    destruct Q as (Q1 & Q2 & Q3 & Q4 & Q5 & Q6 & Q7).
    destruct (IH h0 _ _ _ _ E Q1 Q2 Q7) as (R1 & R2 & R3 & R4 & R5 & R6 & R7 & R8).
    replace (hooks_in (o :: os)) with (hooks_in [o] ++ hooks_in os) by (unfold hooks_in; cbn; now rewrite app_nil_r).
    rewrite app_length, app_assoc, <- Q6. cbn [fold_left]. rewrite <- Hv. split; [exact R1|]. split; [lia|]. split; [exact R3|]. split; [|split; [lia|split; [exact R6|split; [exact R7|exact R8]]]].
    intros a Ha. rewrite R4; auto.
  Qed.

  Definition engine_arr (w : world) (a : nat) : Prop := exists i en, nth_error (w_engines w) i = Some en /\ sl_arr (o_hooks (en_opts en)) = a.

  Definition full (h : list ev) (s : nat) : Prop := forall e l x os, nth_error (stages_made h) s = Some e -> nth_error (engines_made h) e = Some (l, x, os) ->
    cap_after grow (length (hooks_in os)) = length (hooks_in os).

  (** the invariant for stage [s] of engine [e], whose options are [os] *)
  Definition stage_ok (h : list ev) (w : world) (s : nat) (st : stage) (e : nat) (en : engine) (l x : nat) (os : list opt) : Prop :=
    st_engine st = e /\ slice_ok (w_heap w) (o_hooks (st_opts st)) /\
    o_vals (st_opts st) = fold_left apply_val (os ++ given s h) (default_vals l x) /\
    sl_len (o_hooks (st_opts st)) = length (hooks_in (os ++ given s h)) /\
    ((sl_arr (o_hooks (st_opts st)) = sl_arr (o_hooks (en_opts en)) /\ sl_cap (o_hooks (st_opts st)) = sl_cap (o_hooks (en_opts en)))
     \/ (~ engine_arr w (sl_arr (o_hooks (st_opts st))) /\ (forall s' st', s' <> s -> nth_error (w_stages w) s' = Some st' -> sl_arr (o_hooks (st_opts st')) <> sl_arr (o_hooks (st_opts st))))) /\
    (undisturbed s h \/ full h s -> elems (w_heap w) (o_hooks (st_opts st)) = hooks_in (os ++ given s h)) /\
    (settled s h -> st_parts st = parts_of (o_vals (st_opts st))) /\
    (In (p_bus (st_parts st)) (w_bus_regs w) /\ In (p_timer (st_parts st)) (w_timer_regs w)).

  Definition engine_ok (w : world) (en : engine) (l x : nat) (os : list opt) : Prop :=
    slice_ok (w_heap w) (o_hooks (en_opts en)) /\ o_vals (en_opts en) = fold_left apply_val os (default_vals l x) /\ en_parts en = parts_of (o_vals (en_opts en)) /\
    sl_len (o_hooks (en_opts en)) = length (hooks_in os) /\ elems (w_heap w) (o_hooks (en_opts en)) = hooks_in os /\
    sl_cap (o_hooks (en_opts en)) = cap_after grow (length (hooks_in os)) /\
    In (p_bus (en_parts en)) (w_bus_regs w) /\ In (p_timer (en_parts en)) (w_timer_regs w).

  Record inv (h : list ev) (w : world) : Prop := {
    i_el : length (w_engines w) = length (engines_made h);
    i_sl : length (w_stages w) = length (stages_made h);
    i_e : forall e en l x os, nth_error (w_engines w) e = Some en -> nth_error (engines_made h) e = Some (l, x, os) -> engine_ok w en l x os;
    i_d : forall e1 e2 en1 en2, e1 <> e2 -> nth_error (w_engines w) e1 = Some en1 -> nth_error (w_engines w) e2 = Some en2 -> sl_arr (o_hooks (en_opts en1)) <> sl_arr (o_hooks (en_opts en2));
    i_se : forall s e, nth_error (stages_made h) s = Some e -> e < length (engines_made h);
    i_s : forall s st e en l x os, nth_error (w_stages w) s = Some st -> nth_error (stages_made h) s = Some e -> nth_error (w_engines w) e = Some en ->
            nth_error (engines_made h) e = Some (l, x, os) -> stage_ok h w s st e en l x os;
    i_g : forall s, length (stages_made h) <= s -> given s h = [] }.

  Lemma engines_made_app h h' : engines_made (h ++ h') = engines_made h ++ engines_made h'.
  Proof. apply flat_map_app. Qed.
  Lemma stages_made_app h h' : stages_made (h ++ h') = stages_made h ++ stages_made h'.
  Proof. apply flat_map_app. Qed.
  Lemma given_app s h h' : given s (h ++ h') = given s h ++ given s h'.
  Proof. apply flat_map_app. Qed.
  Lemma hooks_in_app a b : hooks_in (a ++ b) = hooks_in a ++ hooks_in b.
  Proof. apply flat_map_app. Qed.

  Lemma wf_app h x : wf (h ++ [x]) -> wf h.
  Proof. intros H h1 y h2 E. apply (H h1 y (h2 ++ [x])). rewrite E, <- app_assoc. reflexivity. Qed.

  Lemma give_in h s o : wf h -> In (Give s o) h -> s < length (stages_made h).
  Proof. intros W I. apply in_split in I. destruct I as (h1 & h2 & ->). specialize (W h1 _ h2 eq_refl). cbn in W. rewrite stages_made_app, app_length. lia. Qed.
  Lemma undisturbed_app s h x : wf h -> undisturbed s (h ++ [x]) -> undisturbed s h.
  Proof.
    intros W H h1 y h2 s' z E I N. apply (H h1 y (h2 ++ [x]) s' z).
    - rewrite E, <- app_assoc. reflexivity.
    - apply in_or_app. now left.
    - assert (A1 : s < length (stages_made h)). { eapply give_in; eauto. rewrite E. apply in_or_app. right. now left. }
      assert (A2 : s' < length (stages_made h)). { eapply give_in; eauto. rewrite E. apply in_or_app. right. right. exact I. }
      rewrite stages_made_app, !nth_error_app1; auto.
  Qed.
  (** a stage that was given a hook is disturbed by the next hook given to a sibling *)
  Lemma disturbed s h s' y : wf h -> undisturbed s (h ++ [Give s' (OHook y)]) -> s' <> s -> nth_error (stages_made h) s' = nth_error (stages_made h) s -> hooks_in (given s h) = [].
  Proof.
    intros W U N E. destruct (hooks_in (given s h)) as [|x l] eqn:Eh; auto. exfalso.
    assert (I : In (Give s (OHook x)) h).
    { assert (X : In x (hooks_in (given s h))) by (rewrite Eh; now left). unfold hooks_in in X. apply in_flat_map in X. destruct X as (o & X & Y).
      destruct o; cbn in Y; try contradiction. destruct Y as [->|[]]. unfold given in X. apply in_flat_map in X. destruct X as (v & X & Y).
      destruct v; try contradiction. destruct (s0 =? s) eqn:Es; [|destruct Y]. apply Nat.eqb_eq in Es. subst s0. destruct Y as [->|[]]. exact X. }
    apply in_split in I. destruct I as (h1 & h2 & E'). apply N. apply (U h1 x (h2 ++ [Give s' (OHook y)]) s' y).
    - rewrite E', <- app_assoc. reflexivity.
    - apply in_or_app. right. now left.
    - rewrite stages_made_app. cbn. rewrite app_nil_r. exact E.
  Qed.
  Lemma settled_app s h x : settled s (h ++ [x]) -> x <> Settle s -> settled s h.
  Proof.
    intros H N h1 o h2 E. specialize (H h1 o (h2 ++ [x])). rewrite E, <- app_assoc in H. specialize (H eq_refl). apply in_app_iff in H. destruct H as [H|[H|[]]]; auto. congruence.
  Qed.
  Lemma full_app h s x : s < length (stages_made h) -> (forall e, nth_error (stages_made h) s = Some e -> e < length (engines_made h)) -> full (h ++ [x]) s -> full h s.
  Proof.
    intros Hs He H e l y os E1 E2. apply (H e l y os).
    - rewrite stages_made_app, nth_error_app1; auto.
    - rewrite engines_made_app, nth_error_app1; auto.
  Qed.
  (** arrays of other slices survive an append *)
  Lemma elems_same h h' s : array h' (sl_arr s) = array h (sl_arr s) -> elems h' s = elems h s.
  Proof. unfold elems. now intros ->. Qed.
End Proofs.

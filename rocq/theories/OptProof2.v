(** The invariant of run options, event by event. *)
From Verif Require Export OptProof.

Section Proofs.
  Variable grow : nat -> nat.
  Hypothesis Hgrow : forall c, c < grow c.
  Notation inv := (inv grow). Notation stage_ok := (stage_ok grow). Notation engine_ok := (engine_ok grow). Notation full := (full grow).

  Definition shared_or_private (w : world) (s : nat) (sl esl : slice) : Prop :=
    (sl_arr sl = sl_arr esl /\ sl_cap sl = sl_cap esl) \/
    (~ engine_arr w (sl_arr sl) /\ (forall s' st', s' <> s -> nth_error (w_stages w) s' = Some st' -> sl_arr (o_hooks (st_opts st')) <> sl_arr sl)).

  Lemma stage_frame h w w' s st e en l x os v :
    wf h -> nth_error (stages_made h) s = Some e -> e < length (engines_made h) -> stage_ok h w s st e en l x os ->
    given s [v] = [] -> v <> Settle s -> slice_ok (w_heap w') (o_hooks (st_opts st)) ->
    shared_or_private w' s (o_hooks (st_opts st)) (o_hooks (en_opts en)) ->
    (undisturbed s (h ++ [v]) \/ full (h ++ [v]) s -> elems (w_heap w') (o_hooks (st_opts st)) = elems (w_heap w) (o_hooks (st_opts st))) ->
    incl (w_bus_regs w) (w_bus_regs w') -> incl (w_timer_regs w) (w_timer_regs w') ->
    stage_ok (h ++ [v]) w' s st e en l x os.
  Proof.
    intros W Hs He (A1 & A2 & A3 & A4 & A5 & A6 & A7 & A8 & A9) G Ns Ok Sp El I1 I2.
    assert (Hs' : s < length (stages_made h)) by (apply nth_error_Some; congruence).
    unfold OptProof.stage_ok. rewrite given_app, G, app_nil_r. do 4 (split; [assumption|]). split; [exact Sp|]. split; [|split].
    - intros U. rewrite El by exact U. apply A6. destruct U as [U|U]; [left; eapply undisturbed_app; eauto|right; eapply full_app; eauto].
      intros e0 E0. rewrite Hs in E0. now injection E0 as <-.
    - intros S. apply A7. eapply settled_app; eauto.
    - split; [apply I1, A8|apply I2, A9].
  Qed.
  Lemma engine_frame w w' en l x os : engine_ok w en l x os -> slice_ok (w_heap w') (o_hooks (en_opts en)) -> elems (w_heap w') (o_hooks (en_opts en)) = elems (w_heap w) (o_hooks (en_opts en)) ->
    incl (w_bus_regs w) (w_bus_regs w') -> incl (w_timer_regs w) (w_timer_regs w') -> engine_ok w' en l x os.
  Proof. intros (A1 & A2 & A3 & A4 & A5 & A6 & A7 & A8) Ok El I1 I2. unfold OptProof.engine_ok. rewrite El. repeat split; auto; try apply Ok; try apply I1; try apply I2; auto. Qed.

  Lemma slice_ok_same h h' sl : slice_ok h sl -> length h <= length h' -> array h' (sl_arr sl) = array h (sl_arr sl) -> slice_ok h' sl.
  Proof. intros (A & B & C) L E. unfold slice_ok. rewrite E. repeat split; auto; lia. Qed.

  (** both lists have the entry or neither *)
  Lemma both {A B} (l1 : list A) (l2 : list B) n x : length l1 = length l2 -> nth_error l1 n = Some x -> exists y, nth_error l2 n = Some y.
  Proof. intros E H. assert (n < length l1) by (apply nth_error_Some; congruence). destruct (nth_error l2 n) eqn:E2; eauto. apply nth_error_None in E2. lia. Qed.
  Lemma snoc_cases {A} (l : list A) x n y : nth_error (l ++ [x]) n = Some y -> (n < length l /\ nth_error l n = Some y) \/ (n = length l /\ y = x).
  Proof.
    intros H. destruct (Nat.lt_ge_cases n (length l)) as [L|L]; [left|right].
    - rewrite nth_error_app1 in H; auto.
    - rewrite nth_error_app2 in H by lia. destruct (n - length l) as [|k] eqn:E; cbn in H; [injection H as <-; split; auto; lia|destruct k; discriminate].
  Qed.

  (** facts about slices in use *)
  Lemma inv_engine h w e en : inv h w -> nth_error (w_engines w) e = Some en -> exists l x os, nth_error (engines_made h) e = Some (l, x, os) /\ engine_ok w en l x os.
  Proof. intros I H. destruct (both _ _ _ _ (i_el _ _ _ I) H) as ([[l x] os] & E). exists l, x, os. split; auto. eapply i_e; eauto. Qed.
  Lemma inv_stage h w s st : inv h w -> nth_error (w_stages w) s = Some st -> exists e en l x os, nth_error (stages_made h) s = Some e /\ nth_error (w_engines w) e = Some en /\
    nth_error (engines_made h) e = Some (l, x, os) /\ stage_ok h w s st e en l x os /\ e < length (engines_made h).
  Proof.
    intros I H. destruct (both _ _ _ _ (i_sl _ _ _ I) H) as (e & E). assert (He := i_se _ _ _ I _ _ E). rewrite <- (i_el _ _ _ I) in He.
    destruct (nth_error (w_engines w) e) as [en|] eqn:En; [|apply nth_error_None in En; lia].
    destruct (inv_engine _ _ _ _ I En) as (l & x & os & E1 & _). exists e, en, l, x, os. do 3 (split; auto). split; [eapply i_s; eauto|]. rewrite <- (i_el _ _ _ I). auto.
  Qed.

  Lemma step_engine h w l e os : wf h -> inv h w -> inv (h ++ [MkEngine l e os]) (step grow w (MkEngine l e os)).
  Proof.
    intros W I. cbn [step]. set (p0 := {| o_vals := _; o_hooks := _ |}).
    destruct (apply_opts grow (w_heap w ++ [[]]) p0 os) as [h' p'] eqn:E.
    assert (Ok0 : slice_ok (w_heap w ++ [[]]) (o_hooks p0)).
    { unfold slice_ok; cbn. rewrite array_app_new, app_length. cbn. lia. }
    destruct (apply_opts_new grow Hgrow os (length (w_heap w)) _ _ _ _ E Ok0) as (R1 & R2 & R3 & R4 & R5 & R6 & R7 & R8); [cbn; lia|reflexivity|].
    rewrite app_length in R2. cbn in R2.
    set (w' := {| w_heap := h'; w_engines := _; w_stages := _; w_bus_regs := _; w_timer_regs := _ |}).
    assert (Old : forall a, a < length (w_heap w) -> array h' a = array (w_heap w) a).
    { intros a Ha. rewrite R4 by auto. now apply array_app_old. }
    assert (Em : engines_made (h ++ [MkEngine l e os]) = engines_made h ++ [(l, e, os)]) by apply engines_made_app.
    assert (Sm : stages_made (h ++ [MkEngine l e os]) = stages_made h) by (rewrite stages_made_app; apply app_nil_r).
    assert (Eold : forall e0 en, nth_error (w_engines w) e0 = Some en -> sl_arr (o_hooks (en_opts en)) < length (w_heap w)).
    { intros e0 en He. destruct (inv_engine _ _ _ _ I He) as (? & ? & ? & _ & (A & _) & _). exact A. }
    constructor; rewrite ?Em, ?Sm.
    - cbn. rewrite !app_length. cbn. now rewrite (i_el _ _ _ I).
    - cbn. apply (i_sl _ _ _ I).
    - intros e0 en l0 x0 os0 H1 H2. cbn in H1. apply snoc_cases in H1. destruct H1 as [[L H1]|[L ->]].
      + rewrite nth_error_app1 in H2 by (rewrite <- (i_el _ _ _ I); auto). assert (Q := i_e _ _ _ I _ _ _ _ _ H1 H2).
        assert (Ha := Eold _ _ H1). eapply engine_frame; [exact Q| | | |]; cbn.
        * apply (slice_ok_same (w_heap w)); [apply Q|lia|auto].
        * apply elems_same. auto.
        * intros z Hz. now right.
        * intros z Hz. now right.
      + subst e0. rewrite (i_el _ _ _ I), nth_error_app2, Nat.sub_diag in H2 by lia. cbn in H2. injection H2 as <- <- <-.
        unfold OptProof.engine_ok. cbn. cbn in R5, R6. rewrite R6. cbn. rewrite <- R5. repeat split; auto; try apply R1.
    - intros e1 e2 en1 en2 N H1 H2. cbn in H1, H2. apply snoc_cases in H1, H2. destruct H1 as [[L1 H1]|[L1 ->]], H2 as [[L2 H2]|[L2 ->]].
      + eapply (i_d _ _ _ I); [exact N|eauto|eauto].
      + cbn. assert (X := Eold _ _ H1). lia.
      + cbn. assert (X := Eold _ _ H2). lia.
      + lia.
    - intros s e0 Hs. rewrite app_length. assert (X := i_se _ _ _ I _ _ Hs). lia.
    - intros s st e0 en l0 x0 os0 H1 H2 H3 H4. cbn in H1, H3. assert (He := i_se _ _ _ I _ _ H2).
      rewrite nth_error_app1 in H3 by (rewrite (i_el _ _ _ I); auto). rewrite nth_error_app1 in H4 by auto.
      assert (Q := i_s _ _ _ I _ _ _ _ _ _ _ H1 H2 H3 H4). assert (Q' := Q). destruct Q' as (_ & Ok & _ & _ & Sp & _).
      assert (Ha : array h' (sl_arr (o_hooks (st_opts st))) = array (w_heap w) (sl_arr (o_hooks (st_opts st)))) by (apply Old, Ok).
      eapply stage_frame; eauto.
      + discriminate.
      + apply (slice_ok_same (w_heap w)); auto. cbn. lia.
      + destruct Sp as [Sp|[P1 P2]]; [left; exact Sp|right]. split; [|exact P2].
        intros (i & en' & Hi & Ea). cbn in Hi. apply snoc_cases in Hi. destruct Hi as [[L Hi]|[L ->]]; [apply P1; exists i, en'; auto|]. cbn in Ea. destruct Ok. lia.
      + intros _. now apply elems_same.
      + intros z Hz. now right.
      + intros z Hz. now right.
    - intros s Hs. rewrite given_app. cbn. rewrite app_nil_r. apply (i_g _ _ _ I). exact Hs.
  Qed.

  Lemma step_stage h w e : wf (h ++ [MkStage e]) -> inv h w -> inv (h ++ [MkStage e]) (step grow w (MkStage e)).
  Proof.
    intros W I. assert (He := W h _ [] eq_refl). cbn in He. assert (W' := wf_app _ _ W). cbn [step].
    rewrite <- (i_el _ _ _ I) in He. destruct (nth_error (w_engines w) e) as [en0|] eqn:En; [|apply nth_error_None in En; lia].
    destruct (inv_engine _ _ _ _ I En) as (l0 & x0 & os0 & E0 & Q0).
    set (w' := {| w_heap := _; w_engines := _; w_stages := _; w_bus_regs := _; w_timer_regs := _ |}).
    assert (Em : engines_made (h ++ [MkStage e]) = engines_made h) by (rewrite engines_made_app; apply app_nil_r).
    assert (Sm : stages_made (h ++ [MkStage e]) = stages_made h ++ [e]) by apply stages_made_app.
    constructor; rewrite ?Em, ?Sm.
    - cbn. apply (i_el _ _ _ I).
    - cbn. rewrite !app_length. cbn. now rewrite (i_sl _ _ _ I).
    - intros e1 en l x os H1 H2. exact (i_e _ _ _ I _ _ _ _ _ H1 H2).
    - exact (i_d _ _ _ I).
    - intros s e1 Hs. apply snoc_cases in Hs. destruct Hs as [[_ Hs]|[_ ->]]; [eapply i_se; eauto|]. rewrite <- (i_el _ _ _ I). exact He.
    - intros s st e1 en l x os H1 H2 H3 H4. cbn in H1, H3. apply snoc_cases in H1. destruct H1 as [[L H1]|[L ->]].
      + rewrite nth_error_app1 in H2 by (rewrite <- (i_sl _ _ _ I); auto).
        assert (Q := i_s _ _ _ I _ _ _ _ _ _ _ H1 H2 H3 H4). assert (Q' := Q). destruct Q' as (_ & Ok & _ & _ & Sp & _).
        eapply stage_frame; eauto; try (intros z Hz; exact Hz); try discriminate.
        * eapply i_se; eauto.
        * destruct Sp as [Sp|[P1 P2]]; [left; exact Sp|right]. split; [exact P1|].
          intros s' st' N Hs'. cbn in Hs'. apply snoc_cases in Hs'. destruct Hs' as [[_ Hs']|[_ ->]]; [eapply P2; eauto|]. cbn. intros Ea. apply P1. exists e, en0. auto.
      + subst s. rewrite (i_sl _ _ _ I) in *. rewrite nth_error_app2, Nat.sub_diag in H2 by lia. cbn in H2. injection H2 as <-.
        rewrite En in H3. injection H3 as <-. rewrite E0 in H4. injection H4 as <- <- <-.
        unfold OptProof.stage_ok. cbn. rewrite given_app. rewrite (i_g _ _ _ I) by lia. cbn. rewrite !app_nil_r.
        destruct Q0 as (A1 & A2 & A3 & A4 & A5 & A6 & A7 & A8). repeat split; auto; try apply A1.
    - intros s Hs. rewrite app_length in Hs. cbn in Hs. rewrite given_app. cbn. rewrite app_nil_r. apply (i_g _ _ _ I). lia.
  Qed.

  Lemma nth_set_cases {A} n (x : A) l m y : nth_error (set_nth n x l) m = Some y -> (m = n /\ y = x /\ n < length l) \/ (m <> n /\ nth_error l m = Some y).
  Proof.
    intros H. destruct (Nat.eq_dec m n) as [->|N]; [left|right].
    - assert (L : n < length (set_nth n x l)) by (apply nth_error_Some; congruence). rewrite set_nth_length in L. rewrite set_nth_same in H by auto. injection H as <-. auto.
    - rewrite set_nth_other in H; auto.
  Qed.

  Lemma step_settle h w s0 : wf (h ++ [Settle s0]) -> inv h w -> inv (h ++ [Settle s0]) (step grow w (Settle s0)).
  Proof.
    intros W I. assert (Hs0 := W h _ [] eq_refl). cbn in Hs0. assert (W' := wf_app _ _ W). cbn [step].
    rewrite <- (i_sl _ _ _ I) in Hs0. destruct (nth_error (w_stages w) s0) as [st0|] eqn:Es; [|apply nth_error_None in Es; lia].
    set (w' := {| w_heap := _; w_engines := _; w_stages := _; w_bus_regs := _; w_timer_regs := _ |}).
    assert (Em : engines_made (h ++ [Settle s0]) = engines_made h) by (rewrite engines_made_app; apply app_nil_r).
    assert (Sm : stages_made (h ++ [Settle s0]) = stages_made h) by (rewrite stages_made_app; apply app_nil_r).
    assert (Gv : forall s, given s (h ++ [Settle s0]) = given s h) by (intros s; rewrite given_app; apply app_nil_r).
    constructor; rewrite ?Em, ?Sm.
    - apply (i_el _ _ _ I).
    - cbn. rewrite set_nth_length. apply (i_sl _ _ _ I).
    - intros e1 en l x os H1 H2. assert (Q := i_e _ _ _ I _ _ _ _ _ H1 H2). eapply engine_frame; eauto; try apply Q; intros z Hz; now right.
    - exact (i_d _ _ _ I).
    - exact (i_se _ _ _ I).
    - intros s st e1 en l x os H1 H2 H3 H4. cbn in H1, H3. assert (Hse := i_se _ _ _ I _ _ H2). apply nth_set_cases in H1. destruct H1 as [(-> & -> & L)|[N H1]].
      + assert (Q := i_s _ _ _ I _ _ _ _ _ _ _ Es H2 H3 H4). destruct Q as (A1 & A2 & A3 & A4 & A5 & A6 & A7 & A8 & A9).
        unfold OptProof.stage_ok. cbn. rewrite Gv. do 4 (split; [assumption|]). split; [|split; [|split; [reflexivity|split; now left]]].
        * destruct A5 as [A5|[P1 P2]]; [left; exact A5|right]. split; [exact P1|]. intros s' st' N Hs'. apply nth_set_cases in Hs'. destruct Hs' as [(-> & _)|[_ Hs']]; [congruence|eauto].
        * intros U. apply A6. destruct U as [U|U]; [left; eapply undisturbed_app; eauto|right; eapply full_app; eauto].
          -- rewrite <- (i_sl _ _ _ I). auto.
          -- intros e0 E0. eapply i_se; eauto.
      + assert (Q := i_s _ _ _ I _ _ _ _ _ _ _ H1 H2 H3 H4). assert (Q' := Q). destruct Q' as (_ & Ok & _ & _ & Sp & _).
        eapply stage_frame; eauto; try (intros z Hz; now right); try (intros E; injection E; congruence).
        destruct Sp as [Sp|[P1 P2]]; [left; exact Sp|right]. split; [exact P1|].
        intros s' st' N' Hs'. apply nth_set_cases in Hs'. destruct Hs' as [(-> & -> & _)|[_ Hs']]; [cbn; eapply P2; eauto|eauto].
    - intros s Hs. rewrite Gv. now apply (i_g _ _ _ I).
  Qed.

  Lemma append_frame h sl x h' sl' : append grow h sl x = (h', sl') -> slice_ok h sl ->
    (forall s, slice_ok h s -> slice_ok h' s) /\
    (forall s, slice_ok h s -> sl_arr s <> sl_arr sl \/ sl_len s <= sl_len sl \/ sl_len sl = sl_cap sl -> elems h' s = elems h s).
  Proof.
    intros E Ok. destruct (append_spec grow Hgrow _ _ _ _ _ E Ok) as (A & B & C & D & F). split.
    - intros s (S1 & S2 & S3). destruct F as [(_ & _ & _ & F1 & F2 & F3 & F4)|(_ & _ & _ & F1)].
      + unfold slice_ok. destruct (Nat.eq_dec (sl_arr s) (sl_arr sl)) as [Ea|Na]; [rewrite Ea in *; rewrite F3|rewrite F1 by auto]; repeat split; auto; lia.
      + apply (slice_ok_same h); [repeat split; auto|lia|auto].
    - intros s (S1 & S2 & S3) K. destruct F as [(F0 & _ & _ & F1 & F2 & F3 & F4)|(_ & _ & _ & F1)].
      + unfold elems. destruct (Nat.eq_dec (sl_arr s) (sl_arr sl)) as [Ea|Na]; [rewrite Ea in *; apply F2; destruct K as [K|[K|K]]; [congruence|exact K|lia]|rewrite F1 by auto; reflexivity].
      + apply elems_same. auto.
  Qed.

  Lemma step_give h w s0 o : wf (h ++ [Give s0 o]) -> inv h w -> inv (h ++ [Give s0 o]) (step grow w (Give s0 o)).
  Proof.
    intros W I. assert (Hs0 := W h _ [] eq_refl). cbn in Hs0. assert (W' := wf_app _ _ W). cbn [step].
    rewrite <- (i_sl _ _ _ I) in Hs0. destruct (nth_error (w_stages w) s0) as [st0|] eqn:Es; [|apply nth_error_None in Es; lia].
    destruct (inv_stage _ _ _ _ I Es) as (e0 & en0 & l0 & x0 & os0 & E1 & E2 & E3 & Q0 & He0).
    destruct (apply_opt grow (w_heap w) (st_opts st0) o) as [h' p'] eqn:Ea.
    assert (Hv := apply_opt_vals grow _ _ _ _ _ Ea).
    set (w' := {| w_heap := _; w_engines := _; w_stages := _; w_bus_regs := _; w_timer_regs := _ |}).
    assert (Em : engines_made (h ++ [Give s0 o]) = engines_made h) by (rewrite engines_made_app; apply app_nil_r).
    assert (Sm : stages_made (h ++ [Give s0 o]) = stages_made h) by (rewrite stages_made_app; apply app_nil_r).
    assert (Gv : forall s, s <> s0 -> given s [Give s0 o] = []) by (intros s N; cbn; rewrite (proj2 (Nat.eqb_neq s0 s)); auto).
    assert (Gv0 : given s0 (h ++ [Give s0 o]) = given s0 h ++ [o]) by (rewrite given_app; cbn; now rewrite Nat.eqb_refl).
    destruct (inv_engine _ _ _ _ I E2) as (l1 & x1 & os1 & E4 & Qe0). rewrite E3 in E4. injection E4 as <- <- <-.
    assert (Q0' := Q0). destruct Q0' as (B1 & B2 & B3 & B4 & B5 & B6 & B7 & B8 & B9).
    (* what the step does to slices in use *)
    assert (F : (forall s, slice_ok (w_heap w) s -> slice_ok h' s) /\
      slice_ok h' (o_hooks p') /\ sl_len (o_hooks p') = sl_len (o_hooks (st_opts st0)) + length (hooks_in [o]) /\ elems h' (o_hooks p') = elems (w_heap w) (o_hooks (st_opts st0)) ++ hooks_in [o] /\
      (forall s, slice_ok (w_heap w) s -> hooks_in [o] = [] \/ sl_arr s <> sl_arr (o_hooks (st_opts st0)) \/ sl_len s <= sl_len (o_hooks (st_opts st0)) \/ sl_len (o_hooks (st_opts st0)) = sl_cap (o_hooks (st_opts st0)) -> elems h' s = elems (w_heap w) s) /\
      ((sl_arr (o_hooks p') = sl_arr (o_hooks (st_opts st0)) /\ sl_cap (o_hooks p') = sl_cap (o_hooks (st_opts st0))) \/ length (w_heap w) <= sl_arr (o_hooks p'))).
    { destruct o as [b|b|b|z|z|z|z|z|z|z|hk]; cbn in Ea; try (injection Ea as <- <-; cbn; rewrite ?app_nil_r, ?Nat.add_0_r; split; [auto|]; split; [exact B2|]; split; [reflexivity|]; split; [reflexivity|]; split; [reflexivity|left; auto]; fail).
      destruct (append grow (w_heap w) (o_hooks (st_opts st0)) hk) as [h1 s1] eqn:E. injection Ea as <- <-. cbn [o_hooks hooks_in flat_map app length].
      destruct (append_frame _ _ _ _ _ E B2) as [F1 F2]. destruct (append_spec grow Hgrow _ _ _ _ _ E B2) as (A & B & C & D & G).
      split; [exact F1|]. split; [exact A|]. split; [lia|]. split; [exact C|]. split.
      - intros s Ok [K|K]; [discriminate|]. apply F2; auto.
      - destruct G as [(_ & G1 & G2 & _)|(_ & G1 & _)]; [left; auto|right; lia]. }
    destruct F as (F1 & F2 & F3 & F4 & F5 & F6).
    assert (Len0 : length (hooks_in os0) <= sl_len (o_hooks (st_opts st0))) by (rewrite B4, hooks_in_app, app_length; lia).
    assert (SpOther : forall s st e en, nth_error (w_stages w) s = Some st -> s <> s0 -> shared_or_private w s (o_hooks (st_opts st)) (o_hooks (en_opts en)) -> slice_ok (w_heap w) (o_hooks (st_opts st)) ->
              nth_error (w_engines w) e = Some en -> shared_or_private w' s (o_hooks (st_opts st)) (o_hooks (en_opts en))).
    { intros s st e en Hs N [Sp|[P1 P2]] Ok He; [left; exact Sp|right]. split; [exact P1|]. intros s' st' N' Hs'. cbn in Hs'. apply nth_set_cases in Hs'.
      destruct Hs' as [(-> & -> & _)|[_ Hs']]; [|eapply P2; eauto]. cbn. destruct F6 as [[Fa _]|Fa]; [rewrite Fa; eapply P2; eauto|destruct Ok; lia]. }
    constructor; rewrite ?Em, ?Sm.
    - apply (i_el _ _ _ I).
    - cbn. rewrite set_nth_length. apply (i_sl _ _ _ I).
    - intros e1 en l x os H1 H2. change (nth_error (w_engines w) e1 = Some en) in H1. assert (Q := i_e _ _ _ I _ _ _ _ _ H1 H2). eapply engine_frame; eauto; try (intros z Hz; exact Hz); [apply F1, Q|].
      cbn. apply F5; [apply Q|]. destruct (Nat.eq_dec (sl_arr (o_hooks (en_opts en))) (sl_arr (o_hooks (st_opts st0)))) as [Eq|Nq]; [|auto].
      destruct B5 as [[S1 S2]|[P1 P2]]; [|exfalso; apply P1; exists e1, en; auto].
      destruct (Nat.eq_dec e1 e0) as [->|Ne].
      + rewrite E2 in H1. injection H1 as <-. right. right. left. destruct Qe0 as (_ & _ & _ & X & _). lia.
      + exfalso. apply (i_d _ _ _ I _ _ _ _ Ne H1 E2). congruence.
    - exact (i_d _ _ _ I).
    - exact (i_se _ _ _ I).
    - intros s st e1 en l x os H1 H2 H3 H4. cbn in H1, H3. assert (Hse := i_se _ _ _ I _ _ H2). apply nth_set_cases in H1. destruct H1 as [(-> & -> & L)|[N H1]].
      + rewrite E1 in H2. injection H2 as <-. rewrite E2 in H3. injection H3 as <-. rewrite E3 in H4. injection H4 as <- <- <-.
        unfold OptProof.stage_ok. cbn [st_engine st_opts st_parts w_heap w_bus_regs w_timer_regs]. rewrite Gv0. split; [exact B1|]. split; [exact F2|].
        split. { rewrite Hv, B3, app_assoc, (fold_left_app _ (os0 ++ given s0 h)). reflexivity. }
        rewrite app_assoc, hooks_in_app. split. { rewrite F3, B4, app_length. reflexivity. }
        split; [|split; [|split]].
        * destruct F6 as [[Fa Fb]|Fa].
          -- destruct B5 as [[S1 S2]|[P1 P2]]; [left; cbn; rewrite Fa, Fb; auto|right]. rewrite Fa. split; [exact P1|].
             intros s' st' N' Hs'. cbn in Hs'. apply nth_set_cases in Hs'. destruct Hs' as [(-> & _)|[_ Hs']]; [congruence|eauto].
          -- right. split.
             ++ intros (i & en' & Hi & Eq). cbn in Hi. destruct (inv_engine _ _ _ _ I Hi) as (? & ? & ? & _ & (Y & _) & _). lia.
             ++ intros s' st' N' Hs'. cbn in Hs'. apply nth_set_cases in Hs'. destruct Hs' as [(-> & _)|[_ Hs']]; [congruence|].
                destruct (inv_stage _ _ _ _ I Hs') as (? & ? & ? & ? & ? & _ & _ & _ & (_ & (Y & _) & _) & _). lia.
        * intros U. change (w_heap w') with h'. rewrite F4, B6; auto. destruct U as [U|U]; [left; eapply undisturbed_app; eauto|right; eapply full_app; eauto].
          -- apply nth_error_Some. congruence.
          -- intros e Ee. eapply i_se; eauto.
        * intros S. exfalso. exact (S h o [] eq_refl).
        * split; assumption.
      + assert (Q := i_s _ _ _ I _ _ _ _ _ _ _ H1 H2 H3 H4). assert (Q' := Q). destruct Q' as (_ & Ok & _ & Ln & Sp & _).
        destruct (inv_engine _ _ _ _ I H3) as (l2 & x2 & os2 & E5 & Qe). rewrite H4 in E5. injection E5 as <- <- <-.
        eapply (stage_frame h w); [exact W'|exact H2|exact Hse|exact Q|apply Gv; auto|discriminate|apply F1, Ok|eapply SpOther; eauto| |intros z Hz; exact Hz|intros z Hz; exact Hz].
        intros U. cbn. apply F5; auto. destruct o as [b|b|b|z|z|z|z|z|z|z|hk]; auto. cbn.
        destruct (Nat.eq_dec (sl_arr (o_hooks (st_opts st))) (sl_arr (o_hooks (st_opts st0)))) as [Eq|Nq]; [|auto]. right. right.
        destruct B5 as [[S1 S2]|[P1 P2]]; [|exfalso; eapply P2; eauto].
        destruct Sp as [[T1 T2]|[P1 P2]]; [|exfalso; apply (P2 s0 st0); auto].
        assert (e1 = e0) as ->. { destruct (Nat.eq_dec e1 e0) as [|Ne]; auto. exfalso. apply (i_d _ _ _ I _ _ _ _ Ne H3 E2). congruence. }
        rewrite E3 in H4. injection H4 as <- <- <-. rewrite E2 in H3. injection H3 as <-.
        destruct U as [U|U].
        * assert (X : hooks_in (given s h) = []). { apply (disturbed s h s0 hk W' U (not_eq_sym N)). congruence. }
          left. rewrite Ln, hooks_in_app, X. rewrite app_nil_r. exact Len0.
        * right. destruct Qe as (_ & _ & _ & _ & _ & Qc & _). destruct B2 as (_ & _ & B2). 
          assert (cap_after grow (length (hooks_in os0)) = length (hooks_in os0)). { apply (U e0 l0 x0 os0); rewrite ?Sm, ?Em; auto. }
          lia.
    - intros s Hs. assert (Ns : s <> s0). { intros ->. rewrite <- (i_sl _ _ _ I) in Hs. lia. } rewrite given_app, Gv, app_nil_r by auto. now apply (i_g _ _ _ I).
  Qed.

  Lemma inv_run h : wf h -> inv h (run grow world0 h).
  Proof.
    induction h as [|v h IH] using rev_ind; intros W.
    - assert (Nn : forall A n (y : A), nth_error (@nil A) n = Some y -> False) by (intros A [] y; discriminate).
      constructor; cbn; auto; intros; exfalso; eauto.
    - unfold run. rewrite fold_left_app. cbn [fold_left]. fold (run grow world0 h). assert (IH' := IH (wf_app _ _ W)).
      destruct v; [apply step_engine|apply step_stage|apply step_give|apply step_settle]; auto. eapply wf_app; eauto.
  Qed.
End Proofs.

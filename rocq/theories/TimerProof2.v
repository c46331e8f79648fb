(** The timer: counting calls; histories. *)
From Verif Require Import TimerModel TimerSpec TimerProof.
From Verif Require BusProof.

Section Count.
  Variable parse : string -> option (nat -> nat).
  Variable zero_ok : bool.
  Variable svcs : nat -> string.
  Hypothesis later : always_later parse.
  Notation texec := (texec parse zero_ok svcs).
  Notation treach := (treach parse zero_ok svcs).
  Notation tinv := (tinv parse svcs).

  Lemma tinv0 : tinv tworld0.
  Proof. constructor; cbn; try constructor; try easy. Qed.
  Lemma reach_tinv w : treach w -> tinv w.
  Proof. induction 1 as [|w a w' _ IH H]; [apply tinv0|]. eapply step_tinv; eauto. Qed.

  Definition saved (K : tjob -> bool) (h : list thev) : nat := length (filter (fun x => match x with TSaved _ _ j _ => K j | _ => false end) h).
  Definition running (w : tworld) (p : nat) (j : tjob) : Prop := exists todo, tw_poll w p = TPRun todo (Some j).
  (** what one step adds to the history and does to the running handlers *)
  Inductive effect (w w' : tworld) : Prop :=
  | ef_none extra : tw_hist w' = extra ++ tw_hist w -> (forall x, In x extra -> exists a b c e, x = TReg a b c e) -> (forall p j, running w' p j <-> running w p j) -> effect w w'
  | ef_call p j : tw_hist w' = TCall (tw_now w) p j :: tw_hist w -> In j (t_rows (tw_db w)) -> is_due (svcs p) (tw_now w) j = true -> ~ In (j_id j) (tw_locks w) ->
      (forall q x, running w' q x <-> (q = p /\ x = j) \/ (q <> p /\ running w q x)) -> (forall x, ~ running w p x) -> tw_now w' = tw_now w -> effect w w'
  | ef_end p j ev : tw_hist w' = ev :: tw_hist w -> (ev = TLost p j \/ exists t j', ev = TSaved t p j j') -> running w p j -> (forall q x, running w' q x <-> q <> p /\ running w q x) -> effect w w'.
  Lemma running_upd po p v q x : (exists todo, updf po p v q = TPRun todo (Some x)) <-> (q = p /\ exists todo, v = TPRun todo (Some x)) \/ (q <> p /\ exists todo, po q = TPRun todo (Some x)).
  Proof. destruct (updf_cases po p v q) as [[-> E]|[N E]]; rewrite E; split; intros H; [left; auto|destruct H as [[_ H]|[H _]]; auto; contradiction|right; auto|destruct H as [[H _]|[_ H]]; auto; contradiction]. Qed.
  Lemma step_effect w a w' : texec a w = Some w' -> effect w w'.
  Proof.
    destruct w as [d now po lk rg h]. intros H. destruct a; cbn [TimerModel.texec] in H.
    - injection H as <-. apply (ef_none _ _ []); cbn; auto; [intros ? []|unfold running; cbn; tauto].
    - destruct (rg r) as [?|]; [discriminate|]. destruct (new_job parse svc key q payload now) as [e|j]; [|destruct (job_found svc key d)]; injection H as <-.
      + apply (ef_none _ _ [TReg svc key q e]); cbn; auto; [intros x [<-|[]]; eauto|unfold running; cbn; tauto].
      + apply (ef_none _ _ [TReg svc key q RNil]); cbn; auto; [intros x [<-|[]]; eauto|unfold running; cbn; tauto].
      + apply (ef_none _ _ []); cbn; auto; [intros ? []|unfold running; cbn; tauto].
    - destruct (rg r) as [[q j]|]; [|discriminate]. destruct (if ok then _ else None) as [d'|]; injection H as <-; eapply (ef_none _ _ [_]); cbn; auto; try (unfold running; cbn; tauto); intros x [<-|[]]; eauto.
    - destruct (existsb _ _); [discriminate|]. injection H as <-. apply (ef_none _ _ []); cbn; auto; [intros ? []|unfold running; cbn; tauto].
    - destruct (po p) as [|todo run] eqn:Ep; [|discriminate]. injection H as <-. apply (ef_none _ _ []); cbn; auto; [intros ? []|]. intros q x. unfold running. cbn [tw_poll]. rewrite running_upd. split.
      + intros [[_ (t & A)]|[_ A]]; [discriminate|auto].
      + intros (t & A). right. split; eauto. intros ->. congruence.
    - destruct (po p) as [|[|j todo] [run|]] eqn:Ep; try discriminate.
      + injection H as <-. apply (ef_none _ _ []); cbn; auto; [intros ? []|]. intros q x. unfold running. cbn [tw_poll]. rewrite running_upd. split.
        * intros [[_ (t & A)]|[_ A]]; [discriminate|auto].
        * intros (t & A). right. split; eauto. intros ->. congruence.
      + assert (Skip : effect (mkTW d now po lk rg h) (mkTW d now (updf po p (TPRun todo None)) lk rg h)).
        { apply (ef_none _ _ []); cbn; auto; [intros ? []|]. intros q x. unfold running. cbn [tw_poll]. rewrite running_upd. split.
          * intros [[_ (t & A)]|[_ A]]; [discriminate|auto].
          * intros (t & A). right. split; eauto. intros ->. congruence. }
        destruct (negb ok || memb (j_id j) lk) eqn:El; [injection H as <-; auto|]. destruct (job_lock (svcs p) now (j_id j) d) as [x|] eqn:Ej; [|injection H as <-; auto]. injection H as <-.
        apply job_lock_spec in Ej. destruct Ej as (Xr & Xi & Xd). apply orb_false_iff in El. destruct El as [_ El]. apply memb_nIn in El. rewrite <- Xi in El.
        apply (ef_call _ _ p x); cbn; auto.
        * intros q y. unfold running. cbn [tw_poll]. rewrite running_upd. split; intros [[-> A]|A]; auto; [left; destruct A as (t & A); injection A as _ ->; auto|left; subst; eauto].
        * intros y (t & A). cbn in A. congruence.
    - destruct (po p) as [|todo [j|]] eqn:Ep; try discriminate. assert (R : forall d lk ev q x, running (mkTW d now (updf po p (TPRun todo None)) lk rg ev) q x <-> q <> p /\ running (mkTW d now po lk rg h) q x).
      { intros. unfold running. cbn [tw_poll]. rewrite running_upd. split; [intros [[_ (t & A)]|A]; [discriminate|auto]|auto]. }
      destruct (if ok then _ else None) as [d'|]; injection H as <-.
      + eapply (ef_end _ _ p j); [reflexivity|right; eauto|exists todo; exact Ep|intros q x; exact (R d lk [] q x)].
      + eapply (ef_end _ _ p j); [reflexivity|left; reflexivity|exists todo; exact Ep|intros q x; exact (R d lk [] q x)].
    - assert (R : forall d lk ev q x, running (mkTW d now (updf po p TPIdle) lk rg ev) q x <-> q <> p /\ running (mkTW d now po lk rg h) q x).
      { intros. unfold running. cbn [tw_poll]. rewrite running_upd. split; [intros [[_ (t & A)]|A]; [discriminate|auto]|auto]. }
      destruct (po p) as [|todo [j|]] eqn:Ep; injection H as <-.
      + apply (ef_none _ _ []); cbn; auto; [intros ? []|]. intros q x. rewrite R. split; [tauto|]. intros A. split; auto. intros ->. destruct A as (t & A). cbn in A. congruence.
      + eapply (ef_end _ _ p j); [reflexivity|left; reflexivity|exists todo; exact Ep|intros q x; exact (R d lk [] q x)].
      + apply (ef_none _ _ []); cbn; auto; [intros ? []|]. intros q x. rewrite R. split; [tauto|]. intros A. split; auto. intros ->. destruct A as (t & A). cbn in A. congruence.
  Qed.

  Variable K : tjob -> bool.
  Hypothesis K_id : forall a b, K a = true -> K b = true -> j_id a = j_id b.
  Hypothesis K_once : forall j x, K j = true -> K x = true -> j_cron j <> ""%string -> ~ j_next j < j_next x.
  Definition counted (w : tworld) : Prop :=
    saved K (tw_hist w) <= 1 /\
    ((exists p j, running w p j /\ K j = true /\ called K (tw_hist w) = lost K (tw_hist w) + saved K (tw_hist w) + 1) \/
     ((forall p j, running w p j -> K j = false) /\ called K (tw_hist w) = lost K (tw_hist w) + saved K (tw_hist w))).
  Lemma saved_none w : tinv w -> (exists x, In x (t_rows (tw_db w)) /\ K x = true /\ j_status x = TToRun) -> saved K (tw_hist w) = 0.
  Proof.
    intros V (x & X1 & X2 & X3). unfold saved. destruct (filter _ _) as [|e l] eqn:E; auto. exfalso. assert (I : In e (e :: l)) by now left. rewrite <- E in I. apply filter_In in I. destruct I as [I1 I2]. destruct e as [| t p j j' | |]; try discriminate.
    destruct (v_saved _ _ _ V t p j j' I1) as (_ & _ & _ & B). destruct (B x X1 (K_id _ _ X2 I2)) as [C|[C D]]; [contradiction|]. apply (K_once j x I2 X2 C D).
  Qed.
  Lemma step_counted w a w' : tinv w -> counted w -> texec a w = Some w' -> counted w'.
  Proof.
    intros V [C1 C2] H. destruct (step_effect _ _ _ H) as [extra E1 E2 E3|p j E1 E2 E3 E4 E5 E6 E7|p j ev E1 E2 E3 E4].
    - assert (X : forall f : thev -> bool, (forall a b c e, f (TReg a b c e) = false) -> length (filter f (extra ++ tw_hist w)) = length (filter f (tw_hist w))).
      { intros f Hf. rewrite filter_app, app_length. assert (filter f extra = []) as ->; auto. clear - Hf E2. induction extra as [|e l IH]; auto. cbn. destruct (E2 e (or_introl eq_refl)) as (a & b & c & d & ->). rewrite Hf. apply IH. intros x Hx. apply E2. now right. }
      unfold counted, saved, called, lost in *. rewrite E1, !X by auto. split; auto. destruct C2 as [(p & j & A & B)|[A B]]; [left; exists p, j; split; auto; now apply E3|right; split; auto]. intros p j Hr. apply E3 in Hr. eauto.
    - apply is_due_spec in E3. destruct E3 as (_ & _ & St). unfold counted, saved, called, lost in *. rewrite E1. cbn [filter]. split; auto. destruct (K j) eqn:Kj.
      + left. exists p, j. split; [apply E5; auto|]. split; auto. cbn [length]. destruct C2 as [(q & x & A & B & _)|[A B]]; [|lia].
        exfalso. apply E4. rewrite (K_id _ _ Kj B). destruct A as (t & A). apply (v_run _ _ _ V q t x A).
      + destruct C2 as [(q & x & A & B & C)|[A B]]; [left; exists q, x; split; auto; apply E5; right; split; auto; intros ->; now apply (E6 x)|right; split; auto].
        intros q x Hr. apply E5 in Hr. destruct Hr as [[-> ->]|[_ Hr]]; eauto.
    - assert (Kp : K j = true -> saved K (tw_hist w) = 0). { intros Kj. apply saved_none; auto. destruct E3 as (t & E3). destruct (v_run _ _ _ V p t j E3) as (A & _ & B). apply is_due_spec in B. exists j. tauto. }
      assert (Other : K j = true -> forall q x, running w q x -> q <> p -> K x = false).
      { intros Kj q x Hr Nq. destruct (K x) eqn:Kx; auto. exfalso. apply Nq. destruct Hr as (t & Hr), E3 as (t' & E3). eapply (v_one _ _ _ V q p); eauto. }
      unfold counted, saved, called, lost in *. rewrite E1. destruct E2 as [->|(t & j' & ->)]; cbn [filter]; destruct (K j) eqn:Kj; cbn [length].
      + specialize (Kp eq_refl). split; [lia|]. right. split; [intros q x Hr; apply E4 in Hr; destruct Hr; eauto|]. destruct C2 as [(q & x & A & B & C)|[A B]]; [lia|]. rewrite (A p j E3) in Kj. discriminate.
      + split; auto. destruct C2 as [(q & x & A & B & C)|[A B]].
        * left. exists q, x. split; auto. apply E4. split; auto. intros ->. destruct A as (ta & A), E3 as (tb & E3). rewrite A in E3. congruence.
        * right. split; auto. intros q x Hr. apply E4 in Hr. destruct Hr; eauto.
      + specialize (Kp eq_refl). split; [lia|]. right. split; [intros q x Hr; apply E4 in Hr; destruct Hr; eauto|]. destruct C2 as [(q & x & A & B & C)|[A B]]; [lia|]. rewrite (A p j E3) in Kj. discriminate.
      + split; auto. destruct C2 as [(q & x & A & B & C)|[A B]].
        * left. exists q, x. split; auto. apply E4. split; auto. intros ->. destruct A as (ta & A), E3 as (tb & E3). rewrite A in E3. congruence.
        * right. split; auto. intros q x Hr. apply E4 in Hr. destruct Hr; eauto.
  Qed.
  Lemma count_bound w : treach w -> called K (tw_hist w) <= lost K (tw_hist w) + 1.
  Proof.
    intros R. assert (C : counted w).
    { induction R as [|w a w' R IH H]; [split; cbn; auto; right; split; auto; intros p j (t & A); discriminate|]. eapply step_counted; eauto. now apply reach_tinv. }
    destruct C as [C1 [(p & j & (t & A) & B & C)|[A B]]]; [|lia].
    assert (saved K (tw_hist w) = 0); [|lia]. pose proof (reach_tinv _ R) as V. apply saved_none; auto. destruct (v_run _ _ _ V p t j A) as (D & _ & E). apply is_due_spec in E. exists j. tauto.
  Qed.
End Count.

Section Hist.
  Variable parse : string -> option (nat -> nat).
  Variable zero_ok : bool.
  Variable svcs : nat -> string.
  (** every call of the history was a step from a reachable state *)
  Lemma call_step w h1 t p j h2 : treach parse zero_ok svcs w -> tw_hist w = h1 ++ TCall t p j :: h2 ->
    exists w0, treach parse zero_ok svcs w0 /\ tw_hist w0 = h2 /\ t = tw_now w0 /\ In j (t_rows (tw_db w0)) /\ is_due (svcs p) t j = true /\ ~ In (j_id j) (tw_locks w0).
  Proof.
    intros R. revert h1. induction R as [|w a w' R IH H]; intros h1 E; [destruct h1; discriminate|].
    destruct (step_effect _ _ _ _ _ _ H) as [extra E1 E2 E3|p' j' E1 E2 E3 E4 E5 E6 E7|p' j' ev E1 E2 E3 E4]; rewrite E1 in E.
    - clear E1 E3 H. revert h1 E. induction extra as [|e l IHl]; intros h1 E; [eauto|]. destruct h1 as [|x h1]; cbn in E; injection E as E0 E.
      + destruct (E2 e (or_introl eq_refl)) as (a1 & b & c & d & ->). discriminate.
      + apply (IHl (fun x Hx => E2 x (or_intror Hx)) h1 E).
    - destruct h1 as [|x h1]; cbn in E; [|injection E as E0 E; eauto]. injection E as E0 E8 E9 E10. subst. exists w. auto 7.
    - destruct h1 as [|x h1]; cbn in E; injection E as E0 E; [|eauto]. destruct E2 as [->|(t1 & j1 & ->)]; discriminate.
  Qed.
End Hist.

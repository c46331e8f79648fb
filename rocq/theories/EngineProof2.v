(** Trace structure of a run, continued: publication, transaction, locks, post-save hooks. *)
From Verif Require Export EngineProof1.

Definition inner_call (c : call) : bool :=
  match c with KExec _ | KBuild _ | KHook _ _ _ | KNewID | KDispatch _ | KDispatchBegin _ => true | _ => false end.
(** Does the stage hold a context of the event bus after the calls [d]? *)
Definition ctx_after (b : bool) (d : list (call * resp)) : bool :=
  fold_left (fun b c => match fst c with
                        | KDispatchBegin _ => match r_ans (snd c) with APanic => b | _ => r_ctx (snd c) end
                        | _ => b
                        end) d b.
Lemma ctx_after_app b d1 d2 : ctx_after b (d1 ++ d2) = ctx_after (ctx_after b d1) d2.
Proof. apply fold_left_app. Qed.
Lemma ctx_after_none b d : Forall (fun c => quiet_call (fst c) = true) d -> ctx_after b d = b.
Proof.
  unfold ctx_after. revert b. induction d as [|[c r] t IH]; intros b H; cbn; [reflexivity|].
  inversion H as [|? ? H1 H2]; subst. destruct c; cbn in *; try discriminate; auto.
Qed.

Record inner (cfg : config) (s s' : st) (d : list (call * resp)) : Prop := mkInner {
  i_trace : s_trace s' = s_trace s ++ d;
  i_calls : Forall (fun c => inner_call (fst c) = true) d;
  i_dry : c_dry cfg = true -> Forall (fun c => is_write (fst c) = false /\ is_publish (fst c) = false) d /\ s_actions s' = s_actions s;
  i_acts : ~ exec_failed d -> c_dry cfg = false -> s_actions s' = s_actions s ++ execs d;
  i_evctx : s_evctx s' = ctx_after (s_evctx s) d }.

Section Inner.
  Variable cfg : config.
  Lemma inner_of_quiet s s' d : quiet cfg s s' d -> inner cfg s s' d.
  Proof.
    intros [T C D A E]. split; auto.
    - eapply Forall_impl; [|exact C]. intros [[] r] H; cbn in *; congruence.
    - intros Hd. destruct (D Hd) as [D1 D2]. split; auto. rewrite Forall_forall in *. intros x Hx. split; auto.
      specialize (C x Hx). destruct x as [[] ?]; cbn in *; congruence.
    - rewrite ctx_after_none; auto.
  Qed.
  Lemma inner_trans s1 s2 s3 d1 d2 : inner cfg s1 s2 d1 -> inner cfg s2 s3 d2 -> inner cfg s1 s3 (d1 ++ d2).
  Proof.
    intros [T1 C1 D1 A1 E1] [T2 C2 D2 A2 E2]. split.
    - rewrite T2, T1. now rewrite app_assoc.
    - apply Forall_app; auto.
    - intros Hd. destruct (D1 Hd), (D2 Hd). split; [apply Forall_app; auto|congruence].
    - intros Hf Hd. rewrite exec_failed_app in Hf. rewrite A2, A1, execs_app, app_assoc; auto.
    - rewrite E2, E1, ctx_after_app. reflexivity.
  Qed.
  Lemma inner_refl s : inner cfg s s [].
  Proof. split; auto; rewrite ?app_nil_r; auto. Qed.

  Lemma ecall_shape c s o s' : mutates c = false -> ecall cfg c s = (o, s') ->
    let r := c_oracle cfg (length (s_trace s)) in
    s' = with_trace s (s_trace s ++ [(c, r)]) /\ o = match r_ans r with APanic => Panic | _ => Done r end.
  Proof.
    intros Hm H r. unfold ecall in H. rewrite Hm in H. fold r in H. destruct (r_ans r); injection H as <- <-; auto.
  Qed.
  Lemma ecall_err_shape c s o s' : mutates c = false -> ecall_err cfg c s = (o, s') ->
    let r := c_oracle cfg (length (s_trace s)) in
    s' = with_trace s (s_trace s ++ [(c, r)]) /\
    o = match r_ans r with APanic => Panic | AErr e => Done (Some e) | AOk => Done None end.
  Proof.
    intros Hm H r. unfold ecall_err, bind in H. destruct (ecall cfg c s) as [o1 s1] eqn:E.
    destruct (ecall_shape c s o1 s1 Hm E) as [-> ->]. fold r in H. fold r. unfold err_of in H. destruct (r_ans r) eqn:Er; rewrite ?Er in H; injection H as <- <-; auto.
  Qed.
  Lemma ignore_shape c s o s' : mutates c = false -> ignore_err cfg c s = (o, s') ->
    let r := c_oracle cfg (length (s_trace s)) in
    s' = with_trace s (s_trace s ++ [(c, r)]) /\ o = match r_ans r with APanic => Panic | _ => Done tt end.
  Proof.
    intros Hm H r. unfold ignore_err, bind in H. destruct (ecall cfg c s) as [o1 s1] eqn:E.
    destruct (ecall_shape c s o1 s1 Hm E) as [-> ->]. fold r in H. fold r. destruct (r_ans r) eqn:Er; injection H as <- <-; auto.
  Qed.

  Lemma inner_call1 c r s : inner_call c = true -> is_write c = false -> c_dry cfg = false ->
    (forall l, c = KDispatchBegin l -> r_ans r = APanic) ->
    inner cfg s (with_trace s (s_trace s ++ [(c, r)])) [(c, r)].
  Proof.
    intros Hc Hw Hd Hb. split; auto.
    - intros H. congruence.
    - intros _ _. cbn. destruct c; cbn in *; try discriminate; now rewrite app_nil_r.
    - cbn. destruct c; auto. cbn. now rewrite (Hb _ eq_refl).
  Qed.

  Lemma inner_dispatch evs s o s' : dispatchEvents cfg evs s = (o, s') -> exists d, inner cfg s s' d.
  Proof.
    unfold dispatchEvents. intros H. destruct (c_dry cfg) eqn:Ed.
    { injection H as <- <-. exists []. apply inner_refl. }
    assert (Hone : forall s0 o0 s1 l, ecall_err cfg (KDispatch l) s0 = (o0, s1) -> exists d, inner cfg s0 s1 d).
    { intros s0 o0 s1 l H0. apply ecall_err_shape in H0; [|reflexivity]. destruct H0 as [-> _]. eexists. apply inner_call1; auto. discriminate. }
    destruct (negb (c_tx cfg)); [eauto|]. destruct (c_bus cfg); [eauto|eauto|].
    assert (Htail : forall s0 o0 s1, (match filter (fun e => negb (is_tx e)) evs with [] => ret None | _ => ecall_err cfg (KDispatch (filter (fun e => negb (is_tx e)) evs)) end) s0 = (o0, s1) -> exists d, inner cfg s0 s1 d).
    { intros s0 o0 s1 H0. destruct (filter (fun e => negb (is_tx e)) evs); [|eauto]. injection H0 as <- <-. exists []. apply inner_refl. }
    unfold andthen in H. destruct (filter is_tx evs) as [|t ts].
    - unfold bind at 1, ret at 1 in H. eauto.
    - set (l := t :: ts) in *. cbv zeta in H. unfold bind at 1 2 in H.
      destruct (ecall cfg (KDispatchBegin l) s) as [o1 s1] eqn:E1. apply ecall_shape in E1; [|reflexivity].
      set (r := c_oracle cfg (length (s_trace s))) in *. destruct E1 as [-> ->].
      set (s1 := with_trace s (s_trace s ++ [(KDispatchBegin l, r)])) in *.
      assert (I1 : r_ans r <> APanic -> inner cfg s (with_evctx s1 (r_ctx r)) [(KDispatchBegin l, r)]).
      { intros Hr. split; auto.
        - intros H0. congruence.
        - intros _ _. cbn. now rewrite app_nil_r.
        - cbn. destruct (r_ans r); congruence. }
      destruct (r_ans r) eqn:Er.
      + unfold bind, upd, ret, err_of in H. rewrite Er in H. destruct (Htail _ _ _ H) as [d I2].
        eexists. eapply inner_trans; [apply I1; discriminate|exact I2].
      + unfold bind, upd, ret, err_of in H. rewrite Er in H. injection H as <- <-. eexists. apply I1. discriminate.
      + injection H as <- <-. eexists. apply inner_call1; auto.
  Qed.

  Definition persist_evs (evs : list event) : M (option result) :=
    match c_persist cfg with
    | None => ret None
    | Some f => match persist_models f evs with
                | inl e => ret (Some (fails e))
                | inr ms => e <- exec cfg [mkAction OpInsert ms []] ;;
                            ret (match e with Some x => Some (fail x) | None => None end)
                end
    end.
  Lemma persist_part evs s o s' : persist_evs evs s = (o, s') -> exists d, inner cfg s s' d.
  Proof.
    unfold persist_evs. intros H1. destruct (c_persist cfg) as [f|]; [|injection H1 as <- <-; exists []; apply inner_refl].
    destruct (persist_models f evs) as [x|ms]; [injection H1 as <- <-; exists []; apply inner_refl|].
    destruct (bind_inv _ _ _ _ _ H1) as [(e & s2 & H3 & H4)|[[H3 _]|[H3 _]]]; [injection H4 as <- <-| |];
      destruct (q_exec cfg _ _ _ _ H3) as [d Hq]; exists d; now apply inner_of_quiet.
  Qed.

  (** publish and do: the calls made, and what a good result is *)
  Lemma inner_publish evs s o s' : publish cfg evs s = (o, s') ->
    exists d, inner cfg s s' d /\ (forall r, o = Done r -> bad r = false -> r = cur_result s').
  Proof.
    unfold publish. intros H. destruct evs as [|e0 es].
    { unfold bind, get, ret in H. injection H as <- <-. exists []. split; [apply inner_refl|]. intros r [= <-]. auto. }
    set (evs := e0 :: es) in *.
    destruct (bind_inv _ _ _ _ _ H) as [(p & s1 & H1 & H2)|[[H1 ->]|[H1 ->]]]; clear H.
    - assert (I1 : exists d, inner cfg s s1 d /\ forall r, p = Some r -> bad r = true).
      { destruct (c_persist cfg) as [f|].
        - destruct (persist_models f evs) as [x|ms].
          + injection H1 as <- <-. exists []. split; [apply inner_refl|]. intros r [= <-]. reflexivity.
          + apply bind_done in H1. destruct H1 as (e & s2 & H1 & H3). destruct (q_exec cfg _ _ _ _ H1) as [d Hq].
            injection H3 as <- <-. exists d. split; [now apply inner_of_quiet|]. intros r. destruct e; [|discriminate].
            intros [= <-]. reflexivity.
        - injection H1 as <- <-. exists []. split; [apply inner_refl|]. discriminate. }
      destruct I1 as (d1 & I1 & B1). destruct p as [r|].
      + injection H2 as <- <-. exists d1. split; auto. intros r' [= <-]. rewrite (B1 r); [discriminate|reflexivity].
      + assert (Hdis : forall o' s2, (e <- dispatchEvents cfg evs ;; match e with Some x => ret (fails x) | None => s <- get ;; ret (cur_result s) end) s1 = (o', s2) ->
            exists d, inner cfg s s2 d /\ forall r, o' = Done r -> bad r = false -> r = cur_result s2).
        { intros o' s2 Hx. destruct (bind_inv _ _ _ _ _ Hx) as [(e & s3 & H3 & H4)|[[H3 ->]|[H3 ->]]].
          - destruct (inner_dispatch _ _ _ _ H3) as [d2 I2]. exists (d1 ++ d2). destruct e.
            + injection H4 as <- <-. split; [eapply inner_trans; eauto|]. intros r [= <-]. discriminate.
            + unfold bind, get, ret in H4. injection H4 as <- <-. split; [eapply inner_trans; eauto|]. intros r [= <-]. reflexivity.
          - destruct (inner_dispatch _ _ _ _ H3) as [d2 I2]. exists (d1 ++ d2). split; [eapply inner_trans; eauto|]. discriminate.
          - destruct (inner_dispatch _ _ _ _ H3) as [d2 I2]. exists (d1 ++ d2). split; [eapply inner_trans; eauto|]. discriminate. }
        destruct (c_bus cfg); [|eauto|eauto].
        injection H2 as <- <-. exists d1. split; auto. intros r [= <-]. discriminate.
    - destruct (persist_part evs s Panic s' H1) as [d Hd]. exists d. split; [exact Hd|discriminate].
    - destruct (persist_part evs s Crash s' H1) as [d Hd]. exists d. split; [exact Hd|discriminate].
  Qed.

  Lemma inner_do main s o s' : do_ cfg main s = (o, s') ->
    exists d, inner cfg s s' d /\ (forall r, o = Done r -> bad r = false -> r = cur_result s').
  Proof.
    unfold do_. intros H. destruct (bind_inv _ _ _ _ _ H) as [(e & s1 & H1 & H2)|[[H1 ->]|[H1 ->]]]; clear H;
      destruct (q_run_body cfg main _ _ _ H1) as [d1 Q1]; apply inner_of_quiet in Q1;
      [|exists d1; split; [exact Q1|discriminate]..].
    destruct e as [x|].
    { injection H2 as <- <-. exists d1. split; [exact Q1|]. intros r [= <-]. unfold fail_or_break. destruct (is_break x); discriminate. }
    unfold bind at 1, get at 1 in H2. destruct (repo_error s1) as [x|].
    { injection H2 as <- <-. exists d1. split; [exact Q1|]. intros r [= <-]. discriminate. }
    destruct (bind_inv _ _ _ _ _ H2) as [(e & s2 & H3 & H4)|[[H3 ->]|[H3 ->]]]; clear H2;
      destruct (q_persist cfg _ _ _ H3) as [d2 Q2]; apply inner_of_quiet in Q2; pose proof (inner_trans _ _ _ _ _ Q1 Q2) as Q;
      [|exists (d1 ++ d2); split; [exact Q|discriminate]..].
    destruct e as [x|].
    { injection H4 as <- <-. exists (d1 ++ d2). split; [exact Q|]. intros r [= <-]. discriminate. }
    destruct (bind_inv _ _ _ _ _ H4) as [(evs & s3 & H5 & H6)|[[H5 ->]|[H5 ->]]]; clear H4;
      destruct (q_collectEvents cfg _ _ _ H5) as [d3 Q3]; apply inner_of_quiet in Q3; pose proof (inner_trans _ _ _ _ _ Q Q3) as Q';
      [|exists ((d1 ++ d2) ++ d3); split; [exact Q'|discriminate]..].
    destruct (inner_publish _ _ _ _ H6) as (d4 & Q4 & G). exists (((d1 ++ d2) ++ d3) ++ d4). split; [|exact G].
    eapply inner_trans; eauto.
  Qed.

  (** How a transaction ends: outcome of the wrapped function, calls made afterwards, outcome. *)
  Inductive tx_end (s1 : st) : out result -> list (call * resp) -> out result -> Prop :=
  | te_crash : tx_end s1 Crash [] Crash
  | te_panic r : tx_end s1 Panic [(KRollback, r)] Panic
  | te_bad res r more o : bad res = true ->
      (o = Done res \/ o = Panic) ->
      Forall (fun c => fst c = KRollback \/ (fst c = KBusRollback /\ s_evctx s1 = true /\ c_bus cfg = BusTx)) more ->
      (o <> Panic -> s_evctx s1 = true -> c_bus cfg = BusTx -> exists r', In (KBusRollback, r') more) ->
      tx_end s1 (Done res) ((KRollback, r) :: more) o
  | te_uncommitted res r more o : bad res = false -> r_ans r <> AOk ->
      (o = Panic \/ exists e, o = Done (set_error res e)) ->
      Forall (fun c => fst c = KRollback) more ->
      tx_end s1 (Done res) ((KCommit, r) :: more) o
  | te_committed res r more o : bad res = false -> r_ans r = AOk ->
      (o = Panic \/ o = Done res) ->
      Forall (fun c => fst c = KRollback \/ (fst c = KBusCommit /\ s_evctx s1 = true /\ c_bus cfg = BusTx)) more ->
      (o <> Panic -> s_evctx s1 = true -> c_bus cfg = BusTx -> exists r', In (KBusCommit, r') more) ->
      tx_end s1 (Done res) ((KCommit, r) :: more) o.

  Lemma bus_call_shape c s o s' : mutates c = false -> bus_call cfg c s = (o, s') ->
    (s' = s /\ o = Done tt /\ (s_evctx s = true -> c_bus cfg = BusTx -> False)) \/
    (c_bus cfg = BusTx /\ s_evctx s = true /\
     exists r, s' = with_trace s (s_trace s ++ [(c, r)]) /\ o = match r_ans r with APanic => Panic | _ => Done tt end).
  Proof.
    unfold bus_call. intros Hm H. unfold bind at 1, get at 1 in H.
    destruct (c_bus cfg) eqn:Eb; [injection H as <- <-; left; repeat split; discriminate..|].
    destruct (s_evctx s) eqn:Ee; [|injection H as <- <-; left; repeat split; discriminate].
    apply ignore_shape in H; auto. right. repeat split; eauto.
  Qed.

  Ltac tebus := try (intros _ ? ?; exfalso; eauto; fail); try (intros _ _ _; eexists; cbn; eauto; fail).
  Lemma in_tx_shape f s o s' : in_tx cfg f s = (o, s') ->
    exists rb, let s0 := with_trace s (s_trace s ++ [(KBegin, rb)]) in
    (r_ans rb <> AOk /\ s' = s0 /\ (o = Panic \/ exists e, o = Done (fails e))) \/
    (r_ans rb = AOk /\ exists of s1 tl, f s0 = (of, s1) /\ s' = with_trace s1 (s_trace s1 ++ tl) /\ tx_end s1 of tl o).
  Proof.
    unfold in_tx. intros H. unfold bind at 1 in H.
    destruct (ecall_err cfg KBegin s) as [o1 s0] eqn:E0. apply ecall_err_shape in E0; [|reflexivity].
    cbv zeta in E0. destruct E0 as [-> ->]. set (rb := c_oracle cfg (length (s_trace s))) in *. exists rb. cbv zeta.
    destruct (r_ans rb) as [|e|] eqn:Er.
    2:{ injection H as <- <-. left. split; [discriminate|]. split; auto. right. eauto. }
    2:{ injection H as <- <-. left. split; [discriminate|]. auto. }
    right. split; [reflexivity|]. unfold on_panic in H.
    set (s0 := with_trace s (s_trace s ++ [(KBegin, rb)])) in *.
    unfold bind at 1 in H. destruct (f s0) as [of s1] eqn:Ef. exists of, s1. 
    assert (Hw : forall a b, with_trace (with_trace s1 a) b = with_trace s1 b) by (intros; reflexivity).
    assert (Hs : s1 = with_trace s1 (s_trace s1 ++ [])) by (destruct s1; cbn; now rewrite app_nil_r).
    (* what the recover handler does *)
    assert (Hrec : forall sx o2 s2, match ignore_err cfg KRollback sx with (Crash, s'') => (Crash, s'') | (_, s'') => (Panic, s'') end = (o2, s2) ->
              o2 = @Panic result /\ exists r, s2 = with_trace sx (s_trace sx ++ [(KRollback, r)])).
    { intros sx o2 s2 Hx. destruct (ignore_err cfg KRollback sx) as [oi si] eqn:Ei. apply ignore_shape in Ei; [|reflexivity].
      cbv zeta in Ei. destruct Ei as [-> ->]. destruct (r_ans (c_oracle cfg (length (s_trace sx)))); injection Hx as <- <-; eauto. }
    destruct of as [res| |].
    - destruct (bad res) eqn:Eb.
      + unfold bind at 1 in H. destruct (ignore_err cfg KRollback s1) as [oi si] eqn:Ei. apply ignore_shape in Ei; [|reflexivity].
        cbv zeta in Ei. destruct Ei as [-> ->]. set (r1 := c_oracle cfg (length (s_trace s1))) in *.
        set (si := with_trace s1 (s_trace s1 ++ [(KRollback, r1)])) in *.
        assert (Hgo : (r_ans r1 = APanic -> exists tl, s' = with_trace s1 (s_trace s1 ++ tl) /\ tx_end s1 (Done res) tl o) /\
                      (r_ans r1 <> APanic -> exists tl, s' = with_trace s1 (s_trace s1 ++ tl) /\ tx_end s1 (Done res) tl o)).
        { split; intros Hr.
          - rewrite Hr in H. apply Hrec in H. destruct H as (-> & r2 & ->). exists [(KRollback, r1); (KRollback, r2)].
            split; [cbn; now rewrite <- app_assoc|]. apply te_bad; auto; try congruence; tebus.
          - assert (H' : match bind (bus_call cfg KBusRollback) (fun _ => ret res) si with
                         | (Done a, s'0) => (Done a, s'0)
                         | (Panic, s'0) => match ignore_err cfg KRollback s'0 with (Crash, s'') => (Crash, s'') | (_, s'') => (Panic, s'') end
                         | (Crash, s'0) => (Crash, s'0) end = (o, s')) by (destruct (r_ans r1); congruence || exact H).
            clear H. unfold bind in H'. destruct (bus_call cfg KBusRollback si) as [ob sb] eqn:Eb2.
            apply bus_call_shape in Eb2; [|reflexivity]. destruct Eb2 as [(-> & -> & Hno)|(Hb & He & r2 & -> & ->)].
            + injection H' as <- <-. exists [(KRollback, r1)]. split; [reflexivity|]. apply te_bad; auto; try congruence; tebus.
            + destruct (r_ans r2) eqn:Er2.
              * injection H' as <- <-. exists [(KRollback, r1); (KBusRollback, r2)]. split; [cbn; now rewrite <- app_assoc|].
                apply te_bad; auto; try congruence; tebus.
              * injection H' as <- <-. exists [(KRollback, r1); (KBusRollback, r2)]. split; [cbn; now rewrite <- app_assoc|].
                apply te_bad; auto; try congruence; tebus.
              * apply Hrec in H'. destruct H' as (-> & r3 & ->). exists [(KRollback, r1); (KBusRollback, r2); (KRollback, r3)].
                split; [cbn; now rewrite <- !app_assoc|]. apply te_bad; auto; try congruence; tebus. }
        destruct Hgo as [G1 G2]. destruct (r_ans r1) eqn:E; [destruct G2|destruct G2|destruct G1]; try discriminate; eauto.
      + unfold bind at 1 in H. destruct (ecall_err cfg KCommit s1) as [oi si] eqn:Ei. apply ecall_err_shape in Ei; [|reflexivity].
        cbv zeta in Ei. destruct Ei as [-> ->]. set (r1 := c_oracle cfg (length (s_trace s1))) in *.
        destruct (r_ans r1) eqn:Er1.
        * unfold bind at 1 in H. destruct (bus_call cfg KBusCommit _) as [ob sb] eqn:Eb2.
          apply bus_call_shape in Eb2; [|reflexivity]. destruct Eb2 as [(-> & -> & Hno)|(Hb & He & r2 & -> & ->)].
          -- injection H as <- <-. exists [(KCommit, r1)]. repeat split. apply te_committed; auto; try congruence; tebus.
          -- destruct (r_ans r2) eqn:Er2.
             ++ injection H as <- <-. exists [(KCommit, r1); (KBusCommit, r2)]. split; [reflexivity|]. split; [cbn; now rewrite <- app_assoc|].
                apply te_committed; auto; try congruence; tebus.
             ++ injection H as <- <-. exists [(KCommit, r1); (KBusCommit, r2)]. split; [reflexivity|]. split; [cbn; now rewrite <- app_assoc|].
                apply te_committed; auto; try congruence; tebus.
             ++ apply Hrec in H. destruct H as (-> & r3 & ->). exists [(KCommit, r1); (KBusCommit, r2); (KRollback, r3)].
                split; [reflexivity|]. split; [cbn; now rewrite <- !app_assoc|]. apply te_committed; auto; try congruence; tebus.
        * injection H as <- <-. exists [(KCommit, r1)]. repeat split. apply te_uncommitted; eauto. rewrite Er1. discriminate.
        * apply Hrec in H. destruct H as (-> & r3 & ->). exists [(KCommit, r1); (KRollback, r3)].
          split; [reflexivity|]. split; [cbn; now rewrite <- !app_assoc|]. apply te_uncommitted; eauto. rewrite Er1. discriminate.
    - apply Hrec in H. destruct H as (-> & r & ->). exists [(KRollback, r)]. repeat split. constructor.
    - injection H as <- <-. exists []. repeat split; auto. constructor.
  Qed.
End Inner.

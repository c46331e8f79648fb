(** Publication: which events, in which order, through which calls. *)
From Verif Require Export GraphProof4 EventSpec EngineProof6.

(** The bus calls a list of events should cause. *)
Definition pub_calls (cfg : config) (evs : list event) : list call :=
  if c_dry cfg then []
  else match evs with
  | [] => []
  | _ => if c_tx cfg then
           match c_bus cfg with
           | BusTx => (match filter is_tx evs with [] => [] | l => [KDispatchBegin l] end) ++
                      (match filter (fun e => negb (is_tx e)) evs with [] => [] | l => [KDispatch l] end)
           | _ => [KDispatch evs]
           end
         else [KDispatch evs]
  end.

Section Pub.
  Variable cfg : config.

  Lemma dispatch_shape evs s o s' : evs <> [] -> dispatchEvents cfg evs s = (o, s') ->
    exists n d, s_trace s' = s_trace s ++ d /\ map fst d = firstn n (pub_calls cfg evs) /\
      (o = Done None -> map fst d = pub_calls cfg evs) /\
      s_heap s' = s_heap s /\ s_cont s' = s_cont s.
  Proof.
    intros Hne H. unfold dispatchEvents in H. unfold pub_calls. destruct (c_dry cfg) eqn:Ed.
    { injection H as <- <-. exists 0, []. rewrite app_nil_r. repeat split; auto. }
    assert (Hone : forall l, ecall_err cfg (KDispatch l) s = (o, s') ->
      exists n d, s_trace s' = s_trace s ++ d /\ map fst d = firstn n [KDispatch l] /\
      (o = Done None -> map fst d = [KDispatch l]) /\ s_heap s' = s_heap s /\ s_cont s' = s_cont s).
    { intros l H0. apply ecall_err_shape in H0; [|reflexivity]. cbv zeta in H0. destruct H0 as [-> _].
      exists 1. eexists. split; [reflexivity|]. repeat split. }
    destruct evs as [|e0 es]; [congruence|]. set (evs := e0 :: es) in *.
    destruct (c_tx cfg); cbn [negb] in H; [|auto]. destruct (c_bus cfg); [auto..|].
    unfold andthen in H.
    assert (Htail : forall s0 d0, s_trace s0 = s_trace s ++ d0 -> s_heap s0 = s_heap s -> s_cont s0 = s_cont s ->
      match filter (fun e => negb (is_tx e)) evs with [] => ret None | _ => ecall_err cfg (KDispatch (filter (fun e => negb (is_tx e)) evs)) end s0 = (o, s') ->
      let tl := match filter (fun e => negb (is_tx e)) evs with [] => [] | l => [KDispatch l] end in
      exists n d, s_trace s' = s_trace s ++ d /\ map fst d = firstn n (map fst d0 ++ tl) /\
      (o = Done None -> map fst d = map fst d0 ++ tl) /\ s_heap s' = s_heap s /\ s_cont s' = s_cont s).
    { intros s0 d0 T0 Hh Hk H0 tl. subst tl. destruct (filter (fun e => negb (is_tx e)) evs) as [|a l].
      - injection H0 as <- <-. exists (length d0), d0. rewrite app_nil_r. split; auto.
        split; [|auto]. rewrite firstn_all2; [reflexivity|rewrite map_length; lia].
      - apply ecall_err_shape in H0; [|reflexivity]. cbv zeta in H0. destruct H0 as [-> _].
        exists (S (length d0)). eexists (d0 ++ [_]). split; [cbn; rewrite T0, <- app_assoc; reflexivity|].
        rewrite map_app. cbn [map fst]. split; [|auto]. rewrite firstn_all2; [reflexivity|rewrite app_length, map_length; cbn; lia]. }
    destruct (filter is_tx evs) as [|t ts].
    - unfold bind at 1, ret at 1 in H. destruct (Htail s [] (eq_sym (app_nil_r _)) eq_refl eq_refl H) as (n & d & X). exists n, d. exact X.
    - set (l := t :: ts) in *. cbv zeta in H. unfold bind at 1 2 in H.
      destruct (ecall cfg (KDispatchBegin l) s) as [o1 s1] eqn:E1. apply ecall_shape in E1; [|reflexivity].
      set (r := c_oracle cfg (length (s_trace s))) in *. destruct E1 as [-> ->].
      destruct (r_ans r) eqn:Er.
      + unfold bind, upd, ret, err_of in H. rewrite Er in H.
        destruct (Htail (with_evctx (with_trace s (s_trace s ++ [(KDispatchBegin l, r)])) (r_ctx r)) [(KDispatchBegin l, r)] eq_refl eq_refl eq_refl H) as (n & d & X).
        exists n, d. exact X.
      + unfold bind, upd, ret, err_of in H. rewrite Er in H. injection H as <- <-.
        exists 1, [(KDispatchBegin l, r)]. split; [reflexivity|]. split; [reflexivity|]. split; [discriminate|auto].
      + injection H as <- <-.
        exists 1, [(KDispatchBegin l, r)]. split; [reflexivity|]. split; [reflexivity|]. split; [discriminate|auto].
  Qed.

  (** the persistence of the events before publication *)
  Definition persisted_first (evs : list event) (dp : list (call * resp)) : Prop :=
    match c_persist cfg with
    | None => dp = []
    | Some f => exists ms, persist_models f evs = inr ms /\
        (c_dry cfg = true /\ dp = [] \/ c_dry cfg = false /\ exists r, r_ans r = AOk /\ dp = [(KExec (mkAction OpInsert ms []), r)])
    end.
  Lemma publish_shape evs s o s' : evs <> [] -> publish cfg evs s = (o, s') ->
    exists dp dd n, s_trace s' = s_trace s ++ dp ++ dd /\
      Forall (fun c => is_write (fst c) = true) dp /\
      map fst dd = firstn n (pub_calls cfg evs) /\
      (dd <> [] -> persisted_first evs dp) /\
      s_heap s' = s_heap s /\ s_cont s' = s_cont s /\
      (forall r, o = Done r -> bad r = false -> map fst dd = pub_calls cfg evs /\ persisted_first evs dp /\ c_bus cfg <> BusNone).
  Proof.
    intros Hne H. unfold publish in H. destruct evs as [|e0 es]; [congruence|]. set (evs := e0 :: es) in *.
    assert (Hp : forall o1 s1, persist_evs cfg evs s = (o1, s1) -> exists dp, s_trace s1 = s_trace s ++ dp /\
       Forall (fun c => is_write (fst c) = true) dp /\ s_heap s1 = s_heap s /\ s_cont s1 = s_cont s /\
       (o1 = Done None -> persisted_first evs dp) /\ (forall r, o1 = Done (Some r) -> bad r = true)).
    { intros o1 s1 H1. unfold persist_evs in H1. unfold persisted_first. destruct (c_persist cfg) as [f|].
      2:{ injection H1 as <- <-. exists []. rewrite app_nil_r. repeat split; auto. discriminate. }
      destruct (persist_models f evs) as [x|ms] eqn:Em.
      { injection H1 as <- <-. exists []. rewrite app_nil_r. repeat split; auto; [discriminate|]. intros r [= <-]. reflexivity. }
      unfold exec in H1. destruct (c_dry cfg) eqn:Ed.
      { unfold bind, ret in H1. injection H1 as <- <-. exists []. rewrite app_nil_r. repeat split; auto; [|discriminate]. intros _. eauto. }
      set (a := mkAction OpInsert ms []) in *.
      destruct (ecall_err cfg (KExec a) s) as [oe se] eqn:Ee. cbn [each] in H1. unfold andthen, bind in H1. rewrite Ee in H1.
      apply ecall_err_shape in Ee; [|reflexivity]. cbv zeta in Ee. set (r := c_oracle cfg (length (s_trace s))) in *.
      destruct Ee as [-> ->]. exists [(KExec a, r)]. destruct (r_ans r) eqn:Er; cbn in H1; injection H1 as <- <-; cbn;
        (split; [reflexivity|]); (split; [repeat constructor|]); repeat (split; [reflexivity|]); split; try discriminate.
      - intros _. exists ms. split; auto. right. split; auto. exists r. auto.
      - intros r0 [= <-]. reflexivity. }
    fold (persist_evs cfg evs) in H.
    destruct (bind_inv _ _ _ _ _ H) as [(p & s1 & H1 & H2)|[[H1 ->]|[H1 ->]]].
    2,3: destruct (Hp _ _ H1) as (dp & T & C & X & Y & _); exists dp, [], 0; rewrite app_nil_r; repeat split; auto; congruence.
    destruct (Hp _ _ H1) as (dp & T & C & X & Y & P1 & P2). destruct p as [r|].
    { injection H2 as <- <-. exists dp, [], 0. rewrite app_nil_r. specialize (P2 r eq_refl). do 6 (split; [solve [auto|congruence]|]).
      intros r0 [= <-]. congruence. }
    specialize (P1 eq_refl).
    assert (Hd : (e <- dispatchEvents cfg evs ;; match e with Some x => ret (fails x) | None => s <- get ;; ret (cur_result s) end) s1 = (o, s') ->
      c_bus cfg <> BusNone ->
      exists dp dd n, s_trace s' = s_trace s ++ dp ++ dd /\
      Forall (fun c => is_write (fst c) = true) dp /\
      map fst dd = firstn n (pub_calls cfg evs) /\
      (dd <> [] -> persisted_first evs dp) /\
      s_heap s' = s_heap s /\ s_cont s' = s_cont s /\
      (forall r, o = Done r -> bad r = false -> map fst dd = pub_calls cfg evs /\ persisted_first evs dp /\ c_bus cfg <> BusNone)).
    { intros Hx Hb. destruct (bind_inv _ _ _ _ _ Hx) as [(e & s2 & H3 & H4)|[[H3 ->]|[H3 ->]]];
        destruct (dispatch_shape _ _ _ _ Hne H3) as (n & dd & T2 & M & G & X2 & Y2); exists dp, dd, n.
      2,3: rewrite T2, T, <- app_assoc; do 6 (split; [solve [auto|congruence]|]); discriminate.
      destruct e as [x|].
      - injection H4 as <- <-. rewrite T2, T, <- app_assoc. do 6 (split; [solve [auto|congruence]|]). intros r [= <-]. discriminate.
      - unfold bind, get, ret in H4. injection H4 as <- <-. rewrite T2, T, <- app_assoc. do 6 (split; [solve [auto|congruence]|]). auto. }
    destruct (c_bus cfg) eqn:Eb; [|apply Hd; [exact H2|discriminate]..].
    injection H2 as <- <-. exists dp, [], 0. rewrite app_nil_r. do 6 (split; [solve [auto|congruence]|]).
    intros r0 [= <-]. discriminate.
  Qed.

  (** What [do_] does: quiet calls, then the publication of the collected events. *)
  Lemma do_shape main s o s' : do_ cfg main s = (o, s') ->
    exists dq dp dd, s_trace s' = s_trace s ++ dq ++ dp ++ dd /\
      Forall (fun c => quiet_call (fst c) = true) dq /\ Forall (fun c => is_write (fst c) = true) dp /\
      ((dp = [] /\ dd = [] /\ forall r, o = Done r -> bad r = true) \/
       (exists evs s2 s3, collectEvents cfg s2 = (Done evs, s3) /\ s_trace s3 = s_trace s ++ dq /\
          (exists n, map fst dd = firstn n (pub_calls cfg evs)) /\
          (dd <> [] -> persisted_first evs dp) /\
          s_heap s' = s_heap s3 /\ s_cont s' = s_cont s3 /\
          (forall r, o = Done r -> bad r = false -> map fst dd = pub_calls cfg evs /\
             (evs <> [] -> persisted_first evs dp /\ c_bus cfg <> BusNone) /\ (evs = [] -> dp = [])))).
  Proof.
    unfold do_. intros H.
    assert (Hq : forall A (m : M A) s0 o0 s1, pres (quietly cfg) m -> m s0 = (o0, s1) -> exists d, s_trace s1 = s_trace s0 ++ d /\ Forall (fun c => quiet_call (fst c) = true) d).
    { intros A m s0 o0 s1 Hm H0. destruct (Hm _ _ _ H0) as [d [T C _ _ _]]. eauto. }
    assert (Hstop : forall sx dq, s_trace sx = s_trace s ++ dq -> Forall (fun c => quiet_call (fst c) = true) dq -> s' = sx ->
       (forall r, o = Done r -> bad r = true) ->
       exists dq dp dd, s_trace s' = s_trace s ++ dq ++ dp ++ dd /\
      Forall (fun c => quiet_call (fst c) = true) dq /\ Forall (fun c => is_write (fst c) = true) dp /\
      ((dp = [] /\ dd = [] /\ forall r, o = Done r -> bad r = true) \/
       (exists evs s2 s3, collectEvents cfg s2 = (Done evs, s3) /\ s_trace s3 = s_trace s ++ dq /\
          (exists n, map fst dd = firstn n (pub_calls cfg evs)) /\
          (dd <> [] -> persisted_first evs dp) /\
          s_heap s' = s_heap s3 /\ s_cont s' = s_cont s3 /\
          (forall r, o = Done r -> bad r = false -> map fst dd = pub_calls cfg evs /\
             (evs <> [] -> persisted_first evs dp /\ c_bus cfg <> BusNone) /\ (evs = [] -> dp = []))))).
    { intros sx dq T C -> Hb. exists dq, [], []. rewrite !app_nil_r. split; [exact T|]. split; [exact C|]. split; [constructor|]. left. auto. }
    destruct (bind_inv _ _ _ _ _ H) as [(e & s1 & H1 & H2)|[[H1 ->]|[H1 ->]]]; clear H;
      destruct (Hq _ _ _ _ _ (q_run_body cfg main) H1) as (d1 & T1 & C1); [|eapply Hstop; eauto; discriminate..].
    destruct e as [x|].
    { injection H2 as <- <-. eapply Hstop; eauto. intros r [= <-]. unfold fail_or_break. destruct (is_break x); reflexivity. }
    unfold bind at 1, get at 1 in H2. destruct (repo_error s1) as [x|].
    { injection H2 as <- <-. eapply Hstop; eauto. intros r [= <-]. reflexivity. }
    destruct (bind_inv _ _ _ _ _ H2) as [(e & s2 & H3 & H4)|[[H3 ->]|[H3 ->]]]; clear H2;
      destruct (Hq _ _ _ _ _ (q_persist cfg) H3) as (d2 & T2 & C2);
      assert (C12 : Forall (fun c => quiet_call (fst c) = true) (d1 ++ d2)) by (apply Forall_app; auto).
    2,3: eapply Hstop; [|exact C12|reflexivity|discriminate]; rewrite T2, T1; now rewrite <- app_assoc.
    assert (T12 : s_trace s2 = s_trace s ++ d1 ++ d2) by (rewrite T2, T1; now rewrite <- app_assoc).
    destruct e as [x|].
    { injection H4 as <- <-. eapply Hstop; eauto. intros r [= <-]. reflexivity. }
    destruct (bind_inv _ _ _ _ _ H4) as [(evs & s3 & H5 & H6)|[[H5 ->]|[H5 ->]]]; clear H4;
      destruct (Hq _ _ _ _ _ (q_collectEvents cfg) H5) as (d3 & T3 & C3);
      assert (C13 : Forall (fun c => quiet_call (fst c) = true) ((d1 ++ d2) ++ d3)) by (apply Forall_app; auto).
    2,3: eapply Hstop; [|exact C13|reflexivity|discriminate]; rewrite T3, T12; now rewrite <- app_assoc.
    assert (T13 : s_trace s3 = s_trace s ++ (d1 ++ d2) ++ d3) by (rewrite T3, T12; now rewrite <- app_assoc).
    destruct evs as [|e0 es].
    - cbn in H6. unfold bind, get, ret in H6. injection H6 as <- <-. exists ((d1 ++ d2) ++ d3), [], [].
      rewrite !app_nil_r. split; auto. split; auto. split; [constructor|]. right. exists [], s2, s3. split; auto. split; auto.
      split; [exists 0; reflexivity|]. split; [congruence|]. split; auto. split; auto. intros r _ _.
      split; [unfold pub_calls; destruct (c_dry cfg); reflexivity|]. split; congruence.
    - destruct (publish_shape (e0 :: es) _ _ _ ltac:(discriminate) H6) as (dp & dd & n & T4 & C4 & M4 & P4 & X4 & Y4 & G4).
      exists ((d1 ++ d2) ++ d3), dp, dd. split; [rewrite T4, T13, <- !app_assoc; reflexivity|]. split; auto. split; auto. right.
      exists (e0 :: es), s2, s3. split; auto. split; auto. split; [eauto|]. split; auto. split; auto. split; auto.
      intros r Hr Hb. destruct (G4 r Hr Hb) as (G1 & G2 & G3). split; auto. split; [auto|discriminate].
  Qed.
End Pub.

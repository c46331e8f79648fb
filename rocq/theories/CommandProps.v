(** C98: the steps of a command (ICommand: Init, Build, Act) - engine.go 769-803, 846-849. *)
From Verif Require Import GraphSpec GraphProof2 EngineModel EventSpec EngineProof1 EngineProof2 EngineProof3 EngineProof4 EngineProof6 EngineProof7 EngineProof8 EngineProof12 EngineProps FlowEngine.
Local Open Scope string_scope. Local Open Scope list_scope. Local Open Scope nat_scope.

(** How the result of a run reports the error [e]: not at all but as Break if it is or wraps ErrBreak, else as it is. *)
Definition reports (r : result) (e : err) : Prop :=
  (wraps_break e -> res_break r = true /\ res_err r = None) /\ (~ wraps_break e -> res_break r = false /\ res_err r = Some e).

(** An error of Init ends the run: no lock, no transaction, no hook - no call at all - and no entity is touched. *)
Theorem C98_init_error : forall cfg e main s, exists r, run_command cfg (inl e) main s = (Done r, s) /\ reports r e.
Proof.
  intros cfg e main s. exists (fail_or_break e). split; [reflexivity|]. unfold reports, fail_or_break. rewrite <- is_break_spec. destruct (is_break e); split; intros H; auto; try discriminate. now destruct H.
Qed.
Print Assumptions C98_init_error.

Lemma run_bind cfg {A B} (f : A -> body B) : forall (b : body A) s, run_body cfg (body_bind b f) s = bind (run_body cfg b) (fun a => run_body cfg (f a)) s.
Proof.
  induction b; intros s; cbn [body_bind run_body]; unfold bind in *; try reflexivity.
  - cbn [get]. unfold get. now rewrite H.
  - unfold upd. now rewrite IHb.
  - destruct (repo_get cfg root s) as [[]]; auto.
  - destruct (repo_custom_get cfg f0 roots s) as [[]]; auto.
  - destruct (repo_add roots s) as [[]]; auto.
  - destruct (repo_remove cfg roots s) as [[]]; auto.
  - destruct (repo_save cfg s) as [[]]; auto.
  - unfold upd. now rewrite IHb.
  - destruct (cmd_build cfg root s) as [[]]; auto.
  - destruct (cmd_load cfg roots s) as [[]]; auto.
  - destruct (root_add p s) as [[]]; auto.
  - destruct (root_remove p s) as [[]]; auto.
Qed.
(** What the engine does between Build and Act: it fails, or Act starts with exactly the roots Build returned as the aggregates of the
    stage, with nothing else changed and no call made; a root without id makes it fail. *)
Definition taken_over (sb : st) (roots : list ptr) (sa : st) : Prop :=
  ct_roots (s_cont sa) = roots /\ ct_deleted (s_cont sa) = ct_deleted (s_cont sb) /\ s_heap sa = s_heap sb /\ s_trace sa = s_trace sb /\ s_errs sa = s_errs sb /\ s_output sa = s_output sb /\
  (forall p, s_pool sa p <> None <-> reach (findChildren (s_heap sb) roots) meta p).
(** The converter of the application refuses an entity of the aggregates, with the error [e]. *)
Definition conv_refuses (cfg : config) (h : heap) (roots : list ptr) (e : err) : Prop :=
  exists p par, reach (findChildren h roots) meta p /\
    (c_conv cfg h p par OpQuery = ConvErr e \/ (c_conv cfg h p par OpQuery = NotReg true /\ e = EWrap ENotRegister)).
Lemma snap_list_err cfg h roots : forall l pl e pl', snap_list cfg h roots pl l = (Some e, pl') ->
  exists p par, In p (map fst l) /\ (c_conv cfg h p par OpQuery = ConvErr e \/ (c_conv cfg h p par OpQuery = NotReg true /\ e = EWrap ENotRegister)).
Proof.
  induction l as [|[p par] t IH]; intros pl e pl' H; cbn [snap_list] in H; [discriminate H|]. unfold snap_entity in H.
  assert (N : forall pl0, snap_list cfg h roots pl0 t = (Some e, pl') -> exists p0 par0, In p0 (map fst ((p, par) :: t)) /\ (c_conv cfg h p0 par0 OpQuery = ConvErr e \/ (c_conv cfg h p0 par0 OpQuery = NotReg true /\ e = EWrap ENotRegister))).
  { intros pl0 X. destruct (IH _ _ _ X) as (q & qp & A & B). exists q, qp. split; [now right|exact B]. }
  destruct (pl p) as [sn|]; [destruct (Nat.eqb p meta); [|now apply N in H]|];
  (destruct (c_conv cfg h p par OpQuery) as [m|[]|e'] eqn:E; try (now apply N in H); injection H as <- _; exists p, par; (split; [now left|]); auto).
Qed.
Lemma load_spec cfg roots sb o sa : orders_ok cfg -> cmd_load cfg roots sb = (Done o, sa) ->
  match o with
  | Some e => s_trace sa = s_trace sb /\ (((exists p, In p roots /\ e_id (s_heap sb p) = "") /\ e = EMustHaveID) \/
                                          ((forall p, In p roots -> e_id (s_heap sb p) <> "") /\ conv_refuses cfg (s_heap sb) roots e))
  | None => (forall p, In p roots -> e_id (s_heap sb p) <> "") /\ taken_over sb roots sa /\ flushed cfg (with_cont sb (cont_set (s_cont sb) roots)) sa
  end.
Proof.
  intros Ho H. unfold cmd_load, bind at 1, get in H. destruct (existsb _ roots) eqn:E.
  { injection H as <- <-. split; [reflexivity|left]. split; [|reflexivity]. apply existsb_exists in E. destruct E as (p & Hp & Z). apply String.eqb_eq in Z. eauto. }
  assert (Id : forall p, In p roots -> e_id (s_heap sb p) <> "").
  { intros p Hp Z. apply not_true_iff_false in E. apply E, existsb_exists. exists p. split; auto. now apply String.eqb_eq. }
  unfold bind, upd in H. destruct o as [e|].
  - unfold flush, bind at 1, upd in H. apply updateSnapshot_inv in H. destruct (walk _ _ _ _ _) as [l|] eqn:W; [|destruct H; discriminate]. destruct H as (e' & pl & SL & X & ->). injection X as <-. split; [reflexivity|right]. split; [exact Id|].
    destruct (snap_list_err _ _ _ _ _ _ _ SL) as (p & par & Hp & C). exists p, par. split; [|exact C]. destruct Ho as [Ho _]. pose proof (walk_reach _ _ (Ho _) _ _ _ _ W p) as WR. apply WR in Hp. exact Hp.
  - apply flush_spec in H; auto. split; [exact Id|split; auto].
    + pose proof H as F. destruct H as [H1 H2 H3 H4 H5 H6 H7 H8 H9 H10]. unfold taken_over. rewrite H2, H1, H3, H5, H7.
      assert (K : kids_now sa = findChildren (s_heap sb) roots) by (unfold kids_now; rewrite H1, H2; reflexivity). rewrite K in *. repeat split; auto.
      * intros X. destruct H8 as (ord & l & Hord & W). pose proof (walk_reach _ _ Hord _ _ _ _ W p) as WR. rewrite <- WR. destruct (in_dec Nat.eq_dec p (map fst l)) as [I|I]; auto. exfalso. apply X, H10. intros R. apply I. now apply WR.
      * intros X. destruct (H9 p X) as (par & po & _ & Y & _). congruence.
Qed.
(** The run of a command whose Init gave lock keys: it does not start (a lock is refused, BEGIN fails), or it is run on a fresh stage:
    Build first.  If Build fails, that is the outcome.  Otherwise the engine takes the roots over; if it cannot - a root
    has no id, or an entity cannot be converted - that is the outcome.  Otherwise Act is run, once, from exactly that state, and what it returns is the outcome. *)
Theorem C98_steps : forall cfg h keys build act r s', orders_ok cfg -> run_command cfg (inr keys) (command_main build act) (new_stage h) = (Done r, s') ->
  (not_started keys (s_trace s') /\ res_err r <> None /\ res_break r = false) \/
  exists s0 sb b, (exists tr, s0 = with_trace (new_stage h) tr) /\ run_body cfg build s0 = (Done b, sb) /\
    match b with
    | inl e => reports r e
    | inr roots =>
        (exists p, In p roots /\ e_id (s_heap sb p) = "") /\ reports r EMustHaveID \/
        (exists e, conv_refuses cfg (s_heap sb) roots e /\ reports r e) \/
        (forall p, In p roots -> e_id (s_heap sb p) <> "") /\
        exists sa res s1, taken_over sb roots sa /\ run_body cfg (act roots) sa = (Done res, s1) /\ match res with Some e => reports r e | None => res_break r = false end
    end.
Proof.
  intros cfg h keys build act r s' Ho H. cbn [run_command] in H. destruct (break_or_error cfg h keys (command_main build act) r s' H) as [X|(s0 & s1 & res & R & T & O)]; [now left|right].
  unfold command_main in R. rewrite run_bind in R. apply bind_inv in R. destruct R as [(b & sb & R1 & R2)|[[_ X]|[_ X]]]; try discriminate X. exists s0, sb, b. split; auto. split; auto.
  assert (Rep : forall e, res = Some e -> reports r e) by (intros e ->; unfold reports; rewrite <- is_break_spec; destruct (is_break e); split; intros W; try (exfalso; congruence); exact O).
  destruct b as [e|roots]; [cbn [run_body] in R2; injection R2 as <- <-; now apply Rep|].
  cbn [run_body] in R2. apply bind_inv in R2. destruct R2 as [(o & sa & L & R2)|[[_ X]|[_ X]]]; try discriminate X. pose proof (load_spec cfg roots sb o sa Ho L) as LS. destruct o as [e|].
  - cbn [run_body] in R2. injection R2 as <- <-. destruct LS as [_ [[Z ->]|[_ C]]]; [left; split; [exact Z|now apply Rep]|right; left; exists e; split; [exact C|now apply Rep]].
  - right. right. destruct LS as (Id & TO & _). split; auto. exists sa, res, s1. split; auto. split; auto. destruct res; auto.
Qed.
Print Assumptions C98_steps.

(** Act is not called - it may be anything - if Build fails or a root has no id. *)
Theorem C98_no_act_after_error : forall cfg build act act' s0 b sb, run_body cfg build s0 = (Done b, sb) ->
  (exists e, b = inl e) \/ (exists roots p, b = inr roots /\ In p roots /\ e_id (s_heap sb p) = "") ->
  run_body cfg (command_main build act) s0 = run_body cfg (command_main build act') s0 /\
  exists e, run_body cfg (command_main build act) s0 = (Done (Some e), sb) /\ match b with inl x => e = x | inr _ => e = EMustHaveID end.
Proof.
  intros cfg build act act' s0 b sb R H. unfold command_main. rewrite !run_bind. unfold bind. rewrite R. destruct H as [[e ->]|(roots & p & -> & Hp & Z)]; [split; [reflexivity|exists e; auto]|].
  assert (E : existsb (fun r : ptr => String.eqb (e_id (s_heap sb r)) "") roots = true) by (apply existsb_exists; exists p; rewrite Z; auto).
  cbn [run_body]. unfold bind, cmd_load, bind, get. rewrite E. split; [reflexivity|]. exists EMustHaveID. split; reflexivity.
Qed.
Print Assumptions C98_no_act_after_error.

(** ** a command that changes nothing writes nothing *)
(** What Build can do with its DomainBuilder: load entities, look at them, fill them. *)
Inductive builder {R} : body R -> Prop :=
| bd_ret r : builder (BRet r) | bd_panic : builder BPanic
| bd_look k : (forall h, builder (k h)) -> builder (BLook k) | bd_mut f k : builder k -> builder (BMut f k)
| bd_build p k : (forall e, builder (k e)) -> builder (BBuild p k).
(** an Act that only looks and sets the output *)
Inductive looker {R} : body R -> Prop :=
| lk_ret r : looker (BRet r) | lk_panic : looker BPanic
| lk_look k : (forall h, looker (k h)) -> looker (BLook k) | lk_out d k : looker k -> looker (BOutput d k).
Definition is_build (c : call * resp) : Prop := exists p, fst c = KBuild p.
Lemma builder_run cfg {R} (b : body R) : builder b -> forall s o s', run_body cfg b s = (o, s') ->
  s_cont s' = s_cont s /\ s_errs s' = s_errs s /\ exists d, s_trace s' = s_trace s ++ d /\ Forall is_build d.
Proof.
  induction 1 as [r| |k _ IH|f k _ IH|p k _ IH]; intros s o s' H; cbn [run_body] in H.
  - injection H as <- <-. repeat split; auto. exists []. now rewrite app_nil_r.
  - injection H as <- <-. repeat split; auto. exists []. now rewrite app_nil_r.
  - unfold bind, get in H. eauto.
  - unfold bind, upd in H. apply IH in H. exact H.
  - apply bind_inv in H. unfold cmd_build, bind at 1, get in H.
    assert (B : forall s o s', (if String.eqb (e_id (s_heap s p)) "" then ret (Some EMustHaveID) else ecall_err cfg (KBuild p)) s = (o, s') -> s_cont s' = s_cont s /\ s_errs s' = s_errs s /\ exists d, s_trace s' = s_trace s ++ d /\ Forall is_build d).
    { clear. intros s o s' H. destruct (String.eqb _ _); [injection H as <- <-; repeat split; auto; exists []; now rewrite app_nil_r|]. unfold ecall_err, ecall, bind, ret in H. cbn [mutates] in H.
      destruct (r_ans _); injection H as <- <-; (repeat split; auto); eexists; (split; [reflexivity|]); repeat constructor; eexists; reflexivity. }
    destruct H as [(e & s1 & H1 & H2)|[[H1 _]|[H1 _]]].
    + apply B in H1. destruct H1 as (A1 & A2 & d & A3 & A4). apply IH in H2. destruct H2 as (B1 & B2 & d2 & B3 & B4). split; [congruence|]. split; [congruence|]. exists (d ++ d2). split; [rewrite B3, A3; now rewrite app_assoc|]. apply Forall_app. auto.
    + now apply B in H1.
    + now apply B in H1.
Qed.
Lemma looker_run cfg {R} (b : body R) : looker b -> forall s o s', run_body cfg b s = (o, s') -> exists out, s' = with_output s out.
Proof.
  induction 1 as [r| |k _ IH|d k _ IH]; intros s o s' H; cbn [run_body] in H.
  - injection H as <- <-. exists (s_output s). now destruct s.
  - injection H as <- <-. exists (s_output s). now destruct s.
  - unfold bind, get in H. eauto.
  - unfold bind, upd in H. apply IH in H. destruct H as (out & ->). exists out. reflexivity.
Qed.
Lemma collect_none cfg s o s' : orders_ok cfg -> ct_deleted (s_cont s) = [] -> (forall p, reach (kids_now s) meta p -> e_events (s_heap s p) = []) -> collectEvents cfg s = (o, s') ->
  s_trace s' = s_trace s /\ (forall l, o = Done l -> l = []).
Proof.
  intros [Ho He] D E H. unfold collectEvents in H. apply bind_inv in H. destruct H as [(l & s1 & H1 & H2)|[[H1 ->]|[H1 ->]]]; apply walk_from_inv in H1; destruct H1 as [-> W]; [|split; [reflexivity|discriminate]..].
  destruct (walk _ _ _ _ _) as [l0|] eqn:Ew; [|discriminate W]. injection W as <-.
  unfold bind at 1, get in H2. cbn [s_cont tick with_tick] in H2. change (s_cont (tick s)) with (s_cont s) in H2. rewrite D in H2. cbn [walk_all] in H2. unfold bind, ret, get, upd in H2. rewrite app_nil_r in H2.
  assert (Z : events_of (s_heap s) (filter (fun p => negb (Nat.eqb p meta)) (map fst l)) = []).
  { pose proof (walk_reach _ _ (Ho _) _ _ _ _ Ew) as WR. unfold events_of. assert (A : forall p, In p (filter (fun p => negb (Nat.eqb p meta)) (map fst l)) -> e_events (s_heap s p) = []) by (intros p Hp; apply filter_In in Hp; apply E, WR; tauto).
    clear - A. revert A. generalize (filter (fun p => negb (Nat.eqb p meta)) (map fst l)). intros fl A. induction fl as [|x t IH]; cbn; auto. rewrite (A x (or_introl eq_refl)). apply IH. intros; apply A; now right. }
  change (s_heap (tick s)) with (s_heap s) in H2. rewrite Z in H2. cbn [fold_left] in H2. injection H2 as <- <-. split; [reflexivity|]. intros l1 X. injection X as <-.
  match goal with |- context [c_evord cfg ?n []] => pose proof (He n []) as P end. apply Permutation_sym, Permutation_nil in P. now rewrite P.
Qed.
Lemma quiet_do cfg build act s0 o s' : orders_ok cfg -> builder build -> (forall roots, looker (act roots)) -> ct_deleted (s_cont s0) = [] ->
  (forall roots sb, run_body cfg build s0 = (Done (inr roots), sb) -> forall p, reach (findChildren (s_heap sb) roots) meta p -> e_dirty (s_heap sb p) = false /\ e_events (s_heap sb p) = []) ->
  do_ cfg (command_main build act) s0 = (o, s') -> exists d, s_trace s' = s_trace s0 ++ d /\ Forall is_build d.
Proof.
  intros Ho Hb Ha Hd Hn H. unfold do_ in H.
  assert (R : forall ob sm, run_body cfg (command_main build act) s0 = (ob, sm) -> (exists d, s_trace sm = s_trace s0 ++ d /\ Forall is_build d) /\
     (ob = Done None -> ct_deleted (s_cont sm) = [] /\ clean cfg sm /\ forall p, reach (kids_now sm) meta p -> e_events (s_heap sm p) = [])).
  { intros ob sm R. unfold command_main in R. rewrite run_bind in R. apply bind_inv in R. destruct R as [(b & sb & R1 & R2)|[[R1 ->]|[R1 ->]]]; pose proof (builder_run cfg build Hb _ _ _ R1) as (B1 & B2 & d & B3 & B4); [|split; [eauto|discriminate]..].
    destruct b as [e|roots]; [cbn [run_body] in R2; injection R2 as <- <-; split; [eauto|discriminate]|]. cbn [run_body] in R2. apply bind_inv in R2. destruct R2 as [(ol & sa & L & R2)|X].
    - pose proof (load_spec cfg roots sb ol sa Ho L) as LS. destruct ol as [e|].
      + cbn [run_body] in R2. injection R2 as <- <-. split; [exists d; destruct LS as [LS _]; split; congruence|discriminate].
      + destruct LS as (_ & (T1 & T2 & T3 & T4 & T5 & T6 & T7) & F). destruct (looker_run cfg _ (Ha roots) _ _ _ R2) as (out & ->). split; [exists d; split; [cbn; congruence|auto]|]. intros _.
        assert (K : kids_now (with_output sa out) = findChildren (s_heap sb) roots) by (unfold kids_now; cbn; rewrite T3, T1; reflexivity).
        split; [cbn; rewrite T2, B1; exact Hd|]. split.
        * destruct F as [F1 F2 F3 F4 F5 F6 F7 F8 F9 F10]. split; [exact F8| |].
          -- intros q Hq. destruct (F9 q Hq) as (par & po & _ & X & _). exists po. exact X.
          -- intros q Hq. cbn. rewrite T3. rewrite K in Hq. exact (proj1 (Hn roots sb R1 q Hq)).
        * intros p Hp. cbn. rewrite T3. rewrite K in Hp. exact (proj2 (Hn roots sb R1 p Hp)).
    - assert (Q : s_trace sm = s_trace sb /\ (ob = Panic \/ ob = Crash)).
      { assert (L : forall y, cmd_load cfg roots sb = (y, sm) -> s_trace sm = s_trace sb).
        { intros y L. unfold cmd_load, bind at 1, get in L. destruct (existsb _ roots); [injection L as _ <-; reflexivity|]. unfold bind, upd, flush, bind, upd in L. apply updateSnapshot_inv in L. destruct (walk _ _ _ _ _); [destruct L as (e' & pl & _ & _ & ->)|destruct L as [_ ->]]; reflexivity. }
        destruct X as [[X ->]|[X ->]]; split; auto; eapply L; eauto. }
      destruct Q as [Q1 Q2]. split; [exists d; split; congruence|destruct Q2 as [-> | ->]; discriminate]. }
  apply bind_inv in H. destruct H as [(e & sm & H1 & H2)|[[H1 _]|[H1 _]]]; destruct (R _ _ H1) as [(d & T & Fd) C]; [|eauto..].
  destruct e as [x|]; [injection H2 as _ <-; eauto|]. destruct (C eq_refl) as (C1 & C2 & C3). clear C R. unfold bind at 1, get in H2. destruct (repo_error sm); [injection H2 as _ <-; eauto|].
  assert (P : exists s2, persist cfg sm = (Done None, s2) /\ s_trace s2 = s_trace sm /\ s_heap s2 = s_heap sm /\ ct_deleted (s_cont s2) = [] /\ ct_roots (s_cont s2) = ct_roots (s_cont sm)).
  { destruct (clean_persist cfg sm C2) as [P|P]; eexists; (split; [exact P|]); cbn; rewrite ?app_nil_r; auto. }
  destruct P as (s2 & P & P1 & P2 & P3 & P4). unfold bind at 1 in H2. rewrite P in H2. apply bind_inv in H2.
  assert (N : forall p, reach (kids_now s2) meta p -> e_events (s_heap s2 p) = []) by (unfold kids_now; rewrite P2, P4; exact C3).
  exists d. destruct H2 as [(l & s3 & H2 & H3)|[[H2 _]|[H2 _]]]; destruct (collect_none cfg _ _ _ Ho P3 N H2) as [T3 L]; [|split; congruence..].
  rewrite (L l eq_refl) in H3. cbn [publish] in H3. unfold bind, get, ret in H3. injection H3 as _ <-. split; congruence.
Qed.
(** A command that loads entities and changes nothing: nothing is written, no hook is called, no event is sent. *)
Theorem C98_reading_writes_nothing : forall cfg h keys build act o s', orders_ok cfg -> builder build -> (forall roots, looker (act roots)) ->
  (forall tr roots sb, run_body cfg build (with_trace (new_stage h) tr) = (Done (inr roots), sb) ->
     forall p, reach (findChildren (s_heap sb) roots) meta p -> e_dirty (s_heap sb p) = false /\ e_events (s_heap sb p) = []) ->
  save cfg keys (command_main build act) (new_stage h) = (o, s') ->
  Forall (fun c => match fst c with KExec _ | KHook _ _ _ | KNewID | KDispatch _ | KDispatchBegin _ => False | _ => True end) (s_trace s').
Proof.
  intros cfg h keys build act o s' Ho Hb Ha Hn H.
  assert (Z1 : forall l : list (call * resp), Forall (fun c => frame_call (fst c) = true) l -> Forall (fun c => match fst c with KExec _ | KHook _ _ _ | KNewID | KDispatch _ | KDispatchBegin _ => False | _ => True end) l).
  { intros l F. eapply Forall_impl; [|exact F]. intros [[] x]; cbn; auto; discriminate. }
  assert (Z2 : forall l : list (call * resp), Forall is_build l -> Forall (fun c => match fst c with KExec _ | KHook _ _ _ | KNewID | KDispatch _ | KDispatchBegin _ => False | _ => True end) l).
  { intros l F. eapply Forall_impl; [|exact F]. intros [c x] [p Hp]. cbn in Hp. subst c. exact Logic.I. }
  assert (Z3 : forall l : list (call * resp), Forall (fun c => inner_call (fst c) = false) l -> Forall (fun c => match fst c with KExec _ | KHook _ _ _ | KNewID | KDispatch _ | KDispatchBegin _ => False | _ => True end) l).
  { intros l F. eapply Forall_impl; [|exact F]. intros [[] x]; cbn; auto; discriminate. }
  destruct (run_parts cfg _ _ _ _ _ H) as [(fr & -> & F & _)|(pre & s1 & of & mid & post & G & T & -> & F1 & F2 & _)]; [cbn; auto|]. cbn [s_trace with_trace new_stage app] in *.
  apply Forall_app. split; [auto|]. apply Forall_app. split; [|auto]. unfold guarded in G. destruct (c_tx cfg).
  - destruct (in_tx_tail cfg _ _ _ _ G) as (rb & [(A & X)|(A & of' & s2 & tl & D & X & Y1 & Y2 & Y3)]); cbn [s_trace with_trace] in X.
    + assert (mid = [(KBegin, rb)]) by (rewrite T in X; now apply app_inv_head in X). subst mid. repeat constructor.
    + match type of D with do_ _ _ ?st = _ => destruct (quiet_do cfg build act st _ _ Ho Hb Ha eq_refl (fun roots sb R => Hn _ roots sb R) D) as (d & Td & Fd) end. cbn [s_trace with_trace] in Td.
      assert (mid = [(KBegin, rb)] ++ d ++ tl) by (rewrite T, Td, <- !app_assoc in X; now apply app_inv_head in X). subst mid. apply Forall_app. split; [repeat constructor|]. apply Forall_app. auto.
  - match type of G with do_ _ _ ?st = _ => destruct (quiet_do cfg build act st _ _ Ho Hb Ha eq_refl (fun roots sb R => Hn _ roots sb R) G) as (d & Td & Fd) end. cbn [s_trace with_trace] in Td.
    assert (mid = d) by (rewrite T in Td; now apply app_inv_head in Td). subst mid. auto.
Qed.
Print Assumptions C98_reading_writes_nothing.

(** ** concrete cases *)
Definition ex_heap0 : heap := fun p => match p with 1 => ex_ent "r" 1 [2] [] ["v"] | 2 => ex_ent "c" 2 [] [] ["w"] | _ => ex_ent "" 0 [] [] [] end.
Definition build1 : body (err + list ptr) := BBuild 1 (fun e => match e with Some x => BRet (inl x) | None => BRet (inr [1]) end).
Definition act_out : list ptr -> body (option err) := fun _ => BOutput "done" (BRet None).
Definition act_ev : list ptr -> body (option err) := fun _ => BMut (fun h => hset h 1 (set_dirty (h 1) true)) (BRet None).
Notation run98 ini build act := (let x := run_command (ex_cfg true false BusPlain None 0 all_ok) ini (command_main build act) (new_stage ex_heap0) in (fst x, map fst (s_trace (snd x)))).
Example C98_example :
  run98 (inr ["k"]) build1 act_out = (Done (mkResult None false [] (Some "done")), [KLock "ddd_engine_k"; KBegin; KBuild 1; KCommit; KUnLock "ddd_engine_k"]) /\
  run98 (inr ["k"]) build1 act_ev = (Done (mkResult None false [mkAction OpUpdate [m_r] [Some m_r]] None), [KLock "ddd_engine_k"; KBegin; KBuild 1; KExec (mkAction OpUpdate [m_r] [Some m_r]); KCommit; KUnLock "ddd_engine_k"]) /\
  run98 (inl (EUser 9)) build1 act_out = (Done (fail (EUser 9)), []) /\
  run98 (inr ["k"]) (BRet (inl (EUser 8))) act_ev = (Done (fail (EUser 8)), [KLock "ddd_engine_k"; KBegin; KRollback; KUnLock "ddd_engine_k"]) /\
  run98 (inr ["k"]) (BRet (inr [3])) act_ev = (Done (fail EMustHaveID), [KLock "ddd_engine_k"; KBegin; KRollback; KUnLock "ddd_engine_k"]).
Proof. repeat split; vm_compute; reflexivity. Qed.
Example C98_reading_example : builder build1 /\ (forall roots, looker (act_out roots)) /\
  forall tr roots sb, run_body (ex_cfg true false BusPlain None 0 all_ok) build1 (with_trace (new_stage ex_heap0) tr) = (Done (inr roots), sb) ->
    forall p, reach (findChildren (s_heap sb) roots) meta p -> e_dirty (s_heap sb p) = false /\ e_events (s_heap sb p) = [].
Proof.
  split; [constructor; intros []; constructor|]. split; [intros roots; repeat constructor|]. intros tr roots sb H p _. cbn in H. injection H as _ <-. cbn.
  assert (A : forall q, e_dirty (ex_heap0 q) = false /\ e_events (ex_heap0 q) = []) by (intros [|[|[|q]]]; split; reflexivity). apply A.
Qed.

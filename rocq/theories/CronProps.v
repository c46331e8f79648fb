(** C71: cron tasks and commands as event handlers. *)
From Verif Require Import CronModel RouterProps TimerProps.
Local Open Scope string_scope.
Local Open Scope list_scope.
Local Open Scope nat_scope.

(** * Specification *)
(** The event type, or cron key, a registration is for. *)
Definition for_key (o : gop) : string := match o with GHandler t _ => t | GEngine t _ => t | GCron key _ _ _ _ => key end.
(** It is RegisterCronTask or RegisterCronTaskOfCommand. *)
Definition is_cron (o : gop) : bool := match o with GCron _ _ _ _ _ => true | _ => false end.
(** encoding/json gives back the key and the expression it was given (true for valid UTF-8; other bytes are replaced). *)
Definition json_ok (marshal : string -> string -> nat) (unmarshal : nat -> option nat) (key_of cron_of : nat -> string) (key cron : string) : Prop :=
  exists v, unmarshal (marshal key cron) = Some v /\ key_of v = key /\ cron_of v = cron.

Section Proofs.
  Variable unmarshal : nat -> option nat.
  Variable parse : string -> option (nat -> nat).
  Variable zero_ok : bool.
  Variable timer : option string.
  Notation gstep := (gstep unmarshal parse zero_ok timer).
  Notation gall := (gall unmarshal parse zero_ok timer).

  Lemma gall_app os1 : forall id os2 r d, gall id (os1 ++ os2) r d =
    let '(x, (r1, d1)) := gall id os1 r d in let '(y, z) := gall (id + length os1) os2 r1 d1 in (x ++ y, z).
  Proof.
    induction os1 as [|o os1 IH]; intros id os2 r d; cbn.
    - rewrite Nat.add_0_r. now destruct (gall id os2 r d).
    - destruct (gstep id o r d) as [x [r' d']]. rewrite IH. destruct (gall (S id) os1 r' d') as [xs [r1 d1]]. rewrite Nat.add_succ_r. cbn. destruct (gall (S (id + length os1)) os2 r1 d1). reflexivity.
  Qed.
  Lemma gall_length os : forall id r d, length (fst (gall id os r d)) = length os.
  Proof. induction os as [|o os IH]; intros id r d; cbn; auto. destruct (gstep id o r d) as [x [r' d']]. specialize (IH (S id) r' d'). destruct (gall (S id) os r' d'). cbn in *. now rewrite IH. Qed.

  (** the router holds no empty list *)
  Definition nonempty (r : router) : Prop := forall t l, assoc t (r_handlers r) = Some l -> l <> [].
  Lemma has_iff r t : nonempty r -> (has_handler t r = true <-> rhandlers t r <> []).
  Proof. intros N. unfold has_handler, rhandlers. destruct (assoc t (r_handlers r)) as [l|] eqn:E; (split; [|]). - intros _. exact (N t l E). - reflexivity. - discriminate. - intros X. now elim X. Qed.
  Lemma register_adds t id s r r' : register_handler t id s r = Some r' ->
    exists c a e, s = VFun c a e /\ r' = mkR (rappend t (mkH id c a e) (r_handlers r)) (r_checkers r).
  Proof. destruct s as [| |c a e]; cbn; try discriminate. destruct c, a, e; try discriminate; intros [= <-]; eauto 10. Qed.
  Lemma register_rh t id s r r' : register_handler t id s r = Some r' -> exists h, rh_id h = id /\ rhandlers t r' = rhandlers t r ++ [h] /\ (forall t', t' <> t -> rhandlers t' r' = rhandlers t' r) /\ (nonempty r -> nonempty r') /\ (forall c a e, s = VFun c a e -> h = mkH id c a e).
  Proof.
    intros H. destruct (register_adds _ _ _ _ _ H) as (c & a & e & Es & ->). exists (mkH id c a e). split; [reflexivity|]. unfold rhandlers, nonempty. cbn [r_handlers]. split; [|split; [|split]].
    - rewrite assoc_rappend, String.eqb_refl. now destruct (assoc t (r_handlers r)).
    - intros t' N. rewrite assoc_rappend. apply String.eqb_neq in N. now rewrite N.
    - intros N t' l. rewrite assoc_rappend. destruct (String.eqb t' t); [|apply N]. intros [= <-]. destruct (assoc t' (r_handlers r)) as [[|]|]; discriminate.
    - intros c' a' e' X. rewrite Es in X. now injection X as <- <- <-.
  Qed.
  (** what a registration does to the router *)
  Inductive effect (id : nat) (o : gop) (r r' : router) : Prop :=
  | eff_none : r' = r -> effect id o r r'
  | eff_add s : register_handler (for_key o) id s r = Some r' -> effect id o r r'.
  Lemma gstep_effect id o r d x r' d' : gstep id o r d = (x, (r', d')) -> effect id o r r' /\ (x = GOk -> exists s, register_handler (for_key o) id s r = Some r') /\
    (is_cron o = true -> has_handler (for_key o) r = true -> x = GPanic /\ r' = r /\ d' = d) /\ (is_cron o = false -> d' = d).
  Proof.
    destruct o as [t s|t s|key expr cmd now up]; cbn [CronModel.gstep for_key is_cron].
    - destruct (register_handler t id s r) as [r1|] eqn:E; intros [= <- <- <-]; (split; [|split; [|split]]); try discriminate; auto; first [eapply eff_add; exact E|now apply eff_none|intros _; eexists; exact E].
    - unfold engine_register. destruct s as [| |a]; [| |destruct a]; try (intros [= <- <- <-]; (split; [|split; [|split]]); try discriminate; auto; now apply eff_none).
      all: destruct (register_handler t id _ r) as [r1|] eqn:E; intros [= <- <- <-]; (split; [|split; [|split]]); try discriminate; auto; first [eapply eff_add; exact E|now apply eff_none|intros _; eexists; exact E].
    - unfold cron_register. destruct (has_handler key r) eqn:Hh; [intros [= <- <- <-]; (split; [|split; [|split]]); try discriminate; auto; now apply eff_none|].
      assert (E : exists s, (if cmd then engine_register key id (KsFun (AEvent unmarshal)) r else register_handler key id (VFun CtxContext (AEvent unmarshal) EtNilable) r) = register_handler key id s r /\ register_handler key id s r <> None).
      { destruct cmd; [exists (VFun CtxContext ADomainEvent EtNilable)|exists (VFun CtxContext (AEvent unmarshal) EtNilable)]; cbn; split; auto; discriminate. }
      destruct E as (s & -> & N). destruct (register_handler key id s r) as [r1|] eqn:E; [|contradiction]. destruct (run_cron _ _ _ _ _ _ _ _) as [ok d1]. intros [= <- <- <-].
      (split; [|split; [|split]]); try discriminate; first [eapply eff_add; exact E|intros _; eexists; exact E].
  Qed.
  Lemma effect_nonempty id o r r' : effect id o r r' -> nonempty r -> nonempty r'.
  Proof. intros [->|s E]; auto. destruct (register_rh _ _ _ _ _ E) as (h & _ & _ & _ & N & _). exact N. Qed.
  Lemma effect_has id o r r' t : effect id o r r' -> has_handler t r = true -> has_handler t r' = true.
  Proof.
    intros [->|s E]; auto. destruct (register_adds _ _ _ _ _ E) as (c & a & e & _ & ->). unfold has_handler. cbn [r_handlers]. rewrite assoc_rappend. destruct (String.eqb t (for_key o)); auto.
  Qed.
  Lemma gall_nonempty os : forall id r d xs r' d', gall id os r d = (xs, (r', d')) -> nonempty r -> nonempty r'.
  Proof.
    induction os as [|o os IH]; intros id r d xs r' d'; cbn; [intros [= <- <- <-]; auto|]. destruct (gstep id o r d) as [x [r1 d1]] eqn:E. destruct (gall (S id) os r1 d1) as [ys [r2 d2]] eqn:E2. intros [= <- <- <-] N.
    eapply IH; [exact E2|]. eapply effect_nonempty; [|exact N]. now apply (gstep_effect id o r d x r1 d1).
  Qed.
  Lemma gall_has os t : forall id r d xs r' d', gall id os r d = (xs, (r', d')) -> has_handler t r = true -> has_handler t r' = true.
  Proof.
    induction os as [|o os IH]; intros id r d xs r' d'; cbn; [intros [= <- <- <-]; auto|]. destruct (gstep id o r d) as [x [r1 d1]] eqn:E. destruct (gall (S id) os r1 d1) as [ys [r2 d2]] eqn:E2. intros [= <- <- <-] N.
    eapply IH; [exact E2|]. eapply effect_has; [|exact N]. now apply (gstep_effect id o r d x r1 d1).
  Qed.
  (** a registration that succeeded has put a handler in *)
  Lemma gall_ok os : forall id r d xs r' d' i o, gall id os r d = (xs, (r', d')) -> nth_error os i = Some o -> nth_error xs i = Some GOk -> has_handler (for_key o) r' = true.
  Proof.
    induction os as [|o1 os IH]; intros id r d xs r' d' i o; cbn; [destruct i; discriminate|]. destruct (gstep id o1 r d) as [x [r1 d1]] eqn:E. destruct (gall (S id) os r1 d1) as [ys [r2 d2]] eqn:E2. intros [= <- <- <-] No Nx.
    destruct i as [|i]; cbn in No, Nx; [|eapply IH; eauto]. injection No as ->. injection Nx as ->. eapply gall_has; [exact E2|].
    destruct (gstep_effect id o r d _ _ _ E) as (_ & S & _). destruct (S eq_refl) as (s & R). destruct (register_adds _ _ _ _ _ R) as (c & a & e & _ & ->). unfold has_handler. cbn [r_handlers]. rewrite assoc_rappend, String.eqb_refl. reflexivity.
  Qed.
  (** later registrations leave the handlers of a taken key alone, unless they are plain ones for it *)
  Lemma gall_keeps os t : forall id r d xs r' d', gall id os r d = (xs, (r', d')) -> has_handler t r = true -> (forall o, In o os -> for_key o = t -> is_cron o = true) -> rhandlers t r' = rhandlers t r.
  Proof.
    induction os as [|o os IH]; intros id r d xs r' d'; cbn; [intros [= <- <- <-]; auto|]. destruct (gstep id o r d) as [x [r1 d1]] eqn:E. destruct (gall (S id) os r1 d1) as [ys [r2 d2]] eqn:E2. intros [= <- <- <-] H C.
    destruct (gstep_effect id o r d _ _ _ E) as (F & _ & K & _). pose proof (effect_has id o r r1 t F H) as H1.
    rewrite (IH _ _ _ _ _ _ E2 H1) by (intros o' Ho; apply C; now right).
    destruct F as [->|s R]; auto. destruct (register_rh _ _ _ _ _ R) as (h & _ & _ & O & _). destruct (String.eqb_spec t (for_key o)) as [Et|N]; [|now apply O].
    destruct K as (_ & -> & _); [apply C; auto|now rewrite <- Et|reflexivity].
  Qed.
  Lemma nonempty0 : nonempty rinit.
  Proof. intros t l. discriminate. Qed.

  (** the handlers of the key of a successful cron registration *)
  Lemma cron_handlers os d0 xs r d i key expr cmd now up : gall 0 os rinit d0 = (xs, (r, d)) -> nth_error os i = Some (GCron key expr cmd now up) -> nth_error xs i = Some GOk ->
    (forall j o, i < j -> nth_error os j = Some o -> for_key o = key -> is_cron o = true) ->
    rhandlers key r = [mkH i CtxContext (if cmd then ADomainEvent else AEvent unmarshal) EtNilable].
  Proof.
    intros G No Nx C. destruct (nth_error_split os i No) as (os1 & os2 & -> & Li). rewrite gall_app in G. destruct (gall 0 os1 rinit d0) as [x1 [r1 d1]] eqn:G1. cbn [plus] in G.
    pose proof (gall_nonempty _ _ _ _ _ _ _ G1 nonempty0) as N1. pose proof (gall_length os1 0 rinit d0) as L1. rewrite G1 in L1. cbn [fst] in L1. rewrite Li in G.
    cbn [CronModel.gall] in G. destruct (gstep i (GCron key expr cmd now up) r1 d1) as [x [r2 d2]] eqn:Gs. destruct (gall (S i) os2 r2 d2) as [x2 [r3 d3]] eqn:G2. injection G as <- <- <-.
    rewrite nth_error_app2 in Nx by lia. replace (i - length x1) with 0 in Nx by lia. cbn in Nx. injection Nx as ->.
    destruct (gstep_effect _ _ _ _ _ _ _ Gs) as (F & _ & K & _). destruct (has_handler key r1) eqn:Hh; [destruct K as (X & _); auto; discriminate|].
    assert (R1 : rhandlers key r1 = []). { destruct (rhandlers key r1) eqn:E; auto. assert (has_handler key r1 = true) by (apply has_iff; auto; congruence). congruence. }
    assert (R2 : rhandlers key r2 = [mkH i CtxContext (if cmd then ADomainEvent else AEvent unmarshal) EtNilable]).
    { cbn [CronModel.gstep] in Gs. unfold cron_register in Gs. rewrite Hh in Gs.
      assert (E : (if cmd then engine_register key i (KsFun (AEvent unmarshal)) r1 else register_handler key i (VFun CtxContext (AEvent unmarshal) EtNilable) r1) = register_handler key i (VFun CtxContext (if cmd then ADomainEvent else AEvent unmarshal) EtNilable) r1) by (destruct cmd; reflexivity).
      rewrite E in Gs. destruct (register_handler key i _ r1) as [r4|] eqn:R; [|destruct cmd; discriminate]. destruct (run_cron _ _ _ _ _ _ _ _) as [ok d4]. injection Gs as _ -> _.
      destruct (register_rh _ _ _ _ _ R) as (h & _ & A & _ & _ & B). rewrite A, R1. rewrite (B _ _ _ eq_refl). reflexivity. }
    rewrite <- R2. apply (gall_keeps os2 key _ _ _ _ _ _ G2).
    - apply has_iff; [eapply effect_nonempty; eauto|congruence].
    - intros o Ho Ek. destruct (In_nth_error os2 o Ho) as (j & Hj). apply (C (S (i + j)) o); auto; [lia|]. rewrite nth_error_app2 by lia. replace (S (i + j) - length os1) with (S j) by lia. exact Hj.
  Qed.
End Proofs.

Section Theorems.
  (** all parameters of the model: JSON, the cron library, the user's functions *)
  Variable marshal : string -> string -> nat.
  Variable unmarshal : nat -> option nat.
  Variable key_of cron_of : nat -> string.
  Variable parse : string -> option (nat -> nat).
  Variable zero_ok : bool.
  Variable timer : option string.
  Variable user : list (nat * harg) -> nat -> harg -> hout.
  Variable task : list (nat * harg) -> nat -> string -> string -> bool.
  Variable make : list (nat * harg) -> nat -> string -> string -> built.
  Variable construct : list (nat * harg) -> nat -> harg -> built.
  Variable run : list (nat * harg) -> nat -> ranres.
  Variable json_err : nat.
  Notation gall := (gall unmarshal parse zero_ok timer).
  Notation gstep := (gstep unmarshal parse zero_ok timer).
  Notation on_timer := (on_timer marshal unmarshal key_of cron_of user task make construct run json_err).
  Notation gbeh := (gbeh unmarshal key_of cron_of user task make construct run json_err).

  (** When the timer fires for the key of a cron task that was registered successfully, the task is called, once, with the key and
      the expression of the timer, and the callback returns nil; a panic of the task goes through. *)
  Theorem C71_cron_task_called :
    forall os d0 xs r d i key expr now up, gall 0 os rinit d0 = (xs, (r, d)) -> nth_error os i = Some (GCron key expr false now up) -> nth_error xs i = Some GOk ->
      (forall j o, i < j -> nth_error os j = Some o -> for_key o = key -> is_cron o = true) ->
      forall cron past, json_ok marshal unmarshal key_of cron_of key cron ->
        exists v, key_of v = key /\ cron_of v = cron /\ on_timer os r key cron past = (if task past i key cron then OnNil else OnPanic, (i, GotPayload v) :: past).
  Proof.
    intros os d0 xs r d i key expr now up G No Nx C cron past (v & J1 & J2 & J3). exists v. split; [exact J2|]. split; [exact J3|].
    unfold CronModel.on_timer, on_event. cbn [ev_type]. rewrite (cron_handlers unmarshal parse zero_ok timer os d0 xs r d i key expr false now up G No Nx C).
    cbn [call_handlers rh_arg rh_ctx rh_id rh_err biz_arg ev_payload]. rewrite J1. cbn [option_map]. unfold CronModel.gbeh. rewrite No, J2, J3. destruct (task past i key cron); reflexivity.
  Qed.
  (** The same for a task that is a command: it is made with the key and the expression, run once, and the error of the run is
      returned; a run without error, also one stopped by ErrBreak, returns nil. *)
  Theorem C71_cron_command_run :
    forall os d0 xs r d i key expr now up, gall 0 os rinit d0 = (xs, (r, d)) -> nth_error os i = Some (GCron key expr true now up) -> nth_error xs i = Some GOk ->
      (forall j o, i < j -> nth_error os j = Some o -> for_key o = key -> is_cron o = true) ->
      forall cron past, json_ok marshal unmarshal key_of cron_of key cron ->
        on_timer os r key cron past =
          (match make past i key cron with
           | BCmd c => match run past c with RunDone => OnNil | RunError n => OnErr n | RunPanic => OnPanic end
           | _ => OnPanic
           end, (i, GotEvent (mkE key (marshal key cron))) :: past).
  Proof.
    intros os d0 xs r d i key expr now up G No Nx C cron past (v & J1 & J2 & J3).
    unfold CronModel.on_timer, on_event. cbn [ev_type]. rewrite (cron_handlers unmarshal parse zero_ok timer os d0 xs r d i key expr true now up G No Nx C).
    cbn [call_handlers rh_arg rh_ctx rh_id rh_err biz_arg]. unfold CronModel.gbeh. rewrite No. cbn [ev_payload]. rewrite J1, J2, J3. unfold run_built.
    destruct (make past i key cron) as [c| |]; try reflexivity. destruct (run past c); reflexivity.
  Qed.
  (** A command registered as the only handler of an event type: the callback fails - so that the bus delivers again - exactly when
      the payload cannot be decoded or the run of the command made from the decoded event fails. *)
  Theorem C71_event_command_run :
    forall os d0 xs r d i t a, gall 0 os rinit d0 = (xs, (r, d)) -> nth_error os i = Some (GEngine t (KsFun a)) -> nth_error xs i = Some GOk ->
      (forall j o, nth_error os j = Some o -> for_key o = t -> j = i) ->
      forall p past, on_event (gbeh os) r (mkE t p) past =
        (match biz_arg a (mkE t p) with
         | None => OnErr json_err
         | Some g => match construct past i g with
                     | BCmd c => match run past c with RunDone => OnNil | RunError n => OnErr n | RunPanic => OnPanic end
                     | _ => OnPanic
                     end
         end, (i, GotEvent (mkE t p)) :: past).
  Proof.
    intros os d0 xs r d i t a G No Nx C p past.
    assert (R : rhandlers t r = [mkH i CtxContext ADomainEvent EtNilable]).
    { destruct (nth_error_split os i No) as (os1 & os2 & -> & Li). rewrite gall_app in G. destruct (gall 0 os1 rinit d0) as [x1 [r1 d1]] eqn:G1. cbn [plus] in G. pose proof (gall_length unmarshal parse zero_ok timer os1 0 rinit d0) as L1. rewrite G1 in L1. cbn [fst] in L1. rewrite Li in G.
      cbn [CronModel.gall] in G. destruct (gstep i (GEngine t (KsFun a)) r1 d1) as [x [r2 d2]] eqn:Gs. destruct (gall (S i) os2 r2 d2) as [x2 [r3 d3]] eqn:G2. injection G as <- <- <-.
      rewrite nth_error_app2 in Nx by lia. replace (i - length x1) with 0 in Nx by lia. cbn in Nx. injection Nx as ->.
      assert (Other : forall os id r0 d xs r' d', gall id os r0 d = (xs, (r', d')) -> (forall o, In o os -> for_key o <> t) -> rhandlers t r' = rhandlers t r0).
      { clear. induction os as [|o os IH]; intros id r0 d xs r' d'; cbn; [intros [= <- <- <-]; auto|]. destruct (gstep id o r0 d) as [x [ra da]] eqn:E. destruct (gall (S id) os ra da) as [ys [rb db]] eqn:E2. intros [= <- <- <-] N.
        rewrite (IH _ _ _ _ _ _ E2) by (intros o' Ho; apply N; now right). destruct (gstep_effect _ _ _ _ _ _ _ _ _ _ _ E) as (F & _). destruct F as [->|s R]; auto. destruct (register_rh _ _ _ _ _ R) as (h & _ & _ & O & _). apply O. specialize (N o (or_introl eq_refl)). congruence. }
      assert (A1 : rhandlers t r1 = []). { rewrite (Other _ _ _ _ _ _ _ G1); [reflexivity|]. intros o Ho Ek. destruct (In_nth_error os1 o Ho) as (j & Hj). assert (j < length os1) by (apply nth_error_Some; congruence). assert (j = i); [|lia]. apply (C j o); auto. now rewrite nth_error_app1. }
      rewrite (Other _ _ _ _ _ _ _ G2).
      - cbn [CronModel.gstep] in Gs. assert (E : engine_register t i (KsFun a) r1 = Some r2) by (destruct (engine_register t i (KsFun a) r1); congruence).
        assert (E' : register_handler t i (VFun CtxContext ADomainEvent EtNilable) r1 = Some r2) by (destruct a; [exact E|exact E|discriminate]).
        destruct (register_rh _ _ _ _ _ E') as (h & _ & B1 & _ & _ & B2). rewrite B1, A1, (B2 _ _ _ eq_refl). reflexivity.
      - intros o Ho Ek. destruct (In_nth_error os2 o Ho) as (j & Hj). assert (S (i + j) = i); [|lia]. apply (C _ o); auto. rewrite nth_error_app2 by lia. replace (S (i + j) - length os1) with (S j) by lia. exact Hj. }
    unfold on_event. cbn [ev_type]. rewrite R. cbn [call_handlers rh_arg rh_ctx rh_id rh_err biz_arg]. unfold CronModel.gbeh. rewrite No.
    destruct (biz_arg a (mkE t p)) as [g|]; [|reflexivity]. unfold run_built. destruct (construct past i g) as [c| |]; try reflexivity. destruct (run past c); reflexivity.
  Qed.

  (** A plain handler function registered as the only handler of an event type, in a program that registers commands and cron tasks
      for other types: it is called once with the event (or its decoded payload), and its answer is the answer of the callback. *)
  Theorem C71_event_handler_called :
    forall os d0 xs r d i t a, gall 0 os rinit d0 = (xs, (r, d)) -> nth_error os i = Some (GHandler t (VFun CtxContext a EtNilable)) -> nth_error xs i = Some GOk ->
      (forall j o, nth_error os j = Some o -> for_key o = t -> j = i) ->
      forall p past, on_event (gbeh os) r (mkE t p) past =
        match biz_arg a (mkE t p) with
        | None => (OnDecode, past)
        | Some g => (match user past i g with HNil => OnNil | HErr n => OnErr n | HPanic => OnPanic end, (i, g) :: past)
        end.
  Proof.
    intros os d0 xs r d i t a G No Nx C p past.
    assert (R : rhandlers t r = [mkH i CtxContext a EtNilable]).
    { destruct (nth_error_split os i No) as (os1 & os2 & -> & Li). rewrite gall_app in G. destruct (gall 0 os1 rinit d0) as [x1 [r1 d1]] eqn:G1. cbn [plus] in G. pose proof (gall_length unmarshal parse zero_ok timer os1 0 rinit d0) as L1. rewrite G1 in L1. cbn [fst] in L1. rewrite Li in G.
      cbn [CronModel.gall] in G. destruct (gstep i (GHandler t (VFun CtxContext a EtNilable)) r1 d1) as [x [r2 d2]] eqn:Gs. destruct (gall (S i) os2 r2 d2) as [x2 [r3 d3]] eqn:G2. injection G as <- <- <-.
      rewrite nth_error_app2 in Nx by lia. replace (i - length x1) with 0 in Nx by lia. cbn in Nx. injection Nx as ->.
      assert (Other : forall os id r0 d xs r' d', gall id os r0 d = (xs, (r', d')) -> (forall o, In o os -> for_key o <> t) -> rhandlers t r' = rhandlers t r0).
      { clear. induction os as [|o os IH]; intros id r0 d xs r' d'; cbn; [intros [= <- <- <-]; auto|]. destruct (gstep id o r0 d) as [x [ra da]] eqn:E. destruct (gall (S id) os ra da) as [ys [rb db]] eqn:E2. intros [= <- <- <-] N.
        rewrite (IH _ _ _ _ _ _ E2) by (intros o' Ho; apply N; now right). destruct (gstep_effect _ _ _ _ _ _ _ _ _ _ _ E) as (F & _). destruct F as [->|s R]; auto. destruct (register_rh _ _ _ _ _ R) as (h & _ & _ & O & _). apply O. specialize (N o (or_introl eq_refl)). congruence. }
      assert (A1 : rhandlers t r1 = []). { rewrite (Other _ _ _ _ _ _ _ G1); [reflexivity|]. intros o Ho Ek. destruct (In_nth_error os1 o Ho) as (j & Hj). assert (j < length os1) by (apply nth_error_Some; congruence). assert (j = i); [|lia]. apply (C j o); auto. now rewrite nth_error_app1. }
      rewrite (Other _ _ _ _ _ _ _ G2).
      - cbn [CronModel.gstep] in Gs. assert (E' : register_handler t i (VFun CtxContext a EtNilable) r1 = Some r2) by (destruct (register_handler t i (VFun CtxContext a EtNilable) r1); congruence).
        destruct (register_rh _ _ _ _ _ E') as (h & _ & B1 & _ & _ & B2). rewrite B1, A1, (B2 _ _ _ eq_refl). reflexivity.
      - intros o Ho Ek. destruct (In_nth_error os2 o Ho) as (j & Hj). assert (S (i + j) = i); [|lia]. apply (C _ o); auto. rewrite nth_error_app2 by lia. replace (S (i + j) - length os1) with (S j) by lia. exact Hj. }
    unfold on_event. cbn [ev_type]. rewrite R. cbn [call_handlers rh_arg rh_ctx rh_id rh_err]. unfold CronModel.gbeh. rewrite No.
    destruct (biz_arg a (mkE t p)) as [g|]; [|reflexivity]. destruct (user past i g); reflexivity.
  Qed.

  (** A cron task cannot be registered under a key that has any handler: it panics, and neither the handlers nor the timers change. *)
  Theorem C71_taken_key_refused :
    forall os d0 xs r d i o key expr cmd now up, gall 0 os rinit d0 = (xs, (r, d)) -> nth_error os i = Some o -> for_key o = key -> nth_error xs i = Some GOk ->
      gstep (length os) (GCron key expr cmd now up) r d = (GPanic, (r, d)).
  Proof.
    intros os d0 xs r d i o key expr cmd now up G No Ek Nx. pose proof (gall_ok unmarshal parse zero_ok timer os 0 rinit d0 xs r d i o G No Nx) as H. rewrite Ek in H. cbn [CronModel.gstep]. unfold cron_register. now rewrite H.
  Qed.

  Lemma cron_table id o r0 d x ra da : gstep id o r0 d = (x, (ra, da)) -> forall j, (In j (t_rows d) -> In j (t_rows da)) /\ (In j (t_rows da) -> In j (t_rows d) \/ has_handler (j_key j) ra = true).
  Proof.
    intros E j. destruct (is_cron o) eqn:Ic; [|destruct (gstep_effect _ _ _ _ _ _ _ _ _ _ _ E) as (_ & _ & _ & D); rewrite (D Ic); auto]. destruct o as [| |k e c n u]; try discriminate.
    cbn [CronModel.gstep] in E. unfold cron_register in E. destruct (has_handler k r0); [injection E as _ _ <-; auto|].
    assert (Er : exists s, (if c then engine_register k id (KsFun (AEvent unmarshal)) r0 else register_handler k id (VFun CtxContext (AEvent unmarshal) EtNilable) r0) = register_handler k id s r0) by (destruct c; eexists; reflexivity).
    destruct Er as (s & Er). rewrite Er in E. destruct (register_handler k id s r0) as [rc|] eqn:R; [|injection E as _ _ <-; auto].
    assert (Hk : has_handler k rc = true). { destruct (register_adds _ _ _ _ _ R) as (c1 & a & e1 & _ & ->). unfold has_handler. cbn [r_handlers]. rewrite assoc_rappend, String.eqb_refl. reflexivity. }
    unfold run_cron in E. destruct timer as [svc|]; [|injection E as _ _ <-; auto]. destruct u; [|injection E as _ _ <-; auto].
    destruct (timer_run parse zero_ok svc k (ReqCron e) 0 n d) as [rr dd] eqn:T. assert (X : (In j (t_rows d) -> In j (t_rows dd)) /\ (In j (t_rows dd) -> In j (t_rows d) \/ has_handler (j_key j) rc = true)).
    { destruct (C50_register_partial _ _ _ _ _ _ _ _ _ _ T) as ([->|(_ & jj & -> & _ & Kj & _)] & _); auto. split; intros H; [apply in_or_app; now left|]. apply in_app_or in H. destruct H as [H|[<-|[]]]; auto. right. now rewrite Kj. }
    destruct rr; injection E as _ <- <-; exact X.
  Qed.
  Lemma cron_tables os : forall id r0 d xs ra da, gall id os r0 d = (xs, (ra, da)) -> forall j, (In j (t_rows d) -> In j (t_rows da)) /\ (In j (t_rows da) -> In j (t_rows d) \/ has_handler (j_key j) ra = true).
  Proof.
    induction os as [|o os IH]; intros id r0 d xs r' d'; cbn; [intros [= <- <- <-]; auto|]. destruct (gstep id o r0 d) as [x [ra da]] eqn:E. destruct (gall (S id) os ra da) as [ys [rb db]] eqn:E2. intros [= <- <- <-] j.
    destruct (cron_table _ _ _ _ _ _ _ E j) as [A B]. destruct (IH _ _ _ _ _ _ E2 j) as [A2 B2]. split; auto. intros H. destruct (B2 H) as [H1|H1]; auto. destruct (B H1) as [H2|H2]; auto. right. eapply gall_has; eauto.
  Qed.
  (** Successful registration of a cron task leaves a timer of the service with its key: the one that was there before, with whatever
      expression it has, or a new one with the given expression, due at its next time. *)
  Theorem C71_registered_timer_exists :
    forall os d0 xs r d i key expr cmd now up, gall 0 os rinit d0 = (xs, (r, d)) -> nth_error os i = Some (GCron key expr cmd now up) -> nth_error xs i = Some GOk -> key <> "" -> expr <> "" ->
      exists svc j f, timer = Some svc /\ parse expr = Some f /\ In j (t_rows d) /\ j_key j = key /\ j_service j = svc /\
        (In j (t_rows d0) \/ (forall j0, In j0 (t_rows d0) -> j_key j0 <> key) /\ j_cron j = expr /\ j_next j = f now /\ j_status j = TToRun).
  Proof.
    intros os d0 xs r d i key expr cmd now up G No Nx Nk Ne.
    destruct (nth_error_split os i No) as (os1 & os2 & -> & Li). rewrite gall_app in G. destruct (gall 0 os1 rinit d0) as [x1 [r1 d1]] eqn:G1. cbn [plus] in G. pose proof (gall_length unmarshal parse zero_ok timer os1 0 rinit d0) as L1. rewrite G1 in L1. cbn [fst] in L1. rewrite Li in G.
    cbn [CronModel.gall] in G. destruct (gstep i (GCron key expr cmd now up) r1 d1) as [x [r2 d2]] eqn:Gs. destruct (gall (S i) os2 r2 d2) as [x2 [r3 d3]] eqn:G2. injection G as <- <- <-.
    rewrite nth_error_app2 in Nx by lia. replace (i - length x1) with 0 in Nx by lia. cbn in Nx. injection Nx as ->.
    pose proof (cron_tables _ _ _ _ _ _ _ G1) as M1. pose proof (cron_tables _ _ _ _ _ _ _ G2) as M2.
    cbn [CronModel.gstep] in Gs. unfold cron_register in Gs. destruct (has_handler key r1) eqn:Hh; [discriminate|].
    destruct (if cmd then _ else _) as [rc|]; [|discriminate]. unfold run_cron in Gs. destruct timer as [svc|]; [|discriminate]. destruct up; [|discriminate].
    destruct (timer_run parse zero_ok svc key (ReqCron expr) 0 now d1) as [rr dd] eqn:T. destruct rr; try discriminate. injection Gs as _ <-. exists svc.
    pose proof T as T'. unfold timer_run in T. cbn [new_job] in T. destruct (job_reset parse now (mkJ 0 svc key expr 0 TToRun 0)) as [jn|] eqn:Jr; [|discriminate].
    unfold job_reset in Jr. cbn [j_cron] in Jr. destruct (String.eqb_spec expr "") as [|_]; [contradiction|]. destruct (parse expr) as [f|] eqn:P; [|discriminate]. injection Jr as <-.
    destruct (job_found svc key d1) eqn:Fd.
    - injection T as <-. unfold job_found in Fd. apply existsb_exists in Fd. destruct Fd as (j & Hj & E). apply andb_true_iff in E. destruct E as [E1 E2]. apply String.eqb_eq in E1. destruct (String.eqb_spec key "") as [|_]; [contradiction|]. cbn [orb] in E2. apply String.eqb_eq in E2.
      exists j, f. repeat (split; auto); [now apply M2|]. left. destruct (M1 j) as [_ B]. destruct (B Hj) as [H|H]; auto. rewrite E2 in H. congruence.
    - destruct (job_insert zero_ok _ d1) as [d4|] eqn:I; [|discriminate]. injection T as <-. unfold job_insert in I. cbn [j_key j_next] in I. destruct (existsb _ (t_rows d1)) eqn:Ex; [discriminate|]. destruct ((f now =? 0) && negb zero_ok); [discriminate|]. injection I as <-.
      exists (mkJ (t_nid d1) svc key expr (f now) TToRun 0), f. cbn [t_rows j_key j_service j_cron j_next j_status] in *. repeat (split; auto).
      + apply M2. cbn [t_rows]. apply in_or_app. right. now left.
      + right. split; auto. intros j0 H0 E0. assert (existsb (fun x => String.eqb (j_key x) key) (t_rows d1) = true); [|congruence]. apply existsb_exists. exists j0. split; [now apply M1|]. now apply String.eqb_eq.
  Qed.
End Theorems.
Print Assumptions C71_cron_task_called.
Print Assumptions C71_cron_command_run.
Print Assumptions C71_event_command_run.
Print Assumptions C71_event_handler_called.
Print Assumptions C71_taken_key_refused.
Print Assumptions C71_registered_timer_exists.

(** Refutation: a registration that fails - a typing error in the expression, the database away for a moment - leaves its handler
    behind, so that registering again, with everything in order, is refused; the timer never exists. *)
Theorem C71_failed_registration_refuted :
  ~ (forall unmarshal parse zero_ok svc os d0 xs r d key expr cmd now f, gall unmarshal parse zero_ok (Some svc) 0 os rinit d0 = (xs, (r, d)) ->
       (forall i o, nth_error os i = Some o -> for_key o = key -> nth_error xs i = Some GPanic) -> key <> "" -> expr <> "" -> parse expr = Some f -> 0 < f now -> (forall j, In j (t_rows d) -> j_key j <> key) ->
       fst (gstep unmarshal parse zero_ok (Some svc) (length os) (GCron key expr cmd now true) r d) = GOk).
Proof.
  intros H. specialize (H (fun _ => None) (fun e => if String.eqb e "ok" then Some (fun t => S t) else None) true "shop" [GCron "job" "ko" false 0 true] (mkTD [] 1)). cbn in H.
  specialize (H _ _ _ "job" "ok" false 5 (fun t => S t) eq_refl). cbn in H. assert (GPanic = GOk); [|discriminate]. apply H; try discriminate; auto; try lia.
  intros [|[|i]] o E; try discriminate. auto.
Qed.
Print Assumptions C71_failed_registration_refuted.
(** Without a timer every registration of a cron task panics and nothing is scheduled. *)
Theorem C71_no_timer :
  forall unmarshal parse zero_ok id key expr cmd now up r d, exists r', gstep unmarshal parse zero_ok None id (GCron key expr cmd now up) r d = (GPanic, (r', d)).
Proof.
  intros. cbn [gstep]. unfold cron_register. destruct (has_handler key r); eauto. destruct (if cmd then _ else _); eauto. unfold run_cron. eauto.
Qed.
Print Assumptions C71_no_timer.
(** Refutation: a program that starts with a changed expression keeps the old one, if the timer exists already: the registration
    succeeds, the timer keeps its old expression and next time, and the task is called with the old expression. *)
Theorem C71_changed_expression_refuted :
  ~ (forall unmarshal parse zero_ok svc os d0 xs r d i key expr cmd now j, gall unmarshal parse zero_ok (Some svc) 0 os rinit d0 = (xs, (r, d)) -> nth_error os i = Some (GCron key expr cmd now true) -> nth_error xs i = Some GOk ->
       key <> "" -> expr <> "" -> In j (t_rows d) -> j_key j = key -> j_cron j = expr).
Proof.
  intros H. specialize (H (fun _ => None) (fun _ => Some (fun t => t + 10)) true "shop" [GCron "job" "@daily" false 0 true] (mkTD [mkJ 1 "shop" "job" "@hourly" 7 TToRun 0] 2)). cbn in H.
  specialize (H _ _ _ 0 "job" "@daily" false 0 (mkJ 1 "shop" "job" "@hourly" 7 TToRun 0) eq_refl eq_refl eq_refl). cbn in H. assert ("@hourly" = "@daily"); [|discriminate]. apply H; try discriminate; auto.
Qed.
Print Assumptions C71_changed_expression_refuted.
(** An instance that has no handler for the key - a task removed from the code, an older version of the program, or one that has not
    got so far with its registrations - takes the firing like any other, does nothing and reports success. *)
Theorem C71_unregistered_instance_refuted :
  ~ (forall marshal unmarshal key_of cron_of user task make construct run json_err os r key cron past calls,
       on_timer marshal unmarshal key_of cron_of user task make construct run json_err os r key cron past = (OnNil, calls) -> calls <> past).
Proof.
  intros H. apply (H (fun _ _ => 0) (fun _ => None) (fun _ => "") (fun _ => "") (fun _ _ _ => HNil) (fun _ _ _ _ => true) (fun _ _ _ _ => BInvalid) (fun _ _ _ => BInvalid) (fun _ _ => RunDone) 0 [] rinit "job" "@daily" [] []); reflexivity.
Qed.
Print Assumptions C71_unregistered_instance_refuted.

(** A program with an event handler, a cron task, a refused second task for the same key, and a command as cron task. *)
Definition c71_ops : list gop :=
  [GHandler "order" (VFun CtxContext ADomainEvent EtNilable); GCron "sweep" "@hourly" false 100 true; GCron "sweep" "@daily" false 100 true; GCron "order" "@daily" false 100 true; GEngine "paid" (KsFun ADomainEvent); GEngine "paid" (KsFun ANotPointer); GCron "report" "@daily" true 100 true].
Definition c71_parse (e : string) : option (nat -> nat) := if String.eqb e "@hourly" then Some (fun t => t + 60) else if String.eqb e "@daily" then Some (fun t => t + 1440) else None.
Definition c71_json (a b : string) : nat := if String.eqb a "sweep" then 1 else 2.
Example C71_example :
  let '(xs, (r, d)) := gall (fun n => Some n) c71_parse false (Some "shop") 0 c71_ops rinit (mkTD [] 1) in
  xs = [GOk; GOk; GPanic; GPanic; GOk; GPanic; GOk] /\
  map (fun j => (j_key j, j_cron j, j_next j)) (t_rows d) = [("sweep", "@hourly", 160); ("report", "@daily", 1540)] /\
  on_timer c71_json (fun n => Some n) (fun n => if n =? 1 then "sweep" else "report") (fun n => if n =? 1 then "@hourly" else "@daily") (fun _ _ _ => HNil) (fun _ _ _ _ => true)
    (fun _ _ _ _ => BCmd 9) (fun _ _ _ => BInvalid) (fun _ c => RunError c) 0 c71_ops r "report" "@daily" [] = (OnErr 9, [(6, GotEvent (mkE "report" 2))]) /\
  on_timer c71_json (fun n => Some n) (fun n => if n =? 1 then "sweep" else "report") (fun n => if n =? 1 then "@hourly" else "@daily") (fun _ _ _ => HNil) (fun _ _ _ _ => true)
    (fun _ _ _ _ => BCmd 9) (fun _ _ _ => BInvalid) (fun _ c => RunError c) 0 c71_ops r "sweep" "@hourly" [] = (OnNil, [(1, GotPayload 1)]).
Proof. vm_compute. auto. Qed.
(** The hypotheses of C71_event_handler_called are met: a handler for "stock", between a command and a cron task. *)
Definition c71_ops2 : list gop := [GEngine "paid" (KsFun ADomainEvent); GHandler "stock" (VFun CtxContext (AEvent (fun n => if n =? 0 then None else Some (n + 1))) EtNilable); GCron "sweep" "@hourly" false 100 true].
Example C71_handler_example :
  let '(xs, (r, d)) := gall (fun n => Some n) c71_parse false (Some "shop") 0 c71_ops2 rinit (mkTD [] 1) in
  let call p := on_event (gbeh (fun n => Some n) (fun _ => "") (fun _ => "") (fun _ _ g => match g with GotPayload 5 => HErr 3 | _ => HNil end) (fun _ _ _ _ => true) (fun _ _ _ _ => BCmd 9) (fun _ _ _ => BInvalid) (fun _ c => RunError c) 0 c71_ops2) r (mkE "stock" p) [] in
  xs = [GOk; GOk; GOk] /\ (forall j o, nth_error c71_ops2 j = Some o -> for_key o = "stock" -> j = 1) /\
  call 0 = (OnDecode, []) /\ call 4 = (OnErr 3, [(1, GotPayload 5)]) /\ call 7 = (OnNil, [(1, GotPayload 8)]).
Proof.
  vm_compute. split; [reflexivity|]. split; [|auto]. intros [|[|[|[|j]]]] o E; try discriminate; injection E as <-; try discriminate; auto.
Qed.

(** * C96: the handlers of an event take effect exactly once - in their data, not only in the delivery record *)
From Verif Require Import BusModel BusSpec BusProof BusWorld BusWorldSpec BusWorldProof BusWorldProof2 BusWorldProof4 BusWorldProof5 BusWorldProof6 BusLockProof BusLockProps EffectModel EffectSpec EffectProof EffectProof2 EffectProof3.
Local Open Scope string_scope. Local Open Scope list_scope.

(** A call recorded as successful called every handler registered for the event, in registration order, each of which answered
    without error (its run committed, or its command broke off) - whatever processes, polls, crashes and cleanings there are. *)
Theorem C96_success_means_all_ran :
  forall A cfgs hs (eff : string -> erow -> nat -> A -> A) m app x c svc e, xreach cfgs hs eff m app x -> In (LRec c svc e HOk) (x_log x) ->
    map fst (runs_of c (x_log x)) = hs svc e /\
    (forall h o, In (h, o) (runs_of c (x_log x)) -> o = ODone \/ o = OBreak) /\
    (forall v e' h o, In (LRun c v e' h o) (x_log x) -> v = svc /\ e' = e).
Proof.
  intros A cfgs hs eff m app x c svc e R H. pose proof (invX_reach cfgs hs eff app m x R) as I. destruct (x_done _ _ _ _ _ I c svc e HOk H) as [[D1 D2] _]. split; auto. split.
  - intros h o Ho. unfold nil_answers in D2. rewrite Forall_forall in D2. specialize (D2 (h, o) Ho). cbn in D2. destruct o; auto; discriminate D2.
  - intros v e' h o Hr. apply (x_tagr _ _ _ _ _ I) in Hr. apply (x_tagd _ _ _ _ _ I) in H. apply (x_tagu _ _ _ _ _ I _ _ _ _ _ Hr H).
Qed.
Print Assumptions C96_success_means_all_ran.

(** A call recorded as failed called the handlers up to the one that failed and none after it. *)
Theorem C96_failure_stops :
  forall A cfgs hs (eff : string -> erow -> nat -> A -> A) m app x c svc e r, xreach cfgs hs eff m app x -> In (LRec c svc e r) (x_log x) -> r <> HOk ->
    exists before h o, runs_of c (x_log x) = before ++ [(h, o)] /\ answer o = Some r /\ (forall h' o', In (h', o') before -> answer o' = None) /\
      exists rest, hs svc e = map fst before ++ h :: rest.
Proof.
  intros A cfgs hs eff m app x c svc e r R H N. pose proof (invX_reach cfgs hs eff app m x R) as I. destruct (x_done _ _ _ _ _ I c svc e r H) as [D _].
  assert (D' : exists k, shape (hs svc e) k (Some r) (runs_of c (x_log x))) by (destruct r; auto; congruence). destruct D' as (k & S1 & S2 & rs & h & o & E & Eo & F).
  exists rs, h, o. split; auto. split; auto. split.
  - intros h' o' Hi. unfold nil_answers in F. rewrite Forall_forall in F. apply (F _ Hi).
  - exists (skipn k (hs svc e)). rewrite <- (firstn_skipn k (hs svc e)) at 1. rewrite <- S1, E, map_app. cbn. now rewrite <- app_assoc.
Qed.
Print Assumptions C96_failure_stops.

(** Every effect is that of a handler registered for an event that was dispatched to the service, and the data are the result
    of these effects, one after the other. *)
Theorem C96_only_what_was_asked_partial :
  forall A cfgs hs (eff : string -> erow -> nat -> A -> A) app x, xreach cfgs hs eff calm_mode app x ->
    x_app x = apply_all eff (effects (x_log x)) app /\
    forall svc e h, In (svc, e, h) (effects (x_log x)) -> dispatched_to (w_hist (x_w x)) svc e /\ In h (hs svc e).
Proof.
  intros A cfgs hs eff app x R. pose proof (invX_reach cfgs hs eff app _ x R) as I. split; [apply (x_data _ _ _ _ _ I)|]. intros svc e h H. apply effects_in in H. destruct H as (c & o & H & _). split.
  - apply (x_tagr _ _ _ _ _ I) in H. apply (x_hcall _ _ _ _ _ I) in H. destruct H as (t & s & H). apply (called_dispatched cfgs calm_mode (x_w x) eq_refl eq_refl (xreach_bus _ _ _ _ _ _ R) t svc e s H).
  - clear I. induction R as [|x a x' R IH Al Ex]; [destruct H|].
    destruct (kinds cfgs hs eff a x x' Ex) as [b Eb N1 N2 Hh Ha Hp Hn Hl|b p e1 s Eb Hh Ho Hhist Ha Hp Hn Hl|p i e1 c1 k h1 o1 Lv Eh Hw Ha Hp Hn Hl|p i e1 s g r sv Ea Eb Ei Lv Er Hh Ho Hhist Ha Hp Hn Hl|p Ea Eb Hh Ho Hhist Ha Hp Hn Hl]; rewrite Hl in H; auto.
    + destruct H as [H|H]; [discriminate H|auto].
    + destruct H as [H|H]; [|auto]. injection H as <- <- <- <- <-. eapply nth_error_In; eauto.
    + destruct sv; auto. destruct H as [H|H]; [discriminate H|auto].
Qed.
Print Assumptions C96_only_what_was_asked_partial.

(** If the polls of a service do not overlap, nobody dies, every result is saved and a failed call leaves nothing behind, then
    the effect of a handler for an event happens at most once ... *)
Theorem C96_at_most_once_partial :
  forall A cfgs hs (eff : string -> erow -> nat -> A -> A) app x svc id h, (forall v e, NoDup (hs v e)) -> xreach cfgs hs eff reliable_mode app x ->
    failures_leave_nothing (x_log x) -> times (x_log x) svc id h <= 1.
Proof.
  intros A cfgs hs eff app x svc id h ND R F. pose proof (invX_reach cfgs hs eff app _ x R) as I.
  destruct (where_reach cfgs hs eff app reliable_mode x svc id eq_refl eq_refl eq_refl eq_refl R F) as [W|p i e g Lg W1 W2 W3 W4|c e W1 W2 W3].
  - rewrite times_none; auto.
  - pose proof (x_shape _ _ _ _ _ I p i e g Lg) as (S1 & _). etransitivity; [apply (times_le _ _ _ _ h W4)|]. rewrite S1.
    apply (proj1 (NoDup_count_occ Nat.eq_dec _)). specialize (ND (c_service (cfgs p)) e). rewrite <- (firstn_skipn (pg_count g)) in ND. revert ND. generalize (skipn (pg_count g) (hs (c_service (cfgs p)) e)). clear.
    induction (firstn (pg_count g) (hs (c_service (cfgs p)) e)) as [|a t IH]; intros l N; [constructor|]. inversion N as [|? ? X Y]; subst. constructor; [intros Z; apply X, in_app_iff; auto|eapply IH; eauto].
  - destruct (x_done _ _ _ _ _ I c svc e HOk W1) as [[D1 _] _]. etransitivity; [apply (times_le _ _ _ _ h W3)|]. rewrite D1. apply (proj1 (NoDup_count_occ Nat.eq_dec _)), ND.
Qed.
Print Assumptions C96_at_most_once_partial.
(** ... and in every history each handler of a successfully recorded event took effect, unless its command broke off. *)
Theorem C96_at_least_once :
  forall A cfgs hs (eff : string -> erow -> nat -> A -> A) m app x svc e h, xreach cfgs hs eff m app x -> recorded (x_log x) svc e -> nothing_broken_off (x_log x) -> In h (hs svc e) ->
    In (svc, e, h) (effects (x_log x)) /\ 1 <= times (x_log x) svc (er_id e) h.
Proof.
  intros A cfgs hs eff m app x svc e h R (c & H) N Hh. destruct (C96_success_means_all_ran A cfgs hs eff m app x c svc e R H) as (D1 & D2 & D3). rewrite <- D1 in Hh. apply in_map_iff in Hh. destruct Hh as ([h' o] & E & Hh). cbn in E. subst h'.
  assert (In (svc, e, h) (effects (x_log x))) as X.
  { apply effects_in. pose proof Hh as Hr. apply runs_of_in in Hr. destruct Hr as (v & e' & Hr). destruct (D3 v e' h o Hr) as [-> ->]. exists c, o. split; auto. destruct (D2 h o Hh) as [->| ->]; auto. destruct (N _ _ _ _ _ Hr). reflexivity. }
  split; auto. unfold times. assert (Y : In (svc, e, h) (filter (fun x0 : string * erow * nat => let '(v, e0, k) := x0 in String.eqb v svc && Nat.eqb (er_id e0) (er_id e) && Nat.eqb k h) (effects (x_log x)))).
  { apply filter_In. split; auto. now rewrite String.eqb_refl, !Nat.eqb_refl. }
  destruct (filter _ _); [destruct Y|cbn; lia].
Qed.
Print Assumptions C96_at_least_once.

(** In particular a single handler whose error always means that nothing was committed takes effect exactly once. *)
Theorem C96_single_handler_partial :
  forall A cfgs hs (eff : string -> erow -> nat -> A -> A) app x svc e h, (forall v e, length (hs v e) <= 1) -> xreach cfgs hs eff reliable_mode app x ->
    (forall c v e' h' o, In (LRun c v e' h' o) (x_log x) -> o <> OLate /\ o <> OLatePanic) ->
    (forall id, times (x_log x) svc id h <= 1) /\ (recorded (x_log x) svc e -> nothing_broken_off (x_log x) -> In h (hs svc e) -> times (x_log x) svc (er_id e) h = 1).
Proof.
  intros A cfgs hs eff app x svc e h L R N.
  assert (F : failures_leave_nothing (x_log x)).
  { intros c v e1 h1 o1 v2 e2 h2 o2 H1 H2 H3. pose proof (invX_reach cfgs hs eff app _ x R) as I.
    assert (K : length (runs_of c (x_log x)) <= 1).
    { clear -L R H1. assert (X : forall c v e h o, In (LRun c v e h o) (x_log x) -> length (runs_of c (x_log x)) <= 1); [|eauto]. clear -L R. clear c v e1 h1 o1 || idtac.
      induction R as [|x a x' R IH Al Ex]; [intros c0 v0 e0 h0 o0 []|]. pose proof (invX_reach cfgs hs eff app _ x R) as I.
      destruct (kinds cfgs hs eff a x x' Ex) as [b Eb N1 N2 Hh Ha Hp Hn Hl|b p e1 s Eb Hh Ho Hhist Ha Hp Hn Hl|p i e1 c1 k h1 o1 Lv Eh Hw Ha Hp Hn Hl|p i e1 s g r sv Ea Eb Ei Lv Er Hh Ho Hhist Ha Hp Hn Hl|p Ea Eb Hh Ho Hhist Ha Hp Hn Hl]; rewrite Hl; auto.
      - intros c0 v0 e0 h0 o0 [H|H]; [discriminate H|]. cbn [runs_of]. eauto.
      - intros c0 v0 e0 h0 o0 H. cbn [runs_of]. destruct (Nat.eqb_spec c1 c0) as [->|Nc].
        + pose proof (x_shape _ _ _ _ _ I _ _ _ _ Lv) as (S1 & S2 & _). cbn in S1, S2. apply (f_equal (@length _)) in S1. rewrite map_length, firstn_length in S1. assert (k < length (hs (c_service (cfgs p)) e1)) by (apply nth_error_Some; rewrite Eh; discriminate).
          specialize (L (c_service (cfgs p)) e1). rewrite app_length, S1. cbn. lia.
        + destruct H as [H|H]; [congruence|eauto].
      - destruct sv; auto. intros c0 v0 e0 h0 o0 [H|H]; [discriminate H|]. cbn [runs_of]. eauto. }
    assert (J1 : In (h1, o1) (runs_of c (x_log x))) by (apply runs_of_in; eauto). assert (J2 : In (h2, o2) (runs_of c (x_log x))) by (apply runs_of_in; eauto).
    assert (o1 = o2) as <-. { destruct (runs_of c (x_log x)) as [|y [|z t]]; cbn in K; [destruct J1| |lia]. destruct J1 as [->|[]], J2 as [J2|[]]. congruence. }
    destruct (N _ _ _ _ _ H1) as [N1 N2]. destruct o1; auto; try (destruct H2; reflexivity); congruence. }
  assert (ND : forall v e, NoDup (hs v e)). { intros v e0. specialize (L v e0). destruct (hs v e0) as [|y [|z t]]; cbn in L; [constructor|constructor; [intros []|constructor]|lia]. }
  pose proof (fun id => C96_at_most_once_partial A cfgs hs eff app x svc id h ND R F) as U. split; auto. intros Rc Nb Hh.
  destruct (C96_at_least_once A cfgs hs eff _ app x svc e h R Rc Nb Hh) as [_ G]. specialize (U (er_id e)). lia.
Qed.
Print Assumptions C96_single_handler_partial.

(** If it does not matter how often and in which order the effects happen, then in every history - crashes, retries, overlapping
    polls - the data are as if each of them had happened once, in any order. *)
Lemma absorb {A} (eff : string -> erow -> nat -> A -> A) : repeatable eff -> forall l v e h a, In (v, e, h) l -> eff v e h (apply_all eff l a) = apply_all eff l a.
Proof.
  intros [P1 P2]. assert (C : forall l v e h a, eff v e h (apply_all eff l a) = apply_all eff l (eff v e h a)).
  { induction l as [|[[v' e'] h'] t IH]; intros v e h a; cbn; auto. change (eff v e h (apply_all eff t (eff v' e' h' a)) = apply_all eff t (eff v' e' h' (eff v e h a))). now rewrite IH, P2. }
  induction l as [|[[v' e'] h'] t IH]; intros v e h a H; [destruct H|]. change (eff v e h (apply_all eff t (eff v' e' h' a)) = apply_all eff t (eff v' e' h' a)).
  destruct H as [H|H]; [|now apply IH]. injection H as -> -> ->. now rewrite C, P1.
Qed.
Lemma same_effects {A} (eff : string -> erow -> nat -> A -> A) : repeatable eff -> forall l l' a, (forall y, In y l <-> In y l') -> apply_all eff l a = apply_all eff l' a.
Proof.
  intros P l l' a E. pose proof P as [P1 P2].
  assert (C : forall l v e h a, eff v e h (apply_all eff l a) = apply_all eff l (eff v e h a)).
  { clear -P2. induction l as [|[[v' e'] h'] t IH]; intros v e h a; cbn; auto. change (eff v e h (apply_all eff t (eff v' e' h' a)) = apply_all eff t (eff v' e' h' (eff v e h a))). now rewrite IH, P2. }
  assert (CC : forall l l' a, apply_all eff l (apply_all eff l' a) = apply_all eff l' (apply_all eff l a)).
  { clear -C. induction l as [|[[v e] h] t IH]; intros l' a; cbn; auto. change (apply_all eff t (eff v e h (apply_all eff l' a)) = apply_all eff l' (apply_all eff t (eff v e h a))). now rewrite C, IH. }
  assert (Ab : forall l l' a, incl l l' -> apply_all eff l (apply_all eff l' a) = apply_all eff l' a).
  { clear -P. induction l as [|[[v e] h] t IH]; intros l' a I; cbn; auto. change (apply_all eff t (eff v e h (apply_all eff l' a)) = apply_all eff l' a). rewrite (absorb eff P l' v e h a) by (apply I; now left). apply IH. intros y Hy. apply I. now right. }
  rewrite <- (Ab l' l a) by (intros y Hy; now apply E). rewrite CC. apply Ab. intros y Hy. now apply E.
Qed.
Theorem C96_as_if_once :
  forall A cfgs hs (eff : string -> erow -> nat -> A -> A) m app x once, repeatable eff -> xreach cfgs hs eff m app x ->
    (forall y, In y once <-> In y (effects (x_log x))) -> x_app x = apply_all eff once app.
Proof.
  intros A cfgs hs eff m app x once P R E. pose proof (invX_reach cfgs hs eff app m x R) as I. rewrite (x_data _ _ _ _ _ I). symmetry. now apply same_effects.
Qed.
Print Assumptions C96_as_if_once.
(** So once everything that was dispatched has been recorded as successful, the data are those of each handler having handled
    each of its events once. *)
Theorem C96_all_settled_partial :
  forall A cfgs hs (eff : string -> erow -> nat -> A -> A) app x once, repeatable eff -> xreach cfgs hs eff calm_mode app x -> nothing_broken_off (x_log x) ->
    (forall svc e, dispatched_to (w_hist (x_w x)) svc e -> processed (w_hist (x_w x)) svc e) ->
    (forall svc e h, In (svc, e, h) once <-> dispatched_to (w_hist (x_w x)) svc e /\ In h (hs svc e)) ->
    x_app x = apply_all eff once app.
Proof.
  intros A cfgs hs eff app x once P R N D E. apply (C96_as_if_once A cfgs hs eff calm_mode app x once P R). intros [[svc e] h]. rewrite E. split.
  - intros [H1 H2]. apply D in H1. pose proof (invX_reach cfgs hs eff app _ x R) as I. destruct H1 as (s & s' & H1). destruct (proj2 (x_hrec _ _ _ _ _ I svc e HOk)) as (c & Hc); [eauto|].
    apply (C96_at_least_once A cfgs hs eff _ app x svc e h R); auto. exists c. auto.
  - apply (C96_only_what_was_asked_partial A cfgs hs eff app x R).
Qed.
Print Assumptions C96_all_settled_partial.

(* ------------------------------------------------------------ concrete histories *)
Definition xallowedb {A} (cfgs : nat -> buscfg) (P : list nat) (m : mode) (x : xworld A) (a : xact) : bool :=
  match a with XBus b => allowedb cfgs P m (x_w x) b | XHandler _ _ _ => true | XEnd p _ saved => memb p P && (m_loss m || saved) end.
Fixpoint xrunc {A} (cfgs : nat -> buscfg) (hs : string -> erow -> list nat) (eff : string -> erow -> nat -> A -> A) (P : list nat) (m : mode) (l : list xact) (x : xworld A) : option (xworld A) :=
  match l with
  | [] => Some x
  | a :: t => if xallowedb cfgs P m x a then match xexec cfgs hs eff a x with Some x' => xrunc cfgs hs eff P m t x' | None => None end else None
  end.
Lemma xexec_bus {A} cfgs hs (eff : string -> erow -> nat -> A -> A) b x x' : xexec cfgs hs eff (XBus b) x = Some x' -> exec cfgs b (x_w x) = Some (x_w x').
Proof.
  destruct x as [w app pg n lg]. cbn [x_w]. intros Ex. destruct b; cbn [xexec] in Ex; try discriminate Ex;
        match type of Ex with match ?z with _ => _ end = _ => destruct z as [w'|] eqn:Z; [|discriminate Ex] end; try (injection Ex as <-; reflexivity).
  destruct (nth_error (in_hand w' p) (length (in_hand w p))) as [[e s]|]; injection Ex as <-; reflexivity.
Qed.
Lemma xrunc_reach {A} cfgs hs (eff : string -> erow -> nat -> A -> A) P m app l : forall x x', quiet P (x_w x) -> xreach cfgs hs eff m app x -> xrunc cfgs hs eff P m l x = Some x' -> xreach cfgs hs eff m app x'.
Proof.
  induction l as [|a t IH]; intros x x' Q R E; cbn [xrunc] in E; [injection E as <-; auto|]. destruct (xallowedb cfgs P m x a) eqn:Al; [|discriminate]. destruct (xexec cfgs hs eff a x) as [x1|] eqn:X; [|discriminate].
  apply (IH x1 x'); auto.
  - destruct a as [b|p i o|p i sv].
    + apply (exec_quiet cfgs P m (x_w x) b (x_w x1) Q Al). eapply xexec_bus; eauto.
    + destruct (kinds cfgs hs eff _ x x1 X) as [b Eb N1 N2 Hh Ha Hp Hn Hl|b p0 e1 s Eb Hh Ho Hhist Ha Hp Hn Hl|p0 i0 e1 c1 k h1 o1 Lv Eh Hw Ha Hp Hn Hl|p0 i0 e1 s g r sv Ea Eb Ei Lv Er Hh Ho Hhist Ha Hp Hn Hl|p0 Ea Eb Hh Ho Hhist Ha Hp Hn Hl]; try discriminate Ea; try (rewrite Hl in *).
      * exfalso. clear -X Hl. destruct x as [w app0 pg n lg]. cbn [xexec] in X. destruct (nth_error (in_hand w p) i) as [[e s]|]; [|discriminate]. destruct (nth_error (pg p) i) as [[c k [r|]]|]; try discriminate. destruct (nth_error (hs _ _) k) as [h|]; [|discriminate]. injection X as <-. cbn in Hl. apply (f_equal (@length _)) in Hl. cbn in Hl. lia.
      * exfalso. clear -X Hn. destruct x as [w app0 pg n lg]. cbn [xexec] in X. destruct (nth_error (in_hand w p) i) as [[e s]|]; [|discriminate]. destruct (nth_error (pg p) i) as [[c k [r|]]|]; try discriminate. destruct (nth_error (hs _ _) k) as [h|]; [|discriminate]. injection X as <-. cbn in Hn. lia.
      * now rewrite Hw.
    + destruct x as [w app0 pg n lg]. cbn [xexec] in X. destruct (nth_error (in_hand w p) i) as [[e s]|]; [|discriminate]. destruct (nth_error (pg p) i) as [g|]; [|discriminate].
      destruct (result_of hs (c_service (cfgs p)) e g) as [r|]; [|discriminate]. destruct (exec cfgs (AEnd p i r sv) w) as [w'|] eqn:Ew; [|discriminate]. injection X as <-. cbn [x_w] in *.
      apply (exec_quiet cfgs P m w (AEnd p i r sv) w' Q); auto. unfold allowedb. cbn. cbn in Al. apply andb_true_iff in Al. destruct Al as [-> ->]. reflexivity.
  - econstructor; [exact R| |exact X]. destruct a as [b|p i o|p i sv]; cbn in *; auto.
    + eapply allowedb_allowed; eauto.
    + apply andb_true_iff in Al. destruct Al as [_ Al]. now apply orb_true_iff.
Qed.

From Verif Require Import BusWorldProps.
(** the data: which handler handled which event, newest first; and, for comparison, a register per handler *)
Definition note : string -> erow -> nat -> list (nat * nat) -> list (nat * nat) := fun _ e h l => (er_id e, h) :: l.
Definition h1 : string -> erow -> list nat := fun _ _ => [1].
Definition h2 : string -> erow -> list nat := fun _ _ => [1; 2].
Definition xpoll (p : nat) : list xact := map XBus (poll_of p) ++ [XBus (ABegin p true true)].
Definition xdone (p : nat) : list xact := [XBus (ABegin p true true)].
Definition setup : list xact := [XBus (ARegister "a"); XBus (ADispatch [nev 1 "e1" "x" STNormal])].
Ltac xdemo hs m P l x R E :=
  let y := eval vm_compute in (option_map (fun x => (x_app x, x_log x, w_hist (x_w x), b_sv (w_db (x_w x)))) (xrunc (one (cf 1)) hs note P m l (xworld0 []))) in
  match y with
  | Some ?z =>
    let D := fresh in
    assert (D : exists x0, xreach (one (cf 1)) hs note m [] x0 /\ (x_app x0, x_log x0, w_hist (x_w x0), b_sv (w_db (x_w x0))) = z) by
      (let X := fresh in destruct (xrunc (one (cf 1)) hs note P m l (xworld0 [])) as [x0|] eqn:X;
       [exists x0; split; [apply (xrunc_reach _ _ _ P m [] l (xworld0 []) x0); [intros q _; reflexivity|constructor|exact X]|
          assert (Y : option_map (fun x => (x_app x, x_log x, w_hist (x_w x), b_sv (w_db (x_w x)))) (xrunc (one (cf 1)) hs note P m l (xworld0 [])) = Some z) by (vm_compute; reflexivity); rewrite X in Y; cbn [option_map] in Y; injection Y; intros; repeat f_equal; congruence]|
        exfalso; assert (Y : option_map (fun x => (x_app x, x_log x, w_hist (x_w x), b_sv (w_db (x_w x)))) (xrunc (one (cf 1)) hs note P m l (xworld0 [])) = Some z) by (vm_compute; reflexivity); rewrite X in Y; discriminate Y]);
    destruct D as (x & R & E)
  end.

(** Two handlers, the second fails and the event is retried: the first takes effect twice - with one poller, no crash, every
    result saved, all handlers answering truthfully. *)
Definition c96_second_fails : list xact :=
  setup ++ xpoll 0 ++ [XHandler 0 0 ODone; XHandler 0 0 OFail; XEnd 0 0 true] ++ xdone 0 ++ xpoll 0 ++ [XHandler 0 0 ODone; XHandler 0 0 ODone; XEnd 0 0 true].
Theorem C96_second_handler_fails_refuted :
  exists cfgs hs x e, xreach cfgs hs note reliable_mode [] x /\ recorded (x_log x) "a" e /\ (forall c v e' h o, In (LRun c v e' h o) (x_log x) -> o = ODone \/ o = OFail) /\
    times (x_log x) "a" (er_id e) 1 = 2 /\ x_app x = [(1, 2); (1, 1); (1, 1)].
Proof.
  xdemo h2 reliable_mode [0] c96_second_fails x R E. exists (one (cf 1)), h2, x. injection E as E1 E2 E3 E4. rewrite E1, E2.
  eexists. split; [exact R|]. split; [eexists; left; reflexivity|]. split; [|split; reflexivity].
  intros c v e' h o H. cbn in H. repeat (destruct H as [H|H]; [try discriminate H; injection H as <- <- <- <- <-; auto|]). destruct H.
Qed.
Print Assumptions C96_second_handler_fails_refuted.

(** A process dies after the handler's commit and before the record is saved: the handler takes effect twice. *)
Definition c96_crash : list xact :=
  setup ++ xpoll 0 ++ [XHandler 0 0 ODone; XBus (ADie 0)] ++ xpoll 0 ++ [XHandler 0 0 ODone; XEnd 0 0 true].
Theorem C96_crash_repeats_refuted :
  exists cfgs hs x e, xreach cfgs hs note single_mode [] x /\ (forall v e, length (hs v e) <= 1) /\ recorded (x_log x) "a" e /\ (forall c v e' h o, In (LRun c v e' h o) (x_log x) -> o = ODone) /\ times (x_log x) "a" (er_id e) 1 = 2.
Proof.
  xdemo h1 single_mode [0] c96_crash x R E. exists (one (cf 1)), h1, x. injection E as E1 E2 E3 E4. rewrite E2.
  eexists. split; [exact R|]. split; [intros; cbn; lia|]. split; [eexists; left; reflexivity|]. split; [|reflexivity].
  intros c v e' h o H. cbn in H. repeat (destruct H as [H|H]; [try discriminate H; injection H as <- <- <- <- <-; auto|]). destruct H.
Qed.
Print Assumptions C96_crash_repeats_refuted.
(** A PostSave hook panics (or the answer to COMMIT is lost): the run has committed, but the call counts as failed and is
    repeated. *)
Definition c96_late : list xact :=
  setup ++ xpoll 0 ++ [XHandler 0 0 OLatePanic; XEnd 0 0 true] ++ xdone 0 ++ xpoll 0 ++ [XHandler 0 0 ODone; XEnd 0 0 true].
Theorem C96_late_panic_repeats_refuted :
  exists cfgs hs x e, xreach cfgs hs note reliable_mode [] x /\ (forall v e, length (hs v e) <= 1) /\ recorded (x_log x) "a" e /\ times (x_log x) "a" (er_id e) 1 = 2.
Proof.
  xdemo h1 reliable_mode [0] c96_late x R E. exists (one (cf 1)), h1, x. injection E as E1 E2 E3 E4. rewrite E2.
  eexists. split; [exact R|]. split; [intros; cbn; lia|]. split; [eexists; left; reflexivity|reflexivity].
Qed.
Print Assumptions C96_late_panic_repeats_refuted.
(** Two pollers of the service that both scanned the event: the handler takes effect twice although nothing fails. *)
Definition c96_two_pollers : list xact :=
  setup ++ map XBus (poll_of 0) ++ map XBus (poll_of 1) ++ [XBus (ABegin 0 true true); XHandler 0 0 ODone; XEnd 0 0 true; XBus (ABegin 1 true true); XHandler 1 0 ODone; XEnd 1 0 true].
Theorem C96_two_pollers_refuted :
  exists cfgs hs x e, xreach cfgs hs note calm_mode [] x /\ (forall v e, length (hs v e) <= 1) /\ recorded (x_log x) "a" e /\ (forall c v e' h o, In (LRun c v e' h o) (x_log x) -> o = ODone) /\ times (x_log x) "a" (er_id e) 1 = 2.
Proof.
  xdemo h1 calm_mode [0; 1] c96_two_pollers x R E. exists (one (cf 1)), h1, x. injection E as E1 E2 E3 E4. rewrite E2.
  eexists. split; [exact R|]. split; [intros; cbn; lia|]. split; [eexists; left; reflexivity|]. split; [|reflexivity].
  intros c v e' h o H. cbn in H. repeat (destruct H as [H|H]; [try discriminate H; injection H as <- <- <- <- <-; auto|]). destruct H.
Qed.
Print Assumptions C96_two_pollers_refuted.
(** An event whose retries are used up leaves the effects of the handlers before the failing one behind: it is neither handled
    nor not handled. *)
Definition c96_half : list xact :=
  let try := xpoll 0 ++ [XHandler 0 0 ODone; XHandler 0 0 OFail; XEnd 0 0 true] in setup ++ try ++ xdone 0 ++ try ++ xdone 0 ++ try.
Theorem C96_half_handled_refuted :
  exists cfgs hs x s, xreach cfgs hs note reliable_mode [] x /\ record_of (x_w x) "a" 1 s /\ sr_status s = SFailed /\ times (x_log x) "a" 1 1 = 3 /\ times (x_log x) "a" 1 2 = 0.
Proof.
  xdemo h2 reliable_mode [0] c96_half x R E. exists (one (cf 1)), h2, x. injection E as E1 E2 E3 E4. unfold record_of. rewrite E2, E4.
  eexists. split; [exact R|]. split; [split; [left; reflexivity|split; reflexivity]|]. split; [reflexivity|]. split; reflexivity.
Qed.
Print Assumptions C96_half_handled_refuted.

(** The hypotheses of the theorems can be met: two events, two handlers, one call that failed at its first handler (nothing
    left behind), everything recorded in the end, each effect once. *)
Definition c96_good : list xact :=
  [XBus (ARegister "a"); XBus (ADispatch [nev 1 "e1" "x" STNormal; nev 2 "e2" "x" STNormal])] ++ xpoll 0 ++ [XHandler 0 0 OFail; XBus (ABegin 0 true true); XHandler 0 1 ODone; XEnd 0 0 true; XHandler 0 0 ODone; XEnd 0 0 true] ++
  xdone 0 ++ xpoll 0 ++ [XHandler 0 0 ODone; XHandler 0 0 ODone; XEnd 0 0 true].
Example C96_example :
  exists x e1 e2, xreach (one (cf 1)) h2 note reliable_mode [] x /\ (forall v e, NoDup (h2 v e)) /\ failures_leave_nothing (x_log x) /\ nothing_broken_off (x_log x) /\
    recorded (x_log x) "a" e1 /\ recorded (x_log x) "a" e2 /\ er_id e1 = 1 /\ er_id e2 = 2 /\ x_app x = [(1, 2); (1, 1); (2, 2); (2, 1)] /\ times (x_log x) "a" 1 1 = 1 /\ times (x_log x) "a" 2 2 = 1.
Proof.
  xdemo h2 reliable_mode [0] c96_good x R E. exists x. injection E as E1 E2 E3 E4. rewrite E1, E2. do 2 eexists. split; [exact R|].
  split; [intros; cbn; repeat constructor; cbn; intuition lia|]. split; [|split].
  - intros c v e h o v' e' h' o' H1 H2 H3. cbn in H1, H3. repeat (destruct H1 as [H1|H1]; [try discriminate H1; injection H1 as <- <- <- <- <-; try (destruct H2; reflexivity)|]); try (destruct H1; fail).
    repeat (destruct H3 as [H3|H3]; [try discriminate H3; injection H3 as <- <- <- <-; auto|]); destruct H3.
  - intros c v e h o H. cbn in H. repeat (destruct H as [H|H]; [try discriminate H; injection H as <- <- <- <- <-; discriminate|]). destruct H.
  - split; [eexists; left; reflexivity|]. split; [eexists; do 4 right; left; reflexivity|]. repeat split; reflexivity.
Qed.
(** Repeatable effects exist, also ones that tell events and handlers apart: the data remember the highest mark. *)
Definition top : string -> erow -> nat -> nat -> nat := fun _ e h a => Nat.max a (10 * er_id e + h).
Example C96_repeatable : repeatable top.
Proof. split; intros; unfold top; lia. Qed.
(** ... and with them the history in which the second handler fails and the first one runs twice is as if each had run once. *)
Example C96_settled_example :
  exists x e, xreach (one (cf 1)) h2 top calm_mode 0 x /\ times (x_log x) "a" (er_id e) 1 = 2 /\ nothing_broken_off (x_log x) /\
    (forall svc e, dispatched_to (w_hist (x_w x)) svc e -> processed (w_hist (x_w x)) svc e) /\
    (forall svc e' h, In (svc, e', h) [("a", e, 1); ("a", e, 2)] <-> dispatched_to (w_hist (x_w x)) svc e' /\ In h (h2 svc e')) /\ x_app x = 12.
Proof.
  destruct (xrunc (one (cf 1)) h2 top [0] calm_mode c96_second_fails (xworld0 0)) as [x|] eqn:X; [|vm_compute in X; discriminate X]. exists x, (mkE 1 (nev 1 "e1" "x" STNormal) 0).
  split; [apply (xrunc_reach _ _ _ [0] calm_mode 0 c96_second_fails (xworld0 0) x); [intros q _; reflexivity|constructor|exact X]|].
  vm_compute in X. injection X as <-. cbn [x_log x_w w_hist x_app]. split; [reflexivity|].
  split; [intros c v e h o H; cbn in H; repeat (destruct H as [H|H]; [try discriminate H; injection H as <- <- <- <- <-; discriminate|]); destruct H|].
  assert (D : forall svc e l, (forall r s, In (HDisp r s) l -> r = [mkE 1 (nev 1 "e1" "x" STNormal) 0] /\ s = ["a"]) -> dispatched_to l svc e -> svc = "a" /\ e = mkE 1 (nev 1 "e1" "x" STNormal) 0).
  { intros svc e l Hl (r & s & H1 & H2 & H3). destruct (Hl r s H1) as [-> ->]. destruct H2 as [<-|[]], H3 as [<-|[]]. auto. }
  split; [|split].
  - intros svc e H. apply D in H; [|intros r s H1; cbn in H1; repeat (destruct H1 as [H1|H1]; [try discriminate H1; injection H1 as <- <-; auto|]); destruct H1]. destruct H as [-> ->]. do 2 eexists. left. reflexivity.
  - intros svc e' h. split.
    + intros [H|[H|[]]]; injection H as <- <- <-; (split; [do 2 eexists; split; [do 4 right; left; reflexivity|split; now left]|cbn; auto]).
    + intros [H1 H2]. apply D in H1; [|intros r s H3; cbn in H3; repeat (destruct H3 as [H3|H3]; [try discriminate H3; injection H3 as <- <-; auto|]); destruct H3]. destruct H1 as [-> ->]. cbn in H2. destruct H2 as [<-|[<-|[]]]; cbn; auto.
  - reflexivity.
Qed.

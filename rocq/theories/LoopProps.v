(** C89, C90: the background work of a bus. *)
From Verif Require Import LoopModel.
Local Open Scope string_scope. Local Open Scope list_scope. Local Open Scope nat_scope.

Definition is_round (e : lev) : bool := match e with GRound => true | _ => false end.
Definition is_end (e : lev) : bool := match e with GEnd => true | _ => false end.
Definition is_poll (e : lev) : bool := match e with GPoll => true | _ => false end.
Definition is_die (e : lev) : bool := match e with GDie => true | _ => false end.
Definition count (f : lev -> bool) (l : list lev) : nat := length (filter f l).
Lemma count_app f a b : count f (a ++ b) = count f a + count f b.
Proof. unfold count. now rewrite filter_app, app_length. Qed.

Ltac cnt := rewrite ?count_app; unfold count in *; rewrite ?filter_app, ?app_length in *; cbn [filter is_round is_end is_poll is_die length app] in *; try lia.
(** the counts and the position of the loop *)
Definition busy (st : lst) : nat := match l_stage st with Idle => 0 | _ => 1 end.
Definition li (st : lst) : Prop :=
  count is_round (l_log st) = count is_end (l_log st) + busy st + count is_die (l_log st) /\
  (count is_die (l_log st) = if l_alive st then 0 else 1) /\ (l_alive st = false -> l_stage st = Idle) /\
  (l_started st = false -> l_tick st = false /\ l_stage st = Idle /\ count is_round (l_log st) = 0) /\
  (l_alive st = true -> l_stage st = Idle -> l_tick st = false).
Lemma li_receive st : (count is_round (l_log st) = count is_end (l_log st) + busy st + count is_die (l_log st)) -> (count is_die (l_log st) = if l_alive st then 0 else 1) -> l_alive st = true ->
  (l_started st = false -> l_tick st = false /\ l_stage st = Idle /\ count is_round (l_log st) = 0) -> li (receive st).
Proof.
  intros A B C D. unfold receive, li, busy in *. destruct st as [sv hd stt cn tk sg cl al lg]. cbn [l_log l_stage l_alive l_started l_tick] in *. subst al.
  destruct stt; [clear D|destruct (D eq_refl) as (-> & -> & Z)]; [destruct sg, tk|]; cbn [andb l_log l_stage l_alive l_started l_tick]; rewrite ?count_app; cbn [count filter length is_round is_end is_die]; unfold count in *; cbn in *; intuition (try discriminate; try lia).
Qed.
Lemma li_step me a st : li st -> li (lexec me a st).
Proof.
  destruct st as [sv hd stt cn tk sg cl al lg]. intros (A & B & C & D & E). unfold busy in A. cbn [l_log l_stage l_alive l_started l_tick] in *.
  assert (S : li (mkL sv hd stt cn tk sg cl al lg)) by (unfold li, busy; cbn [l_log l_stage l_alive l_started l_tick]; auto).
  assert (Q : forall sv' hd' cn' cl' l, count is_round l = 0 -> count is_end l = 0 -> count is_die l = 0 -> li (mkL sv' hd' stt cn' tk sg cl' al (lg ++ l))).
  { intros sv' hd' cn' cl' l X Y Z. unfold li, busy. cbn [l_log l_stage l_alive l_started l_tick]. rewrite !count_app, X, Y, Z, !Nat.add_0_r. auto. }
  assert (Q0 : forall sv' hd' cn' cl', li (mkL sv' hd' stt cn' tk sg cl' al lg)) by (intros; rewrite <- (app_nil_r lg); apply Q; reflexivity).
  destruct a as [svc ok| | | | |r|r ok| | |]; cbn [lexec]; auto; destruct al; cbn [negb]; auto.
  - unfold li, busy. cbn [l_log l_stage l_alive l_started l_tick]. intuition discriminate.
  - destruct stt; auto. apply li_receive; cbn [l_log l_stage l_alive l_started l_tick]; unfold busy; cbn [l_stage]; auto. discriminate.
  - destruct sg; auto. destruct stt; [|destruct (D eq_refl) as (_ & X & _); discriminate X].
    destruct r; [destruct hd|destruct hd|]; try (apply li_receive); unfold li, busy; cbn [l_log l_stage l_alive l_started l_tick]; rewrite ?count_app; unfold count in *; cbn in *; intuition (try discriminate; try lia).
  - destruct sg; auto. destruct stt; [|destruct (D eq_refl) as (_ & X & _); discriminate X].
    apply li_receive; unfold li, busy; cbn [l_log l_stage l_alive l_started l_tick]; rewrite ?count_app; unfold count in *; cbn in *; intuition (try discriminate; try lia).
  - destruct stt; auto.
  - destruct cl; auto.
Qed.
Lemma li_run me svcs ok acts : li (lrun me acts (lnew me svcs ok)).
Proof.
  assert (G : forall st, li st -> li (lrun me acts st)); [|apply G; unfold li, busy; cbn; intuition discriminate].
  induction acts as [|a t IH]; intros st H; cbn [lrun]; auto. apply IH. now apply li_step.
Qed.
Lemma lrun_app me a b st : lrun me (a ++ b) st = lrun me b (lrun me a st).
Proof. revert st. induction a as [|x t IH]; intros st; cbn; auto. Qed.

(** ** C89 *)
(** At any moment at most one round is in progress: the rounds begun are those ended, or one more; the same after a death. *)
Theorem C89_one_round_at_a_time : forall me svcs ok acts, let st := lrun me acts (lnew me svcs ok) in
  count is_end (l_log st) <= count is_round (l_log st) <= count is_end (l_log st) + 1.
Proof.
  intros me svcs ok acts st. destruct (li_run me svcs ok acts) as (A & B & C & _). fold st in A, B, C. unfold busy in A. destruct (l_alive st); [|rewrite (C eq_refl) in A]; destruct (l_stage st); lia.
Qed.
Print Assumptions C89_one_round_at_a_time.
(** Nothing runs before Start. *)
Definition starts (a : lact) : bool := match a with LStart => true | _ => false end.
Lemma receive_same st : l_started (receive st) = l_started st /\ l_alive (receive st) = l_alive st /\ l_svcs (receive st) = l_svcs st /\ l_handler (receive st) = l_handler st.
Proof. unfold receive. destruct st as [sv hd stt cn tk sg cl al lg]. cbn. destruct sg; auto. destruct stt, tk; auto. Qed.
Lemma started_step me a st : l_started (lexec me a st) = true -> l_started st = true \/ starts a = true.
Proof.
  destruct st as [sv hd stt cn tk sg cl al lg]. destruct a as [svc ok| | | | |r|r ok| | |]; cbn [lexec starts l_started]; auto; destruct al; cbn [negb l_started]; auto.
  - destruct stt; auto.
  - destruct sg; auto. destruct r; auto; destruct hd; auto; destruct stt; auto; intros H; rewrite (proj1 (receive_same _)) in H; discriminate H.
  - destruct sg; auto. intros H. rewrite (proj1 (receive_same _)) in H. auto.
  - destruct stt; auto.
  - destruct cl; auto.
Qed.
Theorem C89_nothing_before_start : forall me svcs ok acts, existsb starts acts = false -> count is_round (l_log (lrun me acts (lnew me svcs ok))) = 0.
Proof.
  intros me svcs ok acts H. destruct (li_run me svcs ok acts) as (_ & _ & _ & D & _). apply D.
  assert (G : forall st, l_started st = false -> l_started (lrun me acts st) = false); [|apply G; reflexivity]. clear D.
  induction acts as [|a t IH]; intros st Hs; cbn [lrun]; auto. cbn in H. apply orb_false_iff in H. destruct H as [H1 H2]. apply IH; auto. destruct (l_started (lexec me a st)) eqn:E; auto. apply started_step in E. destruct E; congruence.
Qed.
Print Assumptions C89_nothing_before_start.
(** A second Start does nothing. *)
Theorem C89_start_twice : forall me st, l_started st = true -> lexec me LStart st = st.
Proof. intros me [sv hd stt cn tk sg cl al lg] H. cbn in H. subst stt. cbn. destruct al; reflexivity. Qed.
Print Assumptions C89_start_twice.

(** Errors of either part, and panics of event handlers, do not stop the loop: unless the transaction checker panics, the
    process lives, and after Start a tick begins a new round - at once, or when the round in progress ends. *)
Definition checker_panics (a : lact) : bool := match a with LTx TxPanic => true | _ => false end.
Lemma alive_step me a st : checker_panics a = false -> l_alive st = true -> l_alive (lexec me a st) = true.
Proof.
  destruct st as [sv hd stt cn tk sg cl al lg]. intros P H. cbn in H. subst al. destruct a as [svc ok| | | | |r|r ok| | |]; cbn [lexec negb l_alive]; auto.
  - destruct stt; auto. apply receive_same.
  - destruct sg; auto. destruct r; [destruct hd|destruct hd|discriminate P]; auto; apply receive_same.
  - destruct sg; auto. apply receive_same.
  - destruct stt; auto.
  - destruct cl; auto.
Qed.
Lemma keeps_started me a st : l_started st = true -> l_started (lexec me a st) = true.
Proof.
  destruct st as [sv hd stt cn tk sg cl al lg]. cbn [l_started]. intros ->. destruct a as [svc ok| | | | |r|r ok| | |]; cbn [lexec l_started]; auto; destruct al; cbn [negb]; auto.
  - rewrite (proj1 (receive_same _)); reflexivity.
  - destruct sg; auto. destruct r; auto; destruct hd; auto; rewrite (proj1 (receive_same _)); reflexivity.
  - destruct sg; auto. rewrite (proj1 (receive_same _)); reflexivity.
  - destruct cl; auto.
Qed.
Lemma alive_run me acts : existsb checker_panics acts = false -> forall st, l_alive st = true -> l_alive (lrun me acts st) = true /\ (l_started st = true \/ existsb starts acts = true -> l_started (lrun me acts st) = true).
Proof.
  induction acts as [|a t IH]; intros H st A; cbn [lrun]; [split; auto; intros [X|X]; [auto|discriminate X]|]. cbn in H. apply orb_false_iff in H. destruct H as [H1 H2]. destruct (IH H2 (lexec me a st) (alive_step me a st H1 A)) as [G1 G2]. split; auto.
  intros X. apply G2. cbn in X. destruct X as [X|X]; [left; now apply keeps_started|]. apply orb_true_iff in X. destruct X as [X|X]; auto. left. destruct a; try discriminate X. destruct st as [sv hd stt cn tk sg cl al lg]. cbn in A. subst al. reflexivity.
Qed.
Theorem C89_errors_do_not_stop : forall me svcs ok acts, existsb checker_panics acts = false -> existsb starts acts = true ->
  let st := lrun me acts (lnew me svcs ok) in let st' := lexec me LTick st in
  l_alive st = true /\
  (l_stage st = Idle -> l_stage st' = InTx /\ l_log st' = l_log st ++ [GRound]) /\
  (l_stage st <> Idle -> l_stage st' = l_stage st /\
     forall r ri, r <> TxPanic -> let e := match l_stage st with InPoll => LPoll ri ok | _ => LTx r end in
       count is_end (l_log (lexec me e st')) = count is_end (l_log st) + 1 -> l_stage (lexec me e st') = InTx /\ count is_round (l_log (lexec me e st')) = count is_round (l_log st) + 1).
Proof.
  intros me svcs ok acts H S st. destruct (alive_run me acts H (lnew me svcs ok) eq_refl) as [A B]. specialize (B (or_intror S)). fold st in A, B. cbn zeta.
  clearbody st. destruct st as [sv hd stt cn tk sg cl al lg]. cbn [l_alive l_started] in A, B. subst al stt. split; auto. cbn [lexec negb]. split.
  - cbn [l_stage]. intros ->. cbn. auto.
  - cbn [l_stage]. intros N. destruct sg; [contradiction| |]; unfold receive; cbn [l_stage]; (split; [reflexivity|]).
    + intros r ri Nr. destruct r; [| |contradiction]; destruct hd; cbn [lexec negb]; unfold receive; cbn [andb l_stage l_started l_tick l_log l_svcs l_handler l_cancelled l_cleaning l_alive]; rewrite !count_app; intros Hc;
        (split; [try reflexivity; exfalso|]); unfold count in *; cbn [filter is_end is_round length] in *; lia.
    + intros r ri Nr. cbn [lexec negb]; unfold receive; cbn [andb l_stage l_started l_tick l_log l_svcs l_handler l_cancelled l_cleaning l_alive]; rewrite !count_app; intros Hc. split; [reflexivity|]. unfold count. cbn [filter is_end is_round length]. lia.
Qed.
Print Assumptions C89_errors_do_not_stop.
(** Every round has its own tick: the rounds begun are at most the ticks that came. *)
Definition ticks (a : lact) : nat := match a with LTick => 1 | _ => 0 end.
Definition all_ticks (acts : list lact) : nat := list_sum (map ticks acts).
Definition waiting (st : lst) : nat := if l_tick st then 1 else 0.
Lemma receive_rounds st : count is_round (l_log (receive st)) + waiting (receive st) = count is_round (l_log st) + waiting st.
Proof.
  destruct st as [sv hd stt cn tk sg cl al lg]. unfold receive, waiting. cbn [l_stage l_started l_tick l_log]. destruct sg; auto. destruct stt, tk; cbn [andb l_log l_tick]; auto. rewrite count_app. change (count is_round [GRound]) with 1. lia.
Qed.
Lemma rounds_step me a st : count is_round (l_log (lexec me a st)) + waiting (lexec me a st) <= count is_round (l_log st) + waiting st + ticks a.
Proof.
  destruct st as [sv hd stt cn tk sg cl al lg].
  assert (N : forall sv' hd' cn' sg' cl' al' l, count is_round l = 0 -> count is_round (l_log (mkL sv' hd' stt cn' tk sg' cl' al' (lg ++ l))) + waiting (mkL sv' hd' stt cn' tk sg' cl' al' (lg ++ l)) <= count is_round lg + waiting (mkL sv hd stt cn tk sg cl al lg) + 0).
  { intros. cbn [l_log]. rewrite count_app. unfold waiting. cbn [l_tick]. destruct tk; lia. }
  destruct a as [svc ok| | | | |r|r ok| | |]; cbn [lexec ticks l_log]; try (apply N; reflexivity); try (unfold waiting; cbn [l_tick l_log]; lia); destruct al; cbn [negb]; try (unfold waiting; cbn [l_tick l_log]; lia).
  - destruct stt; [rewrite receive_rounds|]; unfold waiting; cbn [l_tick l_log]; destruct tk; lia.
  - destruct sg; try (unfold waiting; cbn [l_tick l_log]; lia). destruct r; [destruct hd|destruct hd|]; rewrite ?receive_rounds; apply N; reflexivity.
  - destruct sg; try (unfold waiting; cbn [l_tick l_log]; lia). rewrite receive_rounds. apply N; reflexivity.
  - destruct stt; [apply N; reflexivity|unfold waiting; cbn [l_tick l_log]; lia].
  - destruct cl; [unfold waiting; cbn [l_tick l_log]; lia|apply N; reflexivity].
Qed.
Theorem C89_a_tick_per_round : forall me svcs ok acts, count is_round (l_log (lrun me acts (lnew me svcs ok))) <= all_ticks acts.
Proof.
  intros me svcs ok acts. assert (G : forall st, count is_round (l_log (lrun me acts st)) + waiting (lrun me acts st) <= count is_round (l_log st) + waiting st + all_ticks acts).
  { induction acts as [|a t IH]; intros st; cbn [lrun]; [unfold all_ticks; cbn; lia|]. pose proof (IH (lexec me a st)). pose proof (rounds_step me a st). unfold all_ticks in *. cbn [map list_sum fold_right] in *. unfold list_sum in *. lia. }
  specialize (G (lnew me svcs ok)). change (waiting (lnew me svcs ok)) with 0 in G. change (count is_round (l_log (lnew me svcs ok))) with 0 in G. lia.
Qed.
Print Assumptions C89_a_tick_per_round.
(** Without RegisterEventHandler the bus never polls for events. *)
Definition handles (a : lact) : bool := match a with LHandler => true | _ => false end.
Lemma receive_polls st : count is_poll (l_log (receive st)) = count is_poll (l_log st) /\ (l_stage (receive st) = InPoll -> l_stage st = InPoll).
Proof.
  destruct st as [sv hd stt cn tk sg cl al lg]. unfold receive. cbn [l_stage l_started l_tick l_log]. destruct sg; auto. destruct (stt && tk); cbn [l_log l_stage]; auto. rewrite count_app. change (count is_poll [GRound]) with 0. split; [lia|discriminate].
Qed.
Theorem C89_no_handler_no_poll : forall me svcs ok acts, existsb handles acts = false -> count is_poll (l_log (lrun me acts (lnew me svcs ok))) = 0.
Proof.
  intros me svcs ok acts H.
  assert (G : forall st, l_handler st = false -> l_stage st <> InPoll -> count is_poll (l_log st) = 0 -> count is_poll (l_log (lrun me acts st)) = 0); [|apply G; cbn; auto; discriminate].
  induction acts as [|a t IH]; intros st Hh Hs Hc; cbn [lrun]; auto. cbn in H. apply orb_false_iff in H. destruct H as [H1 H2].
  assert (J : l_handler (lexec me a st) = false /\ l_stage (lexec me a st) <> InPoll /\ count is_poll (l_log (lexec me a st)) = 0); [|apply IH; tauto].
  clear IH H2. destruct st as [sv hd stt cn tk sg cl al lg]. cbn [l_handler l_stage l_log] in Hh, Hs, Hc. subst hd.
  assert (R : forall st, l_handler st = false -> l_stage st <> InPoll -> count is_poll (l_log st) = 0 -> l_handler (receive st) = false /\ l_stage (receive st) <> InPoll /\ count is_poll (l_log (receive st)) = 0).
  { intros st A B C. destruct (receive_polls st) as [X Y]. destruct (receive_same st) as (_ & _ & _ & Z). rewrite X, Z. tauto. }
  assert (L : forall l, count is_poll l = 0 -> count is_poll (lg ++ l) = 0) by (intros; rewrite count_app; lia).
  destruct a as [svc k| | | | |r|r k| | |]; try discriminate H1; cbn [lexec l_handler l_stage l_log]; auto; destruct al; cbn [negb l_handler l_stage l_log]; auto.
  - destruct stt; auto.
  - destruct sg; auto. destruct r; [apply R|apply R|]; cbn [l_handler l_stage l_log]; repeat split; auto; discriminate.
  - destruct sg; auto. contradiction.
  - destruct stt; cbn [l_handler l_stage l_log]; auto.
  - destruct cl; cbn [l_handler l_stage l_log]; auto.
Qed.
Print Assumptions C89_no_handler_no_poll.
(** With a handler, every round that ended has polled for events. *)
Theorem C89_every_round_polls : forall me svcs ok acts, count is_end (l_log (lrun me (LHandler :: acts) (lnew me svcs ok))) = count is_poll (l_log (lrun me (LHandler :: acts) (lnew me svcs ok))).
Proof.
  intros me svcs ok acts. cbn [lrun]. assert (G : forall st, l_handler st = true -> count is_end (l_log st) = count is_poll (l_log st) -> count is_end (l_log (lrun me acts st)) = count is_poll (l_log (lrun me acts st))); [|apply G; reflexivity].
  assert (R : forall st, count is_end (l_log (receive st)) = count is_end (l_log st) /\ count is_poll (l_log (receive st)) = count is_poll (l_log st)).
  { intros [sv hd stt cn tk sg cl al lg]. unfold receive. cbn [l_stage l_started l_tick l_log]. destruct sg; auto. destruct (stt && tk); cbn [l_log]; auto. split; cnt. }
  induction acts as [|a t IH]; intros st Hh Hc; cbn [lrun]; auto. apply IH.
  - destruct st as [sv hd stt cn tk sg cl al lg]. cbn in Hh. subst hd. destruct a as [svc k| | | | |r|r k| | |]; cbn [lexec l_handler]; auto; destruct al; cbn [negb]; auto.
    + destruct stt; auto. apply receive_same.
    + destruct sg; auto. destruct r; auto.
    + destruct sg; auto. apply receive_same.
    + destruct stt; auto.
    + destruct cl; auto.
  - destruct st as [sv hd stt cn tk sg cl al lg]. cbn in Hh, Hc. subst hd. destruct a as [svc k| | | | |r|r k| | |]; cbn [lexec l_log]; auto; try (cnt); destruct al; cbn [negb]; auto.
    + destruct stt; auto. destruct (R (mkL sv true true cn true sg cl true lg)) as [-> ->]. exact Hc.
    + destruct sg; auto. destruct r; cbn [l_log]; cnt.
    + destruct sg; auto. match goal with |- context [receive ?s] => destruct (R s) as [-> ->] end. cbn [l_log]. cnt.
    + destruct stt; auto. cbn [l_log]. cnt.
    + destruct cl; auto. cbn [l_log]. cnt.
Qed.
Print Assumptions C89_every_round_polls.
Example C89_example : let st := lrun "a" [LHandler; LStart; LStart; LTick; LTx TxErr; LTick; LTick; LPoll PollPanic true; LTx TxOk; LPoll (PollRet FErr true) true] (lnew "a" [] true) in
  l_log st = [GRound; GTx; GPoll; GEnd; GRound; GTx; GPoll; GEnd] /\ l_alive st = true.
Proof. split; reflexivity. Qed.

(** Cancelling the context given to Start does not stop the loop: rounds go on at every tick. *)
Theorem C89_cancel_stops_refuted : forall me svcs, exists acts, let st := lrun me acts (lnew me svcs true) in
  l_cancelled st = true /\ forall n, count is_round (l_log (lrun me (concat (repeat [LTick; LTx TxOk] n)) st)) = count is_round (l_log st) + n.
Proof.
  intros me svcs. exists [LStart; LCancel]. cbn zeta. split; [reflexivity|]. cbn [lrun lexec lnew negb]. set (sv := init_service true me svcs). clearbody sv. generalize (@nil lev) as lg. intros lg n. revert lg.
  induction n as [|n IH]; intros lg; [cbn [repeat concat lrun]; lia|]. cbn [repeat concat app lrun].
  change (lexec me (LTx TxOk) (lexec me LTick (mkL sv false true true false Idle 0 true lg))) with (mkL sv false true true false Idle 0 true ((lg ++ [GRound]) ++ [GTx; GEnd])).
  rewrite IH. cbn [l_log]. cnt.
Qed.
Print Assumptions C89_cancel_stops_refuted.
(** A panic of the transaction checker ends the process. *)
Theorem C89_checker_panic_refuted : exists acts, let st := lrun "a" acts (lnew "a" [] true) in l_alive st = false /\ forall more, count is_round (l_log (lrun "a" more st)) = count is_round (l_log st).
Proof.
  exists [LHandler; LStart; LTick; LTx TxPanic]. cbn zeta. split; [reflexivity|]. match goal with |- forall more, count _ (l_log (lrun _ more ?s)) = _ => set (st := s) end. assert (A : l_alive st = false) by reflexivity. clearbody st.
  intros more. revert st A. induction more as [|a t IH]; intros st A; cbn [lrun]; auto. destruct st as [sv hd stt cn tk sg cl al lg]. cbn in A. subst al. destruct a; cbn [lexec negb]; try (rewrite IH by reflexivity; reflexivity). rewrite IH by reflexivity. cbn [l_log]. cnt.
Qed.
Print Assumptions C89_checker_panic_refuted.

(** ** C90: registration of the service *)
(** A bus whose registration succeeded at creation gets delivery records from every later dispatch. *)
Theorem C90_registered_gets_every_dispatch : forall me svcs acts svs, In (GDispatch svs) (l_log (lrun me acts (lnew me svcs true))) -> In me svs.
Proof.
  intros me svcs acts svs. assert (G : forall st, In me (l_svcs st) -> (forall s, In (GDispatch s) (l_log st) -> In me s) -> forall s, In (GDispatch s) (l_log (lrun me acts st)) -> In me s).
  2: { apply G; [|intros s []]. unfold lnew, init_service. cbn. destruct (existsb (String.eqb me) svcs) eqn:E; [|apply in_app_iff; right; now left]. apply existsb_exists in E. destruct E as (x & Hx & Ex). apply String.eqb_eq in Ex. now subst. }
  assert (N : forall ok v l, In me l -> In me (init_service ok v l)) by (intros ok v l H; unfold init_service; destruct ok, (existsb (String.eqb v) l); auto; apply in_app_iff; auto).
  assert (R : forall st s, In (GDispatch s) (l_log (receive st)) -> In (GDispatch s) (l_log st)).
  { intros [sv hd stt cn tk sg cl al lg] s. unfold receive. cbn. destruct sg; auto. destruct (stt && tk); cbn; auto. intros H. apply in_app_iff in H. destruct H as [H|[H|[]]]; auto. discriminate H. }
  assert (Q : forall s lg l, In (GDispatch s) (lg ++ l) -> (forall x, In (GDispatch x) l -> False) -> In (GDispatch s) lg) by (intros s lg l H X; apply in_app_iff in H; destruct H as [H|H]; auto; contradiction (X s H)).
  induction acts as [|a t IH]; intros st Hm Hl s; cbn [lrun]; auto. revert s. apply IH.
  - destruct st as [sv hd stt cn tk sg cl al lg]. cbn in Hm. destruct a as [svc k| | | | |r|r k| | |]; cbn [lexec l_svcs]; auto; destruct al; cbn [negb l_svcs]; auto.
    + destruct stt; auto. now rewrite (proj1 (proj2 (proj2 (receive_same _)))).
    + destruct sg; auto. destruct r; auto; destruct hd; auto; now rewrite (proj1 (proj2 (proj2 (receive_same _)))).
    + destruct sg; auto. rewrite (proj1 (proj2 (proj2 (receive_same _)))). cbn. destruct r as [f q|]; auto. destruct (handle_events_err f q) as [[]|]; auto.
    + destruct stt; auto.
    + destruct cl; auto.
  - destruct st as [sv hd stt cn tk sg cl al lg]. cbn in Hm, Hl. intros s. destruct a as [svc k| | | | |r|r k| | |]; cbn [lexec l_log]; auto; try (destruct al; cbn [negb l_log]; auto).
    + destruct stt; auto. intros H. apply R in H. auto.
    + destruct sg; auto. destruct r; [destruct hd|destruct hd|]; intros H; try (apply R in H); cbn [l_log] in H; apply Q in H; auto; cbn; intros x X; repeat (destruct X as [X|X]; [discriminate X|]); auto.
    + destruct sg; auto. intros H. apply R in H. cbn [l_log] in H. apply Q in H; auto. cbn. intros x X. repeat (destruct X as [X|X]; [discriminate X|]); auto.
    + destruct stt; auto. cbn [l_log]. intros H. apply Q in H; auto. cbn. intros x X. repeat (destruct X as [X|X]; [discriminate X|]); auto.
    + destruct cl; auto. cbn [l_log]. intros H. apply Q in H; auto. cbn. intros x X. repeat (destruct X as [X|X]; [discriminate X|]); auto.
    + intros H. apply in_app_iff in H. destruct H as [H|[H|[]]]; auto. injection H as <-. exact Hm.
    + intros H. apply in_app_iff in H. destruct H as [H|[H|[]]]; auto. injection H as <-. exact Hm.
Qed.
Print Assumptions C90_registered_gets_every_dispatch.
Example C90_example : In (GDispatch ["b"; "a"]) (l_log (lrun "a" [LStart; LDispatch] (lnew "a" ["b"] true))).
Proof. cbn. auto. Qed.
(** A poll reports an error exactly when a query it made failed - an empty event table is none - and never the one on which
    the loop would register the service. *)
Definition a_query_failed (start : found) (scan_ok : bool) : Prop := start = FErr \/ (start = FSome /\ scan_ok = false).
Theorem C90_poll_errors : forall start scan_ok, (handle_events_err start scan_ok <> None <-> a_query_failed start scan_ok) /\ handle_events_err start scan_ok <> Some EServiceNotCreate.
Proof. intros [] []; unfold a_query_failed; cbn; split; try discriminate; split; intros H; auto; try discriminate; try (now contradiction H); destruct H as [H|[H X]]; discriminate. Qed.
Print Assumptions C90_poll_errors.
(** If the registration failed at creation it is never made up for, however long the bus runs and whatever its rounds
    return: the error on which the loop would register again does not occur.  The service gets no event of anybody. *)
Definition registers (me : string) (a : lact) : bool := match a with LNew s _ => String.eqb s me | _ => false end.
Theorem C90_registration_made_up_refuted : forall me svcs acts, ~ In me svcs -> existsb (registers me) acts = false ->
  let st := lrun me acts (lnew me svcs false) in ~ In me (l_svcs st) /\ forall svs, In (GDispatch svs) (l_log st) -> ~ In me svs.
Proof.
  intros me svcs acts Hn. cbn zeta. assert (G : forall st, ~ In me (l_svcs st) -> (forall s, In (GDispatch s) (l_log st) -> ~ In me s) -> existsb (registers me) acts = false -> ~ In me (l_svcs (lrun me acts st)) /\ forall s, In (GDispatch s) (l_log (lrun me acts st)) -> ~ In me s); [|apply G; [exact Hn|intros s []]].
  assert (R : forall st s, In (GDispatch s) (l_log (receive st)) -> In (GDispatch s) (l_log st)).
  { intros [sv hd stt cn tk sg cl al lg] s. unfold receive. cbn. destruct sg; auto. destruct (stt && tk); cbn; auto. intros H. apply in_app_iff in H. destruct H as [H|[H|[]]]; auto. discriminate H. }
  assert (Q : forall s lg l, In (GDispatch s) (lg ++ l) -> (forall x, In (GDispatch x) l -> False) -> In (GDispatch s) lg) by (intros s lg l H X; apply in_app_iff in H; destruct H as [H|H]; auto; contradiction (X s H)).
  assert (N : forall ok v l, v <> me -> ~ In me l -> ~ In me (init_service ok v l)).
  { intros ok v l D H. unfold init_service. destruct ok, (existsb (String.eqb v) l); auto. rewrite in_app_iff. cbn. intros [X|[X|[]]]; auto. }
  assert (NE : forall f q, handle_events_err f q <> Some EServiceNotCreate) by (intros [] []; discriminate).
  induction acts as [|a t IH]; intros st Hm Hl Hr; cbn [lrun]; auto. cbn in Hr. apply orb_false_iff in Hr. destruct Hr as [Hr1 Hr2]. apply IH; auto.
  - destruct st as [sv hd stt cn tk sg cl al lg]. cbn in Hm. destruct a as [svc k| | | | |r|r k| | |]; cbn [lexec l_svcs]; try (destruct al; cbn [negb l_svcs]; auto).
    + cbn in Hr1. apply String.eqb_neq in Hr1. apply N; auto.
    + cbn in Hr1. apply String.eqb_neq in Hr1. apply N; auto.
    + destruct stt; auto. now rewrite (proj1 (proj2 (proj2 (receive_same _)))).
    + destruct sg; auto. destruct r; auto; destruct hd; auto; now rewrite (proj1 (proj2 (proj2 (receive_same _)))).
    + destruct sg; auto. rewrite (proj1 (proj2 (proj2 (receive_same _)))). cbn. destruct r as [f q|]; auto. specialize (NE f q). destruct (handle_events_err f q) as [[]|]; auto.
    + destruct stt; auto.
    + destruct cl; auto.
  - destruct st as [sv hd stt cn tk sg cl al lg]. cbn in Hm, Hl. intros s. destruct a as [svc k| | | | |r|r k| | |]; cbn [lexec l_log]; auto; try (destruct al; cbn [negb l_log]; auto).
    + destruct stt; auto. intros H. apply R in H. auto.
    + destruct sg; auto. destruct r; [destruct hd|destruct hd|]; intros H; try (apply R in H); cbn [l_log] in H; apply Q in H; auto; cbn; intros x X; repeat (destruct X as [X|X]; [discriminate X|]); auto.
    + destruct sg; auto. intros H. apply R in H. cbn [l_log] in H. apply Q in H; auto. cbn. intros x X. repeat (destruct X as [X|X]; [discriminate X|]); auto.
    + destruct stt; auto. cbn [l_log]. intros H. apply Q in H; auto. cbn. intros x X. repeat (destruct X as [X|X]; [discriminate X|]); auto.
    + destruct cl; auto. cbn [l_log]. intros H. apply Q in H; auto. cbn. intros x X. repeat (destruct X as [X|X]; [discriminate X|]); auto.
    + intros H. apply in_app_iff in H. destruct H as [H|[H|[]]]; auto. injection H as <-. exact Hm.
    + intros H. apply in_app_iff in H. destruct H as [H|[H|[]]]; auto. injection H as <-. exact Hm.
Qed.
Print Assumptions C90_registration_made_up_refuted.
Example C90_unregistered_case : let st := lrun "a" [LHandler; LStart; LTick; LTx TxOk; LDispatch; LPoll (PollRet FErr true) true; LNew "b" true; LDispatch] (lnew "a" ["c"] false) in
  l_svcs st = ["c"; "b"] /\ l_log st = [GRound; GTx; GDispatch ["c"]; GPoll; GEnd; GDispatch ["c"; "b"]].
Proof. split; reflexivity. Qed.

(** ** Cleaning *)
Definition is_clean (e : lev) : bool := match e with GClean => true | _ => false end.
Definition is_cleaned (e : lev) : bool := match e with GCleanEnd => true | _ => false end.
Definition firings (acts : list lact) : nat := length (filter (fun a => match a with LCron => true | _ => false end) acts).
Lemma receive_clean st : count is_clean (l_log (receive st)) = count is_clean (l_log st) /\ count is_cleaned (l_log (receive st)) = count is_cleaned (l_log st) /\ l_cleaning (receive st) = l_cleaning st /\ l_alive (receive st) = l_alive st /\ l_started (receive st) = l_started st.
Proof. unfold receive. destruct (l_stage st), (l_started st && l_tick st) eqn:E; cbn [l_log l_cleaning l_alive l_started]; rewrite ?count_app; cbn; rewrite ?Nat.add_0_r; auto. Qed.
Lemma clean_step me a st : count is_clean (l_log st) = count is_cleaned (l_log st) + l_cleaning st ->
  count is_clean (l_log (lexec me a st)) = count is_cleaned (l_log (lexec me a st)) + l_cleaning (lexec me a st) /\
  count is_clean (l_log (lexec me a st)) = count is_clean (l_log st) + (match a with LCron => if l_alive st && l_started st then 1 else 0 | _ => 0 end).
Proof.
  destruct st as [sv hd stt cn tk sg cl al lg]. cbn [l_log l_cleaning l_alive l_started]. intros H.
  assert (R : forall x, l_log x = lg -> l_cleaning x = cl -> count is_clean (l_log (receive x)) = count is_cleaned (l_log (receive x)) + l_cleaning (receive x) /\ count is_clean (l_log (receive x)) = count is_clean lg + 0).
  { intros x E1 E2. destruct (receive_clean x) as (-> & -> & -> & _). rewrite E1, E2. lia. }
  assert (R2 : forall x l, l_log x = lg ++ l -> l_cleaning x = cl -> count is_clean l = 0 -> count is_cleaned l = 0 -> count is_clean (l_log (receive x)) = count is_cleaned (l_log (receive x)) + l_cleaning (receive x) /\ count is_clean (l_log (receive x)) = count is_clean lg + 0).
  { intros x l E1 E2 E3 E4. destruct (receive_clean x) as (-> & -> & -> & _). rewrite E1, E2, !count_app. lia. }
  destruct a; cbn [lexec]; try (cbn [l_log l_cleaning]; rewrite ?count_app; cbn [count filter is_clean is_cleaned length]; lia).
  all: destruct al; cbn [negb andb]; try (cbn [l_log l_cleaning]; lia).
  - destruct stt; [apply R; reflexivity|cbn [l_log l_cleaning]; lia].
  - destruct sg; try (cbn [l_log l_cleaning]; lia). destruct r; [destruct hd|destruct hd|]; try (eapply R2; reflexivity); cbn [l_log l_cleaning]; rewrite !count_app; unfold count in *; cbn [filter is_clean is_cleaned length]; lia.
  - destruct sg; try (cbn [l_log l_cleaning]; lia). eapply R2; reflexivity.
  - destruct stt; cbn [l_log l_cleaning]; rewrite ?count_app; unfold count in *; cbn [filter is_clean is_cleaned length]; lia.
  - destruct cl; cbn [l_log l_cleaning]; rewrite ?count_app; unfold count in *; cbn [filter is_clean is_cleaned length] in *; lia.
Qed.
Lemma clean_run me acts : forall st, count is_clean (l_log st) = count is_cleaned (l_log st) + l_cleaning st ->
  count is_clean (l_log (lrun me acts st)) = count is_cleaned (l_log (lrun me acts st)) + l_cleaning (lrun me acts st) /\ count is_clean (l_log (lrun me acts st)) <= count is_clean (l_log st) + firings acts.
Proof.
  induction acts as [|a t IH]; intros st H; cbn [lrun]; [cbn; lia|]. destruct (clean_step me a st H) as [A B]. destruct (IH _ A) as [C D]. split; auto. unfold firings in *. cbn [filter].
  destruct a; cbn [length] in *; try lia. destruct (l_alive st && l_started st); lia.
Qed.
(** A cleaning begins only when the schedule fires, each firing of a started, living bus begins one (robfig/cron starts a
    goroutine per firing, so cleanings may overlap), and only cleanings begun end: as many are in progress as have begun and
    not ended. *)
Theorem C89_cleanings : forall me svcs ok acts, let st := lrun me acts (lnew me svcs ok) in
  count is_cleaned (l_log st) <= count is_clean (l_log st) <= firings acts /\
  (l_alive st = true -> l_started st = true -> count is_clean (l_log (lexec me LCron st)) = S (count is_clean (l_log st))) /\
  (l_alive st = true -> count is_cleaned (l_log st) < count is_clean (l_log st) -> count is_cleaned (l_log (lexec me LCleanDone st)) = S (count is_cleaned (l_log st))).
Proof.
  intros me svcs ok acts st. destruct (clean_run me acts (lnew me svcs ok) eq_refl) as [A B]. fold st in A, B. cbn [lnew l_log count filter length plus] in B. split; [lia|]. split.
  - intros E1 E2. destruct (clean_step me LCron st A) as [_ C]. rewrite C, E1, E2. cbn. lia.
  - intros E1 L. destruct st as [sv hd stt cn tk sg cl al lg]. cbn [l_log l_cleaning l_alive lexec] in *. subst al. cbn [negb]. destruct cl; [lia|]. cbn [l_log]. rewrite count_app. cbn. lia.
Qed.
Print Assumptions C89_cleanings.
Example C89_cleanings_overlap : let st := lrun "a" [LStart; LCron; LCron; LCleanDone] (lnew "a" [] true) in l_log st = [GClean; GClean; GCleanEnd].
Proof. reflexivity. Qed.

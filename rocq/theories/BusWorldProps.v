(** C39-C43: the event bus under every schedule. *)
From Verif Require Import BusModel BusSpec BusProof BusWorld BusWorldSpec BusWorldProof BusWorldProof2 BusWorldProof3 BusWorldProof4 BusWorldProof5 BusWorldProof6 BusWorldProof7.

(** * Concrete schedules *)
Lemma demo {A} (f : world -> A) x cfgs P m l : option_map f (runc cfgs P m l world0) = Some x -> exists w, reachable cfgs m w /\ f w = x.
Proof.
  destruct (runc cfgs P m l world0) as [w|] eqn:E; cbn; [|discriminate]. intros [= <-]. exists w. split; auto. eapply run_reachable; eauto.
Qed.
Ltac demo f cfgs P m l w R E :=
  let x := eval vm_compute in (option_map f (runc cfgs P m l world0)) in
  match x with
  | Some ?y => let D := fresh in assert (D : exists w0, reachable cfgs m w0 /\ f w0 = y) by (apply (demo f y cfgs P m l); vm_compute; reflexivity); destruct D as (w & R & E)
  end.
Local Open Scope string_scope. Local Open Scope list_scope.
Definition one (c : buscfg) : nat -> buscfg := fun _ => c.
Definition cf (n : nat) : buscfg := mkBus "a" (LimitRetry n) 10 100 0.
Definition nev (i : nat) (id snd : string) (t : sendtype) : devent := mkDev id snd t i 0.
Definition poll_of (p : nat) : list act := [APStart p; APOff p; APDue p; APEvents p].
Definition handle_of (p : nat) (r : hres) : list act := [ABegin p true true; AEnd p 0 r true].
Definition seen (w : world) : list hev * list srow := (w_hist w, b_sv (w_db w)).

(* ---------------------------------------------------------------- C39 *)
(** The handler is called with the event the delivery record refers to - whatever runs concurrently, as long as dispatches
    are atomic and no cleaning runs between the two queries of a scan; and that event was dispatched. *)
Theorem C39_own_event_partial :
  forall cfgs w t svc e s, reachable cfgs calm_mode w -> In (HCall t svc e s) (w_hist w) -> er_id e = sr_event s /\ was_dispatched (w_hist w) e.
Proof.
  intros cfgs w t svc e s R H. pose proof (inv_reach cfgs calm_mode eq_refl eq_refl w R) as I.
  destruct (all_suffix_in _ _ _ (i_good _ _ I) H) as (l1 & l2 & El & (D & E & _) & _). split; auto. rewrite El. apply (disp_app l1). now apply disp_cons.
Qed.
Print Assumptions C39_own_event_partial.
(** On a quiet table, of any content: the batch handed to the handlers pairs each delivery with its own event. *)
Theorem C39_scan_pairs_own_event :
  forall cfg now start d e s, wf d -> In (e, s) (scan_events cfg now start d) -> In e (b_ev d) /\ In s (b_sv d) /\ er_id e = sr_event s.
Proof.
  intros cfg now start d e s W H. destruct (scan_spec cfg now start d W) as [_ B]. now apply B.
Qed.
Print Assumptions C39_scan_pairs_own_event.
(** In general it does not hold: if a cleaning run of the service takes place between reading the deliveries and reading the
    events, the lists shift: the handler is called for event 3 because of the delivery of event 2, the delivery of event 2
    becomes "success", and event 2 is never handed over. *)
Definition c39_race : list act :=
  [ARegister "a"; ADispatch [nev 1 "e1" "x" STNormal; nev 2 "e2" "x" STNormal; nev 3 "e3" "x" STNormal]; ATick 1; APStart 0; APOff 0; APDue 0]
  ++ poll_of 1 ++ handle_of 1 HOk ++ [AClean 0; APEvents 0; ABegin 0 true true] ++ handle_of 0 HOk.
Theorem C39_clean_race_refuted :
  exists cfgs w, reachable cfgs free_mode w /\
    (exists t e s, In (HCall t "a" e s) (w_hist w) /\ er_id e <> sr_event s) /\
    (exists s, record_of w "a" 2 s /\ sr_status s = SSuccess) /\ calls (w_hist w) "a" 2 = 0.
Proof.
  exists (one (cf 1)). demo seen (one (cf 1)) [0; 1] free_mode c39_race w R E. exists w. split; [exact R|]. unfold seen in E. injection E as E1 E2. unfold record_of. rewrite E1, E2. split; [|split].
  - do 3 eexists. split; [right; left; reflexivity|]. cbn. discriminate.
  - eexists. split; [split; [left; reflexivity|split; reflexivity]|reflexivity].
  - reflexivity.
Qed.
Print Assumptions C39_clean_race_refuted.
Example C39_example : exists w, reachable (one (cf 1)) calm_mode w /\ length (filter (is_call "a" 2) (w_hist w)) = 1.
Proof.
  demo seen (one (cf 1)) [0; 1] calm_mode ([ARegister "a"; ADispatch [nev 1 "e1" "x" STNormal; nev 2 "e2" "x" STNormal]] ++ poll_of 0 ++ handle_of 0 HOk ++ [ABegin 0 true true]) w R E.
  exists w. split; [exact R|]. unfold seen in E. injection E as E1 E2. rewrite E1. reflexivity.
Qed.

(* ---------------------------------------------------------------- C41 *)
(** If the polls of a service do not overlap (one process, one poll at a time), an event that was handled successfully, and
    this was recorded, is never handed to the handler again ... *)
Theorem C41_no_redelivery_partial :
  forall cfgs w later t svc e s before, reachable cfgs single_mode w -> w_hist w = later ++ HCall t svc e s :: before -> ~ processed before svc e.
Proof. intros cfgs w later t svc e s before R E. pose proof (fresh_reach cfgs single_mode w eq_refl eq_refl eq_refl R) as F. destruct (all_suffix_at _ _ _ _ _ F E) as [X _]. exact X. Qed.
Print Assumptions C41_no_redelivery_partial.
(** ... and its record stays successful until it is cleaned, or an operator changes it. *)
Theorem C41_stays_successful_partial :
  forall cfgs w svc e s, reachable cfgs single_mode w -> processed (w_hist w) svc e -> record_of w svc (er_id e) s ->
    sr_status s = SSuccess \/ exists x, set_by_hand (w_hist w) svc e x /\ sr_status s = x.
Proof. intros cfgs w svc e s R P (H1 & H2 & H3). destruct (invB_reach cfgs single_mode w eq_refl eq_refl eq_refl R) as [I B]. apply (b_proc _ _ B svc e s); auto. Qed.
Print Assumptions C41_stays_successful_partial.
(** With overlapping polls it does not hold: the status checked under the row lock is the one read by the scan.  Two pollers
    that both scanned the delivery call the handler one after the other, and if the second call fails a finished delivery
    becomes pending again. *)
Definition c41_race : list act :=
  [ARegister "a"; ADispatch [nev 1 "e1" "x" STNormal]] ++ poll_of 0 ++ poll_of 1 ++ handle_of 0 HOk ++ handle_of 1 HErr.
Theorem C41_overlap_refuted :
  exists cfgs w later t svc e s before s', reachable cfgs calm_mode w /\ w_hist w = later ++ HCall t svc e s :: before /\ processed before svc e /\
    record_of w svc (er_id e) s' /\ sr_status s' = SInit.
Proof.
  exists (one (cf 1)). demo seen (one (cf 1)) [0; 1] calm_mode c41_race w R E. exists w. unfold seen in E. injection E as E1 E2. unfold record_of. rewrite E1, E2.
  match type of E1 with _ = ?a :: HCall ?t ?v ?e ?s :: ?b => exists [a], t, v, e, s, b end. eexists. split; [exact R|]. split; [reflexivity|]. split; [|split; [split; [left; reflexivity|split; reflexivity]|reflexivity]].
  do 2 eexists. left. reflexivity.
Qed.
Print Assumptions C41_overlap_refuted.
Example C41_example : exists w e, reachable (one (cf 1)) single_mode w /\ processed (w_hist w) "a" e /\ er_id e = 1 /\ calls (w_hist w) "a" 2 = 1.
Proof.
  demo seen (one (cf 1)) [0] single_mode ([ARegister "a"; ADispatch [nev 1 "e1" "x" STNormal; nev 2 "e2" "x" STNormal]] ++ poll_of 0 ++ handle_of 0 HOk ++ [ABegin 0 true true]) w R E.
  exists w. unfold seen in E. injection E as E1 E2. rewrite E1. eexists. split; [exact R|]. split; [do 2 eexists; right; left; reflexivity|]. split; reflexivity.
Qed.

(* ---------------------------------------------------------------- C40 *)
Lemma grants_limit l : grants (LimitRetry l) (S l).
Proof. intros c now. cbn [strat_next]. destruct (Nat.ltb_spec l c) as [L|L]; split; intros; [lia|reflexivity|eexists; reflexivity|lia]. Qed.
Lemma grants_interval i l : grants (IntervalRetry i l) (S l).
Proof. intros c now. cbn [strat_next]. destruct (Nat.ltb_spec l c) as [L|L]; split; intros; [lia|reflexivity|eexists; reflexivity|lia]. Qed.
Lemma grants_custom is : grants (CustomRetry is) (length is).
Proof.
  intros c now. cbn. split.
  - intros L. destruct (nth_error is c) eqn:E; eauto. apply nth_error_None in E. lia.
  - intros L. apply nth_error_None in L. now rewrite L.
Qed.
(** How many retries the strategies really grant: the limit strategies one more than their limit, a list of intervals as
    many as its length. *)
Theorem C40_granted_retries : forall l i is, grants (LimitRetry l) (S l) /\ grants (IntervalRetry i l) (S l) /\ grants (CustomRetry is) (length is).
Proof. intros l i is. split; [apply grants_limit|]. split; [apply grants_interval|apply grants_custom]. Qed.
Print Assumptions C40_granted_retries.
(** If the polls of a service do not overlap and its strategy grants [n] retries, then at most [n+1] calls for an event are
    ever recorded; while the delivery is pending it carries the number of recorded calls, at most [n]; a delivery is failed
    only after exactly [n+1] recorded calls - whatever crashes and lost saves happen in between. *)
Theorem C40_recorded_calls_bounded :
  forall cfgs svc n w id, (forall p, c_service (cfgs p) = svc -> grants (c_strategy (cfgs p)) n) -> reachable cfgs single_mode w ->
    recs (w_hist w) svc id <= n + 1 /\
    forall s, record_of w svc id s ->
      (sr_status s = SInit -> sr_retry s = recs (w_hist w) svc id /\ sr_retry s <= n) /\ (sr_status s = SFailed -> recs (w_hist w) svc id = n + 1).
Proof.
  intros cfgs svc n w id G R. destruct (invC_reach cfgs svc n G single_mode w eq_refl eq_refl eq_refl R) as [C1 C2 C3]. rewrite Nat.add_1_r. split; auto.
  intros s (H1 & H2 & H3). subst id. split; auto.
Qed.
Print Assumptions C40_recorded_calls_bounded.
(** If, in addition, every call ends and its result is saved: the handler is called at most [n+1] times for an event, and a
    failed delivery was called exactly [n+1] times, and is not called again. *)
Theorem C40_calls_bounded :
  forall cfgs svc n w id, (forall p, c_service (cfgs p) = svc -> grants (c_strategy (cfgs p)) n) -> reachable cfgs reliable_mode w ->
    calls (w_hist w) svc id <= n + 1 /\ forall s, record_of w svc id s -> sr_status s = SFailed -> calls (w_hist w) svc id = n + 1.
Proof.
  intros cfgs svc n w id G R. destruct (invC_reach cfgs svc n G reliable_mode w eq_refl eq_refl eq_refl R) as [C1 C2 C3]. pose proof (invD_reach cfgs svc reliable_mode w eq_refl eq_refl eq_refl eq_refl R id) as [D1 D2].
  destruct (invB_reach cfgs reliable_mode w eq_refl eq_refl eq_refl R) as [I B].
  assert (X : forall s, in_progress cfgs w svc id -> record_of w svc id s -> sr_status s = SInit).
  { intros s0 (p & st & todo & run & e & s & H1 & H2 & H3 & H4) (S1 & S2 & S3). assert (St : In s (tuples (w_poll w p))) by (rewrite H2; cbn; apply (in_map snd _ (e, s)), in_app_iff; auto).
    destruct (tuple_mine cfgs w p s I St) as [M1 M2]. pose proof (b_tab _ _ B p s St) as T. pose proof (i_poll _ _ I p) as Pp. rewrite H2 in Pp. destruct Pp as (_ & Pp & _). destruct (Pp e s) as (_ & Q & _); [apply in_app_iff; auto|].
    assert (s0 = s) as ->; auto. apply (NoDup_map_inj _ _ _ _ (wf_key _ (i_wf _ _ I))); auto. congruence. }
  assert (Y : in_progress cfgs w svc id -> exists s, record_of w svc id s).
  { intros (p & st & todo & run & e & s & H1 & H2 & H3 & H4). assert (St : In s (tuples (w_poll w p))) by (rewrite H2; cbn; apply (in_map snd _ (e, s)), in_app_iff; auto).
    destruct (tuple_mine cfgs w p s I St) as [M1 M2]. pose proof (i_poll _ _ I p) as Pp. rewrite H2 in Pp. destruct Pp as (_ & Pp & _). destruct (Pp e s) as (_ & Q & _); [apply in_app_iff; auto|]. exists s. split; [apply (b_tab _ _ B p s St)|split; congruence]. }
  split.
  - destruct (Nat.le_gt_cases (calls (w_hist w) svc id) (n + 1)) as [L|L]; auto. exfalso.
    assert (N : ~ in_progress cfgs w svc id).
    { intros P. rewrite (D1 P) in L. destruct (Y P) as (s & S). pose proof (X s P S) as In. destruct S as (S1 & S2 & S3). destruct (C1 s S1 S2 In) as [Q1 Q2]. rewrite S3 in Q1. lia. }
    rewrite (D2 N) in L. specialize (C3 id). lia.
  - intros s S F. assert (N : ~ in_progress cfgs w svc id) by (intros P; pose proof (X s P S); congruence). rewrite (D2 N). destruct S as (S1 & S2 & S3). rewrite <- S3, Nat.add_1_r. auto.
Qed.
Print Assumptions C40_calls_bounded.

(** The property as documented - one call plus [limit] retries - does not hold: a limit of 1 gives 3 calls. *)
Definition c40_run : list act :=
  [ARegister "a"; ADispatch [nev 1 "e1" "x" STNormal]] ++ poll_of 0 ++ handle_of 0 HErr ++ [ABegin 0 true true] ++ poll_of 0 ++ handle_of 0 HErr ++ [ABegin 0 true true] ++ poll_of 0 ++ handle_of 0 HErr.
Theorem C40_limit_off_by_one_refuted :
  exists cfgs w, reachable cfgs reliable_mode w /\ (forall p, c_strategy (cfgs p) = LimitRetry 1) /\ calls (w_hist w) "a" 1 = 3 /\ exists s, record_of w "a" 1 s /\ sr_status s = SFailed.
Proof.
  exists (one (cf 1)). demo seen (one (cf 1)) [0] reliable_mode c40_run w R E. exists w. unfold seen in E. injection E as E1 E2. unfold record_of. rewrite E1, E2.
  split; [exact R|]. split; [reflexivity|]. split; [reflexivity|]. eexists. split; [split; [left; reflexivity|split; reflexivity]|reflexivity].
Qed.
Print Assumptions C40_limit_off_by_one_refuted.
(** With overlapping polls a failed delivery can be run again. *)
Definition c40_race : list act :=
  [ARegister "a"; ADispatch [nev 1 "e1" "x" STNormal]] ++ poll_of 0 ++ poll_of 1 ++ handle_of 0 HErr ++ [ABegin 1 true true].
Theorem C40_failed_run_again_refuted :
  exists cfgs w, reachable cfgs calm_mode w /\ (forall p, c_strategy (cfgs p) = CustomRetry []) /\ calls (w_hist w) "a" 1 = 2 /\ exists s, record_of w "a" 1 s /\ sr_status s = SFailed.
Proof.
  set (c := one (mkBus "a" (CustomRetry []) 10 100 0)). exists c. unfold c. demo seen (one (mkBus "a" (CustomRetry []) 10 100 0)) [0; 1] calm_mode c40_race w R E. exists w. unfold seen in E. injection E as E1 E2. unfold record_of. rewrite E1, E2.
  split; [exact R|]. split; [reflexivity|]. split; [reflexivity|]. eexists. split; [split; [left; reflexivity|split; reflexivity]|reflexivity].
Qed.
Print Assumptions C40_failed_run_again_refuted.

(* ---------------------------------------------------------------- C42 *)
(** When the handler is called for a FIFO event, the event right before it - in creation order, among all events dispatched
    by its sender - was processed successfully, or expired by hand, or was created before the scan window.  This holds in
    every schedule with atomic dispatches and no cleaning inside a scan. *)
Theorem C42_fifo_predecessor :
  forall cfgs win w later t svc e s before a, (forall p, c_window (cfgs p) = win) -> reachable cfgs calm_mode w -> w_hist w = later ++ HCall t svc e s :: before ->
    type e = STFIFO -> dispatched_to before svc a -> right_before before a e -> t <= er_created a + win ->
    processed before svc a \/ set_by_hand before svc a SExpired.
Proof.
  intros cfgs win w later t svc e s before a Hw R E T A1 A2 A3. pose proof (directs cfgs calm_mode win w eq_refl eq_refl Hw R) as D. destruct (all_suffix_at _ _ _ _ _ D E) as [X _].
  cbn in X. destruct (X ltac:(now rewrite T) a A1 A2 A3) as [Y _]. auto.
Qed.
Print Assumptions C42_fifo_predecessor.
(** For a sender all of whose events are FIFO and were dispatched in creation order: every earlier event inside the window
    was processed successfully or expired by hand (provided no event between them was touched by hand). *)
Theorem C42_fifo_all_earlier_partial :
  forall cfgs win w later t svc e s before a, (forall p, c_window (cfgs p) = win) -> reachable cfgs calm_mode w -> w_hist w = later ++ HCall t svc e s :: before ->
    (forall r, was_dispatched before r -> sender r = sender e -> type r = STFIFO) -> in_creation_order before (sender e) ->
    dispatched_to before svc a -> sender a = sender e -> er_id a < er_id e -> t <= er_created a + win -> untouched_between before svc a e ->
    processed before svc a \/ set_by_hand before svc a SExpired.
Proof.
  intros cfgs win w later t svc e s before a Hw R E. pose proof (claims win true cfgs calm_mode w eq_refl eq_refl Hw R) as D. destruct (all_suffix_at _ _ _ _ _ D E) as [X _].
  intros T O A1 A2 A3 A4 U. exact (X T O a A1 A2 A3 A4 U).
Qed.
Print Assumptions C42_fifo_all_earlier_partial.
(** Only the direct predecessor is looked at.  If the sender mixes types, a FIFO event overtakes an earlier FIFO event that
    has failed, because a Normal event between them succeeded. *)
Definition c42_mixed : list act :=
  [ARegister "a"; ADispatch [nev 1 "e1" "x" STFIFO; nev 2 "e2" "x" STNormal; nev 3 "e3" "x" STFIFO]] ++ poll_of 0 ++ handle_of 0 HErr ++ handle_of 0 HOk ++ [ABegin 0 true true].
Theorem C42_mixed_types_refuted :
  exists cfgs w later t svc e s before a, reachable cfgs reliable_mode w /\ w_hist w = later ++ HCall t svc e s :: before /\
    type e = STFIFO /\ type a = STFIFO /\ dispatched_to before svc a /\ sender a = sender e /\ er_id a < er_id e /\ in_creation_order before (sender e) /\
    (forall p, t <= er_created a + c_window (cfgs p)) /\ ~ processed before svc a /\ (forall x, ~ set_by_hand before svc a x).
Proof.
  exists (one (cf 1)). demo seen (one (cf 1)) [0] reliable_mode c42_mixed w R E. exists w. unfold seen in E. injection E as E1 E2. rewrite E1.
  match type of E1 with _ = HCall ?t ?v ?e ?s :: ?b => exists [], t, v, e, s, b end. eexists. split; [exact R|]. split; [reflexivity|]. split; [reflexivity|].
  assert (Hd : forall h r, was_dispatched h r -> exists rows svcs, In (HDisp rows svcs) h /\ In r rows) by (intros h r (x & y & H); exists x, y; exact H).
  split; [|split; [do 2 eexists; split; [do 4 right; left; reflexivity|split; [left; reflexivity|left; reflexivity]]|]]; [reflexivity|]. split; [reflexivity|]. split; [cbn; lia|]. split; [|split; [|split]].
  - intros a b Ha Hb _ _ L. apply Hd in Ha. apply Hd in Hb. destruct Ha as (ra & sa & Ha1 & Ha2), Hb as (rb & sb & Hb1 & Hb2).
    cbn in Ha1, Hb1. repeat (destruct Ha1 as [Ha1|Ha1]; [try discriminate|]); [|contradiction]. repeat (destruct Hb1 as [Hb1|Hb1]; [try discriminate|]); [|contradiction].
    injection Ha1 as <- <-. injection Hb1 as <- <-. cbn in Ha2, Hb2. destruct Ha2 as [<-|[<-|[<-|[]]]], Hb2 as [<-|[<-|[<-|[]]]]; cbn in L |- *; try lia; right; split; reflexivity.
  - intros p. cbn. lia.
  - intros (s1 & s2 & H). cbn in H. repeat (destruct H as [H|H]; [try discriminate|]). contradiction.
  - intros x H. cbn in H. repeat (destruct H as [H|H]; [try discriminate|]). contradiction.
Qed.
Print Assumptions C42_mixed_types_refuted.
(** Events of the same creation time are ordered by their event id *strings*, not by the order of dispatch: the third FIFO
    event only waits for the one with the largest id string, here the first. *)
Definition c42_same_time : list act :=
  [ARegister "a"; ADispatch [nev 1 "zz" "x" STFIFO; nev 2 "aa" "x" STFIFO; nev 3 "bb" "x" STFIFO]] ++ poll_of 0 ++ handle_of 0 HOk ++ handle_of 0 HErr ++ [ABegin 0 true true].
Theorem C42_same_time_refuted :
  exists cfgs w later t svc e s before a, reachable cfgs reliable_mode w /\ w_hist w = later ++ HCall t svc e s :: before /\
    (forall r, was_dispatched before r -> type r = STFIFO /\ er_created r = er_created e) /\ dispatched_to before svc a /\ sender a = sender e /\ er_id a < er_id e /\
    (forall p, t <= er_created a + c_window (cfgs p)) /\ ~ processed before svc a /\ (forall x, ~ set_by_hand before svc a x).
Proof.
  exists (one (cf 1)). demo seen (one (cf 1)) [0] reliable_mode c42_same_time w R E. exists w. unfold seen in E. injection E as E1 E2. rewrite E1.
  match type of E1 with _ = HCall ?t ?v ?e ?s :: ?b => exists [], t, v, e, s, b end. eexists. split; [exact R|]. split; [reflexivity|].
  split; [|split; [do 2 eexists; split; [do 4 right; left; reflexivity|split; [right; left; reflexivity|left; reflexivity]]|]].
  - intros a (ra & sa & Ha1 & Ha2). cbn in Ha1. repeat (destruct Ha1 as [Ha1|Ha1]; [try discriminate|]); [|contradiction]. injection Ha1 as <- <-. cbn in Ha2. destruct Ha2 as [<-|[<-|[<-|[]]]]; cbn; auto.
  - split; [reflexivity|]. split; [cbn; lia|]. split; [intros p; cbn; lia|]. split.
    + intros (s1 & s2 & H). cbn in H. repeat (destruct H as [H|H]; [try discriminate|]). contradiction.
    + intros x H. cbn in H. repeat (destruct H as [H|H]; [try discriminate|]). contradiction.
Qed.
Print Assumptions C42_same_time_refuted.
(** A Dispatch is not atomic: while an earlier event of the sender is stored but not yet delivered, a later one is handled -
    FIFO or LaxFIFO alike. *)
Definition c42_split (t : sendtype) : list act :=
  [ARegister "a"; AInsert 0 [nev 1 "e1" "x" t]; ADispatch [nev 2 "e2" "x" t]] ++ poll_of 0 ++ handle_of 0 HOk ++ [AList 0; ADeliver 0].
Theorem C42_dispatch_race_refuted :
  exists cfgs w, reachable cfgs free_mode w /\
    (exists t e s, In (HCall t "a" e s) (w_hist w) /\ type e = STFIFO /\ sender e = "x" /\ er_id e = 2) /\
    (exists a s, In a (b_ev (w_db w)) /\ sender a = "x" /\ type a = STFIFO /\ er_id a = 1 /\ record_of w "a" 1 s /\ sr_status s = SInit) /\ calls (w_hist w) "a" 1 = 0.
Proof.
  exists (one (cf 1)). demo (fun w => (seen w, b_ev (w_db w))) (one (cf 1)) [0] free_mode (c42_split STFIFO) w R E. exists w. split; [exact R|]. unfold seen in E. injection E as E1 E2 E3. unfold record_of. rewrite E1, E2, E3. split; [|split].
  - do 3 eexists. split; [right; left; reflexivity|]. auto.
  - do 2 eexists. split; [left; reflexivity|]. split; [reflexivity|]. split; [reflexivity|]. split; [reflexivity|]. split; [split; [right; left; reflexivity|split; reflexivity]|reflexivity].
  - reflexivity.
Qed.
Print Assumptions C42_dispatch_race_refuted.
(** The wait is not longer than necessary: if the records of the service for all earlier events of the sender are successful
    or expired, the event is handed to the handler as soon as its row is locked and the queries work. *)
Theorem C42_not_blocked_without_reason :
  forall cfg now start env e s d, he_lock env = true -> he_query env = true -> In s (b_sv d) -> sr_status s = SInit -> sender e <> "" ->
    (forall a sa, In a (b_ev d) -> sender a = sender e -> er_id a < er_id e -> In sa (b_sv d) -> sr_service sa = c_service cfg -> sr_event sa = er_id a -> sr_status sa = SSuccess \/ sr_status sa = SExpired) ->
    snd (handle_event cfg now start env e s d) = true.
Proof.
  intros cfg now start env e s d H1 H2 H3 H4 H5 H6. unfold handle_event, begin_event. rewrite H1, H2, H4. cbn [andb is_init negb].
  assert (existsb (fun x => Nat.eqb (sr_id x) (sr_id s)) (b_sv d) = true) as -> by (apply existsb_exists; exists s; split; auto; apply Nat.eqb_refl). cbn [negb].
  assert (C : check_preceding cfg true e start d = true).
  { unfold check_preceding. destruct (String.eqb_spec (d_sender (er_ev e)) ""); [contradiction|]. cbn [negb]. pose proof (preceding_spec e d) as P. destruct (preceding e d) as [b|]; auto. destruct P as (P1 & P2 & P3 & P4 & _).
    destruct (Nat.ltb (er_id b) start); auto. destruct (find _ (b_sv d)) as [s0|] eqn:F; auto. apply find_some in F. destruct F as [F1 F2]. apply andb_true_iff in F2. destruct F2 as [F2 F3]. apply String.eqb_eq in F2. apply Nat.eqb_eq in F3.
    destruct (H6 b s0) as [-> | ->]; auto; destruct (d_type (er_ev e)); auto. }
  rewrite C, andb_false_r. reflexivity.
Qed.
Print Assumptions C42_not_blocked_without_reason.
Example C42_example : exists w later t e s before a, reachable (one (cf 1)) calm_mode w /\ w_hist w = later ++ HCall t "a" e s :: before /\ type e = STFIFO /\ er_id e = 2 /\
  dispatched_to before "a" a /\ right_before before a e /\ t <= er_created a + 100.
Proof.
  demo seen (one (cf 1)) [0; 1] calm_mode ([ARegister "a"; ADispatch [nev 1 "e1" "x" STFIFO; nev 2 "e2" "x" STFIFO]; ATick 5] ++ poll_of 0 ++ handle_of 0 HOk ++ [ABegin 0 true true]) w R E.
  exists w. unfold seen in E. injection E as E1 E2. rewrite E1. match type of E1 with _ = HCall ?t ?v ?e ?s :: ?b => exists [], t, e, s, b end. eexists. split; [exact R|]. split; [reflexivity|]. split; [reflexivity|]. split; [reflexivity|].
  split; [do 2 eexists; split; [do 2 right; left; reflexivity|split; [left; reflexivity|left; reflexivity]]|]. split; [|cbn; lia].
  split; [do 2 eexists; split; [do 2 right; left; reflexivity|left; reflexivity]|]. split; [reflexivity|]. split; [cbn; lia|]. split; [cbn; lia|].
  intros r (ra & sa & Ha1 & Ha2) _ _ L. cbn in Ha1. repeat (destruct Ha1 as [Ha1|Ha1]; [try discriminate|]); [|contradiction]. injection Ha1 as <- <-. cbn in Ha2. destruct Ha2 as [<-|[<-|[]]]; cbn in L; [auto|lia].
Qed.

(* ---------------------------------------------------------------- C43 *)
(** When the handler is called for a LaxFIFO (or FIFO) event, the event right before it is no longer pending: a call for it
    was recorded that succeeded or used up the retries, or an operator set its status, or it was created before the window. *)
Theorem C43_lax_predecessor_partial :
  forall cfgs win w later t svc e s before a, (forall p, c_window (cfgs p) = win) -> reachable cfgs calm_mode w -> w_hist w = later ++ HCall t svc e s :: before ->
    type e = STLaxFIFO -> dispatched_to before svc a -> right_before before a e -> t <= er_created a + win ->
    settled before svc a \/ exists x, set_by_hand before svc a x.
Proof.
  intros cfgs win w later t svc e s before a Hw R E T A1 A2 A3. pose proof (directs cfgs calm_mode win w eq_refl eq_refl Hw R) as D. destruct (all_suffix_at _ _ _ _ _ D E) as [X _].
  cbn in X. destruct (X ltac:(now rewrite T) a A1 A2 A3) as [_ Y]. auto.
Qed.
Print Assumptions C43_lax_predecessor_partial.
(** For a sender all of whose events are FIFO or LaxFIFO and dispatched in creation order: every earlier event inside the
    window is settled. *)
Theorem C43_lax_all_earlier_partial :
  forall cfgs win w later t svc e s before a, (forall p, c_window (cfgs p) = win) -> reachable cfgs calm_mode w -> w_hist w = later ++ HCall t svc e s :: before ->
    (forall r, was_dispatched before r -> sender r = sender e -> type r = STFIFO \/ type r = STLaxFIFO) -> in_creation_order before (sender e) ->
    dispatched_to before svc a -> sender a = sender e -> er_id a < er_id e -> t <= er_created a + win -> untouched_between before svc a e ->
    settled before svc a \/ exists x, set_by_hand before svc a x.
Proof.
  intros cfgs win w later t svc e s before a Hw R E. pose proof (claims win false cfgs calm_mode w eq_refl eq_refl Hw R) as D. destruct (all_suffix_at _ _ _ _ _ D E) as [X _].
  intros T O A1 A2 A3 A4 U. exact (X T O a A1 A2 A3 A4 U).
Qed.
Print Assumptions C43_lax_all_earlier_partial.
(** A predecessor that is not pending - failed, say - does not block a LaxFIFO event. *)
Theorem C43_failed_does_not_block :
  forall cfg now start env e s d, he_lock env = true -> he_query env = true -> In s (b_sv d) -> sr_status s = SInit -> sender e <> "" -> type e = STLaxFIFO ->
    (forall a sa, In a (b_ev d) -> sender a = sender e -> er_id a < er_id e -> In sa (b_sv d) -> sr_service sa = c_service cfg -> sr_event sa = er_id a -> sr_status sa <> SInit) ->
    snd (handle_event cfg now start env e s d) = true.
Proof.
  intros cfg now start env e s d H1 H2 H3 H4 H5 T H6. unfold handle_event, begin_event. rewrite H1, H2, H4. cbn [andb is_init negb].
  assert (existsb (fun x => Nat.eqb (sr_id x) (sr_id s)) (b_sv d) = true) as -> by (apply existsb_exists; exists s; split; auto; apply Nat.eqb_refl). cbn [negb].
  assert (C : check_preceding cfg true e start d = true).
  { unfold check_preceding. destruct (String.eqb_spec (d_sender (er_ev e)) ""); [contradiction|]. cbn [negb]. pose proof (preceding_spec e d) as P. destruct (preceding e d) as [b|]; auto. destruct P as (P1 & P2 & P3 & P4 & _).
    destruct (Nat.ltb (er_id b) start); auto. destruct (find _ (b_sv d)) as [s0|] eqn:F; auto. apply find_some in F. destruct F as [F1 F2]. apply andb_true_iff in F2. destruct F2 as [F2 F3]. apply String.eqb_eq in F2. apply Nat.eqb_eq in F3.
    pose proof (H6 b s0 P1 P2 P4 F1 F2 F3) as N. unfold type in T. rewrite T. destruct (sr_status s0); auto. }
  rewrite C, andb_false_r. reflexivity.
Qed.
Print Assumptions C43_failed_does_not_block.
Theorem C43_dispatch_race_refuted :
  exists cfgs w, reachable cfgs free_mode w /\
    (exists t e s, In (HCall t "a" e s) (w_hist w) /\ type e = STLaxFIFO /\ sender e = "x" /\ er_id e = 2) /\
    (exists a s, In a (b_ev (w_db w)) /\ sender a = "x" /\ type a = STLaxFIFO /\ er_id a = 1 /\ record_of w "a" 1 s /\ sr_status s = SInit) /\ calls (w_hist w) "a" 1 = 0.
Proof.
  exists (one (cf 1)). demo (fun w => (seen w, b_ev (w_db w))) (one (cf 1)) [0] free_mode (c42_split STLaxFIFO) w R E. exists w. split; [exact R|]. unfold seen in E. injection E as E1 E2 E3. unfold record_of. rewrite E1, E2, E3. split; [|split].
  - do 3 eexists. split; [right; left; reflexivity|]. auto.
  - do 2 eexists. split; [left; reflexivity|]. split; [reflexivity|]. split; [reflexivity|]. split; [reflexivity|]. split; [split; [right; left; reflexivity|split; reflexivity]|reflexivity].
  - reflexivity.
Qed.
Print Assumptions C43_dispatch_race_refuted.
(** The hypotheses are met by a failed predecessor: the LaxFIFO successor is called. *)
Example C43_example : exists w later t e s before a, reachable (one (mkBus "a" (CustomRetry []) 10 100 0)) calm_mode w /\ w_hist w = later ++ HCall t "a" e s :: before /\ type e = STLaxFIFO /\
  dispatched_to before "a" a /\ right_before before a e /\ t <= er_created a + 100 /\ ~ processed before "a" a.
Proof.
  demo seen (one (mkBus "a" (CustomRetry []) 10 100 0)) [0; 1] calm_mode ([ARegister "a"; ADispatch [nev 1 "e1" "x" STFIFO; nev 2 "e2" "x" STLaxFIFO]; ATick 5] ++ poll_of 0 ++ handle_of 0 HErr ++ [ABegin 0 true true]) w R E.
  exists w. unfold seen in E. injection E as E1 E2. rewrite E1. match type of E1 with _ = HCall ?t ?v ?e ?s :: ?b => exists [], t, e, s, b end. eexists. split; [exact R|]. split; [reflexivity|]. split; [reflexivity|].
  split; [do 2 eexists; split; [do 2 right; left; reflexivity|split; [left; reflexivity|left; reflexivity]]|]. split; [|split; [cbn; lia|intros (s1 & s2 & H); cbn in H; repeat (destruct H as [H|H]; [try discriminate|]); contradiction]].
  split; [do 2 eexists; split; [do 2 right; left; reflexivity|left; reflexivity]|]. split; [reflexivity|]. split; [cbn; lia|]. split; [cbn; lia|].
  intros r (ra & sa & Ha1 & Ha2) _ _ L. cbn in Ha1. repeat (destruct Ha1 as [Ha1|Ha1]; [try discriminate|]); [|contradiction]. injection Ha1 as <- <-. cbn in Ha2. destruct Ha2 as [<-|[<-|[]]]; cbn in L; [auto|lia].
Qed.

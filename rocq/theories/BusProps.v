(** Properties C36-C38, C47, C48: dispatching, scanning, cleaning. *)
From Verif Require Import BusModel BusSpec BusProof.

(** A concrete database used in the examples: two services, three events (one already delivered to "a"), an old one. *)
Definition ev0 (id : string) (t : nat) : devent := mkDev id "s" STNormal 0 t.
Definition cfg0 : buscfg := mkBus "a" (LimitRetry 1) 2 100 50.
Definition dbx : bdb :=
  mkDB [mkE 1 (ev0 "e1" 10) 0; mkE 2 (ev0 "e2" 200) 0; mkE 3 (ev0 "e3" 210) 0; mkE 4 (ev0 "e4" 220) 0]
       [mkS 1 "a" 1 0 SSuccess 10 10; mkS 2 "b" 1 0 SSuccess 10 10; mkS 3 "a" 2 0 SInit 200 200; mkS 4 "b" 2 0 SInit 200 200;
        mkS 5 "a" 3 0 SInit 210 210; mkS 6 "a" 4 1 SInit 220 225]
       ["a"; "b"]%string [] 5 7 1.
Lemma dbx_wf : wf dbx.
Proof.
  constructor; cbn; try lia.
  - repeat constructor; cbn; intuition lia.
  - intros r [<-|[<-|[<-|[<-|[]]]]]; cbn; lia.
  - repeat constructor; cbn; intuition lia.
  - intros s [<-|[<-|[<-|[<-|[<-|[<-|[]]]]]]]; cbn; lia.
  - repeat constructor; cbn; intuition congruence.
  - intros s [<-|[<-|[<-|[<-|[<-|[<-|[]]]]]]]; cbn; eauto 10.
  - repeat constructor; cbn; intuition congruence.
Qed.

(* ---------------------------------------------------------------- C36 *)
(** After a successful Dispatch each event has one new record (ids consecutive), each registered service has exactly one
    new pending delivery per event, due from the event's creation on; nothing else changed. *)
Theorem C36_dispatch_reaches_every_service :
  forall trans evs outcomes d rest d', dispatch trans evs outcomes d = (Val tt, rest, d') -> dispatched trans evs (b_svc d) d d'.
Proof. intros trans evs s d s' d' H. now apply (dispatch_ends trans evs s d _ s' d' H). Qed.
Print Assumptions C36_dispatch_reaches_every_service.
(** In a consistent database "one new record" means "exactly one record". *)
Theorem C36_exactly_one_delivery :
  forall trans evs outcomes d rest d', wf d -> dispatch trans evs outcomes d = (Val tt, rest, d') -> wf d' /\
  forall i e, nth_error evs i = Some e ->
    (exists r, filter (fun r => er_id r =? b_ne d + i) (b_ev d') = [r] /\ er_ev r = e) /\
    (forall svc, In svc (b_svc d) -> exists s, filter (fun s => String.eqb (sr_service s) svc && (sr_event s =? b_ne d + i)) (b_sv d') = [s] /\ sr_status s = SInit /\ sr_next s = d_created e) /\
    (forall s, In s (b_sv d') -> sr_event s = b_ne d + i -> In (sr_service s) (b_svc d)).
Proof.
  intros trans evs outs d rest d' W H. pose proof (C36_dispatch_reaches_every_service _ _ _ _ _ _ H) as D. pose proof (dispatched_wf _ _ _ _ _ W D (wf_svc d W)) as W'. split; auto.
  destruct D as (rows & dels & E1 & E2 & E3 & E4 & E5 & E6 & E7 & E8 & _). intros i e He.
  assert (Hi : i < length evs) by (apply nth_error_Some; congruence).
  assert (R : exists r, In r rows /\ er_id r = b_ne d + i /\ er_ev r = e).
  { assert (X : exists r, nth_error rows i = Some r). { destruct (nth_error rows i) as [r|] eqn:X; eauto. apply nth_error_None in X. rewrite <- E2, map_length in Hi. lia. }
    destruct X as (r & X). exists r. split; [eapply nth_error_In; eauto|]. split.
    - apply (map_nth_error er_id) in X. rewrite E3 in X. apply nth_error_nth with (d := 0) in X. rewrite seq_nth in X; auto.
    - apply (map_nth_error er_ev) in X. rewrite E2, He in X. congruence. }
  destruct R as (r & R1 & R2 & R3).
  assert (Rd' : In r (b_ev d')) by (rewrite E1; apply in_app_iff; auto).
  split; [|split].
  - exists r. split; auto. apply filter_one; auto; [apply (NoDup_of_map er_id), W'|rewrite R2; apply Nat.eqb_refl|]. intros y Hy E. apply Nat.eqb_eq in E. apply (NoDup_map_inj er_id _ _ _ (wf_ev d' W')); auto. congruence.
  - intros svc Hs. assert (X : In (svc, er_id r) (list_prod (b_svc d) (map er_id rows))) by (apply in_prod_iff; split; auto; now apply in_map).
    rewrite <- E6 in X. apply in_map_iff in X. destruct X as (s & [= S1 S2] & Sd). exists s. destruct (E8 s Sd) as (T1 & T2 & r' & T3 & T4 & T5 & T6).
    assert (r' = r) as ->. { apply (NoDup_map_inj er_id (b_ev d') _ _ (wf_ev d' W')); auto; [rewrite E1; apply in_app_iff; auto|congruence]. }
    split; [|split; auto; rewrite T6; unfold er_created; now rewrite R3].
    apply filter_one; [apply (NoDup_of_map sr_id), W'|rewrite E5; apply in_app_iff; auto|rewrite S1, S2, R2, String.eqb_refl; apply Nat.eqb_refl|].
    intros y Hy E. apply andb_true_iff in E. destruct E as [Y1 Y2]. apply String.eqb_eq in Y1. apply Nat.eqb_eq in Y2.
    apply (NoDup_map_inj _ _ _ _ (wf_key d' W')); auto; [rewrite E5; apply in_app_iff; auto|]. congruence.
  - intros s Hs Es. rewrite E5 in Hs. apply in_app_iff in Hs. destruct Hs as [Hs|Hs].
    + exfalso. destruct (wf_ref d W s Hs) as (x & Hx & Ex). pose proof (wf_evn d W x Hx). lia.
    + assert (X : In (sr_service s, sr_event s) (list_prod (b_svc d) (map er_id rows))) by (rewrite <- E6; apply (in_map (fun s => (sr_service s, sr_event s)) _ _ Hs)). apply in_prod_iff in X. apply X.
Qed.
Print Assumptions C36_exactly_one_delivery.
Example C36_example : exists rest d', wf dbx /\ dispatch 0 [ev0 "e5" 230; ev0 "e6" 231] [QOk] dbx = (Val tt, rest, d') /\ length (b_ev d') = 6 /\ length (b_sv d') = 10.
Proof. do 2 eexists. split; [apply dbx_wf|]. split; [reflexivity|]. split; reflexivity. Qed.

(* ---------------------------------------------------------------- C37 *)
(** Dispatch is not atomic: a crash, or a failing statement, after the first INSERT leaves the events stored without any
    delivery - the transaction around the statements does not contain them (eventbus.go 273-274, 281, 293). *)
Theorem C37_dispatch_atomic_refuted :
  exists d evs outcomes o rest d', wf d /\ dispatch 0 evs outcomes d = (o, rest, d') /\ o <> Val tt /\ d' <> d /\ ~ dispatched 0 evs (b_svc d) d d'.
Proof.
  exists dbx, [ev0 "e5" 230], [QOk; QOk; QCrash]. do 3 eexists. split; [apply dbx_wf|]. split; [cbn; reflexivity|]. split; [discriminate|]. split; [discriminate|].
  intros (rows & dels & E1 & E2 & E3 & E4 & E5 & E6 & _). cbn in E5. injection E5 as E5. subst dels. cbn in E6.
  destruct rows as [|r t]; [discriminate|]. discriminate.
Qed.
Print Assumptions C37_dispatch_atomic_refuted.
(** What does hold: however a Dispatch ends, nothing happened, or all its events are stored together with complete
    deliveries for the services in a prefix of the service list.
    Missing for the full property: the prefix need not be empty or everything. *)
Theorem C37_prefix_partial :
  forall trans evs outcomes d o rest d', dispatch trans evs outcomes d = (o, rest, d') ->
  d' = d \/ exists k, dispatched trans evs (firstn k (b_svc d)) d d'.
Proof. intros trans evs s d o s' d' H. now apply (dispatch_ends trans evs s d o s' d' H). Qed.
Print Assumptions C37_prefix_partial.

(* ---------------------------------------------------------------- C38 *)
Lemma window_start_scan cfg now d start : window_start cfg now d start -> scan_start cfg now d = Some start.
Proof.
  intros [(r & H1 & H2 & H3) H4]. pose proof (scan_start_spec cfg now d) as S. destruct (scan_start cfg now d) as [x|]; [|specialize (S r H1); lia].
  destruct S as [(r' & S1 & S2 & S3) S4]. specialize (S4 r H1 H3). specialize (H4 r' S1 S3). f_equal. lia.
Qed.
Lemma batch_calls cfg now start : forall l envs d, (forall e s, In (e, s) l -> d_type (er_ev e) = STNormal /\ sr_status s = SInit /\ In (sr_id s) (map sr_id (b_sv d))) -> (forall i, he_lock (envs i) = true) ->
  snd (handle_batch cfg now start envs l d) = l.
Proof.
  induction l as [|[e s] t IH]; intros envs d H L; auto. cbn [handle_batch].
  destruct (H e s (or_introl eq_refl)) as (H1 & H2 & H3). pose proof (handle_event_rest cfg now start (envs 0) e s d) as (_ & _ & _ & R).
  assert (C : snd (handle_event cfg now start (envs 0) e s d) = true).
  { unfold handle_event, begin_event. rewrite L, H1, H2. cbn. apply in_map_iff in H3. destruct H3 as (x & Ex & Hx).
    assert (X : existsb (fun x => sr_id x =? sr_id s) (b_sv d) = true) by (apply existsb_exists; exists x; split; auto; now apply Nat.eqb_eq). now rewrite X. }
  destruct (handle_event cfg now start (envs 0) e s d) as [d1 c]. cbn [fst snd] in *. subst c.
  assert (X : snd (handle_batch cfg now start (fun i => envs (S i)) t d1) = t). { apply IH; [|intros; apply L]. intros e' s' Hin. rewrite R. apply (H e' s'). now right. }
  destruct (handle_batch cfg now start (fun i => envs (S i)) t d1) as [d2 cs]. cbn in *. now subst.
Qed.
(** A poll works on a batch [l] of deliveries: the pending ones of its service, at or after the first event created inside
    the window, whose time has come; the first LimitPerRun of them by event id, each with its own event.  If none of them
    is a FIFO event and the row locks are obtained, the handler is called for exactly these, in this order. *)
Theorem C38_poll_selects_oldest_due :
  forall cfg now envs d start, wf d -> window_start cfg now d start -> exists l,
    handle_events cfg now envs d = handle_batch cfg now start envs l d /\
    first_by_event (eligible cfg now start) (c_limit cfg) (b_sv d) (map snd l) /\
    (forall e s, In (e, s) l -> In e (b_ev d) /\ er_id e = sr_event s) /\
    ((forall e s, In (e, s) l -> d_type (er_ev e) = STNormal) -> (forall i, he_lock (envs i) = true) -> snd (handle_events cfg now envs d) = l).
Proof.
  intros cfg now envs d start W H. exists (scan_events cfg now start d). unfold handle_events. rewrite (window_start_scan _ _ _ _ H).
  destruct (scan_spec cfg now start d W) as [S1 S2]. split; auto. split; auto. split; [intros e s Hin; destruct (S2 e s Hin); tauto|].
  intros T L. apply batch_calls; auto. intros e s Hin. split; [now apply (T e s)|]. destruct (S2 e s Hin) as (X1 & X2 & X3). split.
  - apply S1. change s with (snd (e, s)). now apply in_map.
  - now apply in_map.
Qed.
Print Assumptions C38_poll_selects_oldest_due.
(** If no event was created inside the window, a poll does nothing. *)
Theorem C38_poll_empty_window :
  forall cfg now envs d, (forall r, In r (b_ev d) -> er_created r + c_window cfg < now) -> handle_events cfg now envs d = (d, []).
Proof.
  intros cfg now envs d H. unfold handle_events. pose proof (scan_start_spec cfg now d) as S. destruct (scan_start cfg now d) as [x|]; auto.
  destruct S as [(r & S1 & S2 & S3) _]. specialize (H r S1). lia.
Qed.
Print Assumptions C38_poll_empty_window.
Example C38_example : wf dbx /\ window_start cfg0 250 dbx 2 /\ map (fun x => (er_id (fst x), sr_id (snd x))) (snd (handle_events cfg0 250 (fun _ => mkHE true true HOk true) dbx)) = [(2, 3); (3, 5)].
Proof.
  split; [apply dbx_wf|]. split; [|vm_compute; reflexivity]. split.
  - exists (mkE 2 (ev0 "e2" 200) 0). cbn. repeat split; auto. lia.
  - intros r [<-|[<-|[<-|[<-|[]]]]]; cbn; lia.
Qed.

(* ---------------------------------------------------------------- C47 *)
(** Cleaning takes out exactly the finished deliveries of its own service (successful, older than the retention time), and
    exactly the events all of whose deliveries (at least one) are taken out; the rest stays, in order. *)
Theorem C47_clean_exact :
  forall cfg now d, wf d -> let d' := clean_events cfg now d in
    taken_out (finished cfg now) (b_sv d) (b_sv d') /\
    taken_out (fun r => (exists s, In s (b_sv d) /\ sr_event s = er_id r /\ finished cfg now s) /\ forall s, In s (b_sv d) -> sr_event s = er_id r -> finished cfg now s) (b_ev d) (b_ev d') /\
    b_svc d' = b_svc d /\ b_tx d' = b_tx d.
Proof. intros cfg now d W. destruct (clean_spec cfg now d W) as (C1 & C2 & C3 & C4 & _). cbn zeta. auto. Qed.
Print Assumptions C47_clean_exact.
(** In particular: pending, failed and foreign deliveries survive together with their events, and the database stays consistent. *)
Theorem C47_clean_keeps_unfinished :
  forall cfg now d, wf d -> wf (clean_events cfg now d) /\
  forall s, In s (b_sv d) -> (sr_status s <> SSuccess \/ sr_service s <> c_service cfg \/ now <= sr_created s + c_retention cfg) ->
    In s (b_sv (clean_events cfg now d)) /\ forall r, In r (b_ev d) -> er_id r = sr_event s -> In r (b_ev (clean_events cfg now d)).
Proof.
  intros cfg now d W. split; [now apply clean_wf|]. intros s Hs N. destruct (clean_spec cfg now d W) as (C1 & C2 & _).
  assert (F : ~ finished cfg now s) by (intros (F1 & F2 & F3); destruct N as [N|[N|N]]; auto; lia).
  split; [now apply (taken_out_In _ _ _ s C1)|]. intros r Hr Er. apply (taken_out_In _ _ _ r C2); auto. intros [_ X]. apply F. apply X; auto.
Qed.
Print Assumptions C47_clean_keeps_unfinished.
Example C47_example : wf dbx /\ map sr_id (b_sv (clean_events cfg0 250 dbx)) = [2; 3; 4; 5; 6] /\ map er_id (b_ev (clean_events (mkBus "b" (LimitRetry 1) 2 100 50) 250 (clean_events cfg0 250 dbx))) = [2; 3; 4].
Proof. split; [apply dbx_wf|]. split; vm_compute; reflexivity. Qed.

(* ---------------------------------------------------------------- C48 *)
(** Neither a poll nor a cleaning run of one service changes, adds or removes a delivery record of another service; a poll
    changes no other table at all. *)
Theorem C48_services_independent :
  forall cfg now envs d, wf d ->
    others cfg (fst (handle_events cfg now envs d)) = others cfg d /\ others cfg (clean_events cfg now d) = others cfg d /\
    b_ev (fst (handle_events cfg now envs d)) = b_ev d /\ b_svc (fst (handle_events cfg now envs d)) = b_svc d /\ b_tx (fst (handle_events cfg now envs d)) = b_tx d.
Proof.
  intros cfg now envs d W. destruct (handle_events_others cfg now envs d W) as (H1 & H2 & H3 & H4). repeat split; auto. now apply clean_others.
Qed.
Print Assumptions C48_services_independent.
Example C48_example : wf dbx /\ length (others cfg0 dbx) = 2 /\ fst (handle_events cfg0 250 (fun _ => mkHE true true HOk true) dbx) <> dbx.
Proof. split; [apply dbx_wf|]. split; [reflexivity|]. vm_compute. discriminate. Qed.

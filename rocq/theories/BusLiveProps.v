(** C44, C45: progress of the event bus. *)
From Verif Require Import BusModel BusSpec BusProof BusWorld BusWorldSpec BusWorldProof BusWorldProof3 BusLiveSpec BusLive BusLive2 BusLive3 BusLive4.
Local Open Scope string_scope. Local Open Scope list_scope. Local Open Scope nat_scope.

Definition env_ok : nat -> henv := fun _ => mkHE true true HOk true.
Definition env_bad : nat -> henv := fun _ => mkHE true true HErr true.
Definition lev (i : nat) (id snd : string) (t : sendtype) : devent := mkDev id snd t i 0.

(* ---------------------------------------------------------------- C44 *)
(** Within a poll, senders do not influence each other: which calls are made for the events of a sender depends only on what
    happens with the events of that sender - whether the handler fails, panics or the save is lost for the others. *)
Theorem C44_senders_independent_partial :
  forall cfg now envs envs' d x, wf d ->
    (forall start i e s, scan_start cfg now d = Some start -> nth_error (scan_events cfg now start d) i = Some (e, s) -> sender e = x -> envs i = envs' i) ->
    filter (fun t => String.eqb (sender (fst t)) x) (snd (handle_events cfg now envs d)) = filter (fun t => String.eqb (sender (fst t)) x) (snd (handle_events cfg now envs' d)).
Proof.
  intros cfg now envs envs' d x W H. unfold handle_events. destruct (scan_start cfg now d) as [start|]; auto. apply (batch_indep cfg now start x).
  - apply rel_refl.
  - apply W.
  - intros e s Hs. destruct (scan_spec cfg now start d W) as [_ B]. destruct (B e s Hs) as (B1 & B2 & B3). split; auto. split; auto. intros y Hy Ey. assert (y = s) as -> by (apply (NoDup_map_inj _ _ _ _ (wf_sv d W)); auto). auto.
  - intros i e s Hi. exact (H start i e s eq_refl Hi).
Qed.
Print Assumptions C44_senders_independent_partial.
(** Normal events are not held up by anything within the poll. *)
Theorem C44_normal_never_held_up_partial :
  forall cfg now envs d start i e s, wf d -> scan_start cfg now d = Some start -> nth_error (scan_events cfg now start d) i = Some (e, s) ->
    type e <> STFIFO -> type e <> STLaxFIFO -> he_lock (envs i) = true -> In (e, s) (snd (handle_events cfg now envs d)).
Proof.
  intros cfg now envs d start i e s W E Hi T1 T2 L. destruct (poll_effect cfg now envs d W) as (_ & _ & _ & P). rewrite E in P. cbn zeta in P. destruct P as (g & _ & _ & _ & P & _). apply (P i e s Hi); auto.
  unfold type in *. destruct (d_type (er_ev e)); auto; contradiction.
Qed.
Print Assumptions C44_normal_never_held_up_partial.
(** Over several polls it does not hold: the batch limit counts blocked events too.  With a limit of 1 (any limit, with as many
    blocked followers) a failed FIFO event keeps its follower pending, the follower fills the batch of every poll, and an
    unrelated event of another sender is never handed over - by no poll at no time. *)
Definition tiny : buscfg := mkBus "a" (CustomRetry []) 1 100 0.
Definition stuck_ops : list busop := [BRegister "a"; BDispatch [lev 1 "e1" "x" STFIFO; lev 2 "e2" "x" STFIFO; lev 3 "e3" "y" STNormal]; BPoll 0 env_bad].
Theorem C44_starvation_refuted :
  exists cfg ops e, 1 <= c_limit cfg /\
    (let d := fst (bus_run cfg ops db0) in
     In e (b_ev d) /\ sender e = "y" /\ type e = STNormal /\ (forall r, In r (b_ev d) -> r <> e -> sender r <> "y") /\
     forall l, (forall o, In o l -> exists now envs, o = BPoll now envs) -> snd (bus_run cfg l d) = []).
Proof.
  exists tiny, stuck_ops, (mkE 3 (lev 3 "e3" "y" STNormal) 0). split; [cbn; lia|]. cbn zeta.
  set (d := fst (bus_run tiny stuck_ops db0)). vm_compute in d.
  split; [right; right; left; reflexivity|]. split; [reflexivity|]. split; [reflexivity|]. split.
  - intros r [<-|[<-|[<-|[]]]]; [discriminate|discriminate|contradiction].
  - assert (Poll : forall now envs, handle_events tiny now envs d = (d, [])).
    { intros now envs. unfold handle_events. assert (Sc : scan_start tiny now d = if now <=? 100 then Some 1 else None) by (unfold scan_start, tiny, d; cbn; destruct (now <=? 100); reflexivity).
      rewrite Sc. destruct (Nat.leb_spec now 100) as [L|L]; auto.
      assert (Sn : scan_events tiny now 1 d = [(mkE 2 (lev 2 "e2" "x" STFIFO) 0, mkS 2 "a" 2 0 SInit 0 0)]) by (unfold scan_events, tiny, d; cbn; reflexivity).
      rewrite Sn. cbn [handle_batch]. unfold handle_event, begin_event, d. cbn. destruct (he_lock (envs 0)); cbn; [|reflexivity]. destruct (he_query (envs 0)); cbn; destruct (he_save (envs 0)); reflexivity. }
    induction l as [|o t IH]; intros H; auto. destruct (H o (or_introl eq_refl)) as (now & envs & ->). cbn [bus_run]. rewrite Poll. specialize (IH (fun o Ho => H o (or_intror Ho))). destruct (bus_run tiny t d) as [d2 c2]. cbn in *. auto.
Qed.
Print Assumptions C44_starvation_refuted.

(* ---------------------------------------------------------------- C45 *)
(** A pending Normal (or transactional) event inside the scan window is handed over after finitely many polls, however often
    the handlers of this and other events fail, provided the row locks are obtained and results are saved, the strategy
    grants [n] retries, and the pending events before it are not FIFO or LaxFIFO: at most [(n+1) * pending records before it
    + 1] polls, in between which other services may poll, events be dispatched, services registered and records cleaned. *)
Theorem C45_normal_progress_partial :
  forall cfg n d l e0 s0, wf d -> grants (c_strategy cfg) n -> 1 <= c_limit cfg -> foreign_ok cfg l ->
    In s0 (b_sv d) -> sr_service s0 = c_service cfg -> sr_status s0 = SInit -> In e0 (b_ev d) -> er_id e0 = sr_event s0 ->
    (forall s r, In s (b_sv d) -> sr_service s = c_service cfg -> sr_event s <= sr_event s0 -> In r (b_ev d) -> er_id r = sr_event s -> type r <> STFIFO /\ type r <> STLaxFIFO) ->
    (forall now envs, In (BPoll now envs) l -> sr_next s0 <= now <= er_created e0 + c_window cfg /\ forall i, he_lock (envs i) = true /\ he_save (envs i) = true) ->
    (n + 1) * length (pending_before cfg d (sr_event s0)) < polls l ->
    In (e0, s0) (snd (bus_run cfg l d)).
Proof.
  intros cfg n d l e0 s0 W G Lim F H1 H2 H3 H4 H5 H6 H7 H8.
  apply (progress cfg n e0 s0 H2 H3 H5 q_normal (ok_normal cfg e0 s0) (poll_normal cfg n e0 s0 H2 H3 H5 Lim G)); auto.
  - split; auto. split; auto. split; auto. intros s r A B C D E. unfold q_normal. unfold mine in B. apply String.eqb_eq in B. destruct (H6 s r A B C D E) as [X Y]. unfold type in *. destruct (d_type (er_ev r)); auto; contradiction.
  - intros now envs Hp. destruct (H7 now envs Hp) as [[A B] C]. split; auto.
  - pose proof (total_bound cfg n e0 s0 H5 d). lia.
Qed.
Print Assumptions C45_normal_progress_partial.
(** With handlers that succeed, events of every type inside the window are handed over: if the records of the service up to
    the event are pending and due, successful or expired, and the ordered events have a sender, then it takes at most one
    poll more than there are pending records before it. *)
Theorem C45_success_progress_partial :
  forall cfg d l e0 s0, wf d -> 1 <= c_limit cfg -> foreign_ok cfg l ->
    In s0 (b_sv d) -> sr_service s0 = c_service cfg -> sr_status s0 = SInit -> In e0 (b_ev d) -> er_id e0 = sr_event s0 ->
    (forall s r, In s (b_sv d) -> sr_service s = c_service cfg -> sr_event s <= sr_event s0 -> In r (b_ev d) -> er_id r = sr_event s ->
       (sr_status s = SInit \/ sr_status s = SSuccess \/ sr_status s = SExpired) /\ (type r = STFIFO \/ type r = STLaxFIFO -> sender r <> "")) ->
    (forall s now envs, In s (b_sv d) -> sr_service s = c_service cfg -> sr_event s <= sr_event s0 -> sr_status s = SInit -> In (BPoll now envs) l -> sr_next s <= now) ->
    (forall now envs, In (BPoll now envs) l -> now <= er_created e0 + c_window cfg /\ forall i, he_lock (envs i) = true /\ he_query (envs i) = true /\ he_res (envs i) = HOk /\ he_save (envs i) = true) ->
    length (pending_before cfg d (sr_event s0)) < polls l ->
    In (e0, s0) (snd (bus_run cfg l d)).
Proof.
  intros cfg d l e0 s0 W Lim F H1 H2 H3 H4 H5 H6 H6' H7 H8. set (times := fun t => exists envs, In (BPoll t envs) l).
  apply (progress cfg 0 e0 s0 H2 H3 H5 (q_fine times) (ok_fine cfg e0 s0 times) (poll_fine cfg 0 e0 s0 H2 H3 H5 Lim times)); auto.
  - split; auto. split; auto. split; auto. intros s r A B C D E. unfold mine in B. apply String.eqb_eq in B. destruct (H6 s r A B C D E) as [X Y]. split; auto. split.
    + intros Ini t (envs & Ht). exact (H6' s t envs A B C Ini Ht).
    + intros Fi. apply Y. unfold type. destruct (d_type (er_ev r)); auto; discriminate.
  - intros now envs Hp. destruct (H7 now envs Hp) as [B C]. split; [exists envs; auto|]. split; auto. apply (H6' s0 now envs); auto.
  - pose proof (total_bound cfg 0 e0 s0 H5 d). cbn in H. lia.
Qed.
Print Assumptions C45_success_progress_partial.
(** In general it does not hold.  An event that is not handed over before it leaves the scan window (a service that is down
    for 24 hours) never is ... *)
Definition plain : buscfg := mkBus "a" (LimitRetry 1) 10 100 0.
Theorem C45_window_refuted :
  exists cfg ops e s, let d := fst (bus_run cfg ops db0) in
    In e (b_ev d) /\ In s (b_sv d) /\ sr_event s = er_id e /\ sr_status s = SInit /\ sr_service s = c_service cfg /\ type e = STNormal /\ 1 <= c_limit cfg /\
    forall l, (forall o, In o l -> exists now envs, o = BPoll now envs /\ er_created e + c_window cfg < now) -> bus_run cfg l d = (d, []).
Proof.
  exists plain, [BRegister "a"; BDispatch [lev 1 "e1" "x" STNormal]], (mkE 1 (lev 1 "e1" "x" STNormal) 0), (mkS 1 "a" 1 0 SInit 0 0). cbn zeta.
  set (d := fst (bus_run plain _ db0)). vm_compute in d. split; [left; reflexivity|]. split; [left; reflexivity|]. split; [reflexivity|]. split; [reflexivity|]. split; [reflexivity|]. split; [reflexivity|]. split; [cbn; lia|].
  induction l as [|o t IH]; intros H; auto. destruct (H o (or_introl eq_refl)) as (now & envs & -> & L). cbn in L. cbn [bus_run].
  assert (handle_events plain now envs d = (d, [])) as ->. { unfold handle_events. assert (scan_start plain now d = None) as ->; auto. unfold scan_start, plain, d. cbn. destruct (Nat.leb_spec now 100); auto. lia. }
  rewrite (IH (fun o Ho => H o (or_intror Ho))). reflexivity.
Qed.
Print Assumptions C45_window_refuted.
(** ... and a FIFO or LaxFIFO event without sender is never handed over, by no poll whatsoever. *)
Theorem C45_no_sender_refuted :
  forall t, t = STFIFO \/ t = STLaxFIFO ->
  exists cfg ops e s, let d := fst (bus_run cfg ops db0) in
    In e (b_ev d) /\ In s (b_sv d) /\ sr_event s = er_id e /\ sr_status s = SInit /\ sr_service s = c_service cfg /\ type e = t /\ 1 <= c_limit cfg /\
    forall l, (forall o, In o l -> exists now envs, o = BPoll now envs) -> bus_run cfg l d = (d, []).
Proof.
  intros t T. exists plain, [BRegister "a"; BDispatch [lev 1 "e1" "" t]], (mkE 1 (lev 1 "e1" "" t) 0), (mkS 1 "a" 1 0 SInit 0 0). cbn zeta.
  set (d := fst (bus_run plain _ db0)). vm_compute in d. split; [left; reflexivity|]. split; [left; reflexivity|]. split; [reflexivity|]. split; [reflexivity|]. split; [reflexivity|]. split; [reflexivity|]. split; [cbn; lia|].
  assert (Poll : forall now envs, handle_events plain now envs d = (d, [])).
  { intros now envs. unfold handle_events. assert (Sc : scan_start plain now d = if now <=? 100 then Some 1 else None) by (unfold scan_start, plain, d; cbn; destruct (now <=? 100); reflexivity).
    rewrite Sc. destruct (Nat.leb_spec now 100) as [L|L]; auto.
    assert (Sn : scan_events plain now 1 d = [(mkE 1 (lev 1 "e1" "" t) 0, mkS 1 "a" 1 0 SInit 0 0)]) by (unfold scan_events, plain, d; cbn; reflexivity).
    rewrite Sn. cbn [handle_batch]. unfold handle_event, begin_event, d. cbn. destruct (he_lock (envs 0)); cbn; [|reflexivity]. destruct T as [-> | ->]; cbn; destruct (he_save (envs 0)); reflexivity. }
  induction l as [|o u IH]; intros H; auto. destruct (H o (or_introl eq_refl)) as (now & envs & ->). cbn [bus_run]. rewrite Poll. rewrite (IH (fun o Ho => H o (or_intror Ho))). reflexivity.
Qed.
Print Assumptions C45_no_sender_refuted.

(** The hypotheses are met: three events, a limit of 1 per poll; the third one is handed over by the third poll, although
    the handler of the first fails; with FIFO events and succeeding handlers likewise. *)
Definition ex_db (t : sendtype) : bdb := fst (bus_run (mkBus "a" (CustomRetry []) 1 100 0) [BRegister "a"; BDispatch [lev 1 "e1" "x" t; lev 2 "e2" "x" t; lev 3 "e3" "x" t]] db0).
Lemma ex_db_wf t : wf (ex_db t).
Proof.
  unfold ex_db. cbn [bus_run fst]. destruct (dispatch_now [lev 1 "e1" "x" t; lev 2 "e2" "x" t; lev 3 "e3" "x" t] (init_service "a" db0)) as [rows d'] eqn:E. destruct (dispatch_now_spec _ _ _ _ E) as [D _]. cbn [snd].
  assert (W : wf (init_service "a" db0)) by (apply init_service_wf; constructor; cbn; try constructor; try lia; intros ? []).
  apply (dispatched_wf 0 _ _ _ _ W D). apply W.
Qed.
Example C45_example : exists d l e0 s0, wf d /\ grants (c_strategy tiny) 0 /\ In s0 (b_sv d) /\ In e0 (b_ev d) /\ er_id e0 = 3 /\
  (0 + 1) * length (pending_before tiny d (sr_event s0)) < polls l /\ In (e0, s0) (snd (bus_run tiny l d)).
Proof.
  exists (ex_db STNormal), [BPoll 5 env_bad; BPoll 6 env_bad; BPoll 7 env_ok], (mkE 3 (lev 3 "e3" "x" STNormal) 0), (mkS 3 "a" 3 0 SInit 0 0).
  assert (W : wf (ex_db STNormal)) by apply ex_db_wf. assert (G : grants (c_strategy tiny) 0) by (intros c now; cbn; split; [lia|destruct c; reflexivity]).
  assert (I1 : In (mkS 3 "a" 3 0 SInit 0 0) (b_sv (ex_db STNormal))) by (vm_compute; auto). assert (I2 : In (mkE 3 (lev 3 "e3" "x" STNormal) 0) (b_ev (ex_db STNormal))) by (vm_compute; auto).
  assert (L : (0 + 1) * length (pending_before tiny (ex_db STNormal) 3) < polls [BPoll 5 env_bad; BPoll 6 env_bad; BPoll 7 env_ok]) by (vm_compute; lia).
  split; auto. split; auto. split; auto. split; auto. split; auto. split; auto. apply (C45_normal_progress_partial tiny 0); auto.
  - intros o now envs [H|[H|[H|[]]]]; discriminate.
  - intros s r _ _ _ Hr _. vm_compute in Hr. destruct Hr as [<-|[<-|[<-|[]]]]; split; discriminate.
  - intros now envs [H|[H|[H|[]]]]; injection H as <- <-; cbn; repeat split; lia.
Qed.
Example C45_fifo_example : exists d l e0 s0, wf d /\ In s0 (b_sv d) /\ In e0 (b_ev d) /\ er_id e0 = 3 /\ type e0 = STFIFO /\ In (e0, s0) (snd (bus_run tiny l d)).
Proof.
  exists (ex_db STFIFO), [BPoll 5 env_ok; BPoll 6 env_ok; BPoll 7 env_ok], (mkE 3 (lev 3 "e3" "x" STFIFO) 0), (mkS 3 "a" 3 0 SInit 0 0).
  assert (W : wf (ex_db STFIFO)) by apply ex_db_wf.
  assert (I1 : In (mkS 3 "a" 3 0 SInit 0 0) (b_sv (ex_db STFIFO))) by (vm_compute; auto). assert (I2 : In (mkE 3 (lev 3 "e3" "x" STFIFO) 0) (b_ev (ex_db STFIFO))) by (vm_compute; auto).
  split; auto. split; auto. split; auto. split; auto. split; auto. apply C45_success_progress_partial; auto.
  - intros o now envs [H|[H|[H|[]]]]; discriminate.
  - intros s r Hs _ _ Hr _. vm_compute in Hr, Hs. split; [destruct Hs as [<-|[<-|[<-|[]]]]; auto|destruct Hr as [<-|[<-|[<-|[]]]]; intros _; discriminate].
  - intros s now envs Hs _ _ _ _. vm_compute in Hs. destruct Hs as [<-|[<-|[<-|[]]]]; cbn; lia.
  - intros now envs [H|[H|[H|[]]]]; injection H as <- <-; cbn; repeat split; lia.
Qed.
Example C44_example : wf (ex_db STNormal) /\ scan_start plain 5 (ex_db STNormal) = Some 1 /\ length (scan_events plain 5 1 (ex_db STNormal)) = 3.
Proof. split; [apply ex_db_wf|]. split; vm_compute; reflexivity. Qed.

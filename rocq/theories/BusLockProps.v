(** Calls in progress exclude each other; a call that died does not block its event. *)
From Verif Require Import BusModel BusSpec BusProof BusWorld BusWorldSpec BusWorldProof BusWorldProof2 BusWorldProof4 BusWorldProof5 BusWorldProof3 BusWorldProof6 BusLockProof BusWorldProps.
Local Open Scope string_scope.
Local Open Scope list_scope.
Local Open Scope nat_scope.

Lemma calling_running w p i e s : calling w p i e s <-> nth_error (running (w_poll w p)) i = Some (e, s).
Proof.
  split.
  - intros (st & todo & run & E & H). now rewrite E.
  - intros H. destruct (w_poll w p) as [| | | |st todo run] eqn:E; cbn in H; try (destruct i; discriminate). exists st, todo, run. auto.
Qed.
Lemma NoDup_nth {A} (l : list A) : NoDup l -> forall i j x, nth_error l i = Some x -> nth_error l j = Some x -> i = j.
Proof. intros N i j x H1 H2. apply (proj1 (NoDup_nth_error l) N); [apply nth_error_Some; congruence|congruence]. Qed.

(** Under every schedule - any number of processes, overlapping polls, split dispatches, crashes, lost saves - no two calls
    made because of the same delivery record are in progress at the same time. *)
Theorem C69_one_call_per_record :
  forall cfgs m w p q i j e e' s s', reachable cfgs m w -> calling w p i e s -> calling w q j e' s' -> sr_id s = sr_id s' -> p = q /\ i = j.
Proof.
  intros cfgs m w p q i j e e' s s' R H1 H2 E. destruct (invL_reach cfgs m w R) as [N D _]. apply calling_running in H1. apply calling_running in H2.
  assert (A : nth_error (rids w p) i = Some (sr_id s)) by (unfold rids; rewrite nth_error_map, H1; reflexivity).
  assert (B : nth_error (rids w q) j = Some (sr_id s)) by (unfold rids; rewrite nth_error_map, H2, E; reflexivity).
  assert (p = q) as <- by (eapply D; eapply nth_error_In; eauto). split; auto. eapply NoDup_nth; eauto.
Qed.
Print Assumptions C69_one_call_per_record.
(** The handlers of a service, however many processes run it, never work on the same event at the same time.  (Dispatches
    atomic, no cleaning inside a scan.) *)
Theorem C69_one_call_at_a_time_partial :
  forall cfgs w p q i j e e' s s', reachable cfgs calm_mode w -> calling w p i e s -> calling w q j e' s' ->
    c_service (cfgs p) = c_service (cfgs q) -> er_id e = er_id e' -> p = q /\ i = j.
Proof.
  intros cfgs w p q i j e e' s s' R H1 H2 Es Ee. apply (C69_one_call_per_record cfgs calm_mode w p q i j e e' s s' R H1 H2).
  pose proof (inv_reach cfgs calm_mode eq_refl eq_refl w R) as I. pose proof (invR_reach cfgs calm_mode w eq_refl eq_refl R) as IR.
  apply calling_running in H1. apply calling_running in H2. apply nth_error_In in H1. apply nth_error_In in H2. destruct (running_ok cfgs w q e' s' I H2) as [T E].
  apply (same_record cfgs w p q e s e' s' I IR H1 T E (IR q e' s' H2)). auto.
Qed.
Print Assumptions C69_one_call_at_a_time_partial.
(** A row is locked only while a call for it is in progress: whatever died or failed to save left no lock behind. *)
Theorem C69_no_lock_left_behind :
  forall cfgs m w id, reachable cfgs m w -> (In id (w_locks w) <-> exists p i e s, calling w p i e s /\ sr_id s = id).
Proof.
  intros cfgs m w id R. destruct (invL_reach cfgs m w R) as [_ _ L]. rewrite L. split.
  - intros (p & H). unfold rids in H. apply in_map_iff in H. destruct H as ((e & s) & E & H). apply In_nth_error in H. destruct H as (i & H). exists p, i, e, s. split; auto. now apply calling_running.
  - intros (p & i & e & s & H & E). exists p. apply calling_running in H. unfold rids. apply in_map_iff. exists (e, s). split; auto. eapply nth_error_In; eauto.
Qed.
Print Assumptions C69_no_lock_left_behind.
(** Nothing in the order of its sender's events holds up [e] in service [svc]: it is not bound to an order, or it has a sender
    and every earlier event of that sender is done ("success" or "expired" for FIFO, anything but "init" for LaxFIFO). *)
Definition its_turn (w : world) (svc : string) (e : erow) : Prop :=
  match type e with
  | STFIFO => sender e <> "" /\ forall a sa, In a (b_ev (w_db w)) -> sender a = sender e -> er_id a < er_id e -> record_of w svc (er_id a) sa -> sr_status sa = SSuccess \/ sr_status sa = SExpired
  | STLaxFIFO => sender e <> "" /\ forall a sa, In a (b_ev (w_db w)) -> sender a = sender e -> er_id a < er_id e -> record_of w svc (er_id a) sa -> sr_status sa <> SInit
  | _ => True
  end.
(** If no call for the event is in progress in the service, a poller that takes the pending event (its record not cleaned
    away, no earlier event to wait for) calls the handler - also when an earlier call for it died. *)
Theorem C69_taken_unless_in_progress_partial :
  forall cfgs w p e s, reachable cfgs calm_mode w -> takes_next w p e s -> its_turn w (c_service (cfgs p)) e ->
    (exists x, In x (b_sv (w_db w)) /\ sr_id x = sr_id s) -> ~ in_progress cfgs w (c_service (cfgs p)) (er_id e) ->
    exists w' i, exec cfgs (ABegin p true true) w = Some w' /\ w_hist w' = HCall (w_now w) (c_service (cfgs p)) e s :: w_hist w /\ calling w' p i e s.
Proof.
  intros cfgs w p e s R (st & todo & run & E) F X N.
  pose proof (inv_reach cfgs calm_mode eq_refl eq_refl w R) as I. pose proof (invR_reach cfgs calm_mode w eq_refl eq_refl R) as IR. pose proof (invL_reach cfgs calm_mode w R) as IL.
  pose proof (i_poll _ _ I p) as P. rewrite E in P. destruct P as (_ & P & _). destruct (P e s) as (T & Te & _); [now left|].
  assert (U : ~ In (sr_id s) (w_locks w)).
  { intros L. apply (l_locks _ IL) in L. destruct L as (q & L). unfold rids in L. apply in_map_iff in L. destruct L as ((e' & s') & Es & L). cbn in Es.
    destruct (proj1 (same_record cfgs w q p e' s' e s I IR L T Te X) Es) as [A B]. apply N. apply progress_iff. exists q, e', s'. auto. }
  destruct w as [d now po lk js h]. cbn [w_poll w_db w_locks w_now w_hist] in *. cbn [exec]. rewrite E. unfold locked. cbn [w_locks].
  assert (Lk : memb (sr_id s) lk = false) by (destruct (memb (sr_id s) lk) eqn:M; auto; apply memb_In in M; contradiction). rewrite Lk.
  assert (B : begin_event (cfgs p) (true && negb false) true st e s d = VCall).
  { unfold begin_event. destruct X as (x & X1 & X2). assert (Y : existsb (fun x => sr_id x =? sr_id s) (b_sv d) = true) by (apply existsb_exists; exists x; split; auto; now apply Nat.eqb_eq). rewrite Y.
    destruct T as (_ & T2 & _). rewrite T2. cbn [andb negb is_init]. unfold its_turn, record_of in F. cbn [w_db] in F.
    assert (C : is_fifo (type e) = true -> check_preceding (cfgs p) true e st d = true).
    { intros Hf. assert (Hs : sender e <> "") by (destruct (type e); try discriminate Hf; apply F).
      unfold check_preceding. destruct (String.eqb_spec (d_sender (er_ev e)) ""); [contradiction|]. cbn [negb]. pose proof (preceding_spec e d) as Q. destruct (preceding e d) as [b|]; auto. destruct Q as (P1 & P2 & P3 & P4 & _).
      destruct (er_id b <? st); auto. destruct (find _ (b_sv d)) as [sb|] eqn:Ef; auto. apply find_some in Ef. destruct Ef as [F1 F2]. apply andb_true_iff in F2. destruct F2 as [F2 F3]. apply String.eqb_eq in F2. apply Nat.eqb_eq in F3.
      unfold type in *. destruct (d_type (er_ev e)); auto; destruct F as [_ F]; specialize (F b sb P1 P2 P4 (conj F1 (conj F2 F3))); destruct (sr_status sb); auto; try contradiction; destruct F; discriminate. }
    unfold type in C. destruct (is_fifo (d_type (er_ev e))); [rewrite (C eq_refl)|]; reflexivity. }
  rewrite B. eexists. exists (length run). split; [reflexivity|]. split; [reflexivity|]. apply calling_running. cbn [w_poll]. unfold upd. rewrite Nat.eqb_refl. cbn [running].
  rewrite nth_error_app2, Nat.sub_diag; auto.
Qed.
Print Assumptions C69_taken_unless_in_progress_partial.

(** Two pollers hold the same event; the first is handling it, so the second skips it; the first dies, a third takes it. *)
Definition c69_run : list act :=
  [ARegister "a"; ADispatch [nev 1 "e1" "x" STNormal]] ++ poll_of 0 ++ poll_of 1 ++ poll_of 2 ++ [ABegin 0 true true; ABegin 1 true true; ADie 0; ABegin 2 true true].
Example C69_example :
  (exists w, reachable (one (cf 1)) calm_mode w /\ calls (w_hist w) "a" 1 = 2 /\ (exists e s, calling w 2 0 e s) /\ w_poll w 1 = PRun 1 [] []) /\
  (exists w e s, reachable (one (cf 1)) calm_mode w /\ takes_next w 2 e s /\ its_turn w "a" e /\ ~ in_progress (one (cf 1)) w "a" (er_id e) /\ calls (w_hist w) "a" (er_id e) = 1).
Proof.
  split.
  - assert (X : exists w, runc (one (cf 1)) [0; 1; 2] calm_mode c69_run world0 = Some w /\ calls (w_hist w) "a" 1 = 2 /\ (exists e s, calling w 2 0 e s) /\ w_poll w 1 = PRun 1 [] []).
    { eexists. split; [vm_compute; reflexivity|]. split; [reflexivity|]. split; [|reflexivity]. do 2 eexists. do 3 eexists. split; reflexivity. }
    destruct X as (w & X & Y). exists w. split; auto. eapply run_reachable; eauto.
  - assert (X : exists w e s, runc (one (cf 1)) [0; 1; 2] calm_mode (firstn (length c69_run - 1) c69_run) world0 = Some w /\ takes_next w 2 e s /\ its_turn w "a" e /\ ~ in_progress (one (cf 1)) w "a" (er_id e) /\ calls (w_hist w) "a" (er_id e) = 1).
    { do 3 eexists. split; [vm_compute; reflexivity|]. split; [do 3 eexists; reflexivity|]. split; [exact I|]. split; [|reflexivity].
      rewrite progress_iff. intros (q & e & s & _ & H & _). cbn in H. destruct q as [|[|[|q]]]; cbn in H; tauto. }
    destruct X as (w & e & s & X & Y). exists w, e, s. split; auto. eapply run_reachable; eauto.
Qed.

(** The same for the second of two FIFO events: the first was handled, the call for the second died, its turn has come. *)
Definition c69_fifo : list act :=
  [ARegister "a"; ADispatch [nev 1 "e1" "x" STFIFO; nev 2 "e2" "x" STFIFO]] ++ poll_of 0 ++ handle_of 0 HOk ++ [ABegin 0 true true] ++ [ADie 0] ++ poll_of 1.
Example C69_fifo_example :
  exists w e s, reachable (one (cf 1)) calm_mode w /\ takes_next w 1 e s /\ type e = STFIFO /\ its_turn w "a" e /\ ~ in_progress (one (cf 1)) w "a" (er_id e) /\ calls (w_hist w) "a" (er_id e) = 1 /\ er_id e = 2.
Proof.
  assert (X : exists w e s, runc (one (cf 1)) [0; 1] calm_mode c69_fifo world0 = Some w /\ takes_next w 1 e s /\ type e = STFIFO /\ its_turn w "a" e /\ ~ in_progress (one (cf 1)) w "a" (er_id e) /\ calls (w_hist w) "a" (er_id e) = 1 /\ er_id e = 2).
  { do 3 eexists. split; [vm_compute; reflexivity|]. split; [do 3 eexists; reflexivity|]. split; [reflexivity|]. split; [|split; [|split; reflexivity]].
    - split; [discriminate|]. intros a sa Ha _ Hl (Hr & Hs & He). cbn in Ha, Hr, Hl. destruct Ha as [<-|[<-|[]]]; cbn in *; [|lia]. destruct Hr as [<-|[<-|[]]]; cbn in *; auto. discriminate.
    - rewrite progress_iff. intros (q & e & s & _ & H & _). cbn in H. destruct q as [|[|q]]; cbn in H; tauto. }
  destruct X as (w & e & s & X & Y). exists w, e, s. split; auto. eapply run_reachable; eauto.
Qed.
(** In general two handlers of a service can work on the same event at once: if a cleaning run takes place between the two
    queries of a scan, the handler is called for event 3 because of the delivery of event 2 (see C39), while another poller
    calls it for event 3 because of its own delivery. *)
Definition c69_race : list act :=
  [ARegister "a"; ADispatch [nev 1 "e1" "x" STNormal; nev 2 "e2" "x" STNormal; nev 3 "e3" "x" STNormal]; ATick 1; APStart 0; APOff 0; APDue 0]
  ++ poll_of 1 ++ handle_of 1 HOk ++ [AClean 0; APEvents 0; ABegin 0 true true; ABegin 0 true true; ABegin 1 true true; ABegin 1 true true].
Theorem C69_clean_race_refuted :
  exists cfgs w p q i j e s s', reachable cfgs free_mode w /\ calling w p i e s /\ calling w q j e s' /\ c_service (cfgs p) = c_service (cfgs q) /\ p <> q.
Proof.
  exists (one (cf 1)).
  assert (X : exists w e s s', runc (one (cf 1)) [0; 1] free_mode c69_race world0 = Some w /\ calling w 0 0 e s /\ calling w 1 0 e s').
  { do 4 eexists. split; [vm_compute; reflexivity|]. split; do 3 eexists; split; reflexivity. }
  destruct X as (w & e & s & s' & X & Y1 & Y2). exists w, 0, 1, 0, 0, e, s, s'. split; [eapply run_reachable; eauto|]. auto.
Qed.
Print Assumptions C69_clean_race_refuted.

(** Properties C82-C84: cleaning while publishers, handlers and other cleaners are at work. *)
From Verif Require Import CleanModel CleanSpec BusSpec BusProof CleanProof CleanProof2.
Local Open Scope string_scope.
Local Open Scope list_scope.
Local Open Scope nat_scope.

Definition dv (id : string) (c : nat) : devent := mkDev id "x" STNormal 0 c.
Definition ca : buscfg := mkBus "a" (LimitRetry 1) 10 1000 5.
Definition cb : buscfg := mkBus "b" (LimitRetry 1) 10 1000 5.
Definition none : bdb := mkDB [] [] [] [] 1 1 1.
Lemma none_wf : wf none.
Proof. constructor; cbn; try constructor; try contradiction; auto. Qed.
(** two services; one event published; [a] and then [b] handle it; two cleaners of [a] and one of [b] work at the same time *)
Definition run1 : list kact :=
  [KReg "a"; KReg "b"; KPub 0 [dv "e1" 0; dv "e2" 3] []; KSave 1 0 SSuccess 0; KTick 10; KScan ca; KClean 0; KScan ca; KSave 3 0 SSuccess 0; KScan cb; KClean 2; KClean 0; KClean 2; KClean 0; KClean 2; KClean 1; KClean 2; KClean 0; KClean 2].
Lemma run1_ok : Forall no_stale run1 /\ Forall no_split run1 /\ Forall no_stop run1.
Proof. repeat split; repeat constructor. Qed.

(* ---------------------------------------------------------------- C82 *)
(** Whatever publishers, handlers and other cleaners do at the same time and whoever stops wherever: a delivery record
    that disappears with one action was removed by a cleaner, belonged to the service of a cleaner that was started
    before, was successful and older than that cleaner's retention time at that moment (handlers saving only pending
    records). *)
Theorem C82_only_finished_removed :
  forall d now acts a s, wf d -> Forall no_stale acts -> let st := krun acts (kstart d now) in
    In s (b_sv (k_db st)) -> ~ In (sr_id s) (map sr_id (b_sv (k_db (kexec a st)))) ->
    exists j cfg, a = KClean j /\ In (KScan cfg) acts /\ finished cfg (k_now st) s.
Proof.
  intros d now acts a s W F st Hs N. apply (removed acts a st s); auto. change acts with ([] ++ acts) at 1. apply inv_run; auto. now apply inv_start.
Qed.
Print Assumptions C82_only_finished_removed.
(** A cleaner that nobody disturbs does what [C47_clean_exact] says. *)
Theorem C82_undisturbed_run :
  forall cfg d now, exists n, krun (KScan cfg :: repeat (KClean 0) n) (kstart d now) = mkK (clean_events cfg now d) now [] [CEnd].
Proof. intros cfg d now. destruct (loop_steps cfg now (length (scan_finished cfg now d)) (scan_finished cfg now d) d (le_n _)) as [n E]. exists n. exact E. Qed.
Print Assumptions C82_undisturbed_run.
(** Refuted once a handler can overwrite a record that was successful (C41_overlap_refuted): the cleaner has seen the record as
    successful, a slow handler of the same delivery fails and puts it back to pending, and the cleaner removes the
    pending record, because its DELETE does not look at the status. *)
Theorem C82_pending_removed_refuted :
  exists acts a s, Forall no_split acts /\ let st := krun acts (kstart none 0) in
    In s (b_sv (k_db st)) /\ sr_status s = SInit /\ ~ In (sr_id s) (map sr_id (b_sv (k_db (kexec a st)))).
Proof.
  exists [KReg "a"; KPub 0 [dv "e1" 0] []; KSave 1 0 SSuccess 0; KTick 10; KScan ca; KStale 1 1 SInit 20], (KClean 0), (mkS 1 "a" 1 1 SInit 0 20).
  split; [repeat constructor|]. split; [vm_compute; auto|]. split; [reflexivity|]. vm_compute. auto.
Qed.
Print Assumptions C82_pending_removed_refuted.
Example C82_example : wf none /\ Forall no_stale run1 /\ map sr_id (b_sv (k_db (krun (firstn 6 run1) (kstart none 0)))) = [1; 2; 3; 4] /\
  map sr_id (b_sv (k_db (krun (firstn 7 run1) (kstart none 0)))) = [2; 3; 4] /\ map sr_id (b_sv (k_db (krun run1 (kstart none 0)))) = [2; 4].
Proof. split; [apply none_wf|]. split; [apply run1_ok|]. vm_compute. auto. Qed.

(* ---------------------------------------------------------------- C83 *)
(** As long as publications happen inside transactions, every delivery record has its event row at every moment, whatever
    is going on and whoever stops wherever: no cleaner ever removes an event another service has still to handle. *)
Theorem C83_records_keep_their_events :
  forall d now acts, wf d -> Forall no_split acts ->
    let st := krun acts (kstart d now) in forall s, In s (b_sv (k_db st)) -> exists r, In r (b_ev (k_db st)) /\ er_id r = sr_event s.
Proof. intros d now acts W F st s Hs. apply (wf_ref (k_db st)); auto. apply (j_wf st). apply inv2_run; auto. now apply inv2_start. Qed.
Print Assumptions C83_records_keep_their_events.
(** and an event row disappears only when no delivery record refers to it; the tables stay consistent throughout *)
Theorem C83_event_removed_only_unreferenced :
  forall d now acts, wf d -> Forall no_split acts -> let st := krun acts (kstart d now) in wf (k_db st) /\
    forall a r, In r (b_ev (k_db st)) -> ~ In r (b_ev (k_db (kexec a st))) -> forall s, In s (b_sv (k_db st)) -> sr_event s <> er_id r.
Proof.
  intros d now acts W F st. assert (I : inv2 st) by (apply inv2_run; auto; now apply inv2_start). split; [apply I|]. intros a r Hr N s Hs. now apply (event_removed a st r I Hr N).
Qed.
Print Assumptions C83_event_removed_only_unreferenced.
(** Refuted for a Dispatch on its own, whose INSERTs are separate statements: service [a] handles and cleans the event
    before the delivery record of [b] is inserted.  The record of [b] then refers to an event that no longer exists, and
    since events and records are paired by position, the next poll of [b] hands event 3 to the handler on the record of
    event 2, and the poll after that hands event 3 over again, both times with success: nobody ever hands event 2 to [b]. *)
Definition run2 : list kact :=
  [KReg "a"; KReg "b"; KPub 0 [dv "e1" 0] []; KSave 2 0 SSuccess 0; KIns 0 [dv "e2" 0]; KDeliver 0; KDeliver 0; KSave 3 0 SSuccess 0; KTick 10; KScan ca; KClean 0; KClean 0; KClean 0; KClean 0; KDeliver 0; KDeliver 0; KPub 0 [dv "e3" 10] []].
Theorem C83_split_publication_refuted :
  Forall no_stale run2 /\ Forall no_stop run2 /\ let st := krun run2 (kstart none 0) in let d := k_db st in
    (exists s, In s (b_sv d) /\ sr_service s = "b" /\ sr_status s = SInit /\ forall r, In r (b_ev d) -> er_id r <> sr_event s) /\
    let ok := fun _ : nat => mkHE true true HOk true in
    exists d1 d2 e s1 s2, handle_events cb (k_now st) ok d = (d1, [(e, s1)]) /\ handle_events cb (k_now st) ok d1 = (d2, [(e, s2)]) /\ handle_events cb (k_now st) ok d2 = (d2, []) /\
      er_id e = 3 /\ sr_event s1 = 2 /\ sr_event s2 = 3 /\ forall s, In s (b_sv d2) -> sr_service s = "b" -> sr_status s = SSuccess.
Proof.
  split; [repeat constructor|]. split; [repeat constructor|]. cbv zeta. split.
  - exists (mkS 4 "b" 2 0 SInit 0 0). split; [vm_compute; auto|]. split; [reflexivity|]. split; [reflexivity|]. vm_compute. intros r [<-|[<-|[]]] H; discriminate H.
  - eexists _, _, _, _, _. split; [vm_compute; reflexivity|]. split; [vm_compute; reflexivity|]. split; [vm_compute; reflexivity|]. split; [reflexivity|]. split; [reflexivity|]. split; [reflexivity|].
    cbn. intros s [<-|[<-|[<-|[<-|[<-|[]]]]]] H; try reflexivity; discriminate H.
Qed.
Print Assumptions C83_split_publication_refuted.
Example C83_example : wf none /\ Forall no_split run1 /\ map er_id (b_ev (k_db (krun run1 (kstart none 0)))) = [2] /\ map (fun s => (sr_id s, sr_event s)) (b_sv (k_db (krun run1 (kstart none 0)))) = [(2, 2); (4, 2)].
Proof. split; [apply none_wf|]. split; [apply run1_ok|]. vm_compute. auto. Qed.

(* ---------------------------------------------------------------- C84 *)
(** If at least one service is registered before the first publication, publications happen inside transactions and no
    cleaner stops in the middle, then whenever no cleaner is under way, an event row is kept only because a delivery
    record still refers to it - however many cleaners of however many services and instances have worked at once. *)
Theorem C84_no_event_left_behind :
  forall d now acts, wf d -> b_svc d <> [] -> (forall r, In r (b_ev d) -> exists s, In s (b_sv d) /\ sr_event s = er_id r) ->
    Forall no_split acts -> Forall no_stop acts -> let st := krun acts (kstart d now) in
    all_over st -> forall r, In r (b_ev (k_db st)) -> exists s, In s (b_sv (k_db st)) /\ sr_event s = er_id r.
Proof.
  intros d now acts W V H F1 F2 st O r Hr. assert (C : covered st).
  { apply covered_run; auto; [now apply inv2_start|]. split; auto. }
  destruct C as [_ C]. destruct (C r Hr) as [X|(j & c & Hj & Hc)]; auto. apply nth_error_In in Hj. unfold all_over in O. rewrite Forall_forall in O. rewrite (O c Hj) in Hc. contradiction Hc.
Qed.
Print Assumptions C84_no_event_left_behind.
(** Refuted when a cleaner stops between its two DELETEs (process death or a database error): the delivery records of the
    event are gone, so no later cleaning run of any service ever finds the event again; the row stays for ever, whatever
    happens afterwards. *)
Theorem C84_stopped_cleaner_refuted :
  exists acts r, Forall no_stale acts /\ Forall no_split acts /\ let st := krun acts (kstart none 0) in
    all_over st /\ b_sv (k_db st) = [] /\ In r (b_ev (k_db st)) /\ forall more, In r (b_ev (k_db (krun more st))).
Proof.
  exists [KReg "a"; KPub 0 [dv "e1" 0] []; KSave 1 0 SSuccess 0; KTick 10; KScan ca; KClean 0; KStop 0], (mkE 1 (dv "e1" 0) 0).
  split; [repeat constructor|]. split; [repeat constructor|]. cbv zeta.
  assert (E : krun [KReg "a"; KPub 0 [dv "e1" 0] []; KSave 1 0 SSuccess 0; KTick 10; KScan ca; KClean 0; KStop 0] (kstart none 0) =
              mkK (mkDB [mkE 1 (dv "e1" 0) 0] [] ["a"] [] 2 2 1) 10 [] [CEnd]) by (vm_compute; reflexivity).
  rewrite E. split; [repeat constructor|]. split; [reflexivity|]. split; [now left|]. intros more. apply (lost_run 1 more); [|reflexivity|now left].
  constructor; cbn; try contradiction; [lia|]. intros c [<-|[]]. cbn. auto.
Qed.
Print Assumptions C84_stopped_cleaner_refuted.
(** Likewise an event published before any service was registered: no delivery record is ever created for it, so it is
    neither handled nor removed, whatever happens afterwards. *)
Theorem C84_unheard_event_refuted :
  forall ev t, exists r, er_ev r = ev /\ let st := krun [KPub t [ev] []] (kstart none 0) in
    In r (b_ev (k_db st)) /\ forall more, In r (b_ev (k_db (krun more st))) /\ forall s, In s (b_sv (k_db (krun more st))) -> sr_event s <> er_id r.
Proof.
  intros ev t. exists (mkE 1 ev t). split; [reflexivity|]. cbv zeta.
  assert (E : krun [KPub t [ev] []] (kstart none 0) = mkK (mkDB [mkE 1 ev t] [] [] [] 2 1 1) 0 [] []) by reflexivity. rewrite E. split; [now left|]. intros more.
  assert (L : lost 1 (mkK (mkDB [mkE 1 ev t] [] [] [] 2 1 1) 0 [] [])) by (constructor; cbn; try contradiction; lia).
  destruct (lost_run 1 more _ L) as [L1 L2]. split; [apply L2; [reflexivity|now left]|]. apply (l_sv _ _ L1).
Qed.
Print Assumptions C84_unheard_event_refuted.
Example C84_example : let d := init_service "a" none in wf d /\ b_svc d <> [] /\ Forall no_stop run1 /\ all_over (krun run1 (kstart d 0)) /\ map er_id (b_ev (k_db (krun run1 (kstart d 0)))) = [2].
Proof. cbv zeta. split; [apply init_service_wf, none_wf|]. split; [discriminate|]. split; [apply run1_ok|]. split; [vm_compute; repeat constructor|]. vm_compute. reflexivity. Qed.

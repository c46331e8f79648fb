(** C46: transactional events. *)
From Verif Require Import BusModel BusSpec BusProof BusWorld BusLiveSpec BusTxSpec BusTx BusTx2 BusTx3.
Local Open Scope string_scope. Local Open Scope list_scope. Local Open Scope nat_scope.

Lemma reach_inv st : reachable st -> exists all, txinv all st.
Proof. intros (l & ->). destruct (run_inv l [] st0 inv0) as (a & _ & I & _). eauto. Qed.
(** Operation after operation (no two at the same time) and without cleaning in between, the events of a transaction are
    stored completely and once, or not at all - whatever statements fail or crash and however often Commit, Rollback and the
    timeout check are repeated, in any order.  [t] is the record DispatchBegin wrote at some point of the history. *)
Theorem C46_stored_at_most_once_partial :
  forall before after t, forallb (fun o => negb (is_clean o)) (before ++ after) = true ->
    In t (b_tx (x_db (tx_run before st0))) ->
    let d := x_db (tx_run (before ++ after) st0) in stored (tr_id t) d = [] \/ stored (tr_id t) d = tr_events t.
Proof.
  intros l1 l2 t C Ht. rewrite forallb_app in C. apply andb_true_iff in C. destruct C as [C1 C2]. cbn zeta. rewrite tx_run_app. destruct (run_inv l1 [] st0 inv0) as (a1 & _ & I1 & O1). destruct (run_inv l2 a1 _ I1) as (a2 & A2 & _ & O2).
  apply O2; auto; [apply O1; auto; intros ? []|]. apply A2. now apply (ti_tx _ _ I1).
Qed.
Print Assumptions C46_stored_at_most_once_partial.
(** Events are stored only if somebody asks for it: an explicit Commit or a checker answering "commit". *)
Theorem C46_only_if_asked_partial :
  forall st id l, reachable st -> 1 <= id -> stored id (x_db st) = [] ->
    never (fun o st => exists t, tr_id t = id /\ asks o st t) l st -> stored id (x_db (tx_run l st)) = [].
Proof.
  intros st id l R Pos E N. destruct (reach_inv st R) as (all & I). apply stored_rows. apply stored_rows in E. pose proof (run_rows id l all st I Pos) as X. rewrite E in X. apply incl_l_nil. apply X.
  revert N. apply never_mono. intros o s [Y|(t & T1 & _ & T2)]; [|eauto]. destruct o; cbn in Y; try contradiction. destruct Y as (t & Y1 & Y2). exists t. split; auto.
Qed.
Print Assumptions C46_only_if_asked_partial.
(** A Rollback that returned nil before anything was stored is final: whatever checkers answer later, nothing is stored
    unless the application itself commits the context it rolled back.  Polls and cleaning runs may happen too. *)
Theorem C46_rollback_final_partial :
  forall st h t script rest d l, reachable st -> nth_error (x_handles st) h = Some t -> stored (tr_id t) (x_db st) = [] ->
    bus_rollback t script (x_db st) = (Val tt, rest, d) ->
    let st' := tx_step (TRollback h script) st in never (fun o s => commits o s (tr_id t)) l st' -> stored (tr_id t) (x_db (tx_run l st')) = [].
Proof.
  intros st h t script rest d l R H E B st' N. destruct (reach_inv st R) as (all & I). destruct (step_inv all st (TRollback h script) I) as (a & _ & I' & _). fold st' in I'.
  assert (D : x_db st' = snd (delete_tx t (x_db st))). { unfold st'. cbn [tx_step]. rewrite H. cbn [x_db]. unfold db_after. rewrite B. now apply (rollback_ends _ _ _ _ _ _ B). }
  assert (G : gone (tr_id t) st'). { split; rewrite D; cbn; [apply (ti_nt _ _ I), (ti_h _ _ I); eapply nth_error_In; eauto|]. intros u Hu Eu. apply filter_In in Hu. destruct Hu as [_ Hu]. rewrite Eu, Nat.eqb_refl in Hu. discriminate. }
  destruct (run_gone (tr_id t) l a st' I' G N) as [_ X]. apply stored_rows. assert (Y : rows_of (tr_id t) (x_db st') = []) by (rewrite D; apply (proj1 (stored_rows (tr_id t) (x_db st))); auto). rewrite Y in X. now apply incl_l_nil.
Qed.
Print Assumptions C46_rollback_final_partial.
(** A Commit that returns nil and finds nothing stored has stored the events, given each registered service one delivery per
    event and removed the transaction record; from then on no timeout check stores them again, even after they have been
    processed and cleaned (every row of the transaction that exists later existed right after the Commit). *)
Theorem C46_commit_final_partial :
  forall st h t script rest d, reachable st -> nth_error (x_handles st) h = Some t -> stored (tr_id t) (x_db st) = [] ->
    bus_commit t script (x_db st) = (Val tt, rest, d) ->
    let st' := tx_step (TCommit h script) st in
    x_db st' = d /\ stored (tr_id t) d = tr_events t /\ delivered (tr_id t) (tr_events t) (b_svc (x_db st)) d /\ (forall u, In u (b_tx d) -> tr_id u <> tr_id t) /\
    forall l, never (fun o s => commits o s (tr_id t)) l st' -> forall r, In r (b_ev (x_db (tx_run l st'))) -> er_trans r = tr_id t -> In r (b_ev d).
Proof.
  intros st h t script rest d R H E B st'. destruct (reach_inv st R) as (all & I). destruct (step_inv all st (TCommit h script) I) as (a & _ & I' & _). fold st' in I'.
  assert (D : x_db st' = d). { unfold st'. cbn [tx_step]. rewrite H. cbn [x_db]. unfold db_after. now rewrite B. }
  destruct (commit_ends _ _ _ _ _ _ B) as [_ X]. destruct (X eq_refl) as [[Y _] | (_ & d1 & Dd & Ed)]; [contradiction|].
  assert (U : forall u, In u (b_tx d) -> tr_id u <> tr_id t). { intros u Hu Eu. rewrite Ed in Hu. cbn in Hu. apply filter_In in Hu. destruct Hu as [_ Hu]. rewrite Eu, Nat.eqb_refl in Hu. discriminate. }
  split; auto. split; [rewrite Ed; change (stored (tr_id t) d1 = tr_events t); rewrite (stored_dispatched (tr_id t) _ _ _ _ _ Dd), E, Nat.eqb_refl; auto|].
  split; [rewrite Ed; exact (dispatched_delivered _ _ _ _ _ Dd)|]. split; auto. intros l N r Hr Er.
  assert (G : gone (tr_id t) st'). { split; rewrite D; auto. pose proof (ti_nt _ _ I t (ti_h _ _ I t (nth_error_In _ _ H))) as P. rewrite Ed. cbn. destruct Dd as (rows & dels & E1 & E2 & E3 & E4 & E5 & E6 & E7 & E8 & E9 & E10 & E11 & E12 & E13). lia. }
  destruct (run_gone (tr_id t) l a st' I' G N) as [_ Z]. rewrite D in Z. specialize (Z r). unfold rows_of in Z. rewrite !filter_In in Z. apply Z. split; auto. now apply Nat.eqb_eq.
Qed.
Print Assumptions C46_commit_final_partial.
(** A timeout check without statement errors settles every overdue transaction of its service that was not stored yet: the
    answer "commit" stores the events, with deliveries for every service, "rollback" stores nothing; the record is gone
    in both cases.  Any other answer stores nothing. *)
Theorem C46_timeout_check_settles_partial :
  forall st svc checker now t, reachable st -> In t (b_tx (x_db st)) -> tr_service t = svc -> tr_due t < now -> stored (tr_id t) (x_db st) = [] ->
    let d := x_db (tx_step (TCheck svc checker now []) st) in
    (says checker TXCommit t -> stored (tr_id t) d = tr_events t /\ delivered (tr_id t) (tr_events t) (b_svc (x_db st)) d /\ forall u, In u (b_tx d) -> tr_id u <> tr_id t) /\
    (says checker TXRollBack t -> stored (tr_id t) d = [] /\ forall u, In u (b_tx d) -> tr_id u <> tr_id t) /\
    (says checker TXOther t -> stored (tr_id t) d = []).
Proof.
  intros st svc checker now t R Ht Sv Du E. destruct (reach_inv st R) as (all & I). cbn zeta. cbn [tx_step x_db]. unfold db_after, handle_transactions, transaction, bindM. cbn [stmt]. set (l := filter _ (b_tx (x_db st))).
  destruct (check_all_ok checker l (x_db st)) as (d' & C & _ & H).
  - intros u Hu. apply filter_In in Hu. apply (ti_ne _ _ I), (ti_tx _ _ I), Hu.
  - apply NoDup_map_filter, (ti_txn _ _ I).
  - rewrite C. apply H; auto. apply filter_In. split; auto. rewrite Sv, String.eqb_refl. cbn. now apply Nat.ltb_lt.
Qed.
Print Assumptions C46_timeout_check_settles_partial.

(* ---------------------------------------------------------------- what does not hold *)
Definition tev : devent := mkDev "e1" "x" STTransaction 1 0.
(** A Commit that stops between storing the events and storing their deliveries - crash, or a failing statement - loses them
    for good: each later Commit finds the events and returns nil without doing anything, each timeout check likewise, and
    whatever happens afterwards no service ever gets a delivery. *)
Definition lost_ops : list txop := [TRegister "a"; TBegin "a" 5 0 [tev] []; TCommit 0 [QOk; QOk; QOk; QCrash]].
Theorem C46_lost_after_crash_refuted :
  exists l t r, let st := tx_run l st0 in
    In t (x_handles st) /\ In r (b_ev (x_db st)) /\ er_trans r = tr_id t /\ In "a" (b_svc (x_db st)) /\
    bus_commit t [] (x_db st) = (Val tt, [], x_db st) /\
    forall l', forall s, In s (b_sv (x_db (tx_run l' st))) -> sr_event s <> er_id r.
Proof.
  exists lost_ops, (mkT 1 "a" [tev] 5), (mkE 1 tev 1). cbn zeta. assert (E : tx_run lost_ops st0 = mkX (mkDB [mkE 1 tev 1] [] ["a"] [mkT 1 "a" [tev] 5] 2 1 2) [mkT 1 "a" [tev] 5]) by reflexivity.
  destruct (run_inv lost_ops [] st0 inv0) as (a & _ & I & _). rewrite E in *. cbn [x_db x_handles b_ev b_svc b_sv]. split; [left; reflexivity|]. split; [left; reflexivity|]. split; [reflexivity|]. split; [left; reflexivity|]. split; [reflexivity|].
  intros l' s Hs Es. destruct (run_no_new l' a _ I) as [_ X]. destruct (X s Hs) as (s0 & S0 & _); [rewrite Es; cbn; lia|]. destruct S0.
Qed.
Print Assumptions C46_lost_after_crash_refuted.
(** A Commit whose last statement fails (the record is not deleted) stores and delivers the events; once they have been
    handled and cleaned the next timeout check stores them a second time, and the handler is called a second time. *)
Definition tcfg : buscfg := mkBus "a" (LimitRetry 1) 10 100 0.
Definition tok : nat -> henv := fun _ => mkHE true true HOk true.
Definition yes : devent -> txstatus := fun _ => TXCommit.
Definition again_ops : list txop := [TRegister "a"; TBegin "a" 5 0 [tev] []; TCommit 0 [QOk; QOk; QOk; QOk; QOk; QOk; QErr]].
Theorem C46_twice_after_cleaning_refuted :
  exists cfg l l' e s e' s' now now', let st1 := tx_run l st0 in let st2 := tx_run (l ++ [TPoll cfg now tok] ++ l') st0 in
    In (e, s) (snd (handle_events cfg now tok (x_db st1))) /\ In (e', s') (snd (handle_events cfg now' tok (x_db st2))) /\
    er_ev e' = er_ev e /\ er_trans e = 1 /\ er_trans e' = 1 /\ er_id e <> er_id e'.
Proof.
  exists tcfg, again_ops, [TClean tcfg 20; TCheck "a" yes 21 []], (mkE 1 tev 1), (mkS 1 "a" 1 0 SInit 0 0), (mkE 2 tev 1), (mkS 2 "a" 2 0 SInit 0 0), 10, 22. cbn zeta.
  assert (X : snd (handle_events tcfg 10 tok (x_db (tx_run again_ops st0))) = [(mkE 1 tev 1, mkS 1 "a" 1 0 SInit 0 0)]) by (vm_compute; reflexivity).
  assert (Y : snd (handle_events tcfg 22 tok (x_db (tx_run (again_ops ++ [TPoll tcfg 10 tok] ++ [TClean tcfg 20; TCheck "a" yes 21 []]) st0))) = [(mkE 2 tev 1, mkS 2 "a" 2 0 SInit 0 0)]) by (vm_compute; reflexivity).
  rewrite X, Y. split; [left; reflexivity|]. split; [left; reflexivity|]. repeat split; discriminate.
Qed.
Print Assumptions C46_twice_after_cleaning_refuted.
(** Two operations at the same time: the application's Commit and the timeout check both look for stored events before
    either has stored any; the events are stored, and will be delivered, twice. *)
Theorem C46_twice_concurrently_refuted :
  (forall t, bus_commit t = bindM (commit_find t) (commit_rest t)) /\
  exists st t, reachable st /\ In t (x_handles st) /\ tr_events t <> [] /\
    forall f1 f2 s1 s2, commit_find t [] (x_db st) = (Val f1, s1, x_db st) -> commit_find t [] (x_db st) = (Val f2, s2, x_db st) ->
    let d1 := db_after (commit_rest t f1) [] (x_db st) in let d2 := db_after (commit_rest t f2) [] d1 in
    stored (tr_id t) d2 = tr_events t ++ tr_events t /\ length (b_sv d2) = 2.
Proof.
  split; [reflexivity|]. set (l := [TRegister "a"; TBegin "a" 5 0 [tev] []]). exists (tx_run l st0), (mkT 1 "a" [tev] 5). split; [exists l; reflexivity|]. split; [left; reflexivity|]. split; [discriminate|].
  intros f1 f2 s1 s2 H1 H2. cbn in H1, H2. injection H1 as <- _. injection H2 as <- _. split; reflexivity.
Qed.
Print Assumptions C46_twice_concurrently_refuted.

(** The hypotheses of the positive theorems are met: a history with a failed Commit, a retry, a second transaction that is
    rolled back and a third one settled by the timeout check. *)
Definition busy_ops : list txop :=
  [TRegister "a"; TRegister "b"; TBegin "a" 5 0 [tev; tev] []; TCommit 0 [QOk; QOk; QErr]; TBegin "a" 5 1 [tev] []; TBegin "b" 5 1 [tev] [];
   TCommit 0 []; TRollback 1 []; TCheck "b" yes 7 []; TCheck "a" yes 8 []; TCommit 0 [QLost]].
Example C46_example :
  forallb (fun o => negb (is_clean o)) busy_ops = true /\ In (mkT 1 "a" [tev; tev] 5) (b_tx (x_db (tx_run (firstn 3 busy_ops) st0))) /\
  let d := x_db (tx_run busy_ops st0) in stored 1 d = [tev; tev] /\ stored 2 d = [] /\ stored 3 d = [tev] /\ b_tx d = [] /\ length (b_sv d) = 6.
Proof. vm_compute. repeat split; auto. Qed.
Example C46_commit_example : let st := tx_run (firstn 6 busy_ops) st0 in
  reachable st /\ nth_error (x_handles st) 0 = Some (mkT 1 "a" [tev; tev] 5) /\ stored 1 (x_db st) = [] /\ fst (fst (bus_commit (mkT 1 "a" [tev; tev] 5) [] (x_db st))) = Val tt /\
  fst (fst (bus_rollback (mkT 2 "a" [tev] 6) [] (x_db st))) = Val tt /\ nth_error (x_handles st) 1 = Some (mkT 2 "a" [tev] 6) /\ stored 2 (x_db st) = [].
Proof. split; [now exists (firstn 6 busy_ops)|]. vm_compute. repeat split; auto. Qed.
Example C46_check_example : let st := tx_run (firstn 8 busy_ops) st0 in
  In (mkT 3 "b" [tev] 6) (b_tx (x_db st)) /\ stored 3 (x_db st) = [] /\ says yes TXCommit (mkT 3 "b" [tev] 6).
Proof. split; [vm_compute; auto|]. split; [reflexivity|]. exists tev, []; auto. Qed.
Example C46_not_asked_example : let st := tx_run (firstn 6 busy_ops) st0 in
  reachable st /\ stored 2 (x_db st) = [] /\ never (fun o s => exists t, tr_id t = 2 /\ asks o s t) (skipn 6 busy_ops) st /\ length (skipn 6 busy_ops) = 5.
Proof.
  split; [now exists (firstn 6 busy_ops)|]. split; [reflexivity|]. split; [|reflexivity]. set (s := tx_run _ _). vm_compute in s. unfold busy_ops. cbn [skipn never].
  split; [intros (t & E & A); vm_compute in A; injection A as <-; discriminate|]. split; [intros (t & E & A); vm_compute in A; contradiction|].
  split; [intros (t & E & A & _); vm_compute in A; destruct A as [<-|A]; [discriminate|contradiction]|]. split; [intros (t & E & A & _); vm_compute in A; contradiction|].
  split; [intros (t & E & A); vm_compute in A; injection A as <-; discriminate|exact I].
Qed.

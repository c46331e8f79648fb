(** Publishing from inside an outer transaction: proofs. *)
From Verif Require Import BusModel BusSpec BusProof BusWorld BusWorldSpec BusWorldProof BusWorldProof3 BusLiveSpec BusLive BusLive2 BusTxSpec BusTx BusTx2 BusTx3 OuterModel.

Lemma commit_keeps all hs t d sc : txinv all (mkX d hs) -> In t all -> forall u, In u (b_tx d) -> In u (b_tx (db_after (bus_commit t) sc d)) \/ stored (tr_id u) (db_after (bus_commit t) sc d) <> [].
Proof.
  intros I Ht u Hu. unfold db_after. destruct (bus_commit t sc d) as [[o s'] d'] eqn:B. unfold bus_commit, bindM in B.
  assert (G : forall s1, (if existsb (fun r => er_trans r =? tr_id t) (b_ev d) then ret tt else fun s d => match dispatch (tr_id t) (tr_events t) s d with
      | (Val _, s', d') => stmt (delete_tx t) s' d' | (Err, s', d') => (Err, s', d') | (Crash, s', d') => (Crash, s', d') end) s1 d = (o, s', d') ->
      In u (b_tx d') \/ stored (tr_id u) d' <> []).
  { intros s1. destruct (existsb _ _) eqn:E; [intros [= <- <- <-]; auto|]. apply found_stored in E. destruct (dispatch (tr_id t) (tr_events t) s1 d) as [[o1 s2] d1] eqn:D. destruct (dispatch_ends _ _ _ _ _ _ _ D) as [A C].
    assert (T1 : b_tx d1 = b_tx d). { destruct A as [-> | (k & A)]; auto. destruct A as (rows & dels & E1 & E2 & E3 & E4 & E5 & E6 & E7 & E8 & E9 & E10 & E11 & E12 & E13). auto. }
    destruct o1 as [[]| |]; [|intros [= <- <- <-]; left; now rewrite T1..].
    specialize (C eq_refl). pose proof (stored_dispatched (tr_id t) _ _ _ _ _ C) as St. rewrite Nat.eqb_refl, E in St. cbn in St.
    assert (Dl : forall d2, d2 = d1 \/ d2 = snd (delete_tx t d1) -> In u (b_tx d2) \/ stored (tr_id u) d2 <> []).
    { intros d2 [-> | ->]; [left; now rewrite T1|]. destruct (Nat.eq_dec (tr_id u) (tr_id t)) as [Eq|Ne].
      - right. rewrite Eq. change (stored (tr_id t) d1 <> []). rewrite St. apply (ti_ne _ _ I), Ht.
      - left. cbn. apply filter_In. split; [now rewrite T1|]. now apply negb_true_iff, Nat.eqb_neq. }
    destruct s2 as [|[| | |] s2]; cbn; intros [= <- <- <-]; apply Dl; auto. }
  destruct sc as [|[| | |] sc]; cbn in B; [now apply (G [])|now apply (G sc)|injection B as <- <- <-; auto..].
Qed.
Lemma delete_keeps t d u : In u (b_tx d) -> tr_id u <> tr_id t -> In u (b_tx (snd (delete_tx t d))).
Proof. intros H N. cbn. apply filter_In. split; auto. now apply negb_true_iff, Nat.eqb_neq. Qed.
Lemma rollback_keeps t d sc u : In u (b_tx d) -> tr_id u <> tr_id t -> In u (b_tx (db_after (bus_rollback t) sc d)).
Proof. intros H N. unfold db_after, bus_rollback. pose proof (delete_keeps t d u H N). destruct sc as [|[| | |] sc]; cbn; auto. Qed.
Lemma stored_grows id d d' : incl (b_ev d) (b_ev d') -> stored id d <> [] -> stored id d' <> [].
Proof.
  intros I H E. apply H. apply stored_rows. apply stored_rows in E. unfold rows_of in *. destruct (filter _ (b_ev d)) as [|r l] eqn:F; auto. exfalso.
  assert (X : In r (filter (fun r => er_trans r =? id) (b_ev d))) by (rewrite F; now left). apply filter_In in X. destruct X as [X1 X2].
  assert (Y : In r (filter (fun r => er_trans r =? id) (b_ev d'))) by (apply filter_In; auto). rewrite E in Y. destruct Y.
Qed.
Lemma check_tx_keeps checker all hs t d sc o s' d' : txinv all (mkX d hs) -> In t all -> check_tx checker t sc d = (o, s', d') ->
  forall u, In u (b_tx d) -> In u (b_tx d') \/ stored (tr_id u) d' <> [] \/ (tr_id u = tr_id t /\ says checker TXRollBack t).
Proof.
  intros I Ht H u Hu. unfold check_tx in H. destruct (tr_events t) as [|e r] eqn:E; [injection H as <- <- <-; auto|]. destruct (checker e) eqn:C.
  - pose proof (commit_keeps all hs t d sc I Ht u Hu) as K. unfold db_after in K. unfold swallow in H. destruct (bus_commit t sc d) as [[o1 s1] d1]. assert (d' = d1) as -> by (destruct o1; congruence). tauto.
  - destruct (Nat.eq_dec (tr_id u) (tr_id t)) as [Eq|Ne]; [right; right; split; auto; exists e, r; auto|].
    pose proof (rollback_keeps t d sc u Hu Ne) as K. unfold db_after in K. unfold swallow in H. destruct (bus_rollback t sc d) as [[o1 s1] d1]. assert (d' = d1) as -> by (destruct o1; congruence). auto.
  - injection H as <- <- <-. auto.
Qed.
Lemma check_all_keeps checker all hs l : forall d sc o s' d', txinv all (mkX d hs) -> incl l all -> check_all checker l sc d = (o, s', d') ->
  forall u, In u (b_tx d) -> In u (b_tx d') \/ stored (tr_id u) d' <> [] \/ (exists t, In t l /\ tr_id u = tr_id t /\ says checker TXRollBack t).
Proof.
  induction l as [|t l IH]; intros d sc o s' d' I Hl H u Hu; cbn in H; [injection H as <- <- <-; auto|]. unfold bindM in H. destruct (check_tx checker t sc d) as [[o1 s1] d1] eqn:E.
  assert (Ht : In t all) by (apply Hl; now left). pose proof (check_tx_keeps _ _ _ _ _ _ _ _ _ I Ht E u Hu) as K. apply check_ends in E.
  assert (I1 : txinv all (mkX d1 hs)) by (apply (msteps_inv all hs _ _ d d1) in E; [apply E|now intros x [-> _]|auto]).
  assert (S : In u (b_tx d1) \/ stored (tr_id u) d1 <> [] \/ (exists t0, In t0 (t :: l) /\ tr_id u = tr_id t0 /\ says checker TXRollBack t0)).
  { destruct K as [K|[K|(K1 & K2)]]; auto. right; right. exists t. split; [now left|auto]. }
  destruct o1; [|injection H as <- <- <-; exact S..].
  destruct S as [S|[S|S]]; [|right; left|auto].
  - destruct (IH _ _ _ _ _ I1 (fun x Hx => Hl x (or_intror Hx)) H u S) as [A|[A|(t0 & A & B)]]; auto. right; right. exists t0. split; [now right|auto].
  - apply check_all_ends in H. revert S. apply stored_grows. apply (msteps_grows _ _ _ _ H).
Qed.
(** Which operation of somebody may remove transaction record [u]: a rollback with its context, a check answered "rollback". *)
Definition may_drop (u : trow) (o : txop) (st : txst) : Prop :=
  match o with
  | TRollback h _ => exists t, nth_error (x_handles st) h = Some t /\ tr_id t = tr_id u
  | TCheck _ checker _ _ => says checker TXRollBack u
  | _ => False
  end.
Lemma step_keeps all st o u : txinv all st -> In u (b_tx (x_db st)) -> ~ may_drop u o st -> In u (b_tx (x_db (tx_step o st))) \/ stored (tr_id u) (x_db (tx_step o st)) <> [].
Proof.
  destruct st as [d hs]. intros I Hu N. cbn [x_db] in *. destruct o; cbn [tx_step x_db x_handles].
  - destruct (dispatch_begin svc timeout now evs script d) as [[o s'] d'] eqn:B. assert (X : In u (b_tx d')). { destruct (begin_ends _ _ _ _ _ _ _ _ _ B) as [[-> _] | (_ & t & _ & -> & _)]; auto. cbn. apply in_app_iff; auto. } destruct o; auto.
  - destruct (nth_error hs h) as [t|] eqn:E; auto. cbn [x_db]. apply (commit_keeps all hs); auto. apply (ti_h _ _ I). cbn. eapply nth_error_In; eauto.
  - destruct (nth_error hs h) as [t|] eqn:E; auto. cbn [x_db]. left. apply rollback_keeps; auto. intros X. apply N. exists t. auto.
  - unfold db_after. destruct (handle_transactions svc checker now script d) as [[o s'] d'] eqn:B. unfold handle_transactions in B.
    assert (X : (fun d d' => In u (b_tx d) -> In u (b_tx d') \/ stored (tr_id u) d' <> []) d d'); [|cbn; auto].
    revert B. apply (transaction_ends (fun d d' => In u (b_tx d) -> In u (b_tx d') \/ stored (tr_id u) d' <> [])); [auto|]. intros s1 o1 s2 d1 H _. unfold bindM in H.
    set (l := filter (fun t => String.eqb (tr_service t) svc && (tr_due t <? now)) (b_tx d)) in *.
    assert (Hl : incl l all). { intros x Hx. apply filter_In in Hx. apply (ti_tx _ _ I), Hx. }
    assert (G : forall s3, check_all checker l s3 d = (o1, s2, d1) -> In u (b_tx d1) \/ stored (tr_id u) d1 <> []).
    { intros s3 H3. destruct (check_all_keeps checker all hs l d s3 o1 s2 d1 I Hl H3 u Hu) as [A|[A|(t & A1 & A2 & A3)]]; auto. exfalso. apply N. cbn.
      assert (u = t) as ->; auto. apply (NoDup_map_inj tr_id all); auto; [apply (ti_ids _ _ I)|apply (ti_tx _ _ I); auto]. }
    destruct s1 as [|[| | |] s1]; cbn in H; [now apply (G [])|now apply (G s1)|injection H as <- <- <-; auto..].
  - unfold db_after. destruct (dispatch 0 evs script d) as [[o s'] d'] eqn:B. destruct (dispatch_ends _ _ _ _ _ _ _ B) as [[-> | (k & D)] _]; auto.
    destruct D as (rows & dels & E1 & E2 & E3 & E4 & E5 & E6 & E7 & E8 & E9 & E10 & E11 & E12 & E13). rewrite E10. auto.
  - unfold init_service. destruct (existsb _ _); auto.
  - destruct (poll_rest cfg now envs d (ti_wf _ _ I)) as (E1 & E2 & E3 & E4 & E5 & E6). rewrite E3. auto.
  - destruct (clean_rest cfg now d (ti_wf _ _ I)) as (E1 & E2 & E3 & E4 & E5 & E6). rewrite E1. auto.
Qed.
Lemma step_ev all st o : txinv all st -> is_clean o = false -> incl (b_ev (x_db st)) (b_ev (x_db (tx_step o st))).
Proof.
  destruct st as [d hs]. intros I N. cbn [x_db] in *. destruct o; try discriminate N; cbn [tx_step x_db x_handles].
  - destruct (dispatch_begin svc timeout now evs script d) as [[o s'] d'] eqn:B. assert (X : b_ev d' = b_ev d). { destruct (begin_ends _ _ _ _ _ _ _ _ _ B) as [[-> _] | (_ & t & _ & -> & _)]; auto. } destruct o; cbn; rewrite X; apply incl_refl.
  - destruct (nth_error hs h) as [t|] eqn:E; [|apply incl_refl]. cbn [x_db]. unfold db_after. destruct (bus_commit t script d) as [[o s'] d'] eqn:B. destruct (commit_ends _ _ _ _ _ _ B) as [M _]. apply (msteps_grows _ _ _ _ M).
  - destruct (nth_error hs h) as [t|] eqn:E; [|apply incl_refl]. cbn [x_db]. unfold db_after. destruct (bus_rollback t script d) as [[o s'] d'] eqn:B. destruct (rollback_ends _ _ _ _ _ _ B) as [M _]. apply (msteps_grows _ _ _ _ M).
  - unfold db_after. destruct (handle_transactions svc checker now script d) as [[o s'] d'] eqn:B. apply handle_ends in B. apply (msteps_grows _ _ _ _ B).
  - unfold db_after. destruct (dispatch 0 evs script d) as [[o s'] d'] eqn:B. destruct (dispatch_ends _ _ _ _ _ _ _ B) as [[-> | (k & D)] _]; [apply incl_refl|].
    destruct D as (rows & dels & E1 & _). rewrite E1. apply incl_appl, incl_refl.
  - unfold init_service. destruct (existsb _ _); apply incl_refl.
  - destruct (poll_rest cfg now envs d (ti_wf _ _ I)) as (E1 & _). rewrite E1. apply incl_refl.
Qed.

(* ---------------------------------------------------------------- calls *)
Lemma nth_set {A} (l : list A) k x y : nth_error l k = Some y -> forall j, nth_error (set_nth l k x) j = if j =? k then Some x else nth_error l j.
Proof. revert k. induction l as [|a l IH]; intros [|k] H [|j]; cbn in *; try discriminate; auto. Qed.
Lemma In_set {A} (l : list A) k x y z : nth_error l k = Some y -> In z (set_nth l k x) -> z = x \/ exists j, j <> k /\ nth_error l j = Some z.
Proof.
  intros H I. apply In_nth_error in I. destruct I as (j & I). rewrite (nth_set l k x y H) in I. destruct (Nat.eqb_spec j k); [injection I; auto|]. right. eauto.
Qed.
(** What is true of one call *)
Record call_ok (answer clean : bool) (all : list trow) (d : bdb) (x : inst) : Prop := {
  k_row : forall t, i_row x = Some t -> In t all /\ tr_events t = i_evs x;
  k_ctx : forall t, i_ctx x = Some t -> i_row x = Some t;
  k_work : i_pc x = PWork -> i_biz x = BOpen /\ i_row x = None;
  k_left : i_pc x = PLeft true -> i_ctx x <> None;
  k_leftb : forall b, i_pc x = PLeft b -> i_biz x = BOpen;
  k_end : i_pc x = PEnd true -> i_biz x = BCommitted;
  k_end' : answer = true -> i_pc x = PEnd false -> i_biz x = BRolledBack;
  k_dead : over x -> i_biz x <> BOpen;
  k_endo : forall b, i_pc x = PEnd b -> i_biz x <> BOpen;
  k_com : i_biz x = BCommitted -> i_ctx x <> None;
  k_safe : forall t, i_row x = Some t -> stored (tr_id t) d <> [] -> i_biz x = BCommitted;
  k_live : answer = true -> clean = false -> forall t, i_ctx x = Some t -> i_biz x <> BRolledBack -> In t (b_tx d) \/ stored (tr_id t) d <> [] }.
Record oinv (answer clean : bool) (all : list trow) (s : ost) : Prop := {
  v_tx : txinv all (o_bus s);
  v_once : clean = false -> once all (x_db (o_bus s));
  v_calls : forall x, In x (o_calls s) -> call_ok answer clean all (x_db (o_bus s)) x;
  v_uniq : forall i j x y t u, nth_error (o_calls s) i = Some x -> nth_error (o_calls s) j = Some y -> i_row x = Some t -> i_row y = Some u -> tr_id t = tr_id u -> i = j }.
(** the allowed actions *)
Definition allowed (answer clean : bool) (a : oact) (s : ost) : Prop := others truthful a s /\ (answer = true -> answered a) /\ (clean = false -> ~ cleans a).

(** a call that did not change stays right if its record and events are not touched wrongly *)
Lemma call_frame answer clean all all' d d' x : call_ok answer clean all d x -> incl all all' ->
  (forall t, i_row x = Some t -> stored (tr_id t) d' <> [] -> stored (tr_id t) d <> [] \/ i_biz x = BCommitted) ->
  (answer = true -> clean = false -> forall t, i_ctx x = Some t -> i_biz x <> BRolledBack -> In t (b_tx d) \/ stored (tr_id t) d <> [] -> In t (b_tx d') \/ stored (tr_id t) d' <> []) ->
  call_ok answer clean all' d' x.
Proof.
  intros [K1 K2 K3 K4 K5 K6 K7 K8 K9 K10 K11 K12] I S L. constructor; auto.
  - intros t H. destruct (K1 t H); auto.
  - intros t H St. destruct (S t H St); eauto.
Qed.
Lemma oinv_init answer clean : oinv answer clean [] ost0.
Proof.
  constructor; [apply inv0|intros _ t []|intros x []|]. intros i j x y t u H. destruct i; discriminate.
Qed.

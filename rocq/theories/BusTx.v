(** Transactional events: proofs. *)
From Verif Require Import BusModel BusSpec BusProof BusWorld BusWorldSpec BusWorldProof BusWorldProof3 BusLiveSpec BusLive BusLive2 BusTxSpec.

(** the two things that can happen to a transaction *)
Inductive mstep (P Q : trow -> Prop) : bdb -> bdb -> Prop :=
| ms_store t k d d' : P t -> stored (tr_id t) d = [] -> dispatched (tr_id t) (tr_events t) (firstn k (b_svc d)) d d' -> mstep P Q d d'
| ms_del t d : Q t -> mstep P Q d (snd (delete_tx t d)).
(** any number of such steps *)
Inductive msteps (P Q : trow -> Prop) : bdb -> bdb -> Prop :=
| m_refl d : msteps P Q d d
| m_cons d d1 d2 : mstep P Q d d1 -> msteps P Q d1 d2 -> msteps P Q d d2.
Lemma msteps_trans P Q d d1 d2 : msteps P Q d d1 -> msteps P Q d1 d2 -> msteps P Q d d2.
Proof. induction 1; auto. intros. eapply m_cons; eauto. Qed.
Lemma msteps_one P Q d d1 : mstep P Q d d1 -> msteps P Q d d1.
Proof. intros. eapply m_cons; eauto. constructor. Qed.
Lemma msteps_mono (P Q P' Q' : trow -> Prop) d d1 : (forall t, P t -> P' t) -> (forall t, Q t -> Q' t) -> msteps P Q d d1 -> msteps P' Q' d d1.
Proof. intros A B. induction 1 as [|d d1 d2 H _ IH]; [constructor|]. eapply m_cons; [|exact IH]. destruct H; [econstructor 1|econstructor 2]; eauto. Qed.
Lemma found_stored id d : existsb (fun r => er_trans r =? id) (b_ev d) = false <-> stored id d = [].
Proof.
  unfold stored. split; intros H.
  - assert (filter (fun r => er_trans r =? id) (b_ev d) = []) as ->; auto. destruct (filter _ _) as [|r l] eqn:E; auto. exfalso. assert (I : In r (r :: l)) by now left. rewrite <- E in I. apply filter_In in I. destruct I as [I1 I2].
    assert (existsb (fun r => er_trans r =? id) (b_ev d) = true); [|congruence]. apply existsb_exists. eauto.
  - apply map_eq_nil in H. destruct (existsb _ _) eqn:E; auto. apply existsb_exists in E. destruct E as (r & A & B). assert (I : In r (filter (fun r => er_trans r =? id) (b_ev d))) by (apply filter_In; auto). rewrite H in I. destruct I.
Qed.
Lemma commit_ends t s d o s' d' : bus_commit t s d = (o, s', d') ->
  msteps (eq t) (eq t) d d' /\
  (o = Val tt -> (stored (tr_id t) d <> [] /\ d' = d) \/ (stored (tr_id t) d = [] /\ exists d1, dispatched (tr_id t) (tr_events t) (b_svc d) d d1 /\ d' = snd (delete_tx t d1))).
Proof.
  unfold bus_commit, bindM. intros H.
  assert (G : forall s1, (if existsb (fun r => er_trans r =? tr_id t) (b_ev d) then ret tt else fun s d => match dispatch (tr_id t) (tr_events t) s d with
      | (Val _, s', d') => stmt (delete_tx t) s' d' | (Err, s', d') => (Err, s', d') | (Crash, s', d') => (Crash, s', d') end) s1 d = (o, s', d') ->
      msteps (eq t) (eq t) d d' /\
      (o = Val tt -> (stored (tr_id t) d <> [] /\ d' = d) \/ (stored (tr_id t) d = [] /\ exists d1, dispatched (tr_id t) (tr_events t) (b_svc d) d d1 /\ d' = snd (delete_tx t d1)))).
  { intros s1. destruct (existsb _ _) eqn:E.
    - intros [= <- <- <-]. split; [constructor|]. left. split; auto. intros X. apply found_stored in X. congruence.
    - apply found_stored in E. destruct (dispatch (tr_id t) (tr_events t) s1 d) as [[o1 s2] d1] eqn:D. destruct (dispatch_ends _ _ _ _ _ _ _ D) as [A B].
      assert (C : msteps (eq t) (eq t) d d1). { destruct A as [-> | (k & A)]; [constructor|]. apply msteps_one. econstructor 1; eauto. }
      assert (Del : mstep (eq t) (eq t) d1 (snd (delete_tx t d1))) by (constructor 2; auto).
      destruct o1 as [[]| |]; [|intros [= <- <- <-]; split; auto; discriminate..].
      destruct s2 as [|[| | |] s2]; cbn; intros [= <- <- <-]; split; try discriminate; auto; try (eapply msteps_trans; [exact C|apply msteps_one; exact Del]).
      + intros _. right. split; auto. exists d1. split; auto.
      + intros _. right. split; auto. exists d1. split; auto. }
  destruct s as [|[| | |] s]; cbn in H; [now apply (G [])|now apply (G s)|..]; injection H as <- <- <-; split; try constructor; discriminate.
Qed.
Lemma rollback_ends t s d o s' d' : bus_rollback t s d = (o, s', d') -> msteps (fun _ => False) (eq t) d d' /\ (o = Val tt -> d' = snd (delete_tx t d)).
Proof.
  unfold bus_rollback. assert (Del : msteps (fun _ => False) (eq t) d (snd (delete_tx t d))) by (apply msteps_one; constructor 2; auto).
  destruct s as [|[| | |] s]; cbn; intros [= <- <- <-]; split; auto; try discriminate; constructor.
Qed.
Lemma check_ends checker t s d o s' d' : check_tx checker t s d = (o, s', d') ->
  msteps (fun u => u = t /\ says checker TXCommit t) (eq t) d d'.
Proof.
  unfold check_tx. destruct (tr_events t) as [|e r] eqn:E; [intros [= <- <- <-]; constructor|]. destruct (checker e) eqn:C.
  - unfold swallow. destruct (bus_commit t s d) as [[o1 s1] d1] eqn:B. intros H. assert (d' = d1) as -> by (destruct o1; congruence). destruct (commit_ends _ _ _ _ _ _ B) as [M _]. revert M. apply msteps_mono; auto. intros u <-. split; auto. exists e, r; auto.
  - unfold swallow. destruct (bus_rollback t s d) as [[o1 s1] d1] eqn:B. intros H. assert (d' = d1) as -> by (destruct o1; congruence). destruct (rollback_ends _ _ _ _ _ _ B) as [M _]. revert M. apply msteps_mono; auto. intros u [].
  - intros [= <- <- <-]; constructor.
Qed.
Lemma check_all_ends checker l : forall s d o s' d', check_all checker l s d = (o, s', d') -> msteps (fun t => In t l /\ says checker TXCommit t) (fun t => In t l) d d'.
Proof.
  induction l as [|t l IH]; intros s d o s' d' H; cbn in H; [injection H as <- <- <-; constructor|]. unfold bindM in H. destruct (check_tx checker t s d) as [[o1 s1] d1] eqn:E. apply check_ends in E.
  assert (A : msteps (fun u => In u (t :: l) /\ says checker TXCommit u) (fun u => In u (t :: l)) d d1). { revert E. apply msteps_mono; [intros u [-> S]; split; auto; now left|intros u <-; now left]. }
  destruct o1; [|injection H as <- <- <-; auto..]. eapply msteps_trans; [exact A|]. apply IH in H. revert H. apply msteps_mono; [intros u [S1 S2]; split; auto; now right|intros u S; now right].
Qed.
Lemma transaction_ends {A} (R : bdb -> bdb -> Prop) (m : M A) s d o s' d' : R d d -> (forall s1 o1 s2 d1, m s1 d = (o1, s2, d1) -> R d d1) -> transaction m s d = (o, s', d') -> R d d'.
Proof.
  intros Re H. unfold transaction. destruct s as [|[| | |] s]; cbn.
  2: destruct (m s d) as [[o1 s1] d1] eqn:E; specialize (H _ _ _ _ E); destruct o1; [destruct s1 as [|[| | |] s1]|..]; intros [= <- <- <-]; auto.
  - destruct (m [] d) as [[o1 s1] d1] eqn:E; specialize (H _ _ _ _ E); destruct o1; [destruct s1 as [|[| | |] s1]|..]; intros [= <- <- <-]; auto.
  - intros [= <- <- <-]; auto.
  - intros [= <- <- <-]; auto.
  - intros [= <- <- <-]; auto.
Qed.
(** eventbus.go 655-657: the transactions handleTransactions selects *)
Definition overdue (svc : string) (now : nat) (t : trow) : bool := String.eqb (tr_service t) svc && (tr_due t <? now).
Lemma handle_ends svc checker now s d o s' d' : handle_transactions svc checker now s d = (o, s', d') ->
  msteps (fun t => (In t (b_tx d) /\ overdue svc now t = true) /\ says checker TXCommit t) (fun t => In t (b_tx d) /\ overdue svc now t = true) d d'.
Proof.
  unfold handle_transactions. apply (transaction_ends (msteps _ _)); [constructor|]. intros s1 o1 s2 d1. unfold bindM.
  assert (G : forall s1, check_all checker (filter (fun t => String.eqb (tr_service t) svc && (tr_due t <? now)) (b_tx d)) s1 d = (o1, s2, d1) ->
     msteps (fun t => (In t (b_tx d) /\ overdue svc now t = true) /\ says checker TXCommit t) (fun t => In t (b_tx d) /\ overdue svc now t = true) d d1).
  { intros s3 H. apply check_all_ends in H. revert H. apply msteps_mono.
    - intros t [A B]. apply filter_In in A. auto.
    - intros t A. apply filter_In in A. auto. }
  destruct s1 as [|[| | |] s1]; cbn; try (intros [= <- <- <-]; constructor); apply G.
Qed.

(* ---------------------------------------------------------------- invariant *)
(** [all] are all transactions begun so far *)
Record txinv (all : list trow) (st : txst) : Prop := {
  ti_wf : wf (x_db st);
  ti_ids : NoDup (map tr_id all);
  ti_nt : forall t, In t all -> 1 <= tr_id t < b_nt (x_db st);
  ti_ne : forall t, In t all -> tr_events t <> [];
  ti_tx : incl (b_tx (x_db st)) all;
  ti_txn : NoDup (map tr_id (b_tx (x_db st)));
  ti_h : incl (x_handles st) all;
  ti_tr : forall r, In r (b_ev (x_db st)) -> er_trans r < b_nt (x_db st);
  ti_pos : 1 <= b_nt (x_db st) }.
(** vocabulary: each transaction's events are stored not at all or exactly once *)
Definition once (all : list trow) (d : bdb) : Prop := forall t, In t all -> stored (tr_id t) d = [] \/ stored (tr_id t) d = tr_events t.

Lemma stored_app id d rows d' : b_ev d' = b_ev d ++ rows -> stored id d' = stored id d ++ map er_ev (filter (fun r => er_trans r =? id) rows).
Proof. intros E. unfold stored. now rewrite E, filter_app, map_app. Qed.
Lemma rows_all id rows : (forall r, In r rows -> er_trans r = id) -> filter (fun r => er_trans r =? id) rows = rows.
Proof. induction rows as [|r t IH]; intros H; auto. cbn. rewrite (H r (or_introl eq_refl)), Nat.eqb_refl, IH; auto. intros; apply H; now right. Qed.
Lemma rows_none id id' rows : id <> id' -> (forall r, In r rows -> er_trans r = id') -> filter (fun r => er_trans r =? id) rows = [].
Proof. intros N. induction rows as [|r t IH]; intros H; auto. cbn. rewrite (H r (or_introl eq_refl)), (proj2 (Nat.eqb_neq id' id)); auto. apply IH. intros; apply H; now right. Qed.
Lemma stored_dispatched id trans evs svcs d d' : dispatched trans evs svcs d d' -> stored id d' = stored id d ++ (if id =? trans then evs else []).
Proof.
  intros (rows & dels & E1 & E2 & _ & E4 & _). rewrite (stored_app _ _ _ _ E1). f_equal. destruct (Nat.eqb_spec id trans) as [->|N]; [now rewrite rows_all|]. now rewrite (rows_none _ trans).
Qed.
Lemma delete_nodup t d : NoDup (map tr_id (b_tx d)) -> NoDup (map tr_id (b_tx (snd (delete_tx t d)))).
Proof. cbn. apply NoDup_map_filter. Qed.
Lemma NoDup_firstn {A} k (l : list A) : NoDup l -> NoDup (firstn k l).
Proof. intros H. rewrite <- (firstn_skipn k l) in H. revert H. generalize (skipn k l). induction (firstn k l) as [|a u IH]; intros r H; constructor; cbn in H; inversion H as [|? ? A1 A2]; subst; eauto. intros I. apply A1. apply in_app_iff; auto. Qed.
Lemma mstep_inv all hs (P Q : trow -> Prop) d d' : (forall t, P t -> In t all) -> txinv all (mkX d hs) -> mstep P Q d d' -> txinv all (mkX d' hs) /\ (once all d -> once all d').
Proof.
  intros HP [W I1 I2 I3 I4 I5 I6 I7 I8] M. cbn [x_db x_handles] in *. destruct M as [t k d d' Pt N D|t d Qt].
  - pose proof (dispatched_wf _ _ _ _ _ W D (NoDup_firstn _ _ (wf_svc _ W))) as W'. pose proof D as D0. destruct D as (rows & dels & E1 & E2 & E3 & E4 & E5 & E6 & E7 & E8 & E9 & E10 & E11 & E12 & E13). split.
    + constructor; cbn [x_db x_handles]; auto; rewrite ?E13, ?E10; auto. rewrite E1. intros r Hr. apply in_app_iff in Hr. destruct Hr as [Hr|Hr]; auto. rewrite (E4 r Hr). apply I2. auto.
    + intros O u Hu. rewrite (stored_dispatched (tr_id u) _ _ _ _ _ D0). destruct (Nat.eqb_spec (tr_id u) (tr_id t)) as [E|E].
      * assert (u = t) as -> by (apply (NoDup_map_inj tr_id all); auto). rewrite N. auto.
      * rewrite app_nil_r. auto.
  - split; [|auto]. constructor; cbn [x_db x_handles delete_tx snd b_tx b_nt b_ev]; auto.
    + destruct W. constructor; auto.
    + intros u Hu. apply filter_In in Hu. apply I4. tauto.
    + now apply NoDup_map_filter.
Qed.
Lemma msteps_inv all hs (P Q : trow -> Prop) d d' : (forall t, P t -> In t all) -> msteps P Q d d' -> txinv all (mkX d hs) -> txinv all (mkX d' hs) /\ (once all d -> once all d').
Proof.
  intros HP M. induction M as [|d d1 d2 H M IH]; intros I; auto. destruct (mstep_inv all hs P Q d d1 HP I H) as [A B]. destruct (IH A) as [C D]. auto.
Qed.
Lemma poll_rest cfg now envs d : wf d -> let d' := fst (handle_events cfg now envs d) in b_ev d' = b_ev d /\ b_svc d' = b_svc d /\ b_tx d' = b_tx d /\ b_ne d' = b_ne d /\ b_ns d' = b_ns d /\ b_nt d' = b_nt d.
Proof.
  intros W. unfold handle_events. destruct (scan_start cfg now d) as [start|]; cbn zeta; [|auto 7]. destruct (scan_batch cfg now start d W) as [B1 B2].
  pose proof (batch_effect cfg now start (scan_events cfg now start d) envs d (wf_sv d W) B1 B2) as X. cbn zeta in X. apply X.
Qed.
Lemma clean_rest cfg now d : wf d -> let d' := clean_events cfg now d in b_tx d' = b_tx d /\ b_svc d' = b_svc d /\ b_ne d' = b_ne d /\ b_nt d' = b_nt d /\ incl (b_ev d') (b_ev d) /\ incl (b_sv d') (b_sv d).
Proof.
  intros W. destruct (clean_spec cfg now d W) as (C1 & C2 & C3 & C4 & C5 & C6 & C7). cbn zeta. repeat split; auto.
  - intros r Hr. apply (taken_out_In _ _ _ r C2); auto.
  - intros s Hs. apply (taken_out_In _ _ _ s C1); auto.
Qed.
(** the transaction begun by an operation, if any *)
Lemma begin_ends svc timeout now evs s d o s' d' : dispatch_begin svc timeout now evs s d = (o, s', d') ->
  (d' = d /\ forall t, o <> Val t) \/ (evs <> [] /\ exists t, t = mkT (b_nt d) svc evs (now + timeout) /\ d' = snd (insert_tx svc evs (now + timeout) d) /\ forall u, o = Val u -> u = t).
Proof.
  unfold dispatch_begin. destruct evs as [|e evs]; [intros [= <- <- <-]; left; split; auto; discriminate|].
  destruct s as [|[| | |] s]; cbn; intros [= <- <- <-].
  - right. split; [discriminate|]. eexists. split; [reflexivity|]. split; auto. congruence.
  - right. split; [discriminate|]. eexists. split; [reflexivity|]. split; auto. congruence.
  - left. split; auto. discriminate.
  - right. split; [discriminate|]. eexists. split; [reflexivity|]. split; auto. discriminate.
  - left. split; auto. discriminate.
Qed.
Lemma step_inv all st o : txinv all st -> exists all', incl all all' /\ txinv all' (tx_step o st) /\ (is_clean o = false -> once all (x_db st) -> once all' (x_db (tx_step o st))).
Proof.
  destruct st as [d hs]. intros I. destruct o; cbn [tx_step x_db x_handles].
  - destruct (dispatch_begin svc timeout now evs script d) as [[o s'] d'] eqn:B. destruct (begin_ends _ _ _ _ _ _ _ _ _ B) as [[-> N] | (Ne & t & Et & Ed & Ou)].
    + exists all. split; [apply incl_refl|]. destruct o as [t| |]; [now destruct (N t)|auto..].
    + exists (all ++ [t]). split; [apply incl_appl, incl_refl|]. destruct I as [W I1 I2 I3 I4 I5 I6 I7 I8]; cbn [x_db x_handles] in *.
      assert (K : forall hs', incl hs' (all ++ [t]) -> txinv (all ++ [t]) (mkX d' hs')).
      { intros hs' Hh. assert (Ti : tr_id t = b_nt d) by (subst t; auto). constructor; cbn [x_db x_handles]; auto; subst d'; cbn [insert_tx snd b_tx b_nt b_ev].
        - destruct W. constructor; auto.
        - rewrite map_app. apply NoDup_app_intro; auto; [constructor; [intros []|constructor]|]. intros x Hx [<-|[]]. apply in_map_iff in Hx. destruct Hx as (u & E & Hu). specialize (I2 u Hu). lia.
        - intros u Hu. apply in_app_iff in Hu. destruct Hu as [Hu|[<-|[]]]; [specialize (I2 u Hu)|]; lia.
        - intros u Hu. apply in_app_iff in Hu. destruct Hu as [Hu|[<-|[]]]; auto. subst t; auto.
        - rewrite <- Et. apply incl_app; [now apply incl_appl|now apply incl_appr, incl_refl].
        - rewrite map_app. apply NoDup_app_intro; auto; [constructor; [intros []|constructor]|]. intros x Hx [<-|[]]. apply in_map_iff in Hx. destruct Hx as (u & E & Hu). specialize (I2 u (I4 u Hu)). cbn in *. lia.
        - intros r Hr. specialize (I7 r Hr). lia.
        - lia. }
      assert (O : once all d -> once (all ++ [t]) d').
      { intros O u Hu. assert (S : forall id, stored id d' = stored id d) by (intros; subst d'; reflexivity). rewrite S. apply in_app_iff in Hu. destruct Hu as [Hu|[<-|[]]]; auto. left. apply found_stored. destruct (existsb _ _) eqn:E; auto. apply existsb_exists in E. destruct E as (r & A & E). apply Nat.eqb_eq in E. specialize (I7 r A). subst t. cbn in E. lia. }
      destruct o as [u| |]; cbn [x_db x_handles]; split; auto; apply K.
      * apply incl_app; [now apply incl_appl|]. rewrite (Ou u eq_refl). apply incl_appr, incl_refl.
      * now apply incl_appl.
      * now apply incl_appl.
  - destruct (nth_error hs h) as [t|] eqn:E; [|exists all; split; [apply incl_refl|auto]]. exists all. split; [apply incl_refl|]. unfold db_after. destruct (bus_commit t script d) as [[o s'] d'] eqn:B. destruct (commit_ends _ _ _ _ _ _ B) as [M _].
    destruct (msteps_inv all hs _ _ _ _ (fun u (H : t = u) => match H with eq_refl => ti_h _ _ I t (nth_error_In _ _ E) end) M I) as [X Y]. auto.
  - destruct (nth_error hs h) as [t|] eqn:E; [|exists all; split; [apply incl_refl|auto]]. exists all. split; [apply incl_refl|]. unfold db_after. destruct (bus_rollback t script d) as [[o s'] d'] eqn:B. destruct (rollback_ends _ _ _ _ _ _ B) as [M _].
    assert (HP : forall u : trow, False -> In u all) by tauto. destruct (msteps_inv all hs _ _ _ _ HP M I) as [X Y]. auto.
  - exists all. split; [apply incl_refl|]. unfold db_after. destruct (handle_transactions svc checker now script d) as [[o s'] d'] eqn:B. apply handle_ends in B.
    assert (HP : forall t, (In t (b_tx d) /\ overdue svc now t = true) /\ says checker TXCommit t -> In t all) by (intros t [[A _] _]; now apply (ti_tx _ _ I)). destruct (msteps_inv all hs _ _ _ _ HP B I) as [X Y]. auto.
  - exists all. split; [apply incl_refl|]. unfold db_after. destruct (dispatch 0 evs script d) as [[o s'] d'] eqn:B. destruct (dispatch_ends _ _ _ _ _ _ _ B) as [[-> | (k & D)] _]; auto.
    destruct I as [W I1 I2 I3 I4 I5 I6 I7 I8]; cbn [x_db x_handles] in *. pose proof (dispatched_wf _ _ _ _ _ W D (NoDup_firstn _ _ (wf_svc _ W))) as W'. split.
    + destruct D as (rows & dels & E1 & E2 & E3 & E4 & E5 & E6 & E7 & E8 & E9 & E10 & E11 & E12 & E13). constructor; cbn [x_db x_handles]; auto; rewrite ?E13, ?E10; auto. rewrite E1. intros r Hr. apply in_app_iff in Hr. destruct Hr as [Hr|Hr]; auto. rewrite (E4 r Hr). lia.
    + intros _ O t Ht. rewrite (stored_dispatched (tr_id t) _ _ _ _ _ D). specialize (I2 t Ht). destruct (Nat.eqb_spec (tr_id t) 0); [lia|]. rewrite app_nil_r. auto.
  - exists all. split; [apply incl_refl|]. assert (E : b_ev (init_service name d) = b_ev d /\ b_tx (init_service name d) = b_tx d /\ b_nt (init_service name d) = b_nt d) by (unfold init_service; destruct (existsb _ _); auto). destruct E as (E1 & E2 & E3).
    split; [|intros _ O t Ht; unfold stored; rewrite E1; apply O; auto]. destruct I as [W I1 I2 I3 I4 I5 I6 I7 I8]. constructor; cbn [x_db x_handles] in *; rewrite ?E1, ?E2, ?E3; auto. now apply init_service_wf.
  - exists all. split; [apply incl_refl|]. destruct (poll_rest cfg now envs d (ti_wf _ _ I)) as (E1 & E2 & E3 & E4 & E5 & E6). destruct (poll_effect cfg now envs d (ti_wf _ _ I)) as (W' & _).
    split; [|intros _ O t Ht; unfold stored; rewrite E1; apply O; auto]. destruct I as [W I1 I2 I3 I4 I5 I6 I7 I8]. constructor; cbn [x_db x_handles] in *; rewrite ?E1, ?E3, ?E6; auto.
  - exists all. split; [apply incl_refl|]. destruct (clean_rest cfg now d (ti_wf _ _ I)) as (E1 & E2 & E3 & E4 & E5 & E6). split; [|discriminate].
    destruct I as [W I1 I2 I3 I4 I5 I6 I7 I8]. constructor; cbn [x_db x_handles] in *; rewrite ?E1, ?E4; auto. now apply clean_wf.
Qed.
Lemma run_inv l : forall all st, txinv all st -> exists all', incl all all' /\ txinv all' (tx_run l st) /\ (forallb (fun o => negb (is_clean o)) l = true -> once all (x_db st) -> once all' (x_db (tx_run l st))).
Proof.
  induction l as [|o l IH]; intros all st I; cbn; [exists all; split; [apply incl_refl|auto]|]. destruct (step_inv all st o I) as (a1 & A1 & A2 & A3). destruct (IH a1 _ A2) as (a2 & B1 & B2 & B3). exists a2. split; [eapply incl_tran; eauto|]. split; auto.
  intros H O. apply andb_true_iff in H. destruct H as [H1 H2]. apply B3; auto. apply A3; auto. now destruct (is_clean o).
Qed.
Lemma inv0 : txinv [] st0.
Proof. constructor; cbn; try constructor; try easy; cbn; try constructor; try easy; auto. Qed.
Lemma tx_run_app l1 l2 st : tx_run (l1 ++ l2) st = tx_run l2 (tx_run l1 st).
Proof. unfold tx_run. apply fold_left_app. Qed.

(** Transactional events: what does not happen, and what a fault-free timeout check does. *)
From Verif Require Import BusModel BusSpec BusProof BusWorld BusWorldSpec BusWorldProof BusWorldProof3 BusLiveSpec BusLive BusLive2 BusTxSpec BusTx.

Lemma srow_dec (a b : srow) : {a = b} + {a <> b}.
Proof. repeat decide equality. Defined.
Definition rows_of (id : nat) (d : bdb) : list erow := filter (fun r => er_trans r =? id) (b_ev d).
Lemma msteps_rows id (P Q : trow -> Prop) d d' : (forall t, P t -> tr_id t <> id) -> msteps P Q d d' -> rows_of id d' = rows_of id d.
Proof.
  intros N M. induction M as [|d d1 d2 H M IH]; auto. rewrite IH. destruct H as [t k d d' Pt _ D|t d Qt]; auto. destruct D as (rows & dels & E1 & E2 & _ & E4 & _). unfold rows_of. rewrite E1, filter_app.
  rewrite (rows_none id (tr_id t) rows); auto; [apply app_nil_r|]. intros E. now apply (N t Pt).
Qed.
(** who may store events of transaction [id] *)
Definition may_store (id : nat) (o : txop) (st : txst) : Prop :=
  commits o st id \/ exists t, tr_id t = id /\ In t (b_tx (x_db st)) /\ asks o st t.
Lemma step_rows all id o st : txinv all st -> 1 <= id -> ~ may_store id o st -> incl (rows_of id (x_db (tx_step o st))) (rows_of id (x_db st)).
Proof.
  destruct st as [d hs]. intros I Pos N. destruct o; cbn [tx_step x_db x_handles].
  - destruct (dispatch_begin svc timeout now evs script d) as [[o s'] d'] eqn:B. assert (X : rows_of id d' = rows_of id d).
    { destruct (begin_ends _ _ _ _ _ _ _ _ _ B) as [[-> _] | (_ & t & _ & -> & _)]; auto. }
    destruct o; cbn [x_db]; rewrite X; apply incl_refl.
  - destruct (nth_error hs h) as [t|] eqn:E; [|apply incl_refl]. cbn [x_db]. unfold db_after. destruct (bus_commit t script d) as [[o s'] d'] eqn:B. destruct (commit_ends _ _ _ _ _ _ B) as [M _].
    rewrite (msteps_rows id _ _ _ _ (fun u (H : t = u) X => N (or_introl (ex_intro _ u (conj (eq_trans E (f_equal Some H)) X)))) M). apply incl_refl.
  - destruct (nth_error hs h) as [t|] eqn:E; [|apply incl_refl]. cbn [x_db]. unfold db_after. destruct (bus_rollback t script d) as [[o s'] d'] eqn:B. destruct (rollback_ends _ _ _ _ _ _ B) as [M _].
    assert (HP : forall u : trow, False -> tr_id u <> id) by tauto. rewrite (msteps_rows id _ _ _ _ HP M). apply incl_refl.
  - unfold db_after. destruct (handle_transactions svc checker now script d) as [[o s'] d'] eqn:B. apply handle_ends in B.
    rewrite (msteps_rows id (fun t => (In t (b_tx d) /\ overdue svc now t = true) /\ says checker TXCommit t) (fun t => In t (b_tx d) /\ overdue svc now t = true) d d'); auto; [apply incl_refl|].
    intros t [[A O] S] E. apply N. right. exists t. split; auto. split; auto. cbn. split; auto. unfold overdue in O. apply andb_true_iff in O. destruct O as [O1 O2]. apply String.eqb_eq in O1. apply Nat.ltb_lt in O2. auto.
  - unfold db_after. destruct (dispatch 0 evs script d) as [[o s'] d'] eqn:B. destruct (dispatch_ends _ _ _ _ _ _ _ B) as [[-> | (k & D)] _]; [apply incl_refl|].
    destruct D as (rows & dels & E1 & E2 & _ & E4 & _). unfold rows_of. rewrite E1, filter_app, (rows_none id 0 rows), app_nil_r; auto; [apply incl_refl|lia].
  - unfold init_service. destruct (existsb _ _); apply incl_refl.
  - destruct (poll_rest cfg now envs d (ti_wf _ _ I)) as (E1 & _). unfold rows_of. rewrite E1. apply incl_refl.
  - destruct (clean_rest cfg now d (ti_wf _ _ I)) as (_ & _ & _ & _ & E5 & _). intros r Hr. apply filter_In in Hr. apply filter_In. split; [apply E5|]; tauto.
Qed.
Lemma run_rows id l : forall all st, txinv all st -> 1 <= id -> never (may_store id) l st -> incl (rows_of id (x_db (tx_run l st))) (rows_of id (x_db st)).
Proof.
  induction l as [|o l IH]; intros all st I Pos N; [apply incl_refl|]. destruct N as [N1 N2]. destruct (step_inv all st o I) as (a1 & _ & A2 & _). cbn. eapply incl_tran; [eapply IH; eauto|]. eapply step_rows; eauto.
Qed.
Lemma stored_rows id d : stored id d = [] <-> rows_of id d = [].
Proof. unfold stored, rows_of. split; intros H; [now apply map_eq_nil in H|now rewrite H]. Qed.
(** a transaction whose record is gone stays gone *)
Definition gone (id : nat) (st : txst) : Prop := 1 <= id < b_nt (x_db st) /\ forall t, In t (b_tx (x_db st)) -> tr_id t <> id.
Lemma msteps_tx (P Q : trow -> Prop) d d' : msteps P Q d d' -> incl (b_tx d') (b_tx d) /\ b_nt d' = b_nt d.
Proof.
  induction 1 as [|d d1 d2 H M [IH1 IH2]]; [split; auto; apply incl_refl|]. destruct H as [t k d d' Pt _ D|t d Qt].
  - destruct D as (rows & dels & E1 & E2 & E3 & E4 & E5 & E6 & E7 & E8 & E9 & E10 & E11 & E12 & E13). rewrite E10 in IH1. split; [auto|congruence].
  - split; auto. intros x Hx. apply IH1 in Hx. cbn in Hx. apply filter_In in Hx. tauto.
Qed.
Lemma step_tx all o st : txinv all st -> b_nt (x_db st) <= b_nt (x_db (tx_step o st)) /\ forall t, In t (b_tx (x_db (tx_step o st))) -> In t (b_tx (x_db st)) \/ tr_id t = b_nt (x_db st).
Proof.
  destruct st as [d hs]. intros I. destruct o; cbn [tx_step x_db x_handles].
  - destruct (dispatch_begin svc timeout now evs script d) as [[o s'] d'] eqn:B. assert (X : b_nt d <= b_nt d' /\ forall t, In t (b_tx d') -> In t (b_tx d) \/ tr_id t = b_nt d).
    { destruct (begin_ends _ _ _ _ _ _ _ _ _ B) as [[-> _] | (_ & t & _ & -> & _)]; auto. cbn. split; [lia|]. intros u Hu. apply in_app_iff in Hu. destruct Hu as [Hu|[<-|[]]]; auto. }
    destruct o; auto.
  - destruct (nth_error hs h) as [t|] eqn:E; auto. cbn [x_db]. unfold db_after. destruct (bus_commit t script d) as [[o s'] d'] eqn:B. destruct (commit_ends _ _ _ _ _ _ B) as [M _]. destruct (msteps_tx _ _ _ _ M) as [A C]. rewrite C. split; auto.
  - destruct (nth_error hs h) as [t|] eqn:E; auto. cbn [x_db]. unfold db_after. destruct (bus_rollback t script d) as [[o s'] d'] eqn:B. destruct (rollback_ends _ _ _ _ _ _ B) as [M _]. destruct (msteps_tx _ _ _ _ M) as [A C]. rewrite C. split; auto.
  - unfold db_after. destruct (handle_transactions svc checker now script d) as [[o s'] d'] eqn:B. apply handle_ends in B. destruct (msteps_tx _ _ _ _ B) as [A C]. rewrite C. split; auto.
  - unfold db_after. destruct (dispatch 0 evs script d) as [[o s'] d'] eqn:B. destruct (dispatch_ends _ _ _ _ _ _ _ B) as [[-> | (k & D)] _]; auto.
    destruct D as (rows & dels & E1 & E2 & E3 & E4 & E5 & E6 & E7 & E8 & E9 & E10 & E11 & E12 & E13). rewrite E10, E13. auto.
  - unfold init_service. destruct (existsb _ _); auto.
  - destruct (poll_rest cfg now envs d (ti_wf _ _ I)) as (E1 & E2 & E3 & E4 & E5 & E6). rewrite E3, E6. auto.
  - destruct (clean_rest cfg now d (ti_wf _ _ I)) as (E1 & E2 & E3 & E4 & E5 & E6). rewrite E1, E4. auto.
Qed.
Lemma step_gone all id o st : txinv all st -> gone id st -> gone id (tx_step o st).
Proof. intros I [A B]. destruct (step_tx all o st I) as [C D]. split; [lia|]. intros t Ht E. destruct (D t Ht) as [X|X]; [now apply (B t X)|lia]. Qed.
Lemma run_gone id l : forall all st, txinv all st -> gone id st -> never (fun o st => commits o st id) l st ->
  gone id (tx_run l st) /\ incl (rows_of id (x_db (tx_run l st))) (rows_of id (x_db st)).
Proof.
  induction l as [|o l IH]; intros all st I G N; [split; auto; apply incl_refl|]. destruct N as [N1 N2]. destruct (step_inv all st o I) as (a1 & _ & A2 & _). cbn.
  destruct (IH a1 (tx_step o st) A2 (step_gone _ _ _ _ I G) N2) as [A B]. split; auto. eapply incl_tran; [exact B|]. eapply step_rows; eauto; [apply G|]. intros [X|(t & E & X & _)]; auto. now apply (proj2 G t).
Qed.
Lemma never_mono (P Q : txop -> txst -> Prop) l : (forall o st, Q o st -> P o st) -> forall st, never P l st -> never Q l st.
Proof. intros H. induction l as [|o l IH]; cbn; auto. intros st [A B]. auto. Qed.

(** deliveries of existing events are never added *)
Definition no_new (d d' : bdb) : Prop := b_ne d <= b_ne d' /\ forall s, In s (b_sv d') -> sr_event s < b_ne d -> exists s0, In s0 (b_sv d) /\ sr_service s0 = sr_service s /\ sr_event s0 = sr_event s.
Lemma no_new_refl d : no_new d d. Proof. split; eauto. Qed.
Lemma no_new_trans d d1 d2 : no_new d d1 -> no_new d1 d2 -> no_new d d2.
Proof. intros [A B] [C D]. split; [lia|]. intros s Hs L. destruct (D s Hs) as (s1 & S1 & S2 & S3); [lia|]. destruct (B s1 S1) as (s0 & T1 & T2 & T3); [lia|]. exists s0. split; auto. split; congruence. Qed.
Lemma no_new_dispatched trans evs svcs d d' : dispatched trans evs svcs d d' -> no_new d d'.
Proof.
  intros (rows & dels & E1 & E2 & E3 & E4 & E5 & E6 & E7 & E8 & E9 & E10 & E11 & E12 & E13). split; [lia|]. intros s Hs L. rewrite E5 in Hs. apply in_app_iff in Hs. destruct Hs as [Hs|Hs]; [eauto|]. exfalso.
  destruct (E8 s Hs) as (_ & _ & r & R1 & R2 & _). assert (X : In (er_id r) (map er_id rows)) by now apply in_map. rewrite E3 in X. apply in_seq in X. lia.
Qed.
Lemma no_new_msteps (P Q : trow -> Prop) d d' : msteps P Q d d' -> no_new d d'.
Proof. induction 1 as [|d d1 d2 H M IH]; [apply no_new_refl|]. eapply no_new_trans; [|exact IH]. destruct H as [t k d d' _ _ D|t d _]; [eapply no_new_dispatched; eauto|]. split; cbn; eauto. Qed.
Lemma step_no_new all o st : txinv all st -> no_new (x_db st) (x_db (tx_step o st)).
Proof.
  destruct st as [d hs]. intros I. destruct o; cbn [tx_step x_db x_handles].
  - destruct (dispatch_begin svc timeout now evs script d) as [[o s'] d'] eqn:B. assert (X : no_new d d').
    { destruct (begin_ends _ _ _ _ _ _ _ _ _ B) as [[-> _] | (_ & t & _ & -> & _)]; [apply no_new_refl|]. split; cbn; eauto. }
    destruct o; auto.
  - destruct (nth_error hs h) as [t|] eqn:E; [|apply no_new_refl]. cbn [x_db]. unfold db_after. destruct (bus_commit t script d) as [[o s'] d'] eqn:B. destruct (commit_ends _ _ _ _ _ _ B) as [M _]. eapply no_new_msteps; eauto.
  - destruct (nth_error hs h) as [t|] eqn:E; [|apply no_new_refl]. cbn [x_db]. unfold db_after. destruct (bus_rollback t script d) as [[o s'] d'] eqn:B. destruct (rollback_ends _ _ _ _ _ _ B) as [M _]. eapply no_new_msteps; eauto.
  - unfold db_after. destruct (handle_transactions svc checker now script d) as [[o s'] d'] eqn:B. apply handle_ends in B. eapply no_new_msteps; eauto.
  - unfold db_after. destruct (dispatch 0 evs script d) as [[o s'] d'] eqn:B. destruct (dispatch_ends _ _ _ _ _ _ _ B) as [[-> | (k & D)] _]; [apply no_new_refl|]. eapply no_new_dispatched; eauto.
  - unfold init_service. destruct (existsb _ _); split; cbn; eauto.
  - destruct (poll_effect cfg now envs d (ti_wf _ _ I)) as (_ & _ & E & X). split; [rewrite E; auto|]. intros s Hs _. cbn zeta in X. destruct (scan_start cfg now d) as [start|]; [|destruct X as [X _]; rewrite X in Hs; eauto].
    destruct X as (g & G1 & G2 & G3 & _). rewrite G1 in Hs. apply in_map_iff in Hs. destruct Hs as (x & <- & Hx). exists x. split; auto.
    destruct (in_dec srow_dec x (map snd (scan_events cfg now start d))) as [Y|Y]; [|rewrite (G2 x Hx Y); auto].
    apply in_map_iff in Y. destruct Y as ((e & x') & Ex & Y). cbn in Ex. subst x'. apply In_nth_error in Y. destruct Y as (i & Y). destruct (G3 i e x Y) as [[-> | ->] _]; auto. destruct (end_event_id cfg now (he_res (envs i)) x) as (K1 & K2 & K3 & _). auto.
  - destruct (clean_rest cfg now d (ti_wf _ _ I)) as (E1 & E2 & E3 & E4 & E5 & E6). split; [lia|]. intros s Hs _. exists s. auto.
Qed.
Lemma run_no_new l : forall all st, txinv all st -> no_new (x_db st) (x_db (tx_run l st)).
Proof.
  induction l as [|o l IH]; intros all st I; [apply no_new_refl|]. destruct (step_inv all st o I) as (a1 & _ & A2 & _). cbn. eapply no_new_trans; [eapply step_no_new; eauto|eauto].
Qed.

(** Transactional events: a timeout check without faults. *)
From Verif Require Import BusModel BusSpec BusProof BusWorld BusWorldSpec BusWorldProof BusWorldProof3 BusLiveSpec BusLive BusLive2 BusTxSpec BusTx BusTx2.

Lemma deliver_all_ok svcs rows : forall d, exists d', deliver_all svcs rows [] d = (Val tt, [], d').
Proof. induction svcs as [|v t IH]; intros d; cbn; [eexists; reflexivity|]. unfold bindM. cbn. apply IH. Qed.
Lemma dispatch_ok trans evs d : evs <> [] -> exists d', dispatch trans evs [] d = (Val tt, [], d').
Proof.
  intros N. unfold dispatch, bindM. cbn. destruct evs as [|e t]; [contradiction|]. cbn -[deliver_all]. match goal with |- context [deliver_all ?a ?b [] ?c] => destruct (deliver_all_ok a b c) as (d' & ->) end. cbn. eauto.
Qed.
Lemma commit_ok t d : tr_events t <> [] -> exists d', bus_commit t [] d = (Val tt, [], d').
Proof.
  intros N. unfold bus_commit, bindM. cbn -[dispatch]. destruct (existsb _ _); cbn -[dispatch]; [eexists; reflexivity|]. destruct (dispatch_ok (tr_id t) (tr_events t) d N) as (d' & ->). cbn. eauto.
Qed.
Lemma check_ok checker t d : tr_events t <> [] -> exists d', check_tx checker t [] d = (Val tt, [], d').
Proof.
  intros N. unfold check_tx. destruct (tr_events t) as [|e r] eqn:E; [contradiction|]. destruct (checker e); cbn -[bus_commit]; [|eexists; reflexivity..]. unfold swallow. destruct (commit_ok t d) as (d' & ->); [congruence|]. eauto.
Qed.
(** what stays whatever happens to other transactions: stored events, pending deliveries, services *)
Definition grows (d d' : bdb) : Prop := incl (b_ev d) (b_ev d') /\ incl (b_sv d) (b_sv d') /\ b_svc d' = b_svc d /\ incl (b_tx d') (b_tx d).
Lemma grows_refl d : grows d d. Proof. repeat split; auto; apply incl_refl. Qed.
Lemma grows_trans d d1 d2 : grows d d1 -> grows d1 d2 -> grows d d2.
Proof. intros (A & B & C & D) (A' & B' & C' & D'). split; [eapply incl_tran; eauto|]. split; [eapply incl_tran; eauto|]. split; [congruence|eapply incl_tran; eauto]. Qed.
Lemma msteps_grows (P Q : trow -> Prop) d d' : msteps P Q d d' -> grows d d'.
Proof.
  induction 1 as [|d d1 d2 H M IH]; [apply grows_refl|]. eapply grows_trans; [|exact IH]. destruct H as [t k d d' _ _ D|t d _].
  - destruct D as (rows & dels & E1 & E2 & E3 & E4 & E5 & E6 & E7 & E8 & E9 & E10 & E11 & E12 & E13). unfold grows. rewrite E1, E5, E9, E10. repeat split; auto; try apply incl_appl; apply incl_refl.
  - unfold grows. cbn. repeat split; try apply incl_refl. intros x Hx. apply filter_In in Hx. tauto.
Qed.
Lemma dispatched_delivered id evs svcs d d' : dispatched id evs svcs d d' -> delivered id evs svcs d'.
Proof.
  intros (rows & dels & E1 & E2 & E3 & E4 & E5 & E6 & E7 & E8 & E9 & E10 & E11 & E12 & E13). exists rows. rewrite E1, E5. split; [apply incl_appr, incl_refl|]. split; auto. split; auto. intros r svc Hr Hs.
  assert (X : In (svc, er_id r) (list_prod svcs (map er_id rows))) by (apply in_prod; auto; now apply in_map). rewrite <- E6 in X. apply in_map_iff in X. destruct X as (s & X & Hd). injection X as X1 X2. exists s. split; [apply in_app_iff; auto|]. split; auto. split; auto. now apply E8.
Qed.
Lemma delivered_grows id evs svcs d d' : grows d d' -> delivered id evs svcs d -> delivered id evs svcs d'.
Proof. intros (A & B & _) (rows & R1 & R2 & R3 & R4). exists rows. split; [eapply incl_tran; eauto|]. split; auto. split; auto. intros r svc Hr Hs. destruct (R4 r svc Hr Hs) as (s & S & T). exists s. split; auto. Qed.
Lemma check_all_ok checker l : forall d, (forall t, In t l -> tr_events t <> []) -> NoDup (map tr_id l) ->
  exists d', check_all checker l [] d = (Val tt, [], d') /\ grows d d' /\
  forall t, In t l -> stored (tr_id t) d = [] ->
    (says checker TXCommit t -> stored (tr_id t) d' = tr_events t /\ delivered (tr_id t) (tr_events t) (b_svc d) d' /\ forall u, In u (b_tx d') -> tr_id u <> tr_id t) /\
    (says checker TXRollBack t -> stored (tr_id t) d' = [] /\ forall u, In u (b_tx d') -> tr_id u <> tr_id t) /\
    (says checker TXOther t -> stored (tr_id t) d' = []).
Proof.
  induction l as [|t l IH]; intros d Ne N; cbn [check_all].
  - exists d. split; auto. split; [apply grows_refl|]. intros t [].
  - cbn in N. inversion N as [|? ? N1 N2]; subst. destruct (check_ok checker t d (Ne t (or_introl eq_refl))) as (d1 & E). unfold bindM. rewrite E. destruct (IH d1 (fun u Hu => Ne u (or_intror Hu)) N2) as (d' & E' & G & H). exists d'. split; auto.
    pose proof (check_ends _ _ _ _ _ _ _ E) as M1. pose proof (check_all_ends _ _ _ _ _ _ _ E') as M2. pose proof (msteps_grows _ _ _ _ M1) as G1. split; [eapply grows_trans; eauto|].
    assert (Svc : b_svc d1 = b_svc d) by apply G1.
    intros u Hu Su. assert (Keep1 : tr_id u <> tr_id t -> stored (tr_id u) d1 = stored (tr_id u) d).
    { intros X. unfold stored. f_equal. apply (msteps_rows (tr_id u) _ _ _ _ (fun x (Hx : x = t /\ _) (Ex : tr_id x = tr_id u) => X ltac:(destruct Hx as [-> _]; auto)) M1). }
    destruct Hu as [<-|Hu].
    + assert (Keep2 : stored (tr_id t) d' = stored (tr_id t) d1). { unfold stored. f_equal. apply (msteps_rows (tr_id t) _ _ _ _ (fun x (Hx : In x l /\ _) (Ex : tr_id x = tr_id t) => N1 ltac:(rewrite <- Ex; apply in_map, Hx)) M2). }
      rewrite Keep2. unfold check_tx in E. assert (Tx : incl (b_tx d') (b_tx d1)) by apply G. assert (Nd : tr_events t <> []) by (apply Ne; now left). split; [|split]; intros (e & r & Ev & C); rewrite Ev, C in E.
      * unfold swallow in E. destruct (commit_ok t d Nd) as (d2 & B). rewrite B in E. injection E as ->. destruct (commit_ends _ _ _ _ _ _ B) as [_ X]. destruct (X eq_refl) as [[Y _] | (_ & d3 & D & ->)]; [contradiction|].
        split; [|split].
        -- change (stored (tr_id t) d3 = tr_events t). rewrite (stored_dispatched (tr_id t) _ _ _ _ _ D), Su, Nat.eqb_refl. auto.
        -- apply (delivered_grows _ _ _ (snd (delete_tx t d3)) d' G). apply dispatched_delivered in D. exact D.
        -- intros u Hx Eu. apply Tx in Hx. cbn in Hx. apply filter_In in Hx. destruct Hx as [_ Hx]. rewrite Eu, Nat.eqb_refl in Hx. discriminate.
      * cbn in E. injection E as <-. split; auto. intros u Hx Eu. apply Tx in Hx. cbn in Hx. apply filter_In in Hx. destruct Hx as [_ Hx]. rewrite Eu, Nat.eqb_refl in Hx. discriminate.
      * cbn in E. injection E as <-. auto.
    + assert (X : tr_id u <> tr_id t) by (intros X; apply N1; rewrite <- X; now apply in_map). destruct (H u Hu) as (H1 & H2 & H3); [rewrite Keep1; auto|]. rewrite Svc in H1. auto.
Qed.

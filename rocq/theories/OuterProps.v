(** C80, C81: publishing an event from inside an outer transaction. *)
From Verif Require Import BusModel BusSpec BusProof BusWorld BusWorldSpec BusWorldProof BusWorldProof3 BusLiveSpec BusLive BusLive2 BusTxSpec BusTx BusTx2 BusTx3 OuterModel OuterProof OuterProof2.
Local Open Scope string_scope. Local Open Scope list_scope. Local Open Scope nat_scope.

(** Whatever calls of Handle run at the same time, wherever processes die and statements fail, whatever others do on the bus:
    if events of a call are stored, its business transaction was committed - as long as checkers answer truthfully. *)
Theorem C80_sent_only_if_committed :
  forall s x t, oreach (others truthful) s -> In x (o_calls s) -> i_row x = Some t -> stored (tr_id t) (x_db (o_bus s)) <> [] -> i_biz x = BCommitted.
Proof.
  intros s x t R Hx Ht St. destruct (oreach_inv (others truthful) false true s) as (all & V); auto.
  - intros a s0 H. split; auto. split; discriminate.
  - apply (k_safe _ _ _ _ _ (v_calls _ _ _ _ V x Hx) t Ht St).
Qed.
Print Assumptions C80_sent_only_if_committed.

(** As above, and the answer to COMMIT always arrives, and the stored events are not cleaned away yet. *)
Definition watched (a : oact) (s : ost) : Prop := others truthful a s /\ answered a /\ ~ cleans a.
Lemma watched_inv s : oreach watched s -> exists all, oinv true false all s.
Proof. apply oreach_inv. intros a s0 (H1 & H2 & H3). split; auto. Qed.
(** The events of a committed call are all stored, or none is and the record that makes the timeout check ask is still there. *)
Theorem C80_committed_never_lost :
  forall s x, oreach watched s -> In x (o_calls s) -> i_biz x = BCommitted ->
    exists t, i_ctx x = Some t /\ tr_events t = i_evs x /\
      (stored (tr_id t) (x_db (o_bus s)) = i_evs x \/ (stored (tr_id t) (x_db (o_bus s)) = [] /\ In t (b_tx (x_db (o_bus s))))).
Proof.
  intros s x R Hx Hb. destruct (watched_inv s R) as (all & V). pose proof (v_calls _ _ _ _ V x Hx) as K. destruct (i_ctx x) as [t|] eqn:C; [|now destruct (k_com _ _ _ _ _ K Hb)].
  exists t. split; auto. destruct (k_row _ _ _ _ _ K t (k_ctx _ _ _ _ _ K t C)) as [T1 T2]. split; auto.
  destruct (v_once _ _ _ _ V eq_refl t T1) as [O|O]; [|left; congruence]. right. split; auto.
  destruct (k_live _ _ _ _ _ K eq_refl eq_refl t C) as [L|L]; auto; [congruence|contradiction].
Qed.
Print Assumptions C80_committed_never_lost.

Lemma check_settles all st svc checker now t : txinv all st -> In t (b_tx (x_db st)) -> tr_service t = svc -> tr_due t < now -> stored (tr_id t) (x_db st) = [] ->
    let d := x_db (tx_step (TCheck svc checker now []) st) in
    (says checker TXCommit t -> stored (tr_id t) d = tr_events t /\ delivered (tr_id t) (tr_events t) (b_svc (x_db st)) d) /\
    (says checker TXRollBack t -> stored (tr_id t) d = [] /\ forall u, In u (b_tx d) -> tr_id u <> tr_id t).
Proof.
  intros I Ht Sv Du E. cbn zeta. cbn [tx_step x_db]. unfold db_after, handle_transactions, transaction, bindM. cbn [stmt]. set (l := filter _ (b_tx (x_db st))).
  destruct (check_all_ok checker l (x_db st)) as (d' & C & _ & H).
  - intros u Hu. apply filter_In in Hu. apply (ti_ne _ _ I), (ti_tx _ _ I), Hu.
  - apply NoDup_map_filter, (ti_txn _ _ I).
  - rewrite C. destruct (H t) as (H1 & H2 & _); auto; [apply filter_In; split; auto; rewrite Sv, String.eqb_refl; cbn; now apply Nat.ltb_lt|]. split; auto. intros S. destruct (H1 S) as (A & B & _). auto.
Qed.
(** Wherever Handle or its process stopped: the first timeout check of the service after the due time, not hit by statement
    errors, whose checker answers truthfully, leaves the events of the call stored iff its business transaction was
    committed.  If they were not stored before, they are then pending for every registered service. *)
Theorem C80_stored_iff_committed :
  forall s x t svc checker now, oreach watched s -> In x (o_calls s) -> i_row x = Some t -> tr_service t = svc -> tr_due t < now ->
    (i_biz x = BCommitted -> says checker TXCommit t) -> (i_biz x = BRolledBack -> says checker TXRollBack t) -> i_biz x <> BOpen ->
    truthful s checker ->
    let before := x_db (o_bus s) in let after := x_db (tx_step (TCheck svc checker now []) (o_bus s)) in
    (i_biz x = BCommitted -> stored (tr_id t) after = i_evs x /\ (stored (tr_id t) before = [] -> delivered (tr_id t) (i_evs x) (b_svc before) after)) /\
    (i_biz x = BRolledBack -> stored (tr_id t) after = [] /\ forall u, In u (b_tx after) -> tr_id u <> tr_id t).
Proof.
  intros s x t svc checker now R Hx Hr Sv Du C1 C2 No Tr before after. destruct (watched_inv s R) as (all & V). pose proof (v_calls _ _ _ _ V x Hx) as K. pose proof (v_tx _ _ _ _ V) as I. destruct (k_row _ _ _ _ _ K t Hr) as [T1 T2]. split; intros Hb.
  - destruct (C80_committed_never_lost s x R Hx Hb) as (t' & X1 & X2 & X3). assert (t' = t) as ->. { pose proof (k_ctx _ _ _ _ _ K t' X1). congruence. }
    destruct X3 as [X3|[X3 X4]].
    + assert (Ne : stored (tr_id t) before <> []) by (unfold before; rewrite X3, <- T2; apply (ti_ne _ _ I), T1). split; [|intros X; contradiction].
      destruct (ostep_inv true false all s (OBus (TCheck svc checker now [])) (mkO (tx_step (TCheck svc checker now []) (o_bus s)) (o_calls s)) V) as (all' & V'); [split; [exact Tr|split; [exact (fun _ => Logic.I)|intros _ []]]|reflexivity|].
      pose proof (v_calls _ _ _ _ V' x Hx) as K'. destruct (k_row _ _ _ _ _ K' t Hr) as [T1' _]. destruct (v_once _ _ _ _ V' eq_refl t T1') as [O|O]; [|unfold after; cbn [o_bus] in O; congruence].
      exfalso. revert Ne O. intros Ne. apply (stored_grows (tr_id t) before). 2: exact Ne. apply (step_ev all (o_bus s) (TCheck svc checker now []) I eq_refl).
    + destruct (check_settles all (o_bus s) svc checker now t I X4 Sv Du X3) as [A _]. destruct (A (C1 Hb)) as [A1 A2]. rewrite T2 in A1, A2. auto.
  - assert (E : stored (tr_id t) before = []). { destruct (stored (tr_id t) before) eqn:E; auto. assert (X : stored (tr_id t) (x_db (o_bus s)) <> []) by (fold before; rewrite E; discriminate). pose proof (k_safe _ _ _ _ _ K t Hr X). congruence. }
    destruct (in_dec (fun a b => Nat.eq_dec a b) (tr_id t) (map tr_id (b_tx before))) as [Y|Y].
    + apply in_map_iff in Y. destruct Y as (u & Eu & Hu). assert (u = t) as -> by (apply (NoDup_map_inj tr_id all); auto; [apply (ti_ids _ _ I)|now apply (ti_tx _ _ I)]).
      destruct (check_settles all (o_bus s) svc checker now t I Hu Sv Du E) as [_ B]. exact (B (C2 Hb)).
    + split.
      * apply stored_rows. apply stored_rows in E. apply incl_l_nil. rewrite <- E. apply (step_rows all (tr_id t) (TCheck svc checker now []) (o_bus s) I); [pose proof (ti_nt _ _ I t T1); lia|].
        intros [C|(u & U1 & U2 & _)]; [exact C|]. apply Y. rewrite <- U1. now apply in_map.
      * intros u Hu Eu. destruct (step_tx all (TCheck svc checker now []) (o_bus s) I) as [_ Q]. destruct (Q u Hu) as [Q1|Q1]; [apply Y; rewrite <- Eu; now apply in_map|]. pose proof (ti_nt _ _ I t T1). lia.
Qed.
Print Assumptions C80_stored_iff_committed.

(* ---------------------------------------------------------------- examples *)
Lemma oreach_run (A : oact -> ost -> Prop) s l : oreach A s -> forall s', fold_left (fun r a => match r with Some u => ostep a u | None => None end) l (Some s) = Some s' ->
  (forall p a q u, l = p ++ a :: q -> fold_left (fun r a => match r with Some u => ostep a u | None => None end) p (Some s) = Some u -> A a u) -> oreach A s'.
Proof.
  revert s. induction l as [|a l IH]; intros s R s' H HA; cbn in H; [injection H as <-; auto|]. destruct (ostep a s) as [u|] eqn:E.
  - apply (IH u); auto.
    + apply (or_step A s a); auto. apply (HA [] a l s); auto.
    + intros p b q v -> Hv. apply (HA (a :: p) b q v); auto. cbn. now rewrite E.
  - exfalso. clear -H. induction l as [|b l IH]; cbn in H; [discriminate|auto].
Qed.
Definition run_acts (l : list oact) : option ost := fold_left (fun r a => match r with Some u => ostep a u | None => None end) l (Some ost0).
Definition ev (n : nat) (id : string) : devent := mkDev id "x" STTransaction n 0.
(** Three calls of Handle: the first commits and its process dies before it can tell the bus; the second dies before COMMIT; the
    third runs to its end. *)
Definition three : list oact :=
  [OBus (TRegister "a"); OHandle [ev 1 "e1"]; OHandle [ev 2 "e2"]; OHandle [ev 3 "e3"];
   OBegin 0 "a" 5 0 []; OBegin 1 "a" 5 0 []; OEnd 0 CDone; ODie 0; ODie 1; OBegin 2 "a" 5 1 []; OEnd 2 CDone; ONotify 2 []].
Definition knows (e : devent) : txstatus := if String.eqb (d_id e) "e2" then TXRollBack else TXCommit.
Lemma three_reach : exists s, oreach watched s /\ run_acts three = Some s.
Proof.
  assert (X : exists s, run_acts three = Some s) by (eexists; vm_compute; reflexivity). destruct X as (s & X). exists s. split; auto.
  apply (oreach_run watched ost0 three (or_start _) s X). intros p a q u E _. unfold three in E.
  repeat (destruct p as [|? p]; cbn in E; [injection E as <- _; repeat split; cbn; auto|injection E as _ E]). destruct p; discriminate.
Qed.
Example C80_example : exists s x y z t u v, oreach watched s /\ o_calls s = [x; y; z] /\ i_row x = Some t /\ i_row y = Some u /\ i_row z = Some v /\
  i_biz x = BCommitted /\ i_pc x = PDead /\ i_biz y = BRolledBack /\ i_pc y = PDead /\ i_pc z = PDone /\ truthful s knows /\
  stored (tr_id t) (x_db (o_bus s)) = [] /\ stored (tr_id v) (x_db (o_bus s)) = [ev 3 "e3"] /\
  let d := x_db (tx_step (TCheck "a" knows 9 []) (o_bus s)) in stored (tr_id t) d = [ev 1 "e1"] /\ stored (tr_id u) d = [] /\ stored (tr_id v) d = [ev 3 "e3"].
Proof.
  destruct three_reach as (s & R & E). vm_compute in E. injection E as <-. do 7 eexists. split; [exact R|]. split; [reflexivity|]. do 8 (split; [reflexivity|]). split; [|vm_compute; auto].
  intros x e r Hx. cbn in Hx. destruct Hx as [<-|[<-|[<-|[]]]]; cbn; intros [= <- <-]; vm_compute; split; congruence.
Qed.

(* ---------------------------------------------------------------- C81: what does not hold *)
(** The shipped example registers a checker that always answers "commit" (outer_usage.go 46-48): if the process dies between
    DispatchBegin and COMMIT, the event is published although the business transaction was rolled back. *)
Definition shipped_checker : devent -> txstatus := fun _ => TXCommit.
Definition dies : list oact := [OBus (TRegister "gateway"); OHandle [ev 1 "e1"]; OBegin 0 "gateway" 60 0 []; ODie 0; OBus (TCheck "gateway" shipped_checker 61 [])].
Theorem C81_shipped_checker_refuted :
  exists s x t, oreach (others (fun _ c => c = shipped_checker)) s /\ In x (o_calls s) /\ i_row x = Some t /\ i_biz x = BRolledBack /\ i_pc x = PDead /\
    stored (tr_id t) (x_db (o_bus s)) = i_evs x /\ i_evs x <> [] /\ delivered (tr_id t) (i_evs x) ["gateway"] (x_db (o_bus s)).
Proof.
  assert (X : exists s, run_acts dies = Some s) by (eexists; vm_compute; reflexivity). destruct X as (s & X).
  assert (R : oreach (others (fun _ c => c = shipped_checker)) s).
  { apply (oreach_run _ ost0 dies (or_start _) s X). intros p a q u E _. unfold dies in E.
    repeat (destruct p as [|? p]; cbn in E; [injection E as <- _; repeat split; cbn; auto|injection E as _ E]). destruct p; discriminate. }
  vm_compute in X. injection X as <-. do 3 eexists. split; [exact R|]. split; [left; reflexivity|]. split; [reflexivity|]. split; [reflexivity|]. split; [reflexivity|]. split; [reflexivity|]. split; [discriminate|].
  eexists. split; [apply incl_refl|]. split; [reflexivity|]. split; [intros r [<-|[]]; reflexivity|]. intros r svc [<-|[]] [<-|[]]. eexists. split; [left; reflexivity|]. auto.
Qed.
Print Assumptions C81_shipped_checker_refuted.
(** A checker that looks into the database and answers "rollback" whenever it sees no committed data is not enough either: asked
    while the business transaction is still open it removes the record; if the process dies after COMMIT, the committed
    event is never published, whatever later checks answer. *)
Definition looks (s : ost) (checker : devent -> txstatus) : Prop :=
  forall x e r, In x (o_calls s) -> i_evs x = e :: r -> checker e = match i_biz x with BCommitted => TXCommit | _ => TXRollBack end.
Definition slow : list oact := [OBus (TRegister "a"); OHandle [ev 1 "e1"]; OBegin 0 "a" 5 0 []; OBus (TCheck "a" (fun _ => TXRollBack) 6 []); OEnd 0 CDone; ODie 0].
Theorem C81_asked_too_early_refuted :
  exists s x t, oreach (fun a s => others looks a s /\ answered a) s /\ In x (o_calls s) /\ i_ctx x = Some t /\ i_biz x = BCommitted /\ over x /\
    stored (tr_id t) (x_db (o_bus s)) = [] /\ b_tx (x_db (o_bus s)) = [].
Proof.
  assert (X : exists s, run_acts slow = Some s) by (eexists; vm_compute; reflexivity). destruct X as (s & X).
  assert (R : oreach (fun a s => others looks a s /\ answered a) s).
  { apply (oreach_run _ ost0 slow (or_start _) s X). intros p a q u E U. unfold slow in E.
    do 3 (destruct p as [|? p]; cbn in E; [injection E as <- _; repeat split; cbn; auto|injection E as <- E]).
    destruct p as [|? p]; cbn in E; [injection E as <- _|injection E as <- E].
    { split; [|exact I]. cbn. vm_compute in U. injection U as <-. intros x e r [<-|[]] _. reflexivity. }
    repeat (destruct p as [|? p]; cbn in E; [injection E as <- _; repeat split; cbn; auto|injection E as _ E]). destruct p; discriminate. }
  vm_compute in X. injection X as <-. do 3 eexists. split; [exact R|]. split; [left; reflexivity|]. split; [reflexivity|]. split; [reflexivity|]. split; [right; reflexivity|]. split; reflexivity.
Qed.
Print Assumptions C81_asked_too_early_refuted.
(** If COMMIT takes effect but its answer is lost, Handle rolls the event back: committed, and never published. *)
Definition lost_answer : list oact := [OBus (TRegister "a"); OHandle [ev 1 "e1"]; OBegin 0 "a" 5 0 []; OEnd 0 CLost; ONotify 0 []].
Theorem C81_lost_answer_refuted :
  exists s x t, oreach (others truthful) s /\ In x (o_calls s) /\ i_ctx x = Some t /\ i_biz x = BCommitted /\ i_pc x = PDone /\ stored (tr_id t) (x_db (o_bus s)) = [] /\ b_tx (x_db (o_bus s)) = [].
Proof.
  assert (X : exists s, run_acts lost_answer = Some s) by (eexists; vm_compute; reflexivity). destruct X as (s & X).
  assert (R : oreach (others truthful) s).
  { apply (oreach_run _ ost0 lost_answer (or_start _) s X). intros p a q u E _. unfold lost_answer in E.
    repeat (destruct p as [|? p]; cbn in E; [injection E as <- _; repeat split; cbn; auto|injection E as _ E]). destruct p; discriminate. }
  vm_compute in X. injection X as <-. do 3 eexists. split; [exact R|]. split; [left; reflexivity|]. do 4 (split; [reflexivity|]). reflexivity.
Qed.
Print Assumptions C81_lost_answer_refuted.

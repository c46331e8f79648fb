(** Contexts of the bus: proofs. *)
From Verif Require Import BusModel BusSpec BusProof BusWorld BusWorldSpec BusWorldProof BusWorldProof3 BusLiveSpec BusLive BusLive2 BusTxSpec BusTx BusTx2 BusTx3 BusCtx.
Local Open Scope nat_scope.

(** [alls d]: the transactions begun so far in database [d] *)
Definition cinv (kdb : string -> nat) (alls : nat -> list trow) (st : cst) : Prop :=
  (forall d, txinv (alls d) (mkX (c_dbs st d) (alls d))) /\ (forall c k t, In (k, t) (nth c (c_ctx st) []) -> In t (alls (kdb k))).
Definition conce (alls : nat -> list trow) (st : cst) : Prop := forall d, once (alls d) (c_dbs st d).
Definition keyed_op (kdb : string -> nat) (o : cop) : Prop :=
  match o with CBegin b _ _ _ _ _ | CDispatch b _ _ _ | CCommit b _ _ | CRollback b _ _ => bu_db b = kdb (bu_key b) | COther _ _ => True end.
Definition outside_at (o : cop) (st : cst) : Prop := match o with CDispatch b c _ _ => get_tx b c st = None | _ => True end.
Definition not_clean (o : cop) : Prop := match o with COther _ (TClean _ _) => False | _ => True end.

Lemma rehandle all db hs : txinv all (mkX db hs) -> txinv all (mkX db all).
Proof. intros [W I1 I2 I3 I4 I5 I6 I7 I8]. constructor; cbn [x_db x_handles] in *; auto. apply incl_refl. Qed.
Lemma dispatch_inv all d trans k evs d' : txinv all (mkX d all) -> trans < b_nt d -> dispatched trans evs (firstn k (b_svc d)) d d' -> txinv all (mkX d' all).
Proof.
  intros [W I1 I2 I3 I4 I5 I6 I7 I8] L D. cbn [x_db x_handles] in *. pose proof (dispatched_wf _ _ _ _ _ W D (NoDup_firstn _ _ (wf_svc _ W))) as W'.
  destruct D as (rows & dels & E1 & E2 & E3 & E4 & E5 & E6 & E7 & E8 & E9 & E10 & E11 & E12 & E13). constructor; cbn [x_db x_handles]; auto; rewrite ?E13, ?E10; auto. rewrite E1. intros r Hr. apply in_app_iff in Hr. destruct Hr as [Hr|Hr]; auto. rewrite (E4 r Hr). lia.
Qed.
Lemma assoc_In {A} (k : string) (l : list (string * A)) v : assoc k l = Some v -> In (k, v) l.
Proof. induction l as [|[k' v'] l IH]; cbn; [discriminate|]. destruct (String.eqb_spec k k') as [->|N]; [intros [= ->]; now left|right; auto]. Qed.
Lemma upd_cinv kdb alls st d0 db' all' cx' (P : Prop) : cinv kdb alls st -> incl (alls d0) all' -> txinv all' (mkX db' all') ->
  (forall c k t, In (k, t) (nth c cx' []) -> (exists c', In (k, t) (nth c' (c_ctx st) [])) \/ kdb k = d0 /\ In t all') ->
  (P -> once (alls d0) (c_dbs st d0) -> once all' db') ->
  exists alls', (forall d, incl (alls d) (alls' d)) /\ cinv kdb alls' (mkC (set_db st d0 db') cx') /\ (P -> conce alls st -> conce alls' (mkC (set_db st d0 db') cx')).
Proof.
  intros [J1 J2] Inc T X O. exists (fun d => if d =? d0 then all' else alls d). split; [|split; [split|]].
  - intros d. destruct (Nat.eqb_spec d d0) as [->|]; auto. apply incl_refl.
  - intros d. cbn [c_dbs]. unfold set_db. destruct (Nat.eqb_spec d d0) as [->|]; auto.
  - intros c k t H. cbn [c_ctx] in H. destruct (X c k t H) as [(c' & H') | [<- H']].
    + apply J2 in H'. destruct (Nat.eqb_spec (kdb k) d0) as [E|]; auto. apply Inc. now rewrite <- E.
    + rewrite Nat.eqb_refl. auto.
  - intros HP C d. cbn [c_dbs]. unfold set_db. destruct (Nat.eqb_spec d d0) as [->|]; auto.
Qed.
Lemma nth_snoc {A} (l : list A) x d c : nth c (l ++ [x]) d = if c <? length l then nth c l d else if c =? length l then x else d.
Proof.
  destruct (Nat.ltb_spec c (length l)); [now rewrite app_nth1|]. rewrite app_nth2 by lia. destruct (Nat.eqb_spec c (length l)) as [->|]; [now rewrite Nat.sub_diag|]. rewrite nth_overflow; auto. cbn. lia.
Qed.
Lemma same_ctx (st : cst) (kdb : string -> nat) d0 (all' : list trow) : forall c k t, In (k, t) (nth c (c_ctx st) []) -> (exists c', In (k, t) (nth c' (c_ctx st) [])) \/ kdb k = d0 /\ In t all'.
Proof. eauto. Qed.
Lemma cstep_inv kdb alls st o : keyed_op kdb o -> cinv kdb alls st ->
  exists alls', (forall d, incl (alls d) (alls' d)) /\ cinv kdb alls' (snd (cstep o st)) /\ (not_clean o /\ outside_at o st -> conce alls st -> conce alls' (snd (cstep o st))).
Proof.
  intros K J. pose proof J as [J1 J2]. destruct o; cbn [cstep keyed_op not_clean outside_at] in *.
  - destruct (step_inv _ _ (TBegin (bu_svc b) timeout now evs script) (J1 (bu_db b))) as (all' & A1 & A2 & A3). cbn [tx_step x_db x_handles is_clean] in A2, A3.
    destruct (dispatch_begin (bu_svc b) timeout now evs script (c_dbs st (bu_db b))) as [[r s'] d'].
    assert (X0 : forall c0 k t, In (k, t) (nth c0 (c_ctx st ++ [nth c (c_ctx st) []]) []) -> (exists c', In (k, t) (nth c' (c_ctx st) [])) \/ kdb k = bu_db b /\ In t all').
    { intros c0 k t. rewrite nth_snoc. destruct (c0 <? _); [eauto|]. destruct (c0 =? _); [eauto|intros []]. }
    destruct r as [t| |]; cbn [snd x_db] in *; apply upd_cinv with (all' := all'); auto; try (apply rehandle in A2; exact A2); try (intros _; exact (A3 eq_refl)).
    intros c0 k u. rewrite nth_snoc. destruct (c0 <? _); [eauto|]. destruct (c0 =? _); [|intros []]. intros [[= <- <-]|H]; [right|eauto]. split; auto. apply (ti_h _ _ A2). cbn [x_handles]. apply in_app_iff. right. now left.
  - destruct (dispatch _ evs script _) as [[r s'] d'] eqn:B. cbn [snd].
    assert (L : match get_tx b c st with Some t => tr_id t | None => 0 end < b_nt (c_dbs st (bu_db b))).
    { pose proof (ti_pos _ _ (J1 (bu_db b))) as P. cbn [x_db] in P. destruct (get_tx b c st) as [t|] eqn:G; [|lia]. apply assoc_In, J2 in G. rewrite <- K in G. now apply (ti_nt _ _ (J1 (bu_db b)) t G). }
    destruct (dispatch_ends _ _ _ _ _ _ _ B) as [[-> | (k & D)] _].
    + apply upd_cinv with (all' := alls (bu_db b)); try apply (same_ctx st kdb); auto using incl_refl.
    + apply upd_cinv with (all' := alls (bu_db b)); try apply (same_ctx st kdb); auto using incl_refl; [eapply dispatch_inv; eauto|].
      intros [_ G] O t Ht. rewrite G in D. rewrite (stored_dispatched (tr_id t) _ _ _ _ _ D). pose proof (ti_nt _ _ (J1 (bu_db b)) t Ht). destruct (Nat.eqb_spec (tr_id t) 0); [lia|]. rewrite app_nil_r. auto.
  - destruct (get_tx b c st) as [t|] eqn:G; [|exists alls; split; [intros; apply incl_refl|split; auto]]. apply assoc_In, J2 in G. rewrite <- K in G.
    destruct (bus_commit t script (c_dbs st (bu_db b))) as [[r s'] d'] eqn:B. cbn [snd]. destruct (commit_ends _ _ _ _ _ _ B) as [M _]. assert (HP : forall u : trow, t = u -> In u (alls (bu_db b))) by (intros u <-; auto). destruct (msteps_inv _ (alls (bu_db b)) _ _ _ _ HP M (J1 (bu_db b))) as [X Y].
    apply upd_cinv with (all' := alls (bu_db b)); try apply (same_ctx st kdb); auto using incl_refl.
  - destruct (get_tx b c st) as [t|] eqn:G; [|exists alls; split; [intros; apply incl_refl|split; auto]].
    destruct (bus_rollback t script (c_dbs st (bu_db b))) as [[r s'] d'] eqn:B. cbn [snd]. destruct (rollback_ends _ _ _ _ _ _ B) as [M _]. assert (HP : forall u : trow, False -> In u (alls (bu_db b))) by tauto. destruct (msteps_inv _ (alls (bu_db b)) _ _ _ _ HP M (J1 (bu_db b))) as [X Y].
    apply upd_cinv with (all' := alls (bu_db b)); try apply (same_ctx st kdb); auto using incl_refl.
  - cbn [snd]. destruct (outside_op o) eqn:E; [|exists alls; split; [intros; apply incl_refl|split; auto]]. destruct (step_inv _ _ o (J1 d)) as (all' & A1 & A2 & A3).
    assert (S : x_db (tx_step o (mkX (c_dbs st d) (alls d))) = x_db (tx_step o (mkX (c_dbs st d) []))) by (destruct o; try discriminate E; reflexivity). rewrite <- S.
    apply upd_cinv with (all' := all'); try apply (same_ctx st kdb); auto; [destruct (tx_step o (mkX (c_dbs st d) (alls d))) as [x hs]; apply rehandle in A2; exact A2|]. intros [N _]. apply A3. now destruct o.
Qed.
Lemma cinv0 kdb : cinv kdb (fun _ => []) cst0.
Proof. split; [intros d; exact inv0|]. intros c k t H. destruct c as [|[|c]]; destruct H. Qed.
Lemma crun_app l1 : forall l2 st, crun (l1 ++ l2) st = crun l2 (crun l1 st).
Proof. induction l1; intros; cbn; auto. Qed.
Lemma crun_inv kdb h : forall alls st, Forall (keyed_op kdb) h -> cinv kdb alls st ->
  exists alls', (forall d, incl (alls d) (alls' d)) /\ cinv kdb alls' (crun h st) /\
   (Forall not_clean h -> (forall p o q, h = p ++ o :: q -> outside_at o (crun p st)) -> conce alls st -> conce alls' (crun h st)).
Proof.
  induction h as [|o h IH]; intros alls st K J; cbn [crun]; [exists alls; split; [intros; apply incl_refl|auto]|]. apply Forall_cons_iff in K as [K1 K2].
  destruct (cstep_inv kdb alls st o K1 J) as (a1 & A1 & A2 & A3). destruct (IH a1 _ K2 A2) as (a2 & B1 & B2 & B3). exists a2. split; [intros d; eapply incl_tran; eauto|]. split; auto.
  intros N O C. apply Forall_cons_iff in N as [N1 N2]. apply B3; auto; [|apply A3; auto; split; auto; now apply (O [] o h)]. intros p o' q ->. exact (O (o :: p) o' q eq_refl).
Qed.

(** contexts stay what they are *)
Lemma cstep_ctx o st : exists l, c_ctx (snd (cstep o st)) = c_ctx st ++ l.
Proof.
  destruct o; cbn [cstep].
  - destruct (dispatch_begin _ _ _ _ _ _) as [[[t| |] s'] d']; cbn [snd c_ctx]; eauto.
  - destruct (dispatch _ _ _ _) as [[r s'] d']. exists []. cbn. now rewrite app_nil_r.
  - exists []. rewrite app_nil_r. destruct (get_tx b c st); auto. now destruct (bus_commit _ _ _) as [[r s'] d'].
  - exists []. rewrite app_nil_r. destruct (get_tx b c st); auto. now destruct (bus_rollback _ _ _) as [[r s'] d'].
  - exists []. rewrite app_nil_r. cbn. now destruct (outside_op o).
Qed.
Lemma crun_ctx h : forall st, exists l, c_ctx (crun h st) = c_ctx st ++ l.
Proof.
  induction h as [|o h IH]; intros st; cbn [crun]; [exists []; now rewrite app_nil_r|]. destruct (IH (snd (cstep o st))) as (l & E). destruct (cstep_ctx o st) as (l' & E'). exists (l' ++ l). now rewrite E, E', app_assoc.
Qed.
Lemma ctx_kept h st c : c < length (c_ctx st) -> nth c (c_ctx (crun h st)) [] = nth c (c_ctx st) [].
Proof. intros H. destruct (crun_ctx h st) as (l & ->). now rewrite app_nth1. Qed.
(** the context DispatchBegin makes *)
Lemma begin_ctx b c timeout now evs sc st : nth (length (c_ctx st)) (c_ctx (snd (cstep (CBegin b c timeout now evs sc) st))) [] =
  (if match fst (cstep (CBegin b c timeout now evs sc) st) with Val _ => true | _ => false end
   then [(bu_key b, mkT (b_nt (c_dbs st (bu_db b))) (bu_svc b) evs (now + timeout))] else []) ++ nth c (c_ctx st) [].
Proof.
  cbn [cstep]. destruct (dispatch_begin (bu_svc b) timeout now evs sc (c_dbs st (bu_db b))) as [[[t| |] s'] d'] eqn:B; cbn [fst snd c_ctx]; rewrite nth_snoc, Nat.ltb_irrefl, Nat.eqb_refl; auto.
  destruct (begin_ends _ _ _ _ _ _ _ _ _ B) as [[_ N] | (_ & u & Eu & _ & X)]; [now destruct (N t)|]. now rewrite (X t eq_refl), Eu.
Qed.
Lemma begin_len b c timeout now evs sc st : length (c_ctx (snd (cstep (CBegin b c timeout now evs sc) st))) = S (length (c_ctx st)).
Proof. cbn [cstep]. destruct (dispatch_begin _ _ _ _ _ _) as [[[t| |] s'] d']; cbn [snd c_ctx]; rewrite app_length; cbn; lia. Qed.
Lemma inside_key h key n m : inside h key n m -> assoc key (nth m (c_ctx (crun h cst0)) []) = assoc key (nth n (c_ctx (crun h cst0)) []).
Proof.
  induction 1 as [|p q b c timeout now evs sc -> L N _ IH]; auto. rewrite <- IH. clear IH. unfold next_context, canswer in *. rewrite crun_app. cbn [crun].
  rewrite ctx_kept by (rewrite begin_len; lia). rewrite begin_ctx. rewrite (ctx_kept q) by (rewrite begin_len; lia). destruct (cstep_ctx (CBegin b c timeout now evs sc) (crun p cst0)) as (l & E). rewrite E. rewrite (app_nth1 _ l) by auto.
  destruct (fst (cstep (CBegin b c timeout now evs sc) (crun p cst0))) as [[]| |]; cbn [app]; auto. destruct N as [N|N]; [|now destruct N]. cbn [assoc]. destruct (String.eqb_spec key (bu_key b)); congruence.
Qed.

(** a transaction of which something is stored gets nothing more *)
Lemma msteps_frozen id (P Q : trow -> Prop) d d' : rows_of id d <> [] -> msteps P Q d d' -> rows_of id d' = rows_of id d.
Proof.
  intros N M. induction M as [|d d1 d2 H M IH]; auto. assert (E : rows_of id d1 = rows_of id d); [|rewrite IH; congruence]. clear IH M. destruct H as [t k d d' Pt S D|t d Qt]; auto. destruct D as (rows & dels & E1 & E2 & _ & E4 & _).
  unfold rows_of in *. rewrite E1, filter_app. rewrite (rows_none id (tr_id t) rows); auto; [apply app_nil_r|]. intros ->. apply stored_rows in S. now apply N.
Qed.
Lemma set_db_eq st d0 db' cx d : c_dbs (mkC (set_db st d0 db') cx) d = if d =? d0 then db' else c_dbs st d.
Proof. reflexivity. Qed.
Lemma cstep_frozen kdb alls st o id d : keyed_op kdb o -> cinv kdb alls st -> not_clean o -> outside_at o st -> 1 <= id -> rows_of id (c_dbs st d) <> [] ->
  rows_of id (c_dbs (snd (cstep o st)) d) = rows_of id (c_dbs st d).
Proof.
  intros K [J1 J2] NC O Pos N. destruct o; cbn [cstep keyed_op not_clean outside_at] in *.
  - destruct (dispatch_begin (bu_svc b) timeout now evs script (c_dbs st (bu_db b))) as [[r s'] d'] eqn:B. assert (X : rows_of id d' = rows_of id (c_dbs st (bu_db b))).
    { destruct (begin_ends _ _ _ _ _ _ _ _ _ B) as [[-> _] | (_ & t & _ & -> & _)]; auto. }
    destruct r; cbn [snd]; rewrite set_db_eq; destruct (Nat.eqb_spec d (bu_db b)) as [->|]; auto.
  - rewrite O. destruct (dispatch 0 evs script _) as [[r s'] d'] eqn:B. cbn [snd]. rewrite set_db_eq. destruct (Nat.eqb_spec d (bu_db b)) as [->|]; auto. destruct (dispatch_ends _ _ _ _ _ _ _ B) as [[-> | (k & D)] _]; auto.
    destruct D as (rows & dels & E1 & E2 & _ & E4 & _). unfold rows_of. rewrite E1, filter_app, (rows_none id 0 rows), app_nil_r; auto. lia.
  - destruct (get_tx b c st) as [t|]; auto. destruct (bus_commit t script (c_dbs st (bu_db b))) as [[r s'] d'] eqn:B. cbn [snd]. rewrite set_db_eq. destruct (Nat.eqb_spec d (bu_db b)) as [->|]; auto. destruct (commit_ends _ _ _ _ _ _ B) as [M _]. eapply msteps_frozen; eauto.
  - destruct (get_tx b c st) as [t|]; auto. destruct (bus_rollback t script (c_dbs st (bu_db b))) as [[r s'] d'] eqn:B. cbn [snd]. rewrite set_db_eq. destruct (Nat.eqb_spec d (bu_db b)) as [->|]; auto. destruct (rollback_ends _ _ _ _ _ _ B) as [M _]. eapply msteps_frozen; eauto.
  - cbn [snd]. destruct (outside_op o) eqn:E; auto. rewrite set_db_eq. destruct (Nat.eqb_spec d d0) as [->|]; auto. destruct o; try discriminate E; cbn [tx_step x_db]; try contradiction.
    + unfold db_after. destruct (handle_transactions svc checker now script (c_dbs st d0)) as [[r s'] d'] eqn:B. apply handle_ends in B. eapply msteps_frozen; eauto.
    + unfold init_service. destruct (existsb _ _); auto.
    + destruct (poll_rest cfg now envs _ (ti_wf _ _ (J1 d0))) as (E1 & _). unfold rows_of. cbn [x_db] in E1. now rewrite E1.
Qed.
Lemma crun_frozen kdb h : forall alls st id d, Forall (keyed_op kdb) h -> cinv kdb alls st -> Forall not_clean h -> (forall p o q, h = p ++ o :: q -> outside_at o (crun p st)) -> 1 <= id -> rows_of id (c_dbs st d) <> [] ->
  rows_of id (c_dbs (crun h st) d) = rows_of id (c_dbs st d).
Proof.
  induction h as [|o h IH]; intros alls st id d K J C O Pos N; auto. apply Forall_cons_iff in K as [K1 K2]. apply Forall_cons_iff in C as [C1 C2]. destruct (cstep_inv kdb alls st o K1 J) as (a1 & _ & A2 & _).
  pose proof (cstep_frozen kdb alls st o id d K1 J C1 (O [] o h eq_refl) Pos N) as E. cbn [crun]. rewrite <- E. apply (IH a1); auto; [|congruence]. intros p o' q ->. exact (O (o :: p) o' q eq_refl).
Qed.
(** the events of one dispatch call, by answer *)
Lemma dispatch_val trans evs sc d s' d' : dispatch trans evs sc d = (Val tt, s', d') -> stored trans d' = stored trans d ++ evs.
Proof. intros B. destruct (dispatch_ends _ _ _ _ _ _ _ B) as [_ X]. specialize (X eq_refl). rewrite (stored_dispatched trans _ _ _ _ _ X), Nat.eqb_refl. auto. Qed.

(** a transaction without record of which nothing is stored *)
Definition carries (o : cop) (st : cst) (d id : nat) : Prop :=
  match o with CCommit b c _ | CDispatch b c _ _ => bu_db b = d -> forall t, get_tx b c st = Some t -> tr_id t <> id | _ => True end.
Lemma unhandle all db hs : txinv all (mkX db hs) -> txinv all (mkX db []).
Proof. intros [W I1 I2 I3 I4 I5 I6 I7 I8]. constructor; cbn [x_db x_handles] in *; auto. intros ? []. Qed.
Lemma msteps_gone id (P Q : trow -> Prop) d d' : msteps P Q d d' -> gone id (mkX d []) -> gone id (mkX d' []).
Proof. intros M [G1 G2]. destruct (msteps_tx _ _ _ _ M) as [X1 X2]. split; cbn [x_db] in *; [lia|auto]. Qed.
Lemma gone_handles id d hs hs' : gone id (mkX d hs) -> gone id (mkX d hs').
Proof. intros [A B]. split; auto. Qed.
Lemma cstep_gone kdb alls st o id d : keyed_op kdb o -> cinv kdb alls st -> carries o st d id -> rows_of id (c_dbs st d) = [] -> gone id (mkX (c_dbs st d) []) ->
  rows_of id (c_dbs (snd (cstep o st)) d) = [] /\ gone id (mkX (c_dbs (snd (cstep o st)) d) []).
Proof.
  intros K [J1 J2] C R G. pose proof G as [[Pos G1] G2]. cbn [x_db] in Pos, G1, G2. destruct o; cbn [cstep keyed_op carries] in *.
  - destruct (dispatch_begin (bu_svc b) timeout now evs script (c_dbs st (bu_db b))) as [[r s'] d'] eqn:B. assert (X : d = bu_db b -> rows_of id d' = [] /\ gone id (mkX d' [])).
    { intros ->. destruct (begin_ends _ _ _ _ _ _ _ _ _ B) as [[-> _] | (_ & t & _ & -> & _)]; auto. split; auto. split; cbn; [lia|]. intros u Hu. apply in_app_iff in Hu. destruct Hu as [Hu|[<-|[]]]; auto. cbn. lia. }
    destruct r; cbn [snd]; rewrite set_db_eq; destruct (Nat.eqb_spec d (bu_db b)) as [->|]; auto.
  - destruct (dispatch _ evs script _) as [[r s'] d'] eqn:B. cbn [snd]. rewrite set_db_eq. destruct (Nat.eqb_spec d (bu_db b)) as [->|]; auto. destruct (dispatch_ends _ _ _ _ _ _ _ B) as [[-> | (k & D)] _]; auto.
    destruct D as (rows & dels & E1 & E2 & E3 & E4 & E5 & E6 & E7 & E8 & E9 & E10 & E11 & E12 & E13). unfold rows_of. rewrite E1, filter_app, (rows_none id _ rows) with (2 := E4), app_nil_r.
    + split; auto. split; cbn [x_db]; [lia|]. now rewrite E10.
    + destruct (get_tx b c st) as [t|]; [|lia]. intros X. exact (C eq_refl t eq_refl (eq_sym X)).
  - destruct (get_tx b c st) as [t|]; auto. destruct (bus_commit t script (c_dbs st (bu_db b))) as [[r s'] d'] eqn:B. cbn [snd]. rewrite set_db_eq. destruct (Nat.eqb_spec d (bu_db b)) as [->|]; auto. destruct (commit_ends _ _ _ _ _ _ B) as [M _].
    split; [rewrite (msteps_rows id (eq t) (eq t) (c_dbs st (bu_db b)) d'); auto; intros u <-; exact (C eq_refl t eq_refl)|eapply msteps_gone; eauto].
  - destruct (get_tx b c st) as [t|]; auto. destruct (bus_rollback t script (c_dbs st (bu_db b))) as [[r s'] d'] eqn:B. cbn [snd]. rewrite set_db_eq. destruct (Nat.eqb_spec d (bu_db b)) as [->|]; auto. destruct (rollback_ends _ _ _ _ _ _ B) as [M _].
    split; [rewrite (msteps_rows id (fun _ => False) (eq t) (c_dbs st (bu_db b)) d'); auto; intros u []|eapply msteps_gone; eauto].
  - cbn [snd]. destruct (outside_op o) eqn:E; auto. rewrite set_db_eq. destruct (Nat.eqb_spec d d0) as [->|]; auto. pose proof (unhandle _ _ _ (J1 d0)) as U. split.
    + assert (X : incl (rows_of id (x_db (tx_step o (mkX (c_dbs st d0) [])))) (rows_of id (c_dbs st d0))).
      { apply (step_rows (alls d0) id o (mkX (c_dbs st d0) []) U Pos). intros [Y | (t & Et & Ht & _)]; [destruct o; try discriminate E; exact Y|exact (G2 t Ht Et)]. }
      rewrite R in X. now apply incl_l_nil.
    + apply (gone_handles id _ (x_handles (tx_step o (mkX (c_dbs st d0) [])))). pose proof (step_gone (alls d0) id o _ U G) as Y. destruct (tx_step o (mkX (c_dbs st d0) [])). exact Y.
Qed.
Lemma crun_gone kdb h : forall alls st id d, Forall (keyed_op kdb) h -> cinv kdb alls st -> (forall p o q, h = p ++ o :: q -> carries o (crun p st) d id) ->
  rows_of id (c_dbs st d) = [] -> gone id (mkX (c_dbs st d) []) -> rows_of id (c_dbs (crun h st) d) = [].
Proof.
  induction h as [|o h IH]; intros alls st id d K J C R G; auto. apply Forall_cons_iff in K as [K1 K2]. destruct (cstep_inv kdb alls st o K1 J) as (a1 & _ & A2 & _).
  destruct (cstep_gone kdb alls st o id d K1 J (C [] o h eq_refl) R G) as [R' G']. cbn [crun]. apply (IH a1); auto. intros p o' q ->. exact (C (o :: p) o' q eq_refl).
Qed.

(** C101: contexts of the MySQL event bus. *)
From Verif Require Import BusModel BusSpec BusProof BusWorld BusWorldSpec BusWorldProof BusWorldProof3 BusLiveSpec BusLive BusLive2 BusTxSpec BusTx BusTx2 BusTx3 BusCtx BusCtxProof.
Local Open Scope string_scope. Local Open Scope list_scope. Local Open Scope nat_scope.

Lemma reach kdb h : keyed kdb h -> exists alls, cinv kdb alls (crun h cst0) /\ (published_outside h -> no_cleaning h -> conce alls (crun h cst0)).
Proof.
  intros K. destruct (crun_inv kdb h (fun _ => []) cst0) as (alls & _ & J & O); [|apply cinv0|].
  - revert K. apply Forall_impl. intros []; auto.
  - exists alls. split; auto. intros P C. apply O; [| |intros d t []]; [revert C; apply Forall_impl; intros [| | | |d [ | | | | | | | ]]; auto|]. intros p o q ->. destruct o; cbn [outside_at]; auto. eapply P; reflexivity.
Qed.
(** the transaction of the context *)
Lemma ctx_tx past b c timeout now evs sc rest m : let h := past ++ CBegin b c timeout now evs sc :: rest in
  canswer past (CBegin b c timeout now evs sc) = Val tt -> inside h (bu_key b) (next_context past) m ->
  get_tx b m (crun h cst0) = Some (mkT (next_id (bu_db b) past) (bu_svc b) evs (now + timeout)).
Proof.
  cbn zeta. intros A Ins. unfold get_tx. rewrite (inside_key _ _ _ _ Ins). unfold next_context, canswer in *. rewrite crun_app. cbn [crun]. rewrite ctx_kept by (rewrite begin_len; lia). rewrite begin_ctx, A. cbn [app assoc]. now rewrite String.eqb_refl.
Qed.
(** A Commit that returns nil with the context DispatchBegin returned - or with one that DispatchBegin of other buses made from
    it - has stored exactly the events of that DispatchBegin, once, in the database of its bus, and the first one has a
    delivery for every registered service and no record left of the transaction - whatever other buses, transactions, failed
    statements, checks and polls there are; if nobody calls Dispatch with such a context and buses on different databases have
    different keys. *)
Theorem C101_commit_stores_its_own_events_partial :
  forall kdb past b c timeout now evs sc rest m sc',
    let h := past ++ CBegin b c timeout now evs sc :: rest in let id := next_id (bu_db b) past in
    let before := cdb (bu_db b) h in let after := cdb (bu_db b) (h ++ [CCommit b m sc']) in
    keyed kdb h -> published_outside h -> no_cleaning h ->
    canswer past (CBegin b c timeout now evs sc) = Val tt -> inside h (bu_key b) (next_context past) m -> canswer h (CCommit b m sc') = Val tt ->
    stored id after = evs /\
    (stored id before = [] -> delivered id evs (b_svc before) after /\ forall u, In u (b_tx after) -> tr_id u <> id).
Proof.
  intros kdb past b c timeout now evs sc rest m sc' h id before after K P C A Ins Ans. destruct (reach kdb h K) as (alls & [J1 J2] & O). specialize (O P C). pose proof (ctx_tx past b c timeout now evs sc rest m A Ins) as G. fold h id in G.
  assert (Kb : bu_db b = kdb (bu_key b)). { unfold keyed in K. rewrite Forall_forall in K. refine (K (CBegin b c timeout now evs sc) _). unfold h. apply in_app_iff. right. now left. }
  set (t := mkT id (bu_svc b) evs (now + timeout)) in *. pose proof G as G'. apply assoc_In, J2 in G'. rewrite <- Kb in G'.
  unfold canswer in Ans. unfold after, cdb. rewrite crun_app. cbn [crun cstep] in *. rewrite G in *. change (c_dbs (crun h cst0) (bu_db b)) with before in *. destruct (bus_commit t sc' before) as [[r s'] d'] eqn:B. cbn [fst snd] in *. subst r. rewrite set_db_eq, Nat.eqb_refl.
  destruct (commit_ends _ _ _ _ _ _ B) as [_ X]. specialize (X eq_refl). change (tr_id t) with id in X. change (tr_events t) with evs in X. destruct X as [[N ->] | (E & d1 & D & ->)].
  - split; [|intros; contradiction]. destruct (O (bu_db b) t G') as [F|F]; [contradiction|exact F].
  - split; [|intros _; split].
    + change (stored id d1 = evs). now rewrite (stored_dispatched id _ _ _ _ _ D), E, Nat.eqb_refl.
    + exact (dispatched_delivered _ _ _ _ _ D).
    + intros u Hu Eu. cbn in Hu. apply filter_In in Hu. destruct Hu as [_ Hu]. change (tr_id t) with id in Hu. rewrite Eu, Nat.eqb_refl in Hu. discriminate.
Qed.
Print Assumptions C101_commit_stores_its_own_events_partial.
(** Commit and Rollback, however they end, store nothing for another transaction and change nothing in another database. *)
Theorem C101_nothing_else_is_stored :
  forall past b c timeout now evs sc rest m sc' d id',
    let h := past ++ CBegin b c timeout now evs sc :: rest in
    canswer past (CBegin b c timeout now evs sc) = Val tt -> inside h (bu_key b) (next_context past) m ->
    (id' <> next_id (bu_db b) past -> stored id' (cdb d (h ++ [CCommit b m sc'])) = stored id' (cdb d h)) /\
    (d <> bu_db b -> cdb d (h ++ [CCommit b m sc']) = cdb d h) /\
    stored id' (cdb d (h ++ [CRollback b m sc'])) = stored id' (cdb d h) /\
    (d <> bu_db b -> cdb d (h ++ [CRollback b m sc']) = cdb d h).
Proof.
  intros past b c timeout now evs sc rest m sc' d id' h A Ins. pose proof (ctx_tx past b c timeout now evs sc rest m A Ins) as G. fold h in G. set (id := next_id (bu_db b) past) in *. set (t := mkT id (bu_svc b) evs (now + timeout)) in *.
  unfold cdb. rewrite !crun_app. cbn [crun cstep]. rewrite G. destruct (bus_commit t sc' (c_dbs (crun h cst0) (bu_db b))) as [[r s'] d'] eqn:B. destruct (bus_rollback t sc' (c_dbs (crun h cst0) (bu_db b))) as [[r2 s2] d2] eqn:B2. cbn [snd]. rewrite !set_db_eq.
  destruct (commit_ends _ _ _ _ _ _ B) as [M _]. destruct (rollback_ends _ _ _ _ _ _ B2) as [M2 _]. destruct (Nat.eqb_spec d (bu_db b)) as [->|]; [|exact (conj (fun _ => eq_refl) (conj (fun _ => eq_refl) (conj eq_refl (fun _ => eq_refl))))].
  split; [|split; [|split]]; try congruence.
  - intros N. change (map er_ev (rows_of id' d') = map er_ev (rows_of id' (c_dbs (crun h cst0) (bu_db b)))). rewrite (msteps_rows id' (eq t) (eq t) (c_dbs (crun h cst0) (bu_db b)) d'); auto. intros u <-. cbn. auto.
  - change (map er_ev (rows_of id' d2) = map er_ev (rows_of id' (c_dbs (crun h cst0) (bu_db b)))). rewrite (msteps_rows id' (fun _ => False) (eq t) (c_dbs (crun h cst0) (bu_db b)) d2); auto.
Qed.
Print Assumptions C101_nothing_else_is_stored.
(** With a context in which no DispatchBegin of the bus (of its key) succeeded, Commit and Rollback return an error and do
    nothing. *)
Theorem C101_without_transaction :
  forall h b m sc, inside h (bu_key b) 0 m ->
    canswer h (CCommit b m sc) = Err /\ canswer h (CRollback b m sc) = Err /\ crun (h ++ [CCommit b m sc]) cst0 = crun h cst0 /\ crun (h ++ [CRollback b m sc]) cst0 = crun h cst0.
Proof.
  intros h b m sc Ins. assert (G : get_tx b m (crun h cst0) = None).
  { unfold get_tx. rewrite (inside_key _ _ _ _ Ins). rewrite ctx_kept; [reflexivity|cbn; lia]. }
  unfold canswer. rewrite !crun_app. cbn [crun cstep]. rewrite G. auto.
Qed.
Print Assumptions C101_without_transaction.
(** After a Rollback that returned nil with the context of a transaction of which nothing was stored, nothing of it is ever
    stored, whatever checkers answer - unless somebody calls Commit, or Dispatch, with a context that carries it. *)
Theorem C101_rolled_back_for_good :
  forall kdb past b c timeout now evs sc mid m sc' rest,
    let h0 := past ++ CBegin b c timeout now evs sc :: mid in let h := h0 ++ CRollback b m sc' :: rest in let id := next_id (bu_db b) past in
    keyed kdb h -> canswer past (CBegin b c timeout now evs sc) = Val tt -> inside h0 (bu_key b) (next_context past) m ->
    stored id (cdb (bu_db b) h0) = [] -> canswer h0 (CRollback b m sc') = Val tt ->
    (forall p o q, rest = p ++ o :: q ->
       match o with
       | CCommit b1 c1 _ | CDispatch b1 c1 _ _ => bu_db b1 = bu_db b -> forall t, get_tx b1 c1 (crun (h0 ++ CRollback b m sc' :: p) cst0) = Some t -> tr_id t <> id
       | _ => True
       end) ->
    stored id (cdb (bu_db b) h) = [].
Proof.
  intros kdb past b c timeout now evs sc mid m sc' rest h0 h id K A Ins E Ans P. pose proof (ctx_tx past b c timeout now evs sc mid m A Ins) as G. fold h0 id in G. set (t := mkT id (bu_svc b) evs (now + timeout)) in *.
  assert (K' : Forall (keyed_op kdb) h) by (revert K; apply Forall_impl; intros []; auto). unfold h in K'. apply Forall_app in K' as [K0 K1]. apply Forall_cons_iff in K1 as [K1 K2].
  destruct (crun_inv kdb h0 _ _ K0 (cinv0 kdb)) as (a0 & _ & J0 & _). pose proof J0 as [J1 J2]. pose proof G as G'. apply assoc_In, J2 in G'. cbn [keyed_op] in K1. rewrite <- K1 in G'. pose proof (ti_nt _ _ (J1 (bu_db b)) t G') as Pos. change (tr_id t) with id in Pos.
  set (o := CRollback b m sc') in *. destruct (cstep_inv kdb a0 _ o K1 J0) as (a1 & _ & J0' & _).
  assert (S1 : rows_of id (c_dbs (snd (cstep o (crun h0 cst0))) (bu_db b)) = [] /\ gone id (mkX (c_dbs (snd (cstep o (crun h0 cst0))) (bu_db b)) [])).
  { unfold canswer in Ans. unfold o in *. cbn [cstep] in *. rewrite G in *. change (c_dbs (crun h0 cst0) (bu_db b)) with (cdb (bu_db b) h0) in *. cbn [x_db] in Pos. destruct (bus_rollback t sc' (cdb (bu_db b) h0)) as [[r s'] d'] eqn:B. cbn [fst snd] in *. subst r. rewrite set_db_eq, Nat.eqb_refl. destruct (rollback_ends _ _ _ _ _ _ B) as [_ X]. rewrite (X eq_refl). split; [apply stored_rows; exact E|].
    split; [exact Pos|]. intros u Hu Eu. cbn in Hu. apply filter_In in Hu. destruct Hu as [_ Hu]. change (tr_id t) with id in Hu. rewrite Eu, Nat.eqb_refl in Hu. discriminate. }
  destruct S1 as [R1 G1]. apply stored_rows. unfold cdb, h. rewrite crun_app. cbn [crun]. apply (crun_gone kdb rest a1); auto.
  intros p o' q Eq. specialize (P p o' q Eq). rewrite crun_app in P. exact P.
Qed.
Print Assumptions C101_rolled_back_for_good.
(** Calling Dispatch with the context DispatchBegin returned, before the Commit, loses the events of the transaction for good:
    whatever is called afterwards, Commit and timeout checks included, only the events of that Dispatch are stored under the
    transaction (until a cleaning run; and as long as nobody publishes with such a context again) - and Commit answers nil. *)
Theorem C101_publishing_inside_loses_the_events_refuted :
  forall kdb past b c timeout now evs sc mid m evs' sc1 rest,
    let h0 := past ++ CBegin b c timeout now evs sc :: mid in let h := h0 ++ CDispatch b m evs' sc1 :: rest in let id := next_id (bu_db b) past in
    keyed kdb h -> no_cleaning rest ->
    (forall p b1 c1 e1 s1 q, rest = p ++ CDispatch b1 c1 e1 s1 :: q -> get_tx b1 c1 (crun (h0 ++ CDispatch b m evs' sc1 :: p) cst0) = None) ->
    canswer past (CBegin b c timeout now evs sc) = Val tt -> inside h0 (bu_key b) (next_context past) m -> stored id (cdb (bu_db b) h0) = [] ->
    evs' <> [] -> canswer h0 (CDispatch b m evs' sc1) = Val tt ->
    stored id (cdb (bu_db b) h) = evs' /\ canswer h (CCommit b m []) = Val tt.
Proof.
  intros kdb past b c timeout now evs sc mid m evs' sc1 rest h0 h id K C P A Ins E Ne Ans. pose proof (ctx_tx past b c timeout now evs sc mid m A Ins) as G. fold h0 id in G. set (t := mkT id (bu_svc b) evs (now + timeout)) in *.
  assert (K' : Forall (keyed_op kdb) h) by (revert K; apply Forall_impl; intros []; auto). unfold h in K'. apply Forall_app in K' as [K0 K1]. apply Forall_cons_iff in K1 as [K1 K2].
  destruct (crun_inv kdb h0 _ _ K0 (cinv0 kdb)) as (a0 & _ & J0 & _). pose proof J0 as [J1 J2]. pose proof G as G'. apply assoc_In, J2 in G'. cbn [keyed_op] in K1. rewrite <- K1 in G'. pose proof (ti_nt _ _ (J1 (bu_db b)) t G') as Pos. change (tr_id t) with id in Pos.
  set (o := CDispatch b m evs' sc1) in *. destruct (cstep_inv kdb a0 _ o K1 J0) as (a1 & _ & J0' & _).
  assert (S1 : stored id (c_dbs (snd (cstep o (crun h0 cst0))) (bu_db b)) = evs').
  { unfold canswer in Ans. unfold o in *. cbn [cstep] in *. rewrite G in *. change (tr_id t) with id in *. change (c_dbs (crun h0 cst0) (bu_db b)) with (cdb (bu_db b) h0) in *. destruct (dispatch id evs' sc1 (cdb (bu_db b) h0)) as [[r s'] d'] eqn:B. cbn [fst snd] in *. subst r. rewrite set_db_eq, Nat.eqb_refl. now rewrite (dispatch_val _ _ _ _ _ _ B), E. }
  assert (Nz : rows_of id (c_dbs (snd (cstep o (crun h0 cst0))) (bu_db b)) <> []) by (intros X; apply stored_rows in X; congruence).
  assert (Fr : stored id (cdb (bu_db b) h) = evs').
  { unfold cdb, h. rewrite crun_app. cbn [crun]. unfold stored. change (map er_ev (rows_of id (c_dbs (crun rest (snd (cstep o (crun h0 cst0)))) (bu_db b))) = evs'). rewrite (crun_frozen kdb rest a1); auto; [|lia].
    intros p o' q Eq. destruct o'; cbn [outside_at]; auto. specialize (P p b0 c0 evs0 script q Eq). rewrite crun_app in P. exact P. }
  split; auto. assert (G2 : get_tx b m (crun h cst0) = Some t).
  { unfold h. rewrite crun_app. unfold get_tx in *. rewrite ctx_kept; auto. destruct (Nat.lt_ge_cases m (length (c_ctx (crun h0 cst0)))) as [L|L]; auto. rewrite nth_overflow in G by auto. discriminate. }
  unfold canswer. cbn [cstep]. rewrite G2. change (c_dbs (crun h cst0) (bu_db b)) with (cdb (bu_db b) h). assert (F : existsb (fun r => er_trans r =? id) (b_ev (cdb (bu_db b) h)) = true) by (destruct (existsb _ _) eqn:X; auto; apply found_stored in X; congruence).
  unfold bus_commit, bindM, stmt, find_trans. change (tr_id t) with id. now rewrite F.
Qed.
Print Assumptions C101_publishing_inside_loses_the_events_refuted.

(** Buses made in different seconds have different keys. *)
Theorem C101_keys_of_different_seconds : forall n1 d1 s1 n2 d2 s2, bu_key (new_bus n1 d1 s1) = bu_key (new_bus n2 d2 s2) -> s1 = s2.
Proof.
  intros n1 d1 s1 n2 d2 s2 H. cbn [bu_key new_bus] in H. unfold bus_key in H. cbn in H. injection H as H.
  apply (f_equal DecimalString.NilEmpty.uint_of_string) in H. rewrite !DecimalString.NilEmpty.usu in H. injection H as H. now apply DecimalNat.Unsigned.to_uint_inj.
Qed.
Print Assumptions C101_keys_of_different_seconds.

Definition ev1 : devent := mkDev "e1" "x" STTransaction 1 0.
Definition ev2 : devent := mkDev "e2" "x" STTransaction 2 0.
Definition ev3 : devent := mkDev "e3" "y" STNormal 3 0.
(** Two buses made in the same second on different databases: the Commit of one, with a context in which both have begun,
    stores the events of the other's transaction in its own database and answers nil; its own events are stored nowhere. *)
Theorem C101_same_second_refuted :
  ~ (forall n1 d1 n2 d2 sec evs1 evs2 timeout now, d1 <> d2 -> evs1 <> [] -> evs2 <> [] ->
     let b1 := new_bus n1 d1 sec in let b2 := new_bus n2 d2 sec in let h := [CBegin b1 0 timeout now evs1 []; CBegin b2 1 timeout now evs2 []] in
     canswer h (CCommit b1 2 []) = Val tt -> stored (next_id d1 []) (cdb d1 (h ++ [CCommit b1 2 []])) = evs1).
Proof.
  intros H. specialize (H "a" 1 "b" 2 7 [ev1] [ev2] 5 0). cbn zeta in H.
  assert (X : [ev2] = [ev1]); [|discriminate X]. rewrite <- H at 1; [vm_compute; reflexivity|discriminate|discriminate|discriminate|vm_compute; reflexivity].
Qed.
Print Assumptions C101_same_second_refuted.

Definition ba : mbus := new_bus "a" 1 7.
Definition bb : mbus := new_bus "b" 2 8.
(** two buses on two databases, nested contexts, a lost answer, a plain event *)
Definition calls : list cop :=
  [COther 1 (TRegister "a"); CBegin bb 0 5 0 [ev2] []; CBegin ba 1 5 0 [ev1] []; CDispatch bb 0 [ev3] []; CBegin bb 2 5 0 [ev3] []; CBegin ba 3 5 0 [] []].
Definition where_is (k : string) : nat := if String.eqb k (bu_key ba) then 1 else 2.
Example C101_example :
  keyed where_is calls /\ published_outside calls /\ no_cleaning calls /\ inside calls (bu_key ba) 2 4 /\
  canswer calls (CCommit ba 4 []) = Val tt /\ stored 1 (cdb 1 calls) = [] /\ stored 1 (cdb 1 (calls ++ [CCommit ba 4 []])) = [ev1] /\
  delivered 1 [ev1] ["a"] (cdb 1 (calls ++ [CCommit ba 4 []])).
Proof.
  split; [repeat constructor|]. split; [|split; [repeat constructor|]].
  - intros p b c evs sc q E. unfold calls in E. destruct p as [|? [|? [|? [|? [|? [|? p]]]]]]; cbn [app] in E; injection E; intros; subst; try discriminate; try (destruct p; discriminate). vm_compute. reflexivity.
  - split; [|split; [vm_compute; reflexivity|split; [vm_compute; reflexivity|split; [vm_compute; reflexivity|]]]].
    + assert (E3 : inside calls (bu_key ba) 2 3).
      { refine (in_other calls (bu_key ba) 2 [COther 1 (TRegister "a"); CBegin bb 0 5 0 [ev2] []; CBegin ba 1 5 0 [ev1] []; CDispatch bb 0 [ev3] []] _ bb 2 5 0 [ev3] [] eq_refl _ _ (in_self _ _ _)).
        - vm_compute. lia.
        - left. vm_compute. intros X. discriminate X. }
      refine (in_other calls (bu_key ba) 2 [COther 1 (TRegister "a"); CBegin bb 0 5 0 [ev2] []; CBegin ba 1 5 0 [ev1] []; CDispatch bb 0 [ev3] []; CBegin bb 2 5 0 [ev3] []] _ ba 3 5 0 [] [] eq_refl _ _ E3).
      * vm_compute. lia.
      * right. vm_compute. intros X. discriminate X.
    + exists [mkE 1 ev1 1]. split; [|split; [reflexivity|split]].
      * vm_compute. intros r Hr. exact Hr.
      * intros r [<-|[]]. reflexivity.
      * intros r svc [<-|[]] [<-|[]]. exists (mkS 1 "a" 1 0 SInit 0 0). vm_compute. auto.
Qed.
(** a service that publishes a second event with the context of its transaction: the timeout check does not help either *)
Example C101_publishing_inside_example :
  let h0 := [COther 1 (TRegister "a"); CBegin ba 0 5 0 [ev1] []] in let rest := [CCommit ba 1 []; COther 1 (TCheck "a" (fun _ => TXCommit) 9 [])] in
  keyed where_is (h0 ++ CDispatch ba 1 [ev3] [] :: rest) /\ canswer h0 (CDispatch ba 1 [ev3] []) = Val tt /\ stored 1 (cdb 1 h0) = [] /\
  canswer (h0 ++ CDispatch ba 1 [ev3] [] :: rest) (CCommit ba 1 []) = Val tt /\ map er_ev (b_ev (cdb 1 (h0 ++ CDispatch ba 1 [ev3] [] :: rest))) = [ev3].
Proof. split; [repeat constructor|]. vm_compute. auto. Qed.
(** a rollback with an inner context; the checker answers "commit" later *)
Example C101_rollback_example :
  inside calls (bu_key ba) 0 1 /\ canswer calls (CCommit ba 1 []) = Err /\ stored 1 (cdb 1 calls) = [] /\ canswer calls (CRollback ba 4 []) = Val tt /\
  b_ev (cdb 1 (calls ++ CRollback ba 4 [] :: [COther 1 (TCheck "a" (fun _ => TXCommit) 9 []); CRollback ba 2 []])) = [] /\
  map er_ev (b_ev (cdb 1 (calls ++ [COther 1 (TCheck "a" (fun _ => TXCommit) 9 []); CRollback ba 2 []]))) = [ev1].
Proof.
  split; [|vm_compute; auto].
  refine (in_other calls (bu_key ba) 0 [COther 1 (TRegister "a")] _ bb 0 5 0 [ev2] [] eq_refl _ _ (in_self _ _ _)).
  - vm_compute. lia.
  - left. vm_compute. intros X. discriminate X.
Qed.

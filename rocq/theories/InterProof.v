(** Proofs about interleaved event transactions. *)
From Verif Require Import InterModel InterSpec BusSpec BusProof.

Lemma nth_set {A} (x : A) l : forall i j y, nth_error (set_nth i x l) j = Some y -> (i = j /\ y = x) \/ (i <> j /\ nth_error l j = Some y).
Proof.
  induction l as [|a t IH]; intros [|i] [|j] y; cbn; intros H; try discriminate H.
  - left. split; congruence.
  - right. split; auto.
  - right. split; auto.
  - destruct (IH i j y H) as [[-> ->]|[N E]]; [left|right]; auto.
Qed.
Lemma in_set {A} (x y : A) i l : In y (set_nth i x l) -> y = x \/ In y l.
Proof. intros H. apply In_nth_error in H. destruct H as [j H]. destruct (nth_set x l i j y H) as [[_ ->]|[_ E]]; [auto|right; eapply nth_error_In; eauto]. Qed.

Definition pub_tx (p : pproc) : option trow :=
  match p with PHave t | PFind t | PIns t | PList t _ | PTo t _ _ | PDel t | PRoll t => Some t | PEnd => None end.
(** publishers that have called Commit and not yet stored *)
Definition coming (i : nat) (p : pproc) : bool := match p with PFind t | PIns t => tr_id t =? i | _ => false end.
Definition n_coming (i : nat) (ps : list pproc) : nat := length (filter (coming i) ps).
Lemma n_coming_set i x ps : forall k p, nth_error ps k = Some p ->
  n_coming i (set_nth k x ps) + (if coming i p then 1 else 0) = n_coming i ps + (if coming i x then 1 else 0).
Proof.
  unfold n_coming. induction ps as [|a t IH]; intros [|k] p H; cbn in H; try discriminate H.
  - injection H as ->. cbn [set_nth filter]. destruct (coming i p), (coming i x); cbn; lia.
  - cbn [set_nth filter]. specialize (IH k p H). destruct (coming i a); cbn; lia.
Qed.
Lemma n_coming_drop i ps : forall k, n_coming i (set_nth k PEnd ps) <= n_coming i ps.
Proof.
  unfold n_coming. induction ps as [|a t IH]; intros [|k]; cbn; auto.
  - destruct (coming i a); cbn; lia.
  - specialize (IH k). destruct (coming i a); cbn; lia.
Qed.
Lemma copies_app i a b : copies i (a ++ b) = copies i a + copies i b.
Proof. unfold copies. rewrite filter_app, app_length. reflexivity. Qed.
Lemma attempts_app i a b : attempts i (a ++ b) = attempts i a + attempts i b.
Proof. unfold attempts. rewrite filter_app, app_length. reflexivity. Qed.

Record iv (d : bdb) (ps : list pproc) (ks : list kproc) (h : list hev) : Prop := {
  v_nt : 1 <= b_nt d /\ forall t sv, In (HBegun t sv) h -> 1 <= tr_id t < b_nt d;
  v_tx : forall t, In t (b_tx d) -> exists sv, In (HBegun t sv) h;
  v_uni : forall t sv t' sv', In (HBegun t sv) h -> In (HBegun t' sv') h -> tr_id t = tr_id t' -> t = t' /\ sv = sv';
  v_pub : forall p t, In p ps -> pub_tx p = Some t -> exists sv, In (HBegun t sv) h;
  v_chk : forall k t, In k ks -> In t (held k) -> exists sv, In (HBegun t sv) h;
  v_sto : forall i evs, In (HStored i evs) h -> In (HAsked i) h /\ exists t sv, In (HBegun t sv) h /\ tr_id t = i /\ evs = tr_events t;
  v_ask : forall i, In (HAsked i) h -> exists t sv, In (HBegun t sv) h /\ tr_id t = i;
  v_cnt : forall i, copies i h + n_coming i ps <= attempts i h;
  v_svc : forall t sv, In (HBegun t sv) h -> incl sv (b_svc d);
  v_rol : forall t, In (PRoll t) ps -> In (HRollback (tr_id t)) h;
  v_com : forall t p, In p ps -> (p = PFind t \/ p = PIns t) -> In (HAsked (tr_id t)) h;
  v_lst : forall t rows, In (PList t rows) ps -> In (HStored (tr_id t) (tr_events t)) h;
  v_to : forall t rows l sv, In (PTo t rows l) ps -> In (HBegun t sv) h -> In (HStored (tr_id t) (tr_events t)) h /\ forall v, In v sv -> In v l \/ exists ids, In (HDelivered (tr_id t) v ids) h;
  v_del : forall t sv, In (PDel t) ps -> In (HBegun t sv) h -> sent t sv h;
  v_gone : forall t sv, In (HBegun t sv) h -> ~ In t (b_tx d) -> In (HRollback (tr_id t)) h \/ sent t sv h;
  v_ev : forall r, In r (b_ev d) -> er_trans r <> 0 -> exists evs, In (HStored (er_trans r) evs) h;
  v_ok : forall i, In (HCommitOk i) h -> exists evs, In (HStored i evs) h }.

Lemma sent_app t sv h l : sent t sv h -> sent t sv (h ++ l).
Proof. intros [A B]. split; [apply in_app_iff; auto|]. intros v Hv. destruct (B v Hv) as [ids X]. exists ids. apply in_app_iff. auto. Qed.

(** adding harmless log entries *)
Definition quiet (e : hev) : Prop := match e with HDelivered _ _ _ | HRollbackOk _ | HRollback _ => True | _ => False end.
Lemma quiet_cnt i l : Forall quiet l -> copies i l = 0 /\ attempts i l = 0.
Proof. unfold copies, attempts. induction 1 as [|e t Q _ [IH1 IH2]]; [split; reflexivity|]. cbn. destruct e; cbn in *; try contradiction; auto. Qed.
Lemma in_quiet e h l : Forall quiet l -> ~ quiet e -> In e (h ++ l) -> In e h.
Proof. intros F N H. apply in_app_iff in H. destruct H as [H|H]; auto. rewrite Forall_forall in F. exfalso. apply N. auto. Qed.
Lemma iv_quiet d ps ks h l : Forall quiet l -> iv d ps ks h -> iv d ps ks (h ++ l).
Proof.
  intros Q [A B C D E F G H I J K L M N O P R].
  assert (Bg : forall t sv, In (HBegun t sv) (h ++ l) -> In (HBegun t sv) h) by (intros t sv; apply in_quiet; auto).
  assert (Up : forall e, In e h -> In e (h ++ l)) by (intros e X; apply in_app_iff; auto).
  constructor; auto.
  - destruct A. split; eauto.
  - intros t Ht. destruct (B t Ht). eauto.
  - intros p t Hp Ep. destruct (D p t Hp Ep). eauto.
  - intros k t Hk Ht. destruct (E k t Hk Ht). eauto.
  - intros i evs Hi. apply in_quiet in Hi; auto. destruct (F i evs Hi) as (F1 & t & sv & F2 & F3). split; auto. eauto 6.
  - intros i Hi. apply in_quiet in Hi; auto. destruct (G i Hi) as (t & sv & G1 & G2). eauto 6.
  - intros i. rewrite copies_app, attempts_app. destruct (quiet_cnt i l Q) as [-> ->]. specialize (H i). lia.
  - intros t sv Ht. eauto.
  - intros t p Hp Ep. eauto.
  - intros t rows X. eauto.
  - intros t rows l0 sv X Y. destruct (M t rows l0 sv X (Bg _ _ Y)) as [M1 M2]. split; auto. intros v Hv. destruct (M2 v Hv) as [Z|[ids Z]]; eauto.
  - intros t sv X Y. apply sent_app. eauto.
  - intros t sv X Y. destruct (O t sv (Bg _ _ X) Y) as [Z|Z]; auto. right. now apply sent_app.
  - intros r X Y. destruct (P r X Y). eauto.
  - intros i X. apply in_quiet in X; auto. destruct (R i X). eauto.
Qed.

(** changes of tables other than the transaction table *)
Lemma iv_tables d d' ps ks h : iv d ps ks h -> b_tx d' = b_tx d -> b_nt d' = b_nt d -> incl (b_svc d) (b_svc d') ->
  (forall r, In r (b_ev d') -> er_trans r <> 0 -> In r (b_ev d) \/ exists evs, In (HStored (er_trans r) evs) h) -> iv d' ps ks h.
Proof.
  intros [A B C D E F G H I J K L M N O P R] E1 E2 E3 E4. constructor; auto.
  - rewrite E2. auto.
  - rewrite E1. auto.
  - intros t sv X v Hv. apply E3. eapply I; eauto.
  - rewrite E1. auto.
  - intros r X Y. destruct (E4 r X Y) as [Z|Z]; auto.
Qed.

(** deleting a row of the transaction table *)
Lemma iv_delete d ps ks h t : iv d ps ks h -> (exists sv, In (HBegun t sv) h) -> (In (HRollback (tr_id t)) h \/ forall sv, In (HBegun t sv) h -> sent t sv h) -> iv (snd (delete_tx t d)) ps ks h.
Proof.
  intros [A B C D E F G H I J K L M N O P R] [sv0 Hb] W. constructor; auto; cbn [delete_tx snd b_nt b_tx b_svc b_ev].
  - intros t' Ht'. apply filter_In in Ht'. now apply B.
  - intros t' sv Ht' N'. destruct (Nat.eq_dec (tr_id t') (tr_id t)) as [Et|Et].
    + destruct (C _ _ _ _ Ht' Hb Et) as [-> ->]. destruct W as [W|W]; auto.
    + apply O; auto. intros X. apply N'. apply filter_In. split; auto. apply Bool.negb_true_iff. now apply Nat.eqb_neq.
Qed.

(** a publisher moves on *)
Lemma iv_pub d ps ks h k p p' : iv d ps ks h -> nth_error ps k = Some p -> (forall t, pub_tx p' = Some t -> pub_tx p = Some t) ->
  (forall i, coming i p' = true -> coming i p = true) ->
  (forall t, p' = PRoll t -> In (HRollback (tr_id t)) h) ->
  (forall t, p' = PFind t \/ p' = PIns t -> In (HAsked (tr_id t)) h) ->
  (forall t rows, p' = PList t rows -> In (HStored (tr_id t) (tr_events t)) h) ->
  (forall t rows l sv, p' = PTo t rows l -> In (HBegun t sv) h -> In (HStored (tr_id t) (tr_events t)) h /\ forall v, In v sv -> In v l \/ exists ids, In (HDelivered (tr_id t) v ids) h) ->
  (forall t sv, p' = PDel t -> In (HBegun t sv) h -> sent t sv h) ->
  iv d (set_nth k p' ps) ks h.
Proof.
  intros [A B C D E F G H I J K L M N O P R] Hp T1 T2 T3 T4 T5 T6 T7. pose proof (nth_error_In _ _ Hp) as Ip. constructor; auto.
  - intros q t Hq Eq. apply in_set in Hq. destruct Hq as [->|Hq]; eauto.
  - intros i. pose proof (n_coming_set i p' ps k p Hp) as X. specialize (H i). specialize (T2 i). destruct (coming i p'), (coming i p); try lia; specialize (T2 eq_refl); discriminate T2.
  - intros t Hq. apply in_set in Hq. destruct Hq as [Hq|Hq]; eauto.
  - intros t q Hq Eq. apply in_set in Hq. destruct Hq as [->|Hq]; eauto.
  - intros t rows Hq. apply in_set in Hq. destruct Hq as [Hq|Hq]; eauto.
  - intros t rows l sv Hq. apply in_set in Hq. destruct Hq as [Hq|Hq]; eauto.
  - intros t sv Hq. apply in_set in Hq. destruct Hq as [Hq|Hq]; eauto.
Qed.
Lemma iv_chk d ps ks ks' h : iv d ps ks h -> (forall k t, In k ks' -> In t (held k) -> (exists k0, In k0 ks /\ In t (held k0)) \/ In t (b_tx d)) -> iv d ps ks' h.
Proof.
  intros [A B C D E F G H I J K L M N O P R] X. constructor; auto. intros k t Hk Ht. destruct (X k t Hk Ht) as [(k0 & H1 & H2)|H1]; eauto.
Qed.

(** a Commit is asked for *)
Lemma iv_asked d ps ks h t : iv d ps ks h -> (exists sv, In (HBegun t sv) h) -> iv d ps ks (h ++ [HAsked (tr_id t)]).
Proof.
  intros [A B C D E F G H I J K L M N O P R] [sv0 Hb].
  assert (Up : forall e, In e h -> In e (h ++ [HAsked (tr_id t)])) by (intros e X; apply in_app_iff; auto).
  assert (Dn : forall e, e <> HAsked (tr_id t) -> In e (h ++ [HAsked (tr_id t)]) -> In e h) by (intros e X Y; apply in_app_iff in Y; destruct Y as [Y|[Y|[]]]; congruence).
  assert (Bg : forall t' sv, In (HBegun t' sv) (h ++ [HAsked (tr_id t)]) -> In (HBegun t' sv) h) by (intros t' sv; apply Dn; discriminate).
  constructor; auto.
  - destruct A. split; eauto.
  - intros t' Ht. destruct (B t' Ht). eauto.
  - intros p t' Hp Ep. destruct (D p t' Hp Ep). eauto.
  - intros k t' Hk Ht. destruct (E k t' Hk Ht). eauto.
  - intros i evs Hi. apply Dn in Hi; [|discriminate]. destruct (F i evs Hi) as (F1 & t1 & sv & F2 & F3). split; auto. eauto 6.
  - intros i Hi. apply in_app_iff in Hi. destruct Hi as [Hi|[Hi|[]]]; [destruct (G i Hi) as (t1 & sv & G1 & G2); eauto 6|]. injection Hi as <-. eauto 6.
  - intros i. rewrite copies_app, attempts_app. specialize (H i). cbn. destruct (tr_id t =? i); cbn; lia.
  - intros t1 sv Ht. eauto.
  - intros t1 p Hp Ep. eauto.
  - intros t1 rows X. eauto.
  - intros t1 rows l0 sv X Y. destruct (M t1 rows l0 sv X (Bg _ _ Y)) as [M1 M2]. split; auto. intros v Hv. destruct (M2 v Hv) as [Z|[ids Z]]; eauto.
  - intros t1 sv X Y. apply sent_app. eauto.
  - intros t1 sv X Y. destruct (O t1 sv (Bg _ _ X) Y) as [Z|Z]; auto. right. now apply sent_app.
  - intros r X Y. destruct (P r X Y). eauto.
  - intros i X. apply Dn in X; [|discriminate]. destruct (R i X). eauto.
Qed.
(** the events of a transaction are inserted; there is an attempt left *)
Lemma iv_stored d ps ks h t : iv d ps ks h -> (exists sv, In (HBegun t sv) h) -> In (HAsked (tr_id t)) h -> (forall i, i = tr_id t -> copies i h + n_coming i ps < attempts i h) ->
  iv (snd (insert_events (tr_id t) (tr_events t) d)) ps ks (h ++ [HStored (tr_id t) (tr_events t)]).
Proof.
  intros [A B C D E F G H I J K L M N O P R] [sv0 Hb] Ha Left. set (e0 := HStored (tr_id t) (tr_events t)).
  assert (Up : forall e, In e h -> In e (h ++ [e0])) by (intros e X; apply in_app_iff; auto).
  assert (Dn : forall e, e <> e0 -> In e (h ++ [e0]) -> In e h) by (intros e X Y; apply in_app_iff in Y; destruct Y as [Y|[Y|[]]]; congruence).
  assert (Bg : forall t' sv, In (HBegun t' sv) (h ++ [e0]) -> In (HBegun t' sv) h) by (intros t' sv; apply Dn; discriminate).
  constructor; cbn [insert_events snd b_nt b_tx b_svc b_ev]; auto.
  - destruct A. split; eauto.
  - intros t' Ht. destruct (B t' Ht). eauto.
  - intros p t' Hp Ep. destruct (D p t' Hp Ep). eauto.
  - intros k t' Hk Ht. destruct (E k t' Hk Ht). eauto.
  - intros i evs Hi. apply in_app_iff in Hi. destruct Hi as [Hi|[Hi|[]]]; [destruct (F i evs Hi) as (F1 & t1 & sv & F2 & F3); split; auto; eauto 6|]. injection Hi as <- <-. split; auto. eauto 6.
  - intros i Hi. apply Dn in Hi; [|discriminate]. destruct (G i Hi) as (t1 & sv & G1 & G2); eauto 6.
  - intros i. rewrite copies_app, attempts_app. specialize (H i). specialize (Left i). unfold e0. cbn. destruct (tr_id t =? i) eqn:Ei; cbn; [|lia]. apply Nat.eqb_eq in Ei. symmetry in Ei. specialize (Left Ei). lia.
  - intros t1 sv Ht. eauto.
  - intros t1 p Hp Ep. eauto.
  - intros t1 rows X. eauto.
  - intros t1 rows l0 sv X Y. destruct (M t1 rows l0 sv X (Bg _ _ Y)) as [M1 M2]. split; auto. intros v Hv. destruct (M2 v Hv) as [Z|[ids Z]]; eauto.
  - intros t1 sv X Y. apply sent_app. eauto.
  - intros t1 sv X Y. destruct (O t1 sv (Bg _ _ X) Y) as [Z|Z]; auto. right. now apply sent_app.
  - intros r X Y. apply in_app_iff in X. destruct X as [X|X]; [destruct (P r X Y); eauto|]. exists (tr_events t). destruct (new_events_spec (tr_id t) (tr_events t) (b_ne d)) as (_ & _ & _ & T). rewrite (T r X). apply in_app_iff. right. now left.
  - intros i X. apply Dn in X; [|discriminate]. destruct (R i X). eauto.
Qed.
Lemma iv_committed d ps ks h i : iv d ps ks h -> (exists evs, In (HStored i evs) h) -> iv d ps ks (h ++ [HCommitOk i]).
Proof.
  intros [A B C D E F G H I J K L M N O P R] Hs. set (e0 := HCommitOk i).
  assert (Up : forall e, In e h -> In e (h ++ [e0])) by (intros e X; apply in_app_iff; auto).
  assert (Dn : forall e, e <> e0 -> In e (h ++ [e0]) -> In e h) by (intros e X Y; apply in_app_iff in Y; destruct Y as [Y|[Y|[]]]; congruence).
  assert (Bg : forall t' sv, In (HBegun t' sv) (h ++ [e0]) -> In (HBegun t' sv) h) by (intros t' sv; apply Dn; discriminate).
  constructor; auto.
  - destruct A. split; eauto.
  - intros t' Ht. destruct (B t' Ht). eauto.
  - intros p t' Hp Ep. destruct (D p t' Hp Ep). eauto.
  - intros k t' Hk Ht. destruct (E k t' Hk Ht). eauto.
  - intros j evs Hi. apply Dn in Hi; [|discriminate]. destruct (F j evs Hi) as (F1 & t1 & sv & F2 & F3); split; auto; eauto 6.
  - intros j Hi. apply Dn in Hi; [|discriminate]. destruct (G j Hi) as (t1 & sv & G1 & G2); eauto 6.
  - intros j. rewrite copies_app, attempts_app. specialize (H j). cbn. lia.
  - intros t1 sv Ht. eauto.
  - intros t1 p Hp Ep. eauto.
  - intros t1 rows X. eauto.
  - intros t1 rows l0 sv X Y. destruct (M t1 rows l0 sv X (Bg _ _ Y)) as [M1 M2]. split; auto. intros v Hv. destruct (M2 v Hv) as [Z|[ids Z]]; eauto.
  - intros t1 sv X Y. apply sent_app. eauto.
  - intros t1 sv X Y. destruct (O t1 sv (Bg _ _ X) Y) as [Z|Z]; auto. right. now apply sent_app.
  - intros r X Y. destruct (P r X Y). eauto.
  - intros j X. apply in_app_iff in X. destruct X as [X|[X|[]]]; [destruct (R j X); eauto|]. injection X as <-. destruct Hs. eauto.
Qed.

(** the checker *)
Lemma deliver_to_spec id svcs rows : forall d d' l, deliver_to id svcs rows d = (d', l) ->
  b_tx d' = b_tx d /\ b_nt d' = b_nt d /\ b_svc d' = b_svc d /\ b_ev d' = b_ev d /\ Forall quiet l /\ forall v, In v svcs -> In (HDelivered id v (map er_id rows)) l.
Proof.
  induction svcs as [|v r IH]; intros d d' l H; cbn [deliver_to] in H.
  - injection H as <- <-. repeat split; auto; try contradiction.
  - destruct (deliver_to id r rows (snd (insert_deliveries v rows d))) as [d1 l1] eqn:E. injection H as <- <-. destruct (IH _ _ _ E) as (I1 & I2 & I3 & I4 & I5 & I6). cbn in I1, I2, I3, I4.
    repeat split; auto; [constructor; cbn; auto|]. intros w [<-|Hw]; [now left|right; auto].
Qed.
Lemma iv_check_one snap t a d d' l ps ks h : check_one snap t a d = (d', l) -> iv d ps ks h -> (exists sv, In (HBegun t sv) h) -> iv d' ps ks (h ++ l).
Proof.
  intros H V Hb. assert (Hb' : forall l, exists sv, In (HBegun t sv) (h ++ l)) by (intros l0; destruct Hb as [sv X]; exists sv; apply in_app_iff; auto).
  destruct a as [|del|n del]; cbn [check_one] in H.
  - injection H as <- <-. now rewrite app_nil_r.
  - injection H as <- <-. assert (V1 : iv d ps ks (h ++ [HRollback (tr_id t)])) by (apply iv_quiet; auto; repeat constructor). destruct del; auto. apply iv_delete; auto. left. apply in_app_iff. right. now left.
  - pose proof (iv_asked _ _ _ _ t V Hb) as V1. destruct (memb (tr_id t) snap); [injection H as <- <-; auto|]. destruct n as [k|]; [|injection H as <- <-; auto].
    destruct (deliver_to (tr_id t) (firstn k (b_svc d)) (fst (insert_events (tr_id t) (tr_events t) d)) (snd (insert_events (tr_id t) (tr_events t) d))) as [d1 l1] eqn:E.
    destruct (deliver_to_spec _ _ _ _ _ _ E) as (S1 & S2 & S3 & S4 & S5 & S6).
    assert (V2 : iv (snd (insert_events (tr_id t) (tr_events t) d)) ps ks ((h ++ [HAsked (tr_id t)]) ++ [HStored (tr_id t) (tr_events t)])).
    { apply iv_stored; auto; [apply in_app_iff; right; now left|]. intros i ->. rewrite copies_app, attempts_app. pose proof (v_cnt _ _ _ _ V (tr_id t)) as X. cbn. rewrite Nat.eqb_refl. cbn. lia. }
    assert (V3 : iv d1 ps ks (h ++ HAsked (tr_id t) :: HStored (tr_id t) (tr_events t) :: l1)).
    { replace (h ++ HAsked (tr_id t) :: HStored (tr_id t) (tr_events t) :: l1) with (((h ++ [HAsked (tr_id t)]) ++ [HStored (tr_id t) (tr_events t)]) ++ l1) by (rewrite <- !app_assoc; reflexivity).
      apply iv_quiet; auto. apply (iv_tables _ d1 _ _ _ V2); auto; [rewrite S3; apply incl_refl|]. rewrite S4. auto. }
    injection H as <- <-. destruct ((length (b_svc d) <=? k) && del) eqn:Ek; auto. apply andb_prop in Ek. destruct Ek as [Ek _]. apply Nat.leb_le in Ek.
    apply iv_delete; auto. right. intros sv Hs. split; [apply in_app_iff; right; right; now left|]. intros v Hv. exists (map er_id (fst (insert_events (tr_id t) (tr_events t) d))).
    apply in_app_iff. right. right. right. apply S6. rewrite firstn_all2 by auto. pose proof (v_svc _ _ _ _ V3 t sv Hs v Hv) as X. rewrite S3 in X. exact X.
Qed.
Lemma iv_check_list snap trs : forall as_ d d' l ps ks h, check_list snap trs as_ d = (d', l) -> iv d ps ks h -> (forall t, In t trs -> exists sv, In (HBegun t sv) h) -> iv d' ps ks (h ++ l).
Proof.
  induction trs as [|t r IH]; intros as_ d d' l ps ks h H V Hb; [injection H as <- <-; now rewrite app_nil_r|].
  destruct as_ as [|a ar]; [injection H as <- <-; now rewrite app_nil_r|]. cbn [check_list] in H. destruct (check_one snap t a d) as [d1 l1] eqn:E1. destruct (check_list snap r ar d1) as [d2 l2] eqn:E2. injection H as <- <-.
  rewrite app_assoc. eapply IH; eauto; [eapply iv_check_one; eauto; apply Hb; now left|]. intros t' Ht'. destruct (Hb t' (or_intror Ht')) as [sv X]. exists sv. apply in_app_iff. auto.
Qed.

Lemma iv_step a st : iv (i_db st) (i_pub st) (i_chk st) (i_log st) -> iv (i_db (iexec a st)) (i_pub (iexec a st)) (i_chk (iexec a st)) (i_log (iexec a st)).
Proof.
  destruct st as [d now ps ks h]. intros V. cbn [i_db i_pub i_chk i_log] in V.
  destruct a as [name|n|evs outs|ids|svc timeout evs|i|i|i|i|svc|j|j answers|j]; cbn [iexec].
  - cbn [i_db i_pub i_chk i_log]. unfold init_service. destruct (existsb (String.eqb name) (b_svc d)); auto. apply (iv_tables d); auto. cbn. apply incl_appl, incl_refl.
  - exact V.
  - cbn [i_db i_pub i_chk i_log]. destruct (dispatch 0 evs outs d) as [[o s'] d'] eqn:E. cbn [snd]. destruct (proj1 (dispatch_ends _ _ _ _ _ _ _ E)) as [->|(k & X)]; auto.
    destruct X as (rows & dels & E1 & E2 & E3 & E4 & E5 & E6 & E7 & E8 & E9 & E10 & E11 & E12 & E13). apply (iv_tables d); auto; [rewrite E9; apply incl_refl|]. intros r Hr N. rewrite E1 in Hr. apply in_app_iff in Hr. destruct Hr as [Hr|Hr]; auto. rewrite (E4 r Hr) in N. lia.
  - cbn [i_db i_pub i_chk i_log]. apply (iv_tables d); auto; [apply incl_refl|]. cbn. intros r Hr _. apply filter_In in Hr. tauto.
  - destruct evs as [|e0 er]; auto. set (evs := e0 :: er). cbn [insert_tx]. set (t := mkT (b_nt d) svc evs (now + timeout)). cbn [i_db i_pub i_chk i_log].
    destruct V as [A B C D E F G H I J K L M N O P R].
    assert (Up : forall e, In e h -> In e (h ++ [HBegun t (b_svc d)])) by (intros e X; apply in_app_iff; auto).
    assert (Dn : forall e, e <> HBegun t (b_svc d) -> In e (h ++ [HBegun t (b_svc d)]) -> In e h) by (intros e X Y; apply in_app_iff in Y; destruct Y as [Y|[Y|[]]]; congruence).
    assert (Bg : forall t' sv, In (HBegun t' sv) (h ++ [HBegun t (b_svc d)]) -> In (HBegun t' sv) h \/ (t' = t /\ sv = b_svc d)) by (intros t' sv Y; apply in_app_iff in Y; destruct Y as [Y|[Y|[]]]; [auto|right; split; congruence]).
    assert (Me : In (HBegun t (b_svc d)) (h ++ [HBegun t (b_svc d)])) by (apply in_app_iff; right; now left).
    assert (Np : forall p, In p (ps ++ [PHave t]) -> In p ps \/ p = PHave t) by (intros p X; apply in_app_iff in X; destruct X as [X|[X|[]]]; auto).
    assert (Old : forall p t', In p ps -> pub_tx p = Some t' -> tr_id t' < b_nt d) by (intros p t' Hp Ep; destruct (D p t' Hp Ep) as [sv X]; destruct A as [_ A]; destruct (A _ _ X); lia).
    constructor; cbn [b_nt b_tx b_svc b_ev]; auto.
    + destruct A as [A1 A2]. split; [lia|]. intros t' sv X. apply Bg in X. destruct X as [X|[-> _]]; [specialize (A2 _ _ X); lia|cbn; lia].
    + intros t' Ht. apply in_app_iff in Ht. destruct Ht as [Ht|[<-|[]]]; [destruct (B t' Ht); eauto|eauto].
    + intros t1 sv t2 sv' X Y Z. apply Bg in X. apply Bg in Y. destruct A as [A1 A2]. destruct X as [X|[-> ->]], Y as [Y|[-> ->]]; eauto.
      * specialize (A2 _ _ X). cbn in Z. lia.
      * specialize (A2 _ _ Y). cbn in Z. lia.
    + intros p t' Hp Ep. apply Np in Hp. destruct Hp as [Hp| ->]; [destruct (D p t' Hp Ep); eauto|]. injection Ep as <-. eauto.
    + intros k t' Hk Ht. destruct (E k t' Hk Ht). eauto.
    + intros i evs' Hi. apply Dn in Hi; [|discriminate]. destruct (F i evs' Hi) as (F1 & t1 & sv & F2 & F3); split; auto; eauto 6.
    + intros i Hi. apply Dn in Hi; [|discriminate]. destruct (G i Hi) as (t1 & sv & G1 & G2); eauto 6.
    + intros i. rewrite copies_app, attempts_app. specialize (H i). unfold n_coming in *. rewrite filter_app, app_length. cbn. lia.
    + intros t1 sv X. apply Bg in X. destruct X as [X|[-> ->]]; [eauto|apply incl_refl].
    + intros t1 Hp. apply Np in Hp. destruct Hp as [Hp|Hp]; [auto|discriminate Hp].
    + intros t1 p Hp Ep. apply Np in Hp. destruct Hp as [Hp|Hp]; [eauto|]. destruct Ep; congruence.
    + intros t1 rows Hp. apply Np in Hp. destruct Hp as [Hp|Hp]; [eauto|discriminate Hp].
    + intros t1 rows l0 sv X Y. apply Np in X. destruct X as [X|X]; [|discriminate X]. apply Bg in Y. destruct Y as [Y|[-> ->]]; [|specialize (Old _ t X eq_refl); cbn in Old; lia].
      destruct (M t1 rows l0 sv X Y) as [M1 M2]. split; auto. intros v Hv. destruct (M2 v Hv) as [Z|[ids Z]]; eauto.
    + intros t1 sv X Y. apply Np in X. destruct X as [X|X]; [|discriminate X]. apply Bg in Y. destruct Y as [Y|[-> ->]]; [|specialize (Old _ t X eq_refl); cbn in Old; lia]. apply sent_app. eauto.
    + intros t1 sv X Y. apply Bg in X. destruct X as [X|[-> ->]]; [|exfalso; apply Y; apply in_app_iff; right; now left]. destruct (O t1 sv X) as [Z|Z]; auto; [intros Z; apply Y; apply in_app_iff; auto|]. right. now apply sent_app.
    + intros r X Y. destruct (P r X Y). eauto.
    + intros i X. apply Dn in X; [|discriminate]. destruct (R i X). eauto.
  - destruct (nth_error ps i) as [p|] eqn:Ep; auto. destruct p as [t|t|t|t rows|t rows l|t|t|]; auto. cbn [i_db i_pub i_chk i_log].
    pose proof (nth_error_In _ _ Ep) as Ip. pose proof (v_pub _ _ _ _ V _ t Ip eq_refl) as Hb. pose proof (iv_asked _ _ _ _ t V Hb) as V1.
    destruct V1 as [A B C D E F G H I J K L M N O P R]. constructor; auto.
    + intros q t' Hq Eq. apply in_set in Hq. destruct Hq as [->|Hq]; [|eauto]. injection Eq as <-. apply (D (PHave t)); auto.
    + intros k. pose proof (n_coming_set k (PFind t) ps i _ Ep) as X. pose proof (v_cnt _ _ _ _ V k) as Y. rewrite copies_app, attempts_app. cbn in X. cbn. destruct (tr_id t =? k); cbn; lia.
    + intros t' Hq. apply in_set in Hq. destruct Hq as [Hq|Hq]; [discriminate Hq|eauto].
    + intros t' q Hq Eq. apply in_set in Hq. destruct Hq as [->|Hq]; [|eauto]. destruct Eq as [Eq|Eq]; [|discriminate Eq]. injection Eq as <-. apply in_app_iff. right. now left.
    + intros t' rows Hq. apply in_set in Hq. destruct Hq as [Hq|Hq]; [discriminate Hq|eauto].
    + intros t' rows l sv Hq. apply in_set in Hq. destruct Hq as [Hq|Hq]; [discriminate Hq|eauto].
    + intros t' sv Hq. apply in_set in Hq. destruct Hq as [Hq|Hq]; [discriminate Hq|eauto].
  - destruct (nth_error ps i) as [p|] eqn:Ep; auto. destruct p as [t|t|t|t rows|t rows l|t|t|]; auto. cbn [i_db i_pub i_chk i_log].
    apply (iv_pub _ ps _ _ _ (PHave t)); auto; try discriminate.
    + apply iv_quiet; auto. repeat constructor.
    + intros t' Et. injection Et as <-. apply in_app_iff. right. now left.
    + intros t' [X|X]; discriminate X.
  - destruct (nth_error ps i) as [p|] eqn:Ep; auto. destruct (pub_step ks p d) as [[p' d'] l] eqn:Es. cbn [i_db i_pub i_chk i_log]. pose proof (nth_error_In _ _ Ep) as Ip.
    destruct p as [t|t|t|t rows|t rows sv|t|t|]; cbn [pub_step] in Es.
    + injection Es as <- <- <-. rewrite app_nil_r. apply (iv_pub _ ps _ _ _ (PHave t)); auto; try discriminate. intros t' [X|X]; discriminate X.
    + destruct (fst (find_trans (tr_id t) d)) eqn:Ef; injection Es as <- <- <-.
      * apply (iv_pub _ ps _ _ _ (PFind t)); auto; try discriminate; [|intros t' [X|X]; discriminate X]. apply iv_committed; auto. cbn in Ef. apply existsb_exists in Ef. destruct Ef as (r & Hr & Er). apply Nat.eqb_eq in Er. rewrite <- Er. apply (v_ev _ _ _ _ V); auto.
        destruct (v_pub _ _ _ _ V _ t Ip eq_refl) as [sv X]. pose proof (proj2 (v_nt _ _ _ _ V) _ _ X). lia.
      * rewrite app_nil_r. apply (iv_pub _ ps _ _ _ (PFind t)); auto; try discriminate. intros t' [X|X]; [discriminate X|]. injection X as <-. eapply (v_com _ _ _ _ V); eauto.
    + injection Es as <- <- <-. pose proof (v_com _ _ _ _ V t _ Ip (or_intror eq_refl)) as Ha. pose proof (v_pub _ _ _ _ V _ t Ip eq_refl) as Hb.
      set (p1 := PList t (fst (insert_events (tr_id t) (tr_events t) d))).
      assert (V1 : iv d (set_nth i PEnd ps) ks h) by (apply (iv_pub _ ps _ _ _ (PIns t)); auto; try discriminate; intros t' [X|X]; discriminate X).
      assert (V2 : iv (snd (insert_events (tr_id t) (tr_events t) d)) (set_nth i PEnd ps) ks (h ++ [HStored (tr_id t) (tr_events t)])).
      { apply iv_stored; auto. intros k ->. pose proof (n_coming_set (tr_id t) PEnd ps i _ Ep) as X. pose proof (v_cnt _ _ _ _ V (tr_id t)) as Y. cbn in X. rewrite Nat.eqb_refl in X. lia. }
      assert (Hst : In (HStored (tr_id t) (tr_events t)) (h ++ [HStored (tr_id t) (tr_events t)])) by (apply in_app_iff; right; now left).
      assert (Ep2 : nth_error (set_nth i PEnd ps) i = Some PEnd) by (clear -Ep; revert i Ep; induction ps as [|a r IH]; intros [|i] Ep; cbn in *; try discriminate Ep; eauto).
      assert (Same : set_nth i p1 (set_nth i PEnd ps) = set_nth i p1 ps) by (clear; revert i; induction ps as [|a r IH]; intros [|i]; cbn; congruence).
      change (iv (snd (insert_events (tr_id t) (tr_events t) d)) (set_nth i p1 ps) ks (h ++ [HStored (tr_id t) (tr_events t)])). rewrite <- Same. destruct V2 as [A B C D E F G H I J K L M N O P R]. constructor; auto.
      * intros q t' Hq Eq. apply in_set in Hq. destruct Hq as [->|Hq]; [|eauto]. injection Eq as <-. destruct Hb as [sv X]. exists sv. apply in_app_iff. auto.
      * intros k. pose proof (n_coming_set k p1 _ i _ Ep2) as X. cbn in X. specialize (H k). lia.
      * intros t' Hq. apply in_set in Hq. destruct Hq as [Hq|Hq]; [discriminate Hq|eauto].
      * intros t' q Hq Eq. apply in_set in Hq. destruct Hq as [->|Hq]; [destruct Eq as [Eq|Eq]; discriminate Eq|eauto].
      * intros t' rows Hq. apply in_set in Hq. destruct Hq as [Hq|Hq]; [injection Hq as -> _; auto|eauto].
      * intros t' rows l sv Hq. apply in_set in Hq. destruct Hq as [Hq|Hq]; [discriminate Hq|eauto].
      * intros t' sv Hq. apply in_set in Hq. destruct Hq as [Hq|Hq]; [discriminate Hq|eauto].
    + injection Es as <- <- <-. rewrite app_nil_r. apply (iv_pub _ ps _ _ _ (PList t rows)); auto; try discriminate; [intros t' [X|X]; discriminate X|].
      intros t' rows' l sv Eq X. injection Eq as <- <- <-. split; [eapply (v_lst _ _ _ _ V); eauto|]. intros v Hv. left. apply (v_svc _ _ _ _ V _ _ X v Hv).
    + destruct sv as [|v r]; injection Es as <- <- <-.
      * rewrite app_nil_r. apply (iv_pub _ ps _ _ _ (PTo t rows [])); auto; try discriminate; [intros t' [X|X]; discriminate X|].
        intros t' sv Eq X. injection Eq as <-. destruct (v_to _ _ _ _ V _ _ _ _ Ip X) as [Y1 Y2]. split; auto. intros v Hv. destruct (Y2 v Hv) as [Z|Z]; [contradiction Z|auto].
      * assert (V1 : iv (snd (insert_deliveries v rows d)) ps ks (h ++ [HDelivered (tr_id t) v (map er_id rows)])).
        { apply iv_quiet; [repeat constructor|]. apply (iv_tables d); auto. apply incl_refl. }
        apply (iv_pub _ ps _ _ _ (PTo t rows (v :: r))); auto; try discriminate; [intros t' [X|X]; discriminate X|].
        intros t' rows' l sv Eq X. injection Eq as <- <- <-. destruct (v_to _ _ _ _ V1 _ _ _ _ Ip X) as [Y1 Y2]. split; auto. intros w Hw. destruct (Y2 w Hw) as [[<-|Z]|Z]; auto. right. exists (map er_id rows). apply in_app_iff. right. now left.
    + destruct (locked ks t); injection Es as <- <- <-.
      * rewrite app_nil_r. apply (iv_pub _ ps _ _ _ (PDel t)); auto; try discriminate; [intros t' [X|X]; discriminate X|]. intros t' sv Eq X. injection Eq as <-. eapply (v_del _ _ _ _ V); eauto.
      * destruct (v_pub _ _ _ _ V _ t Ip eq_refl) as [sv0 Hb]. pose proof (v_del _ _ _ _ V t sv0 Ip Hb) as [Hst _].
        apply (iv_pub _ ps _ _ _ (PDel t)); auto; try discriminate; [|intros t' [X|X]; discriminate X]. apply iv_committed; [|eauto]. apply iv_delete; eauto. right. intros sv X. eapply (v_del _ _ _ _ V); eauto.
    + destruct (locked ks t); injection Es as <- <- <-.
      * rewrite app_nil_r. apply (iv_pub _ ps _ _ _ (PRoll t)); auto; try discriminate; [|intros t' [X|X]; discriminate X]. intros t' Eq. injection Eq as <-. eapply (v_rol _ _ _ _ V); eauto.
      * apply (iv_pub _ ps _ _ _ (PRoll t)); auto; try discriminate; [|intros t' [X|X]; discriminate X]. apply iv_quiet; [repeat constructor|]. apply iv_delete; [auto|eapply (v_pub _ _ _ _ V); eauto; reflexivity|]. left. eapply (v_rol _ _ _ _ V); eauto.
    + injection Es as <- <- <-. rewrite app_nil_r. apply (iv_pub _ ps _ _ _ PEnd); auto; try discriminate. intros t' [X|X]; discriminate X.
  - cbn [i_db i_pub i_chk i_log]. destruct (nth_error ps i) as [p|] eqn:Ep.
    + apply (iv_pub _ ps _ _ _ p); auto; try discriminate. intros t' [X|X]; discriminate X.
    + replace (set_nth i PEnd ps) with ps; auto. clear -Ep. revert i Ep. induction ps as [|a r IH]; intros [|i] Ep; cbn in *; try discriminate Ep; auto. f_equal. auto.
  - destruct (existsb (locked ks) (due_rows svc now d)); auto. cbn [i_db i_pub i_chk i_log]. apply (iv_chk _ _ ks); auto. intros k t Hk Ht. apply in_app_iff in Hk. destruct Hk as [Hk|[<-|[]]]; [left; eauto|]. right. cbn in Ht. apply filter_In in Ht. tauto.
  - destruct (nth_error ks j) as [k|] eqn:Ek; auto. destruct k as [trs|trs snap|]; auto. cbn [i_db i_pub i_chk i_log]. apply (iv_chk _ _ ks); auto. intros k t Hk Ht. left. apply in_set in Hk. destruct Hk as [->|Hk]; [|eauto]. exists (KHold trs). split; auto. eapply nth_error_In; eauto.
  - destruct (nth_error ks j) as [k|] eqn:Ek; auto. destruct k as [trs|trs snap|]; auto. destruct (check_list snap trs answers d) as [d' l] eqn:Ec. cbn [i_db i_pub i_chk i_log].
    apply (iv_chk _ _ ks); [|intros k t Hk Ht; left; apply in_set in Hk; destruct Hk as [->|Hk]; [contradiction Ht|eauto]].
    eapply iv_check_list; eauto. intros t Ht. apply (v_chk _ _ _ _ V (KSnap trs snap)); auto. eapply nth_error_In; eauto.
  - cbn [i_db i_pub i_chk i_log]. apply (iv_chk _ _ ks); auto. intros k t Hk Ht. left. apply in_set in Hk. destruct Hk as [->|Hk]; [contradiction Ht|eauto].
Qed.
Lemma iv_run acts : forall st, iv (i_db st) (i_pub st) (i_chk st) (i_log st) -> iv (i_db (irun acts st)) (i_pub (irun acts st)) (i_chk (irun acts st)) (i_log (irun acts st)).
Proof. induction acts as [|a t IH]; intros st V; cbn [irun]; auto. apply IH. now apply iv_step. Qed.
Lemma iv_start : iv (i_db istart) (i_pub istart) (i_chk istart) (i_log istart).
Proof. constructor; cbn; try contradiction; auto. split; [lia|contradiction]. Qed.
Lemma iv_reach acts : iv (i_db (irun acts istart)) (i_pub (irun acts istart)) (i_chk (irun acts istart)) (i_log (irun acts istart)).
Proof. apply iv_run, iv_start. Qed.

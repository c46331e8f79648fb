From Verif Require Export TxSpec.

Lemma xrun_app a : forall s b, xrun s (a ++ b) = xrun (xrun s a) b.
Proof. induction a as [|o t IH]; intros s b; cbn; [reflexivity|apply IH]. Qed.
Lemma set_tx_length l : forall i t, length (set_tx l i t) = length l.
Proof. induction l as [|x u IH]; intros [|i] t; cbn; auto. Qed.
Lemma set_tx_same l : forall i t y, nth_error l i = Some y -> nth_error (set_tx l i t) i = Some t.
Proof. induction l as [|x u IH]; intros [|i] t y; cbn; try discriminate; auto. intros H. eapply IH; eauto. Qed.
Lemma set_tx_other l : forall i j t, i <> j -> nth_error (set_tx l i t) j = nth_error l j.
Proof. induction l as [|x u IH]; intros [|i] [|j] t H; cbn; auto; try congruence. Qed.
Lemma upd_log_In w d l d' q : In q (upd_log w d l d') <-> In q (w_log w d') \/ (d' = d /\ In q l).
Proof.
  unfold upd_log. destruct (Nat.eqb_spec d' d) as [->|N].
  - rewrite in_app_iff. tauto.
  - split; [tauto|]. intros [H|[H _]]; [auto|congruence].
Qed.

(** One step, as a relation with few cases. *)
Inductive wstep : world -> world -> option (executor * ctx * stmt) -> Prop :=
| ws_same w : wstep w w None
| ws_begin w d : wstep w (mkW (w_log w) (w_txs w ++ [mkTx d [] TxOpen])) None
| ws_commit w t d l : nth_error (w_txs w) t = Some (mkTx d l TxOpen) -> wstep w (mkW (upd_log w d l) (set_tx (w_txs w) t (mkTx d l TxCommitted))) None
| ws_abort w t d l : nth_error (w_txs w) t = Some (mkTx d l TxOpen) -> wstep w (mkW (w_log w) (set_tx (w_txs w) t (mkTx d l TxRolledBack))) None
| ws_exec w x c q t d l : ctx_value (x_key x) c = Some t -> nth_error (w_txs w) t = Some (mkTx d l TxOpen) ->
    wstep w (mkW (w_log w) (set_tx (w_txs w) t (mkTx d (l ++ [q]) TxOpen))) (Some (x, c, q))
| ws_auto w x c q d : ctx_value (x_key x) c = None -> x_db x = Some d -> wstep w (mkW (upd_log w d [q]) (w_txs w)) (Some (x, c, q)).

Definition op_sent (s : xstate) (o : xop) (r : option (executor * ctx * stmt)) : Prop :=
  match r with None => True | Some (x, c, q) => exists n a, o = OExec x n q a /\ c = ctx_at s n end.
Lemma xstep_cases s o s' e : xstep s o = (s', e) ->
  (exists r, wstep (xs_w s) (xs_w s') r /\ op_sent s o r) /\
  (match o with
   | OBegin x c a => exists c', xs_ctx s' = xs_ctx s ++ [c'] /\ (c' = ctx_at s c \/ (c' = (x_key x, length (w_txs (xs_w s))) :: ctx_at s c /\
        exists d, x_db x = Some d /\ w_txs (xs_w s') = w_txs (xs_w s) ++ [mkTx d [] TxOpen]))
   | _ => xs_ctx s' = xs_ctx s end).
Proof.
  destruct o as [x c a|x c q a|x c a|x c a]; cbn.
  - unfold x_begin. destruct (x_db x) as [d|] eqn:Ed; [destruct a|]; intros [= <- <-]; cbn; split; try (exists None; split; [constructor|exact I]); eauto 10.
  - unfold x_exec. destruct (ctx_value (x_key x) (ctx_at s c)) as [t|] eqn:Ec.
    + destruct (nth_error (w_txs (xs_w s)) t) as [[d l []]|] eqn:Et; try destruct a; intros [= <- <-]; cbn; (split; [|reflexivity]);
        try (exists None; split; [constructor|exact I]). exists (Some (x, ctx_at s c, q)). split; [econstructor; eauto|]. exists c, SOk. auto.
    + destruct (x_db x) as [d|] eqn:Ed; [destruct a|]; intros [= <- <-]; cbn; (split; [|reflexivity]); try (exists None; split; [constructor|exact I]);
        exists (Some (x, ctx_at s c, q)); (split; [econstructor; eauto|eexists c, _; split; reflexivity]).
  - unfold x_commit, x_end, do_commit. destruct (x_db x); [|intros [= <- <-]; split; [exists None; split; [constructor|exact I]|reflexivity]].
    destruct (ctx_value (x_key x) (ctx_at s c)) as [t|]; [|intros [= <- <-]; split; [exists None; split; [constructor|exact I]|reflexivity]].
    destruct (nth_error (w_txs (xs_w s)) t) as [[d l []]|] eqn:Et; try destruct a; intros [= <- <-]; (split; [|reflexivity]); exists None; (split; [|exact I]); cbn; econstructor; eauto.
  - unfold x_rollback, x_end, do_rollback. destruct (x_db x); [|intros [= <- <-]; split; [exists None; split; [constructor|exact I]|reflexivity]].
    destruct (ctx_value (x_key x) (ctx_at s c)) as [t|]; [|intros [= <- <-]; split; [exists None; split; [constructor|exact I]|reflexivity]].
    destruct (nth_error (w_txs (xs_w s)) t) as [[d l []]|] eqn:Et; intros [= <- <-]; (split; [|reflexivity]); exists None; (split; [|exact I]); cbn; econstructor; eauto.
Qed.

(* ---------------------------------------------------------------- statements reach their own database *)
Definition db_inv (h : list xop) (s : xstate) : Prop :=
  (forall c k t, In c (xs_ctx s) -> In (k, t) c -> exists o tx, In o h /\ x_key (op_x o) = k /\ nth_error (w_txs (xs_w s)) t = Some tx /\ x_db (op_x o) = Some (t_db tx)) /\
  (forall t tx q, nth_error (w_txs (xs_w s)) t = Some tx -> In q (t_stmts tx) -> exists x c a, In (OExec x c q a) h /\ x_db x = Some (t_db tx)) /\
  (forall d q, In q (w_log (xs_w s) d) -> exists x c a, In (OExec x c q a) h /\ x_db x = Some d).
Lemma ctx_at_In s c k t : In (k, t) (ctx_at s c) -> In (ctx_at s c) (xs_ctx s).
Proof. unfold ctx_at. intros H. destruct (nth_in_or_default c (xs_ctx s) []) as [X|X]; auto. rewrite X in H. destruct H. Qed.

Lemma wstep_tx w w' r : wstep w w' r -> forall t tx, nth_error (w_txs w) t = Some tx -> exists tx', nth_error (w_txs w') t = Some tx' /\ t_db tx' = t_db tx.
Proof.
  intros H t tx E. destruct H as [w|w d|w t0 d l Et|w t0 d l Et|w x c q0 t0 d l Ec Et|w x c q0 d Ec Ed]; cbn; eauto.
  1:{ exists tx. rewrite nth_error_app1; auto. apply nth_error_Some. congruence. }
  all: destruct (Nat.eq_dec t0 t) as [->|N]; [|rewrite set_tx_other; eauto]; rewrite Et in E; injection E as <-; eexists; (split; [eapply set_tx_same; eauto|reflexivity]).
Qed.

Lemma db_inv_step h s o s' e : keys_ok (h ++ [o]) -> db_inv h s -> xstep s o = (s', e) -> db_inv (h ++ [o]) s'.
Proof.
  intros Hk (I1 & I2 & I3) H. destruct (xstep_cases _ _ _ _ H) as [(r & W & Sent) C]. clear H.
  assert (Ho : In o (h ++ [o])) by (apply in_app_iff; right; now left).
  assert (Sub : forall o', In o' h -> In o' (h ++ [o])) by (intros; apply in_app_iff; auto).
  split; [|split].
  - assert (Old : forall c k t, In c (xs_ctx s) -> In (k, t) c -> exists o' tx, In o' (h ++ [o]) /\ x_key (op_x o') = k /\ nth_error (w_txs (xs_w s')) t = Some tx /\ x_db (op_x o') = Some (t_db tx)).
    { intros c k t Hc Hin. destruct (I1 c k t Hc Hin) as (o' & tx & A & B & D & E). destruct (wstep_tx _ _ _ W _ _ D) as (tx' & F & G). exists o', tx'. rewrite G. auto. }
    intros c k t Hc Hin. destruct o as [x c0 a|x c0 q a|x c0 a|x c0 a]; try (rewrite C in Hc; eauto).
    destruct C as (c' & C & C'). rewrite C, in_app_iff in Hc. destruct Hc as [Hc|[<-|[]]]; [eauto|]. destruct C' as [->|[-> (d & Ed & Et)]].
    + eapply Old; eauto. eapply ctx_at_In; eauto.
    + destruct Hin as [[= <- <-]|Hin]; [|eapply Old; eauto; eapply ctx_at_In; eauto].
      exists (OBegin x c0 a), (mkTx d [] TxOpen). split; auto. split; [reflexivity|]. split; [rewrite Et, nth_error_app2, Nat.sub_diag; auto|exact Ed].
  - assert (J2 : forall t tx q, nth_error (w_txs (xs_w s)) t = Some tx -> In q (t_stmts tx) -> exists x c a, In (OExec x c q a) (h ++ [o]) /\ x_db x = Some (t_db tx)).
    { intros t tx q E Hq. destruct (I2 t tx q E Hq) as (x & c & a & A & B). eauto 6. }
    intros t tx q E Hq. clear I2 C. destruct s as [w cs], s' as [w' cs']. cbn [xs_w xs_ctx] in *.
    destruct W as [w|w d|w t0 d l Et|w t0 d l Et|w x c q0 t0 d l Ec Et|w x c q0 d Ec Ed]; cbn [w_txs] in *.
    + eauto.
    + destruct (Nat.lt_ge_cases t (length (w_txs w))) as [L|L].
      * rewrite nth_error_app1 in E by auto. eauto.
      * rewrite nth_error_app2 in E by auto. destruct (t - length (w_txs w)) as [|[|]]; cbn in E; try discriminate. injection E as <-. destruct Hq.
    + destruct (Nat.eq_dec t0 t) as [->|N]; [|rewrite set_tx_other in E by auto; eauto].
      erewrite set_tx_same in E by eauto. injection E as <-. exact (J2 t _ q Et Hq).
    + destruct (Nat.eq_dec t0 t) as [->|N]; [|rewrite set_tx_other in E by auto; eauto].
      erewrite set_tx_same in E by eauto. injection E as <-. exact (J2 t _ q Et Hq).
    + destruct (Nat.eq_dec t0 t) as [->|N]; [|rewrite set_tx_other in E by auto; eauto].
      erewrite set_tx_same in E by eauto. injection E as <-. cbn [t_stmts t_db] in *. apply in_app_iff in Hq. destruct Hq as [Hq|[<-|[]]].
      * exact (J2 t _ q Et Hq).
      * destruct Sent as (n & a & -> & ->). exists x, n, a. split; auto. apply assoc_In in Ec. destruct (I1 _ _ _ (ctx_at_In _ _ _ _ Ec) Ec) as (o' & tx & A & B & D & F).
        rewrite Et in D. injection D as <-. cbn in F. rewrite <- F. symmetry. apply (Hk o' (OExec x n q0 a)); auto.
    + eauto.
  - assert (J2 : forall t tx q, nth_error (w_txs (xs_w s)) t = Some tx -> In q (t_stmts tx) -> exists x c a, In (OExec x c q a) (h ++ [o]) /\ x_db x = Some (t_db tx)).
    { intros t tx q E Hq. destruct (I2 t tx q E Hq) as (x & c & a & A & B). eauto 6. }
    assert (J3 : forall d q, In q (w_log (xs_w s) d) -> exists x c a, In (OExec x c q a) (h ++ [o]) /\ x_db x = Some d).
    { intros d q Hq. destruct (I3 d q Hq) as (x & c & a & A & B). eauto 6. }
    intros d0 q Hq. clear I2 I3 C. destruct s as [w cs], s' as [w' cs']. cbn [xs_w xs_ctx] in *.
    destruct W as [w|w d|w t0 d l Et|w t0 d l Et|w x c q0 t0 d l Ec Et|w x c q0 d Ec Ed]; cbn [w_log] in *; eauto.
    + apply upd_log_In in Hq. destruct Hq as [Hq|[-> Hq]]; eauto. exact (J2 t0 _ q Et Hq).
    + apply upd_log_In in Hq. destruct Hq as [Hq|[-> [<-|[]]]]; eauto. destruct Sent as (n & a & -> & ->). eauto 8.
Qed.

Lemma db_inv_run h : keys_ok h -> db_inv h (xrun xs0 h).
Proof.
  induction h as [|o h IH] using rev_ind; intros Hk.
  - split; [|split].
    + intros c k t [<-|[]] [].
    + intros [|t] tx q; discriminate.
    + intros d q [].
  - rewrite xrun_app. cbn [xrun]. destruct (xstep (xrun xs0 h) o) as [s' e] eqn:E. cbn [fst]. eapply db_inv_step; eauto. apply IH.
    intros o1 o2 H1 H2. apply Hk; apply in_app_iff; auto.
Qed.

(* ---------------------------------------------------------------- one transaction *)
Section OneTx.
  Variables (x : executor) (n t d : nat) (q : stmt).
  (** context [n] carries transaction [t] of [x]'s database *)
  Definition carries (s : xstate) : Prop := n < length (xs_ctx s) /\ ctx_value (x_key x) (ctx_at s n) = Some t /\ t < length (w_txs (xs_w s)).

  Lemma carries_step s o s' e : carries s -> xstep s o = (s', e) -> carries s'.
  Proof.
    intros (A & B & C) H. destruct (xstep_cases _ _ _ _ H) as [(r & W & _) K].
    assert (L : length (w_txs (xs_w s)) <= length (w_txs (xs_w s'))).
    { clear - W. destruct s as [w cs], s' as [w' cs']. cbn in *. destruct W; cbn; rewrite ?set_tx_length, ?app_length; lia. }
    assert (X : n < length (xs_ctx s') /\ ctx_at s' n = ctx_at s n).
    { destruct o; try (unfold ctx_at; rewrite K; auto). destruct K as (c' & K & _). unfold ctx_at. rewrite K, app_length, app_nth1; auto. split; [cbn; lia|auto]. }
    destruct X as [X Y]. split; [exact X|]. rewrite Y. split; [exact B|lia].
  Qed.
  Lemma carries_run h : forall s, carries s -> carries (xrun s h).
  Proof.
    induction h as [|o h IH]; intros s H; [exact H|]. cbn. apply IH. destruct (xstep s o) as [s' e] eqn:E. cbn. eapply carries_step; eauto.
  Qed.

  (** [q] sits in transaction [t]; no other copy exists *)
  Definition holds (s : xstate) : Prop := exists tx, nth_error (w_txs (xs_w s)) t = Some tx /\ t_db tx = d /\ In q (t_stmts tx) /\
    (In q (w_log (xs_w s) d) <-> t_state tx = TxCommitted) /\ (forall d', In q (w_log (xs_w s) d') -> d' = d) /\
    (forall t' tx', t' <> t -> nth_error (w_txs (xs_w s)) t' = Some tx' -> ~ In q (t_stmts tx')).
  Definition other (o : xop) : Prop := match o with OExec _ _ q' _ => q' <> q | _ => True end.
  Lemma holds_step s o s' e : holds s -> other o -> xstep s o = (s', e) -> holds s'.
  Proof.
    intros (tx & A & B & C & D & DD & E) Ho H. destruct (xstep_cases _ _ _ _ H) as [(r & W & Sent) _]. clear H.
    destruct s as [w cs], s' as [w' cs']. unfold holds in *. cbn [xs_w] in *.
    destruct W as [w|w d0|w t0 d0 l Et|w t0 d0 l Et|w x0 c q0 t0 d0 l Ec Et|w x0 c q0 d0 Ec Ed]; cbn [w_txs w_log].
    - exists tx. auto 10.
    - exists tx. assert (L : t < length (w_txs w)) by (apply nth_error_Some; congruence). rewrite nth_error_app1 by auto. do 5 (split; [assumption|]).
      intros t' tx' N F. destruct (Nat.lt_ge_cases t' (length (w_txs w))) as [L'|L'].
      + rewrite nth_error_app1 in F by auto. eauto.
      + rewrite nth_error_app2 in F by auto. destruct (t' - length (w_txs w)) as [|[|]]; cbn in F; try discriminate. injection F as <-. intros [].
    - destruct (Nat.eq_dec t0 t) as [->|N].
      + rewrite Et in A. injection A as <-. cbn in *. eexists. split; [eapply set_tx_same; eauto|]. cbn. split; auto. split; auto. split; [|split].
        * rewrite upd_log_In. split; auto.
        * intros d' X. apply upd_log_In in X. destruct X as [X|[X _]]; [auto|congruence].
        * intros t' tx' N F. rewrite set_tx_other in F by auto. eauto.
      + exists tx. rewrite set_tx_other by auto. do 3 (split; [assumption|]). split; [|split].
        * rewrite upd_log_In, D. split; auto. intros [X|[-> X]]; auto. exfalso. eapply (E t0); eauto.
        * intros d' X. apply upd_log_In in X. destruct X as [X|[-> X]]; [auto|]. exfalso. eapply (E t0); eauto.
        * intros t' tx' N' F. destruct (Nat.eq_dec t0 t') as [->|N'']; [erewrite set_tx_same in F by eauto; injection F as <-; apply (E t' _ N' Et)|rewrite set_tx_other in F by auto; eauto].
    - destruct (Nat.eq_dec t0 t) as [->|N].
      + rewrite Et in A. injection A as <-. cbn in *. eexists. split; [eapply set_tx_same; eauto|]. cbn. split; auto. split; auto. split; [|split; [exact DD|]].
        * rewrite D. split; discriminate.
        * intros t' tx' N F. rewrite set_tx_other in F by auto. eauto.
      + exists tx. rewrite set_tx_other by auto. do 5 (split; [assumption|]).
        intros t' tx' N' F. destruct (Nat.eq_dec t0 t') as [->|N'']; [erewrite set_tx_same in F by eauto; injection F as <-; apply (E t' _ N' Et)|rewrite set_tx_other in F by auto; eauto].
    - destruct Sent as (n0 & a & -> & _). cbn in Ho. destruct (Nat.eq_dec t0 t) as [->|N].
      + rewrite Et in A. injection A as <-. cbn in *. eexists. split; [eapply set_tx_same; eauto|]. cbn. split; auto. split; [apply in_app_iff; auto|]. split; [exact D|]. split; [exact DD|].
        intros t' tx' N F. rewrite set_tx_other in F by auto. eauto.
      + exists tx. rewrite set_tx_other by auto. do 5 (split; [assumption|]).
        intros t' tx' N' F. destruct (Nat.eq_dec t0 t') as [->|N'']; [|rewrite set_tx_other in F by auto; eauto].
        erewrite set_tx_same in F by eauto. injection F as <-. cbn. rewrite in_app_iff. intros [X|[X|[]]]; [exact (E t' _ N' Et X)|congruence].
    - destruct Sent as (n0 & a & -> & _). cbn in Ho. exists tx. do 3 (split; [assumption|]). split; [|split; [|exact E]].
      + rewrite upd_log_In, D. split; auto. intros [X|[_ [X|[]]]]; auto. congruence.
      + intros d' X. apply upd_log_In in X. destruct X as [X|[_ [X|[]]]]; [auto|congruence].
  Qed.
  Lemma holds_run h : forall s, holds s -> Forall other h -> holds (xrun s h).
  Proof.
    induction h as [|o h IH]; intros s H F; [exact H|]. inversion F; subst. cbn. apply IH; auto. destruct (xstep s o) as [s' e] eqn:E. cbn. eapply holds_step; eauto.
  Qed.
  (** before it is executed, the statement is nowhere *)
  Definition absent (s : xstate) : Prop := (forall d, ~ In q (w_log (xs_w s) d)) /\ (forall t' tx', nth_error (w_txs (xs_w s)) t' = Some tx' -> ~ In q (t_stmts tx')).
  Lemma absent_step s o s' e : absent s -> other o -> xstep s o = (s', e) -> absent s'.
  Proof.
    intros [A B] Ho H. destruct (xstep_cases _ _ _ _ H) as [(r & W & Sent) _]. clear H.
    destruct s as [w cs], s' as [w' cs']. unfold absent in *. cbn [xs_w] in *.
    destruct W as [w|w d0|w t0 d0 l Et|w t0 d0 l Et|w x0 c q0 t0 d0 l Ec Et|w x0 c q0 d0 Ec Ed]; cbn [w_txs w_log]; split; auto.
    - intros t' tx' F. destruct (Nat.lt_ge_cases t' (length (w_txs w))) as [L'|L'].
      + rewrite nth_error_app1 in F by auto. eauto.
      + rewrite nth_error_app2 in F by auto. destruct (t' - length (w_txs w)) as [|[|]]; cbn in F; try discriminate. injection F as <-. intros [].
    - intros d1. rewrite upd_log_In. intros [X|[_ X]]; [exact (A _ X)|exact (B _ _ Et X)].
    - intros t' tx' F. destruct (Nat.eq_dec t0 t') as [->|N'']; [erewrite set_tx_same in F by eauto; injection F as <-; exact (B _ _ Et)|rewrite set_tx_other in F by auto; eauto].
    - intros t' tx' F. destruct (Nat.eq_dec t0 t') as [->|N'']; [erewrite set_tx_same in F by eauto; injection F as <-; exact (B _ _ Et)|rewrite set_tx_other in F by auto; eauto].
    - destruct Sent as (n0 & a & -> & _). cbn in Ho. intros t' tx' F. destruct (Nat.eq_dec t0 t') as [->|N'']; [|rewrite set_tx_other in F by auto; eauto].
      erewrite set_tx_same in F by eauto. injection F as <-. cbn. rewrite in_app_iff. intros [X|[X|[]]]; [exact (B _ _ Et X)|congruence].
    - destruct Sent as (n0 & a & -> & _). cbn in Ho. intros d1. rewrite upd_log_In. intros [X|[_ [X|[]]]]; [exact (A _ X)|congruence].
  Qed.
  Lemma absent_run h : forall s, absent s -> Forall other h -> absent (xrun s h).
  Proof.
    induction h as [|o h IH]; intros s H F; [exact H|]. inversion F; subst. cbn. apply IH; auto. destruct (xstep s o) as [s' e] eqn:E. cbn. eapply absent_step; eauto.
  Qed.
  Lemma exec_holds s a : absent s -> carries s -> (forall tx, nth_error (w_txs (xs_w s)) t = Some tx -> t_db tx = d) -> snd (xstep s (OExec x n q a)) = None -> holds (fst (xstep s (OExec x n q a))).
  Proof.
    intros [A1 A2] (B & C & D) Hd. cbn. unfold x_exec. rewrite C. destruct (nth_error (w_txs (xs_w s)) t) as [[d0 l []]|] eqn:E; try discriminate.
    destruct a; try discriminate. intros _. cbn. specialize (Hd _ eq_refl). cbn in Hd. subst d0.
    exists (mkTx d (l ++ [q]) TxOpen). cbn. split; [eapply set_tx_same; eauto|]. split; auto. split; [apply in_app_iff; right; now left|]. split.
    - split; [intros X; exfalso; eapply A1; eauto|discriminate].
    - split; [intros d' X; exfalso; eapply A1; eauto|]. intros t' tx' N F. rewrite set_tx_other in F by auto. eauto.
  Qed.
End OneTx.

(** From the answers: what a successfully executed statement's fate depends on. *)
Lemma begin_carries past x c d : x_db x = Some d ->
  let s := xrun xs0 (past ++ [OBegin x c SOk]) in let t := length (w_txs (xs_w (xrun xs0 past))) in
  carries x (next_ctx past) t s /\ (exists tx, nth_error (w_txs (xs_w s)) t = Some tx /\ t_db tx = d).
Proof.
  intros Hd s t. unfold s. rewrite xrun_app. cbn. unfold x_begin. rewrite Hd. cbn. unfold carries, next_ctx, ctx_at. cbn. split.
  - rewrite !app_length. cbn. split; [lia|]. split; [|unfold t; lia]. rewrite app_nth2, Nat.sub_diag by lia. cbn. unfold ctx_value. cbn. now rewrite String.eqb_refl.
  - exists (mkTx d [] TxOpen). split; [|reflexivity]. unfold t. now rewrite nth_error_app2, Nat.sub_diag by lia.
Qed.
Lemma db_run t d h : forall s, (exists tx, nth_error (w_txs (xs_w s)) t = Some tx /\ t_db tx = d) -> exists tx, nth_error (w_txs (xs_w (xrun s h))) t = Some tx /\ t_db tx = d.
Proof.
  induction h as [|o h IH]; intros s H; [exact H|]. cbn. apply IH. destruct (xstep s o) as [s' e] eqn:E. cbn. destruct H as (tx & A & B).
  destruct (xstep_cases _ _ _ _ E) as [(r & W & _) _]. destruct (wstep_tx _ _ _ W _ _ A) as (tx' & C & D). exists tx'. split; auto. congruence.
Qed.
Lemma other_all q h : ~ In q (stmts_of h) -> Forall (other q) h.
Proof.
  intros H. apply Forall_forall. intros o Ho. destruct o as [| x c q' a | |]; cbn; auto. intros ->. apply H. unfold stmts_of. apply in_flat_map. eexists. split; [exact Ho|now left].
Qed.
Lemma absent0 q : absent q xs0.
Proof. split; [intros d []|]. intros [|t'] tx'; discriminate. Qed.
Lemma fate past x c d h1 q a h2 : x_db x = Some d -> let n := next_ctx past in let b := past ++ [OBegin x c SOk] in
  NoDup (stmts_of (b ++ h1 ++ OExec x n q a :: h2)) -> answered (b ++ h1) (OExec x n q a) = None ->
  let t := length (w_txs (xs_w (xrun xs0 past))) in
  carries x n t (xrun xs0 (b ++ h1 ++ OExec x n q a :: h2)) /\ holds t d q (xrun xs0 (b ++ h1 ++ OExec x n q a :: h2)).
Proof.
  intros Hd n b Hn Ha t. destruct (begin_carries past x c d Hd) as [C T]. fold n t b in C, T. split.
  - rewrite xrun_app. apply carries_run. exact C.
  - assert (Hq : ~ In q (stmts_of (b ++ h1)) /\ ~ In q (stmts_of h2)).
    { rewrite app_assoc in Hn. unfold stmts_of in *. rewrite flat_map_app in Hn. cbn in Hn. apply NoDup_remove_2 in Hn. rewrite in_app_iff in Hn. tauto. }
    destruct Hq as [Q1 Q2]. rewrite app_assoc, xrun_app. cbn [xrun]. apply holds_run; [|now apply other_all].
    apply (exec_holds x n t d q).
    + apply absent_run; [apply absent0|now apply other_all].
    + rewrite xrun_app. apply carries_run. exact C.
    + intros tx E. destruct (db_run t d h1 _ T) as (tx' & E' & D). rewrite <- xrun_app in E'. rewrite E in E'. congruence.
    + exact Ha.
Qed.

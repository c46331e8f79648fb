(** C66: transactions of the MySQL executor. *)
From Coq Require Import DecimalString DecimalNat.
From Verif Require Import TxProof.
Local Open Scope string_scope. Local Open Scope list_scope. Local Open Scope nat_scope.

(** Every statement that took effect in database [d] was executed through an executor of [d], as long as executors with the
    same key are on the same database. *)
Theorem C66_own_database_partial :
  forall h d q, keys_ok h -> In q (content d h) -> exists x c a, In (OExec x c q a) h /\ x_db x = Some d.
Proof. intros h d q Hk H. destruct (db_inv_run h Hk) as (_ & _ & I). exact (I d q H). Qed.
Print Assumptions C66_own_database_partial.
(** Executors made in different seconds have different keys. *)
Theorem C66_keys_of_different_seconds : forall db1 s1 db2 s2, x_key (new_executor db1 s1) = x_key (new_executor db2 s2) -> s1 = s2.
Proof.
  intros db1 s1 db2 s2 H. cbn in H. unfold tx_key in H. cbn in H. injection H as H.
  apply (f_equal NilEmpty.uint_of_string) in H. rewrite !NilEmpty.usu in H. injection H as H. now apply Unsigned.to_uint_inj.
Qed.
Print Assumptions C66_keys_of_different_seconds.
(** Those made in the same second share the key, and then a statement sent to the second database within a transaction of
    the first is executed in the first. *)
Theorem C66_same_second_refuted :
  ~ (forall sec d1 d2 h d q, d1 <> d2 -> (forall o, In o h -> op_x o = new_executor (Some d1) sec \/ op_x o = new_executor (Some d2) sec) ->
     In q (content d h) -> exists x c a, In (OExec x c q a) h /\ x_db x = Some d).
Proof.
  intros H. set (x1 := new_executor (Some 1) 7). set (x2 := new_executor (Some 2) 7).
  destruct (H 7 1 2 [OBegin x1 0 SOk; OExec x2 1 5 SOk; OCommit x1 1 SOk] 1 5) as (x & c & a & A & B).
  - lia.
  - intros o [<-|[<-|[<-|[]]]]; cbn; auto.
  - vm_compute. auto.
  - destruct A as [A|[A|[A|[]]]]; try discriminate. injection A as <- _ _. discriminate.
Qed.
Print Assumptions C66_same_second_refuted.

Local Lemma NoDup_app_first {A} (l1 l2 : list A) : NoDup (l1 ++ l2) -> NoDup l1.
Proof. induction l1; cbn; intros H; constructor; inversion H; subst; auto. intros X. apply H2. apply in_or_app. now left. Qed.

(** Of the statements executed with the context of one Begin, either all take effect or none, and only in the executor's
    database; whatever other calls, contexts and transactions there are in between. *)
Theorem C66_all_or_nothing :
  forall past x c d h q1 q2, x_db x = Some d -> let n := next_ctx past in let b := past ++ [OBegin x c SOk] in
  NoDup (stmts_of h) -> executed_in b x n h q1 -> executed_in b x n h q2 ->
  (In q1 (content d h) <-> In q2 (content d h)) /\ (forall d', In q1 (content d' h) -> d' = d).
Proof.
  intros past x c d h q1 q2 Hd n b Hn (m1 & r1 & a1 & E1 & A1) (m2 & r2 & a2 & E2 & A2).
  destruct (fate past x c d m1 q1 a1 r1 Hd) as [_ H1]; [fold b n; now rewrite <- E1|exact A1|].
  destruct (fate past x c d m2 q2 a2 r2 Hd) as [_ H2]; [fold b n; now rewrite <- E2|exact A2|].
  fold b n in H1, H2. rewrite <- E1 in H1. rewrite <- E2 in H2.
  destruct H1 as (tx & X1 & X2 & X3 & X4 & X5 & _). destruct H2 as (tx' & Y1 & Y2 & Y3 & Y4 & _). unfold content. rewrite X1 in Y1. injection Y1 as <-. rewrite X4, Y4. split; [reflexivity|exact X5].
Qed.
Print Assumptions C66_all_or_nothing.

(** A commit that returned no error makes them visible; after a rollback that was not too late they never are. *)
Theorem C66_commit_and_rollback :
  forall past x c d m1 q a m2 ae, x_db x = Some d -> let n := next_ctx past in let b := past ++ [OBegin x c SOk] in
  let h := b ++ m1 ++ OExec x n q a :: m2 in answered (b ++ m1) (OExec x n q a) = None ->
  (forall m3, NoDup (stmts_of (h ++ OCommit x n ae :: m3)) -> answered h (OCommit x n ae) = None -> In q (content d (h ++ OCommit x n ae :: m3))) /\
  (forall m3, NoDup (stmts_of (h ++ ORollback x n ae :: m3)) -> answered h (ORollback x n ae) <> Some XTxDone -> forall d', ~ In q (content d' (h ++ ORollback x n ae :: m3))).
Proof.
  intros past x c d m1 q a m2 ae Hd n b h Ha.
  set (t := length (w_txs (xs_w (xrun xs0 past)))).
  assert (F : forall o m3, NoDup (stmts_of (h ++ o :: m3)) -> carries x n t (xrun xs0 h) /\ holds t d q (xrun xs0 h) /\
             carries x n t (xrun xs0 (h ++ o :: m3)) /\ holds t d q (xrun xs0 (h ++ o :: m3))).
  { intros o m3 Hn. assert (Hn0 : NoDup (stmts_of h)).
    { unfold stmts_of in *. rewrite flat_map_app in Hn. apply NoDup_app_first in Hn. exact Hn. }
    destruct (fate past x c d m1 q a m2 Hd Hn0 Ha) as [C1 H1]. split; [exact C1|]. split; [exact H1|].
    assert (E : h ++ o :: m3 = b ++ m1 ++ OExec x n q a :: (m2 ++ o :: m3)). { unfold h. rewrite <- !app_assoc. cbn. reflexivity. }
    rewrite E in *. apply (fate past x c d m1 q a (m2 ++ o :: m3) Hd Hn Ha). }
  (* a finished transaction stays finished *)
  assert (St : forall h' s st, st <> TxOpen -> (exists tx, nth_error (w_txs (xs_w s)) t = Some tx /\ t_state tx = st) -> exists tx, nth_error (w_txs (xs_w (xrun s h'))) t = Some tx /\ t_state tx = st).
  { induction h' as [|o h' IH]; intros s st Ns X; [exact X|]. cbn. apply (IH _ st); auto. destruct (xstep s o) as [s' e] eqn:E. cbn. destruct X as (tx & X1 & X2).
    destruct (xstep_cases _ _ _ _ E) as [(r & W & _) _]. clear E. destruct s as [w cs], s' as [w' cs']. cbn [xs_w] in *.
    destruct W as [w|w d0|w t0 d0 l Et|w t0 d0 l Et|w x0 c0 q0 t0 d0 l Ec Et|w x0 c0 q0 d0 Ec Ed]; cbn [w_txs]; eauto.
    1:{ exists tx. split; auto. rewrite nth_error_app1; auto. apply nth_error_Some. congruence. }
    all: destruct (Nat.eq_dec t0 t) as [->|N]; [rewrite Et in X1; injection X1 as <-; cbn in X2; congruence|rewrite set_tx_other; eauto]. }
  split; intros m3 Hn Hans; destruct (F _ _ Hn) as (C1 & (tx1 & X1 & X2 & X3 & X4 & X5 & _) & _ & (tx2 & Y1 & Y2 & Y3 & Y4 & Y5 & _)); unfold content; unfold answered in Hans; destruct C1 as (_ & Cv & _).
  - apply Y4. destruct (St m3 (fst (xstep (xrun xs0 h) (OCommit x n ae))) TxCommitted) as (tx & Z1 & Z2); [discriminate| |].
    + cbn in *. unfold x_commit, x_end in *. rewrite Hd, Cv in *. unfold do_commit in *. rewrite X1 in *. destruct tx1 as [d1 l1 []]; try discriminate. destruct ae; try discriminate. cbn.
      eexists. split; [eapply set_tx_same; eauto|reflexivity].
    + rewrite xrun_app in Y1. cbn [xrun] in Y1. rewrite Y1 in Z1. injection Z1 as <-. exact Z2.
  - assert (Z : t_state tx2 = TxRolledBack).
    { destruct (St m3 (fst (xstep (xrun xs0 h) (ORollback x n ae))) TxRolledBack) as (tx & Z1 & Z2); [discriminate| |].
      + cbn in *. unfold x_rollback, x_end in *. rewrite Hd, Cv in *. unfold do_rollback in *. rewrite X1 in *. destruct tx1 as [d1 l1 []]; cbn in *; try congruence.
        eexists. split; [eapply set_tx_same; eauto|reflexivity].
      + rewrite xrun_app in Y1. cbn [xrun] in Y1. rewrite Y1 in Z1. injection Z1 as <-. exact Z2. }
    intros d' Hin. assert (d' = d) as -> by now apply Y5. apply Y4 in Hin. congruence.
Qed.
Print Assumptions C66_commit_and_rollback.

(** Commit and RollBack, however they are answered, are the end of the context's transaction: whatever is done with the
    context later, and whatever happened in between, is refused and changes nothing. *)
Definition ends (x : executor) (n : nat) (o : xop) : Prop := exists a, o = OCommit x n a \/ o = ORollback x n a.
Theorem C66_finished_for_good :
  forall past x c d h1 o h2 o', x_db x = Some d -> let n := next_ctx past in let h := past ++ [OBegin x c SOk] ++ h1 ++ o :: h2 in
  ends x n o -> ends x n o' \/ (exists q a, o' = OExec x n q a) ->
  answered h o' = Some XTxDone /\ forall d', content d' (h ++ [o']) = content d' h.
Proof.
  intros past x c d h1 o h2 o' Hd n h He Ho.
  destruct (begin_carries past x c d Hd) as [C (tx0 & T0 & _)]. fold n in C. set (t := length (w_txs (xs_w (xrun xs0 past)))) in *.
  set (sb := xrun xs0 (past ++ [OBegin x c SOk])) in *.
  assert (Eh : xrun xs0 h = xrun (fst (xstep (xrun sb h1) o)) h2).
  { unfold h, sb. rewrite !xrun_app. reflexivity. }
  pose proof (carries_run x n t h1 sb C) as C1. destruct C1 as (L1 & V1 & K1).
  (* the end *)
  assert (F : exists tx, nth_error (w_txs (xs_w (fst (xstep (xrun sb h1) o)))) t = Some tx /\ t_state tx <> TxOpen).
  { destruct (nth_error (w_txs (xs_w (xrun sb h1))) t) as [tx|] eqn:Et; [|apply nth_error_None in Et; lia].
    destruct He as (a & [-> | ->]); cbn [xstep]; unfold x_commit, x_rollback, x_end; rewrite Hd, V1; unfold do_commit, do_rollback; rewrite Et;
      destruct tx as [d1 l1 []]; try (cbn; eexists; split; [exact Et|discriminate]); try destruct a; cbn; (eexists; split; [eapply set_tx_same; exact Et|discriminate]). }
  assert (G : exists tx, nth_error (w_txs (xs_w (xrun xs0 h))) t = Some tx /\ t_state tx <> TxOpen).
  { rewrite Eh. clear - F. revert F. generalize (fst (xstep (xrun sb h1) o)). induction h2 as [|o2 h2 IH]; intros s F; [exact F|]. cbn [xrun]. apply IH.
    destruct (xstep s o2) as [s' e] eqn:E. cbn [fst]. destruct F as (tx & X1 & X2). destruct (xstep_cases _ _ _ _ E) as [(r & W & _) _]. clear E. destruct s as [w cs], s' as [w' cs']. cbn [xs_w] in *.
    destruct W as [w|w d0|w t0 d0 l Et|w t0 d0 l Et|w x0 c0 q0 t0 d0 l Ec Et|w x0 c0 q0 d0 Ec Ed]; cbn [w_txs]; eauto.
    1:{ exists tx. split; auto. rewrite nth_error_app1; auto. apply nth_error_Some. congruence. }
    all: destruct (Nat.eq_dec t0 t) as [->|N]; [rewrite Et in X1; injection X1 as <-; cbn in X2; congruence|rewrite set_tx_other; eauto]. }
  assert (V : ctx_value (x_key x) (ctx_at (xrun xs0 h) n) = Some t).
  { replace (xrun xs0 h) with (xrun sb (h1 ++ o :: h2)) by (unfold h, sb; rewrite !xrun_app; reflexivity). exact (proj1 (proj2 (carries_run x n t (h1 ++ o :: h2) sb C))). }
  destruct G as (tx & G1 & G2). unfold answered, content. rewrite xrun_app. cbn [xrun].
  destruct Ho as [(a & [-> | ->])|(q & a & ->)]; cbn [xstep]; unfold x_commit, x_rollback, x_end, do_commit, do_rollback, x_exec; rewrite ?Hd, V, G1;
    destruct tx as [d1 l1 []]; try (cbn in G2; congruence); cbn; auto.
Qed.
Print Assumptions C66_finished_for_good.
Example C66_finished_example :
  let x := new_executor (Some 1) 7 in let h := [OBegin x 0 SOk; OExec x 1 5 SOk; OCommit x 1 SFail; OBegin x 0 SOk] in
  answered h (OCommit x 1 SOk) = Some XTxDone /\ answered h (OExec x 1 6 SOk) = Some XTxDone /\ content 1 (h ++ [OCommit x 1 SOk]) = [].
Proof. vm_compute. auto. Qed.

(** A run started inside another run (with the context of the outer run) has its own transaction: what it committed stays
    although the outer run rolls back. *)
Theorem C66_nested_run_refuted :
  ~ (forall past x c d m1 q a m2 n', x_db x = Some d -> let n := next_ctx past in let b := past ++ [OBegin x c SOk] in
     let h := b ++ [OBegin x n SOk] ++ m1 ++ OExec x n' q a :: m2 in
     n' = next_ctx b -> NoDup (stmts_of h) -> answered h (ORollback x n SOk) = None -> ~ In q (content d (h ++ [ORollback x n SOk]))).
Proof.
  intros H. set (x := new_executor (Some 1) 7).
  apply (H [] x 0 1 [] 5 SOk [OCommit x 2 SOk] 2); try reflexivity.
  - repeat constructor. intros [].
  - vm_compute. auto.
Qed.
Print Assumptions C66_nested_run_refuted.

(** Commit or RollBack with a context that carries no transaction of the executor is refused with ErrNoTransaction, and has no
    effect; without a database, with ErrInvalidDB. *)
Theorem C66_end_without_begin :
  forall x c a w, (x_db x = None -> x_begin x c a w = ((c, Some XInvalidDB), w) /\ x_commit x c a w = (Some XInvalidDB, w) /\ x_rollback x c a w = (Some XInvalidDB, w)) /\
    ((forall t, ~ In (x_key x, t) c) -> x_db x <> None -> x_commit x c a w = (Some XNoTx, w) /\ x_rollback x c a w = (Some XNoTx, w)).
Proof.
  intros x c a w. unfold x_begin, x_commit, x_rollback, x_end. split.
  - intros ->. auto.
  - intros H Hd. destruct (x_db x); [|contradiction]. assert (E : ctx_value (x_key x) c = None).
    { unfold ctx_value. clear Hd. induction c as [|[k v] c IH]; cbn; auto. destruct (String.eqb_spec (x_key x) k) as [E|]; [exfalso; apply (H v); left; congruence|]. apply IH. intros t X. apply (H t). now right. }
    now rewrite E.
Qed.
Print Assumptions C66_end_without_begin.

(** A statement with a context that carries no transaction of the executor: if it is answered without error it has taken effect in the
    executor's database, there only, at once and for good - whatever is rolled back later; if the server refused it, the error is
    reported and nothing has changed. *)
Theorem C66_without_transaction : forall past x c q a, (forall t, ~ In (x_key x, t) (ctx_at (xrun xs0 past) c)) ->
  match x_db x with
  | None => answered past (OExec x c q a) = Some XInvalidDB /\ forall d, content d (past ++ [OExec x c q a]) = content d past
  | Some d =>
      (answered past (OExec x c q a) = None -> content d (past ++ [OExec x c q a]) = content d past ++ [q] /\
         (forall d', d' <> d -> content d' (past ++ [OExec x c q a]) = content d' past) /\ forall rest, In q (content d (past ++ OExec x c q a :: rest))) /\
      (a = SFail -> answered past (OExec x c q a) = Some XServer /\ forall d', content d' (past ++ [OExec x c q a]) = content d' past) /\
      (a = SOk -> answered past (OExec x c q a) = None)
  end.
Proof.
  intros past x c q a H. assert (E : ctx_value (x_key x) (ctx_at (xrun xs0 past) c) = None).
  { unfold ctx_value. induction (ctx_at (xrun xs0 past) c) as [|[k v] l IH]; cbn; auto. destruct (String.eqb_spec (x_key x) k) as [E|]; [exfalso; apply (H v); left; congruence|]. apply IH. intros t X. apply (H t). now right. }
  assert (M : forall rest s d, In q (w_log (xs_w s) d) -> In q (w_log (xs_w (xrun s rest)) d)).
  { clear. induction rest as [|o rest IH]; intros s d I; cbn [xrun]; auto. apply IH. destruct (xstep s o) as [s' e] eqn:X. destruct (xstep_cases _ _ _ _ X) as ((r & W & _) & _). cbn [fst].
    destruct W; cbn [w_log]; auto; apply upd_log_In; auto. }
  unfold answered, content. destruct (x_db x) as [d|] eqn:D.
  - split; [|split].
    + intros A. cbn [xstep] in A. unfold x_exec in A. rewrite E, D in A. destruct a; cbn in A; try discriminate A.
      assert (L : w_log (xs_w (xrun xs0 (past ++ [OExec x c q SOk]))) = upd_log (xs_w (xrun xs0 past)) d [q]).
      { rewrite xrun_app. cbn [xrun xstep]. unfold x_exec. rewrite E, D. reflexivity. }
      rewrite L. unfold upd_log. rewrite Nat.eqb_refl. split; [reflexivity|]. split; [intros d' N; destruct (Nat.eqb_spec d' d); [contradiction|reflexivity]|].
      intros rest. change (past ++ OExec x c q SOk :: rest) with (past ++ [OExec x c q SOk] ++ rest). rewrite app_assoc, xrun_app. apply M. rewrite L. apply upd_log_In. right. split; [reflexivity|now left].
    + intros ->. cbn [xstep]. unfold x_exec. rewrite E, D. split; [reflexivity|]. intros d'. rewrite xrun_app. cbn [xrun xstep]. unfold x_exec. rewrite E, D. reflexivity.
    + intros ->. cbn [xstep]. unfold x_exec. rewrite E, D. reflexivity.
  - cbn [xstep]. unfold x_exec. rewrite E, D. split; [reflexivity|]. intros d. rewrite xrun_app. cbn [xrun xstep]. unfold x_exec. rewrite E, D. reflexivity.
Qed.
Print Assumptions C66_without_transaction.

(** No refusal is swallowed: a call that is answered without error was answered without error by the server. *)
Definition server_says (o : xop) : sans := match o with OBegin _ _ a | OExec _ _ _ a | OCommit _ _ a | ORollback _ _ a => a end.
Theorem C66_refusals_are_reported : forall past o, answered past o = None -> server_says o = SOk.
Proof.
  intros past o. unfold answered. destruct o as [x c a|x c q a|x c a|x c a]; cbn [xstep server_says].
  - unfold x_begin. destruct (x_db x); [|discriminate]. destruct a; cbn; auto; discriminate.
  - unfold x_exec. destruct (ctx_value _ _) as [t|]; [destruct (nth_error _ t) as [[d l []]|]|destruct (x_db x)]; destruct a; cbn; auto; discriminate.
  - unfold x_commit, x_end, do_commit. destruct (x_db x); [|discriminate]. destruct (ctx_value _ _) as [t|]; [|discriminate]. destruct (nth_error _ t) as [[d l []]|]; destruct a; cbn; auto; discriminate.
  - unfold x_rollback, x_end, do_rollback. destruct (x_db x); [|discriminate]. destruct (ctx_value _ _) as [t|]; [|discriminate]. destruct (nth_error _ t) as [[d l []]|]; destruct a; cbn; auto; discriminate.
Qed.
Print Assumptions C66_refusals_are_reported.

Example C66_example :
  let x := new_executor (Some 1) 7 in let y := new_executor (Some 2) 9 in
  let h := [OBegin x 0 SOk; OBegin y 1 SOk; OExec x 2 10 SOk; OExec y 2 20 SOk; OExec x 1 11 SOk; OCommit x 2 SOk; OExec x 1 12 SOk; ORollback y 2 SOk] in
  content 1 h = [10; 11] /\ content 2 h = [] /\ keys_ok h /\ NoDup (stmts_of h) /\
  executed_in [OBegin x 0 SOk] x 1 h 11 /\ answered [OBegin x 0 SOk; OBegin y 1 SOk; OExec x 2 10 SOk; OExec y 2 20 SOk; OExec x 1 11 SOk; OCommit x 2 SOk] (OExec x 1 12 SOk) = Some XTxDone.
Proof.
  split; [vm_compute; reflexivity|]. split; [vm_compute; reflexivity|]. split; [|split; [|split; [|vm_compute; reflexivity]]].
  - intros o1 o2 H1 H2. cbn in H1, H2. repeat (destruct H1 as [<-|H1]; [repeat (destruct H2 as [<-|H2]; [vm_compute; intros E; try discriminate; reflexivity|]); destruct H2|]). destruct H1.
  - repeat constructor; cbn; lia.
  - exists [OBegin (new_executor (Some 2) 9) 1 SOk; OExec (new_executor (Some 1) 7) 2 10 SOk; OExec (new_executor (Some 2) 9) 2 20 SOk], [OCommit (new_executor (Some 1) 7) 2 SOk; OExec (new_executor (Some 1) 7) 1 12 SOk; ORollback (new_executor (Some 2) 9) 2 SOk], SOk.
    split; [reflexivity|vm_compute; reflexivity].
Qed.

From Verif Require Export MysqlRun TxProof EngineProof4.

(* ---------------------------------------------------------------- what the calls of a run become *)
Section Shape.
  Variable plan : nat -> list stmt.

  Lemma micros_app a : forall b i ms, micros plan i (a ++ b) ms -> exists ma mb, ms = ma ++ mb /\ micros plan i a ma /\ micros plan (i + length a) b mb.
  Proof.
    induction a as [|[c r] a IH]; intros b i ms H.
    - exists [], ms. cbn. rewrite Nat.add_0_r. repeat split; auto. constructor.
    - cbn [app] in H. cbn [length]. rewrite Nat.add_succ_r, <- Nat.add_succ_l.
      inversion H as [|i0 r0 t0 ms0 M|i0 r0 t0 ms0 M|i0 r0 t0 ms0 M|i0 a0 r0 t0 ms0 O M|i0 a0 r0 t0 ms0 l1 l2 O P M|i0 a0 r0 t0 ms0 l1 q l2 O P M|i0 c0 r0 t0 ms0 O P M]; subst;
        destruct (IH _ _ _ M) as (ma & mb & -> & A & B).
      + exists (MBegin (answered_ok r) :: ma), mb. repeat split; auto. now constructor.
      + exists (MCommit (answered_ok r) :: ma), mb. repeat split; auto. now constructor.
      + exists (MRollback (answered_ok r) :: ma), mb. repeat split; auto. now constructor.
      + exists (accepted (plan i) ++ ma), mb. rewrite app_assoc. repeat split; auto. now constructor.
      + exists (accepted l1 ++ ma), mb. rewrite app_assoc. repeat split; auto. eapply mi_exec_stopped; eauto.
      + exists (accepted l1 ++ MStmt q false :: ma), mb. rewrite <- app_assoc. repeat split; auto. eapply mi_exec_refused; eauto.
      + exists ma, mb. repeat split; auto. now apply mi_other.
  Qed.
  Lemma micros_none l : forall i ms, Forall (fun c => is_tx_call (fst c) = false /\ is_write (fst c) = false) l -> micros plan i l ms -> ms = [].
  Proof.
    induction l as [|[c r] l IH]; intros i ms F H; [inversion H; auto|]. inversion F as [|? ? [X Y] F']; subst; cbn in X, Y. inversion H; subst; try discriminate; eauto.
  Qed.
  Definition is_stmt (m : micro) : Prop := match m with MStmt _ _ => True | _ => False end.
  Definition is_roll (m : micro) : Prop := match m with MRollback _ => True | _ => False end.
  Lemma accepted_stmts l : Forall is_stmt (accepted l).
  Proof. induction l; constructor; cbn; auto. Qed.
  Lemma micros_stmts l : forall i ms, Forall (fun c => is_tx_call (fst c) = false) l -> micros plan i l ms -> Forall is_stmt ms.
  Proof.
    induction l as [|[c r] l IH]; intros i ms F H; [inversion H; constructor|]. inversion F as [|? ? X F']; subst; cbn in X. inversion H; subst; try discriminate;
      try (apply Forall_app; split; [apply accepted_stmts|]); eauto. constructor; [exact Logic.I|eauto].
  Qed.
  Lemma micros_rolls l : forall i ms, Forall (fun c => is_write (fst c) = false /\ (fst c <> KBegin /\ fst c <> KCommit)) l -> micros plan i l ms -> Forall is_roll ms.
  Proof.
    induction l as [|[c r] l IH]; intros i ms F H; [inversion H; constructor|]. inversion F as [|? ? (X & Y & Z) F']; subst; cbn in X, Y, Z. inversion H; subst; try discriminate; try congruence; eauto.
    constructor; [exact Logic.I|eauto].
  Qed.
  Lemma micros_own l : forall i ms q b, micros plan i l ms -> In (MStmt q b) ms -> own_stmt plan q.
  Proof.
    induction l as [|[c r] l IH]; intros i ms q b H Hi; inversion H; subst; try (destruct Hi as [Hi|Hi]; [discriminate|]); try (exfalso; exact Hi); eauto;
      apply in_app_iff in Hi; (destruct Hi as [Hi|Hi]; [unfold accepted in Hi; apply in_map_iff in Hi; destruct Hi as (q' & [= -> <-] & Hq); exists i|]); auto; eauto.
    - rewrite H6. apply in_app_iff. auto.
    - rewrite H6. apply in_app_iff. auto.
    - destruct Hi as [[= -> <-]|Hi]; [|eauto]. exists i. rewrite H6. apply in_app_iff. right. now left.
  Qed.
  Lemma micros_accepted l : forall i ms j a r q, micros plan i l ms -> nth_error l j = Some (KExec a, r) -> r_ans r = AOk -> In q (plan (i + j)) -> In (MStmt q true) ms.
  Proof.
    induction l as [|[c r] l IH]; intros i ms [|j] a r' q H Hn Ha Hq; cbn in Hn; try discriminate.
    - injection Hn as -> ->. rewrite Nat.add_0_r in Hq. assert (O : answered_ok r' = true) by (unfold answered_ok; now rewrite Ha).
      inversion H; subst; try congruence; try discriminate. apply in_app_iff. left. unfold accepted. apply in_map_iff. eauto.
    - rewrite Nat.add_succ_r, <- Nat.add_succ_l in Hq. inversion H; subst; try (right; eauto; fail); eauto; apply in_app_iff; right; try right; eauto.
  Qed.

  (** The end of a transaction, as the executor sees it. *)
  Inductive ending : list micro -> Prop :=
  | en_died : ending []
  | en_commit b rolls : Forall is_roll rolls -> ending (MCommit b :: rolls)
  | en_roll b rolls : Forall is_roll rolls -> ending (MRollback b :: rolls).

  Lemma tx_end_micros cfg s1 of tl o i ms : tx_end cfg s1 of tl o -> micros plan i tl ms -> ending ms /\
    ((exists rolls, ms = MCommit true :: rolls) /\ (o = Panic \/ exists r, o = Done r /\ bad r = false) \/
     ~ In (MCommit true) ms /\ (forall r, o = Done r -> bad r = true)).
  Proof.
    assert (R : forall l ms', Forall is_roll ms' -> l = ms' -> ~ In (MCommit true) l).
    { intros l ms' F -> Hi. rewrite Forall_forall in F. exact (F _ Hi). }
    assert (X : forall P (more : list (call * resp)), Forall P more -> (forall c, P c -> fst c = KRollback \/ fst c = KBusRollback \/ fst c = KBusCommit) ->
      Forall (fun c : call * resp => is_write (fst c) = false /\ (fst c <> KBegin /\ fst c <> KCommit)) more).
    { intros P more F HP. eapply Forall_impl; [|exact F]. intros c Hc. destruct (HP c Hc) as [-> |[-> | ->]]; repeat split; discriminate. }
    intros [|r|res r more o1 Hb Ho Hm Hc|res r more o1 Hb Hr Ho Hm|res r more o1 Hb Hr Ho Hm Hc] M.
    - inversion M; subst. split; [constructor|]. right. split; [intros []|discriminate].
    - inversion M as [|? ? ? ? M0|? ? ? ? M0|? ? ? ms0 M0|? ? ? ? ? ? M0|? ? ? ? ? ? ? ? ? M0|? ? ? ? ? ? ? ? ? ? M0|? ? ? ? ? E ? M0]; subst; [|discriminate].
      inversion M0; subst. split; [now constructor|]. right. split; [intros [|[]]; discriminate|discriminate].
    - inversion M as [|? ? ? ? M0|? ? ? ? M0|? ? ? ms0 M0|? ? ? ? ? ? M0|? ? ? ? ? ? ? ? ? M0|? ? ? ? ? ? ? ? ? ? M0|? ? ? ? ? E ? M0]; subst; [|discriminate].
      assert (F : Forall is_roll ms0) by (eapply micros_rolls; [eapply X; [exact Hm|]|exact M0]; cbv beta; tauto).
      split; [now constructor|]. right. split; [intros [|Hi]; [discriminate|exact (R _ _ F eq_refl Hi)]|].
      intros r' ->. destruct Ho as [[= <-]|]; [auto|discriminate].
    - assert (Er : answered_ok r = false) by (unfold answered_ok; destruct (r_ans r); congruence).
      inversion M as [|? ? ? ? M0|? ? ? ms0 M0|? ? ? ? M0|? ? ? ? ? ? M0|? ? ? ? ? ? ? ? ? M0|? ? ? ? ? ? ? ? ? ? M0|? ? ? ? ? E ? M0]; subst; [|discriminate].
      assert (F : Forall is_roll ms0) by (eapply micros_rolls; [eapply X; [exact Hm|]|exact M0]; cbv beta; tauto).
      split; [now constructor|]. right. rewrite Er. split; [intros [|Hi]; [discriminate|exact (R _ _ F eq_refl Hi)]|].
      intros r' ->. destruct Ho as [|(e & [= ->])]; [discriminate|reflexivity].
    - assert (Er : answered_ok r = true) by (unfold answered_ok; now rewrite Hr).
      inversion M as [|? ? ? ? M0|? ? ? ms0 M0|? ? ? ? M0|? ? ? ? ? ? M0|? ? ? ? ? ? ? ? ? M0|? ? ? ? ? ? ? ? ? ? M0|? ? ? ? ? E ? M0]; subst; [|discriminate].
      assert (F : Forall is_roll ms0) by (eapply micros_rolls; [eapply X; [exact Hm|]|exact M0]; cbv beta; tauto).
      split; [now constructor|]. left. rewrite Er. split; [eauto|]. destruct Ho as [-> | ->]; eauto.
  Qed.

  (** A run: nothing, a refused Begin, or Begin, statements and an ending. *)
  Lemma run_micros cfg keys main s o s' ms : c_tx cfg = true -> s_trace s = [] -> save cfg keys main s = (o, s') -> micros plan 0 (s_trace s') ms ->
    (ms = [] \/ ms = [MBegin false] \/ exists sts tl, ms = MBegin true :: sts ++ tl /\ Forall is_stmt sts /\ ending tl) /\
    ((In (MCommit true) ms /\ (o = Panic \/ exists r, o = Done r /\ bad r = false)) \/
     (~ In (MCommit true) ms /\ forall r, o = Done r -> bad r = true)).
  Proof.
    intros Ht Hs H M.
    assert (Z : forall l, Forall (fun c : call * resp => frame_call (fst c) = true) l -> Forall (fun c : call * resp => is_tx_call (fst c) = false /\ is_write (fst c) = false) l).
    { intros l F. eapply Forall_impl; [|exact F]. intros [[] ?]; cbn; auto; discriminate. }
    destruct (run_parts cfg _ _ _ _ _ H) as [(fr & -> & F & Ho)|(pre & s1 & of & mid & post & Hg & T & -> & F1 & F2 & Ho)].
    - cbn in M. rewrite Hs in M. cbn in M. apply micros_none in M; [|auto]. subst ms. split; [auto|]. right. split; [intros []|].
      intros r ->. destruct Ho as [|(e & [= ->])]; [discriminate|reflexivity].
    - cbn in M. rewrite Hs in M. cbn [app] in M. apply micros_app in M. destruct M as (m1 & mr & -> & M1 & M2). apply micros_none in M1; [|auto]. subst m1.
      apply micros_app in M2. destruct M2 as (m2 & m3 & -> & M2 & M3). apply micros_none in M3; [|auto]. subst m3. rewrite app_nil_r. cbn [app].
      assert (Ob : forall r, o = Done r -> of = Done r) by (intros r ->; destruct Ho as [<-|[_ X]]; [auto|discriminate]).
      destruct (guarded_tx_trace cfg _ _ _ _ Ht Hg) as (rb & [(Hr & -> & Hf)|(Hr & d & tl & of' & s2 & I & _ & -> & TE & _)]).
      + cbn in T. rewrite Hs in T. cbn in T. assert (Em : mid = [(KBegin, rb)]) by (eapply app_inv_head; symmetry; exact T). subst mid.
        assert (Er : answered_ok rb = false) by (unfold answered_ok; destruct (r_ans rb); congruence).
        inversion M2 as [|? ? ? ms0 M0|? ? ? ? M0|? ? ? ? M0|? ? ? ? ? ? M0|? ? ? ? ? ? ? ? ? M0|? ? ? ? ? ? ? ? ? ? M0|? ? ? ? ? E ? M0]; subst; [|discriminate].
        inversion M0; subst. rewrite Er. split; [auto|]. right. split; [intros [|[]]; discriminate|].
        intros r X. specialize (Ob _ X). destruct Hf as [-> |(e & ->)]; [discriminate|]. injection Ob as <-. reflexivity.
      + cbn in T. rewrite Hs in T. cbn in T. apply app_inv_head in T. subst mid.
        assert (Er : answered_ok rb = true) by (unfold answered_ok; now rewrite Hr).
        inversion M2 as [|? ? ? ms0 M0|? ? ? ? M0|? ? ? ? M0|? ? ? ? ? ? M0|? ? ? ? ? ? ? ? ? M0|? ? ? ? ? ? ? ? ? ? M0|? ? ? ? ? E ? M0]; subst; [|discriminate].
        rewrite Er. clear M2. apply micros_app in M0. destruct M0 as (sts & tm & -> & S & M0).
        assert (Fs : Forall is_stmt sts) by (eapply micros_stmts; [eapply inner_notx; exact I|exact S]).
        destruct (tx_end_micros _ _ _ _ _ _ _ TE M0) as [En C]. split; [right; right; exists sts, tm; auto|].
        assert (Nc : ~ In (MCommit true) sts) by (intros Hi; rewrite Forall_forall in Fs; exact (Fs _ Hi)).
        destruct C as [[(rolls & ->) C]|[C1 C2]].
        * left. split; [right; apply in_app_iff; right; now left|]. destruct Ho as [<-|[_ ->]]; auto.
        * right. split; [|intros r X; apply C2; auto]. intros [X|X]; [discriminate|]. apply in_app_iff in X. tauto.
  Qed.
End Shape.

(* ---------------------------------------------------------------- one run among others *)
(** What a call does to the databases: nothing, a new transaction, a change of a transaction its context carries, or a
    statement outside transactions. *)
Lemma touch s o s' e : xstep s o = (s', e) ->
  xs_w s' = xs_w s \/
  (exists d, xs_w s' = mkW (w_log (xs_w s)) (w_txs (xs_w s) ++ [mkTx d [] TxOpen])) \/
  (exists k t tx tx', In (k, t) (ctx_at s (op_ctx o)) /\ nth_error (w_txs (xs_w s)) t = Some tx /\ w_txs (xs_w s') = set_tx (w_txs (xs_w s)) t tx' /\
     ((w_log (xs_w s') = w_log (xs_w s) /\ (t_stmts tx' = t_stmts tx \/ exists x c q a, o = OExec x c q a /\ t_stmts tx' = t_stmts tx ++ [q])) \/
      (w_log (xs_w s') = upd_log (xs_w s) (t_db tx) (t_stmts tx) /\ t_stmts tx' = t_stmts tx))) \/
  (exists x c q a d, o = OExec x c q a /\ w_txs (xs_w s') = w_txs (xs_w s) /\ w_log (xs_w s') = upd_log (xs_w s) d [q]).
Proof.
  destruct o as [x c a|x c q a|x c a|x c a]; cbn [xstep op_ctx].
  - unfold x_begin. destruct (x_db x) as [d|]; [destruct a|]; intros [= <- <-]; cbn; auto. right. left. eauto.
  - unfold x_exec. destruct (ctx_value (x_key x) (ctx_at s c)) as [t|] eqn:Ec.
    + apply assoc_In in Ec. destruct (nth_error (w_txs (xs_w s)) t) as [[d l []]|] eqn:Et; try destruct a; intros [= <- <-]; cbn; auto.
      right. right. left. exists (x_key x), t, (mkTx d l TxOpen), (mkTx d (l ++ [q]) TxOpen). repeat split; auto. left. split; auto. right. cbn. eauto 10.
    + destruct (x_db x) as [d|]; [destruct a|]; intros [= <- <-]; cbn; auto; right; right; right; eexists x, c, q, _, d; repeat split.
  - unfold x_commit, x_end, do_commit. destruct (x_db x); [|intros [= <- <-]; auto].
    destruct (ctx_value (x_key x) (ctx_at s c)) as [t|] eqn:Ec; [|intros [= <- <-]; auto]. apply assoc_In in Ec.
    destruct (nth_error (w_txs (xs_w s)) t) as [[d l []]|] eqn:Et; try destruct a; intros [= <- <-]; cbn; auto; right; right; left.
    + exists (x_key x), t, (mkTx d l TxOpen), (mkTx d l TxRolledBack). auto 10.
    + exists (x_key x), t, (mkTx d l TxOpen), (mkTx d l TxCommitted). auto 10.
    + exists (x_key x), t, (mkTx d l TxOpen), (mkTx d l TxCommitted). auto 10.
  - unfold x_rollback, x_end, do_rollback. destruct (x_db x); [|intros [= <- <-]; auto].
    destruct (ctx_value (x_key x) (ctx_at s c)) as [t|] eqn:Ec; [|intros [= <- <-]; auto]. apply assoc_In in Ec.
    destruct (nth_error (w_txs (xs_w s)) t) as [[d l []]|] eqn:Et; intros [= <- <-]; cbn; auto; right; right; left.
    exists (x_key x), t, (mkTx d l TxOpen), (mkTx d l TxRolledBack). auto 10.
Qed.

Section Weave.
  Variables (x : executor) (c0 d : nat) (Q : stmt -> Prop).
  Hypothesis Hd : x_db x = Some d.

  (** contexts carry transactions that exist *)
  Definition ctx_wf (s : xstate) : Prop := forall c k t, In (k, t) (ctx_at s c) -> t < length (w_txs (xs_w s)).
  Lemma ctx_at_app s c' c : nth c (xs_ctx s ++ [c']) [] = ctx_at s c \/ (c = length (xs_ctx s) /\ nth c (xs_ctx s ++ [c']) [] = c').
  Proof.
    unfold ctx_at. destruct (Nat.lt_trichotomy c (length (xs_ctx s))) as [H|[-> |H]].
    - left. now rewrite app_nth1.
    - right. split; auto. now rewrite app_nth2, Nat.sub_diag by lia.
    - left. rewrite !nth_overflow; auto; [lia|]. rewrite app_length. cbn. lia.
  Qed.
  Lemma txs_grow s o s' e : xstep s o = (s', e) -> length (w_txs (xs_w s)) <= length (w_txs (xs_w s')).
  Proof.
    intros H. destruct (touch _ _ _ _ H) as [-> |[(d0 & ->)|[(k & t & tx & tx' & _ & _ & -> & _)|(? & ? & ? & ? & ? & _ & -> & _)]]]; auto.
    - cbn. rewrite app_length. lia.
    - now rewrite set_tx_length.
  Qed.
  Lemma ctx_wf_step s o s' e : ctx_wf s -> xstep s o = (s', e) -> ctx_wf s'.
  Proof.
    intros W H c k t Hi. pose proof (txs_grow _ _ _ _ H) as G. destruct (xstep_cases _ _ _ _ H) as [_ K].
    destruct o as [x' cb a|x' cb q a|x' cb a|x' cb a]; try (unfold ctx_at in Hi; rewrite K in Hi; pose proof (W _ _ _ Hi); lia).
    destruct K as (c' & K & K2). unfold ctx_at in Hi. rewrite K in Hi. destruct (ctx_at_app s c' c) as [E|[-> E]]; rewrite E in Hi; [pose proof (W _ _ _ Hi); lia|].
    destruct K2 as [-> |(-> & d0 & _ & K3)]; [pose proof (W _ _ _ Hi); lia|]. destruct Hi as [[= <- <-]|Hi]; [|pose proof (W _ _ _ Hi); lia].
    rewrite K3, app_length. cbn. lia.
  Qed.

  (** before the run's Begin: nothing of it anywhere *)
  Definition before (s : xstate) : Prop := ctx_wf s /\ (forall d' q, Q q -> ~ In q (w_log (xs_w s) d')) /\
    (forall t tx q, nth_error (w_txs (xs_w s)) t = Some tx -> Q q -> ~ In q (t_stmts tx)).
  (** after it: transaction [t], which only the run's context carries, has the statements [E] and the state [st] *)
  Record during (n t : nat) (E : list stmt) (st : txstate) (s : xstate) : Prop := mkDuring {
    du_wf : ctx_wf s;
    du_ctx : n < length (xs_ctx s) /\ ctx_value (x_key x) (ctx_at s n) = Some t;
    du_only : forall c k, c <> n -> ~ In (k, t) (ctx_at s c);
    du_tx : nth_error (w_txs (xs_w s)) t = Some (mkTx d E st);
    du_other : forall t' tx q, t' <> t -> nth_error (w_txs (xs_w s)) t' = Some tx -> Q q -> ~ In q (t_stmts tx);
    du_log : forall d' q, Q q -> (In q (w_log (xs_w s) d') <-> st = TxCommitted /\ d' = d /\ In q E) }.

  Lemma before_foreign s o s' e : before s -> match o with OExec _ _ q _ => ~ Q q | _ => True end -> xstep s o = (s', e) -> before s'.
  Proof.
    intros (W & L & T) F H. split; [eapply ctx_wf_step; eauto|].
    destruct (touch _ _ _ _ H) as [-> |[(d0 & ->)|[(k & t & tx & tx' & _ & Et & -> & G)|(x' & c & q' & a & d0 & -> & -> & ->)]]].
    - auto.
    - cbn. split; auto. intros t tx q Hn Hq. destruct (Nat.lt_ge_cases t (length (w_txs (xs_w s)))) as [Hl|Hl].
      + rewrite nth_error_app1 in Hn by auto. eauto.
      + rewrite nth_error_app2 in Hn by auto. destruct (t - length (w_txs (xs_w s))) as [|j]; cbn in Hn; [injection Hn as <-; intros []|destruct j; discriminate].
    - split.
      + intros d' q Hq. destruct G as [[-> _]|[-> _]]; auto. rewrite upd_log_In. intros [Hi|[_ Hi]]; [exact (L _ _ Hq Hi)|exact (T _ _ _ Et Hq Hi)].
      + intros t' ty q Hn Hq. destruct (Nat.eq_dec t t') as [<-|N]; [|rewrite set_tx_other in Hn by auto; eauto].
        rewrite (set_tx_same _ _ _ _ Et) in Hn. injection Hn as <-. destruct G as [[_ [-> |(x' & c & q' & a & -> & ->)]]|[_ ->]]; eauto.
        rewrite in_app_iff. intros [Hi|[-> |[]]]; [exact (T _ _ _ Et Hq Hi)|exact (F Hq)].
    - split; [|auto]. intros d' q Hq. rewrite upd_log_In. intros [Hi|[_ [-> |[]]]]; [exact (L _ _ Hq Hi)|exact (F Hq)].
  Qed.

  Lemma during_foreign n t E st s o s' e : during n t E st s -> op_ctx o < length (xs_ctx s) -> n <> op_ctx o -> match o with OExec _ _ q _ => ~ Q q | _ => True end ->
    xstep s o = (s', e) -> during n t E st s'.
  Proof.
    intros [W [C1 C2] O T T2 L] Hc Hn F H. pose proof (ctx_wf_step _ _ _ _ W H) as W'. destruct (xstep_cases _ _ _ _ H) as [_ K].
    assert (Lt : t < length (w_txs (xs_w s))) by (apply nth_error_Some; congruence).
    assert (X : (n < length (xs_ctx s') /\ ctx_at s' n = ctx_at s n) /\ forall c k, c <> n -> ~ In (k, t) (ctx_at s' c)).
    { destruct o as [x' cb a|x' cb q a|x' cb a|x' cb a]; try (unfold ctx_at; rewrite K; auto; fail).
      destruct K as (c' & K & K2). cbn [op_ctx] in *. unfold ctx_at at 1 3. rewrite K, app_length, app_nth1 by auto. split; [split; [lia|reflexivity]|].
      intros c k Hk Hi. destruct (ctx_at_app s c' c) as [E1|[-> E1]]; rewrite E1 in Hi; [exact (O _ _ Hk Hi)|].
      destruct K2 as [-> |(-> & _)]; [exact (O cb k (fun q => Hn (eq_sym q)) Hi)|]. destruct Hi as [[= _ Et]|Hi]; [lia|exact (O cb k (fun q => Hn (eq_sym q)) Hi)]. }
    destruct X as [[X1 X2] X3].
    destruct (touch _ _ _ _ H) as [Ew|[(d0 & Ew)|[(k & t0 & tx & tx' & Hi & Et & Ew & G)|(x' & c & q' & a & d0 & -> & Ew & El)]]].
    - split; auto; try (split; [exact X1|rewrite X2; exact C2]); rewrite Ew; auto.
    - split; auto; try (split; [exact X1|rewrite X2; exact C2]); rewrite Ew; cbn; auto.
      + now rewrite nth_error_app1.
      + intros t' tx q N Hx Hq. destruct (Nat.lt_ge_cases t' (length (w_txs (xs_w s)))) as [Hl|Hl].
        * rewrite nth_error_app1 in Hx by auto. eauto.
        * rewrite nth_error_app2 in Hx by auto. destruct (t' - length (w_txs (xs_w s))) as [|j]; cbn in Hx; [injection Hx as <-; intros []|destruct j; discriminate].
    - assert (N0 : t0 <> t) by (intros ->; exact (O (op_ctx o) k (fun q => Hn (eq_sym q)) Hi)).
      split; auto; try (split; [exact X1|rewrite X2; exact C2]).
      + rewrite Ew, set_tx_other; auto.
      + intros t' ty q N Hx Hq. rewrite Ew in Hx. destruct (Nat.eq_dec t0 t') as [<-|N1]; [|rewrite set_tx_other in Hx by auto; eauto].
        rewrite (set_tx_same _ _ _ _ Et) in Hx. injection Hx as <-. destruct G as [[_ [-> |(x' & c & q' & a & -> & ->)]]|[_ ->]]; eauto.
        rewrite in_app_iff. intros [Hj|[-> |[]]]; [exact (T2 _ _ _ N0 Et Hq Hj)|exact (F Hq)].
      + intros d' q Hq. destruct G as [[-> _]|[-> _]]; auto. rewrite upd_log_In, <- (L d' q Hq). split; [|auto]. intros [|[_ Hj]]; auto. exfalso. exact (T2 _ _ _ N0 Et Hq Hj).
    - split; auto; try (split; [exact X1|rewrite X2; exact C2]); rewrite ?Ew; auto.
      intros d' q Hq. rewrite El, upd_log_In, <- (L d' q Hq). split; [|auto]. intros [|[_ [-> |[]]]]; auto. exfalso. exact (F Hq).
  Qed.

  Lemma begin_own s a s' : before s -> xstep s (OBegin x c0 a) = (s', None) -> during (length (xs_ctx s)) (length (w_txs (xs_w s))) [] TxOpen s'.
  Proof.
    intros (W & L & T) H. pose proof (ctx_wf_step _ _ _ _ W H) as W'. cbn in H. unfold x_begin in H. rewrite Hd in H. destruct a; try discriminate H.
    injection H as <-. split; auto; cbn [xs_w xs_ctx w_txs w_log].
    - unfold ctx_at. cbn. rewrite app_length, app_nth2, Nat.sub_diag by lia. cbn. split; [lia|]. unfold ctx_value. cbn. now rewrite String.eqb_refl.
    - intros c k N Hi. unfold ctx_at in Hi. cbn [xs_ctx] in Hi. match type of Hi with In _ (nth _ (_ ++ [?c']) _) => destruct (ctx_at_app s c' c) as [E|[-> E]] end; [|congruence].
      rewrite E in Hi. pose proof (W _ _ _ Hi). lia.
    - now rewrite nth_error_app2, Nat.sub_diag by lia.
    - intros t' tx q N Hx Hq. destruct (Nat.lt_ge_cases t' (length (w_txs (xs_w s)))) as [Hl|Hl].
      + rewrite nth_error_app1 in Hx by auto. eauto.
      + rewrite nth_error_app2 in Hx by auto. destruct (t' - length (w_txs (xs_w s))) as [|j] eqn:Ej; [lia|]. destruct j; discriminate.
    - intros d' q Hq. split; [intros Hi; exfalso; exact (L _ _ Hq Hi)|intros [X _]; discriminate].
  Qed.
  (** the run's own transaction changes *)
  Lemma during_change n t E st E' st' s w' : during n t E st s -> (forall d' q, Q q -> (In q (w_log w' d') <-> st' = TxCommitted /\ d' = d /\ In q E')) ->
    w_txs w' = set_tx (w_txs (xs_w s)) t (mkTx d E' st') -> during n t E' st' (mkXS w' (xs_ctx s)).
  Proof.
    intros [W C O T T2 L] Hl Ht. split; auto; cbn [xs_w].
    - intros c k t0 Hi. cbn. rewrite Ht, set_tx_length. exact (W _ _ _ Hi).
    - rewrite Ht. eapply set_tx_same. exact T.
    - intros t' tx q N Hx Hq. rewrite Ht, set_tx_other in Hx by auto. eauto.
  Qed.
  Lemma during_same n t E st s w : during n t E st s -> w = xs_w s -> during n t E st (mkXS w (xs_ctx s)).
  Proof. intros D ->. destruct s. exact D. Qed.
  Lemma exec_own n t E st s q a s' e : during n t E st s -> xstep s (OExec x n q a) = (s', e) ->
    (e = None /\ st = TxOpen /\ during n t (E ++ [q]) TxOpen s') \/ (e <> None /\ during n t E st s').
  Proof.
    intros D H. pose proof D as [W [C1 C2] O T T2 L]. cbn in H. unfold x_exec in H. rewrite C2, T in H.
    destruct st; try (injection H as <- <-; right; split; [discriminate|]; apply (during_same _ _ _ _ _ _ D eq_refl)).
    destruct a; injection H as <- <-; try (right; split; [discriminate|]; apply (during_same _ _ _ _ _ _ D eq_refl)).
    left. split; [reflexivity|split; [reflexivity|]]. apply (during_change n t E TxOpen (E ++ [q]) TxOpen s _ D); [|reflexivity].
    intros d' q' Hq. cbn. rewrite (L d' q' Hq). split; intros [X _]; discriminate.
  Qed.
  Lemma commit_own n t E st s a s' e : during n t E st s -> xstep s (OCommit x n a) = (s', e) ->
    (st = TxOpen /\ during n t E TxCommitted s' /\ (e = None \/ a = SLost)) \/ (e <> None /\ st = TxOpen /\ during n t E TxRolledBack s') \/
    (e <> None /\ st <> TxOpen /\ during n t E st s').
  Proof.
    intros D H. pose proof D as [W [C1 C2] O T T2 L]. cbn in H. unfold x_commit, x_end, do_commit in H. rewrite Hd, C2, T in H.
    destruct st; try (injection H as <- <-; right; right; split; [discriminate|split; [discriminate|]]; apply (during_same _ _ _ _ _ _ D eq_refl)).
    assert (Lc : forall d' q, Q q -> (In q (upd_log (xs_w s) d E d') <-> TxCommitted = TxCommitted /\ d' = d /\ In q E)).
    { intros d' q Hq. rewrite upd_log_In, (L d' q Hq). split; [intros [[X _]|X]; [discriminate X|tauto]|tauto]. }
    destruct a; injection H as <- <-.
    - right. left. split; [discriminate|split; [reflexivity|]]. apply (during_change n t E TxOpen E TxRolledBack s _ D); [|reflexivity].
      intros d' q' Hq. cbn. rewrite (L d' q' Hq). split; intros [X _]; discriminate.
    - left. split; [reflexivity|]. split; [|auto]. apply (during_change n t E TxOpen E TxCommitted s _ D); [exact Lc|reflexivity].
    - left. split; [reflexivity|]. split; [|auto]. apply (during_change n t E TxOpen E TxCommitted s _ D); [exact Lc|reflexivity].
  Qed.
  Lemma rollback_own n t E st s a s' e : during n t E st s -> xstep s (ORollback x n a) = (s', e) ->
    (st = TxOpen /\ during n t E TxRolledBack s') \/ (st <> TxOpen /\ during n t E st s').
  Proof.
    intros D H. pose proof D as [W [C1 C2] O T T2 L]. cbn in H. unfold x_rollback, x_end, do_rollback in H. rewrite Hd, C2, T in H.
    destruct st; try (injection H as <- <-; right; split; [discriminate|]; apply (during_same _ _ _ _ _ _ D eq_refl)).
    injection H as <- <-. left. split; [reflexivity|]. apply (during_change n t E TxOpen E TxRolledBack s _ D); [|reflexivity].
    intros d' q' Hq. cbn. rewrite (L d' q' Hq). split; intros [X _]; discriminate.
  Qed.

  (** the statements accepted *)
  Definition trues (ms : list micro) : list stmt := flat_map (fun m => match m with MStmt q true => [q] | _ => [] end) ms.
  Lemma trues_In q ms : In q (trues ms) <-> In (MStmt q true) ms.
  Proof.
    unfold trues. rewrite in_flat_map. split.
    - intros (m & Hm & Hq). destruct m as [|q' []| |]; cbn in Hq; try contradiction. destruct Hq as [-> |[]]. exact Hm.
    - intros H. eexists. split; [exact H|]. now left.
  Qed.
  Lemma trues_rolls ms : Forall is_roll ms -> trues ms = [].
  Proof. induction 1 as [|m l H F IH]; [reflexivity|]. destruct m; try contradiction. exact IH. Qed.
  Lemma trues_ending ms : ending ms -> trues ms = [].
  Proof. intros [|b rolls F|b rolls F]; [reflexivity|exact (trues_rolls _ F)|exact (trues_rolls _ F)]. Qed.

  (** what the run still has to do, in a state of its transaction *)
  Definition rest_ok (st : txstate) (ms : list micro) : Prop :=
    match st with TxOpen => exists sts tl, ms = sts ++ tl /\ Forall is_stmt sts /\ ending tl | _ => Forall is_roll ms end.

  Lemma xrun_snoc past o : xrun xs0 (past ++ [o]) = fst (xstep (xrun xs0 past) o).
  Proof. now rewrite xrun_app. Qed.

  Lemma woven_left own past ms h left : woven x c0 Q own past ms h left -> incl left ms.
  Proof. induction 1; auto using incl_refl; apply incl_tl; auto. Qed.
  Lemma woven_prefix h1 : forall own past ms h2 left, woven x c0 Q own past ms (h1 ++ h2) left -> exists left', woven x c0 Q own past ms h1 left'.
  Proof.
    induction h1 as [|m h1 IH]; intros own past ms h2 left H; [exists ms; constructor|]. cbn [app] in H.
    inversion H as [|? ? ? ? ? ? F W|? ? ? ? ? ? Hc Ha W|? ? ? ? ? ? ? ? Ha W|? ? ? ? ? ? ? Ha W|? ? ? ? ? ? ? Ha W]; subst; destruct (IH _ _ _ _ _ W) as (l & Hl); exists l; now constructor.
  Qed.

  Lemma weave_during ms h left own past : woven x c0 Q own past ms h left -> forall n t E st, own = Some n -> during n t E st (xrun xs0 past) -> rest_ok st ms ->
    exists E' st', during n t E' st' (xrun xs0 (past ++ map snd h)) /\
      (st' = TxCommitted -> E' = E ++ trues ms) /\
      (st <> TxCommitted -> st' = TxCommitted -> (In (MCommit true) ms \/ lost_commit h) /\ forall b, ~ In (MCommit b) left) /\
      (st <> TxRolledBack -> left = [] -> st = TxCommitted \/ In (MCommit true) ms -> st' = TxCommitted).
  Proof.
    assert (Wh : forall (b : bool) o h, lost_commit h -> lost_commit ((b, o) :: h)) by (intros b o h' (y & m & Hi); exists y, m; now right).
    assert (RO : forall st m u, rest_ok st (m :: u) -> st = TxOpen /\ (is_stmt m /\ rest_ok TxOpen u \/ (exists b, m = MCommit b) /\ Forall is_roll u) \/ is_roll m /\ Forall is_roll u).
    { intros st m u H. destruct st; cbn in H; [|right; inversion H; auto..]. destruct H as (sts & tl & E & F & En). destruct sts as [|m' sts].
      - cbn in E. subst tl. inversion En; subst; [left; split; auto; right; eauto|right; cbn; auto].
      - injection E as -> ->. inversion F; subst. left. split; auto. left. split; auto. exists sts, tl. auto. }
    assert (RT : forall st, st <> TxOpen -> forall u, Forall is_roll u -> rest_ok st u) by (intros [] Hs u F; [congruence|exact F|exact F]).
    induction 1 as [own past ms|own past ms o h left F W IH|past ok a ms h left Hc Ha W IH|n0 past q ok a ms h left Ha W IH|n0 past ok a ms h left Ha W IH|n0 past ok a ms h left Ha W IH];
      intros n t E st Ho D R.
    - cbn [map]. rewrite app_nil_r. exists E, st. split; [exact D|]. split; [|split].
      + intros ->. cbn in R. now rewrite (trues_rolls _ R), app_nil_r.
      + congruence.
      + intros _ -> [->|[]]. reflexivity.
    - destruct F as (F1 & F2 & F3). destruct (xstep (xrun xs0 past) o) as [s' e] eqn:Es.
      assert (D' : during n t E st (xrun xs0 (past ++ [o]))).
      { rewrite xrun_snoc, Es. eapply during_foreign; [exact D|exact F1|congruence|exact F3|exact Es]. }
      destruct (IH n t E st Ho D' R) as (E' & st' & A & B & C & G). exists E', st'. cbn [map snd]. change (o :: map snd h) with ([o] ++ map snd h). rewrite app_assoc.
      split; [exact A|]. split; [exact B|]. split; [|exact G]. intros Hs Hs'. destruct (C Hs Hs') as [[|C'] C2]; auto.
    - discriminate Ho.
    - injection Ho as ->. destruct (xstep (xrun xs0 past) (OExec x n q a)) as [s' e] eqn:Es.
      assert (Ea : answered past (OExec x n q a) = e) by (unfold answered; now rewrite Es). rewrite Ea in Ha.
      destruct (RO _ _ _ R) as [[-> [[_ R']|[[b Hb] _]]]|[Hr _]]; [|discriminate Hb|destruct Hr].
      destruct (exec_own _ _ _ _ _ _ _ _ _ D Es) as [(-> & _ & D')|(Ne & D')].
      + assert (ok = true) as -> by now apply Ha.
        assert (Dx : during n t (E ++ [q]) TxOpen (xrun xs0 (past ++ [OExec x n q a]))) by (rewrite xrun_snoc, Es; exact D').
        destruct (IH n t _ _ eq_refl Dx R') as (E' & st' & A & B & C & G). exists E', st'. cbn [map snd].
        change (OExec x n q a :: map snd h) with ([OExec x n q a] ++ map snd h). rewrite app_assoc.
        split; [exact A|]. split; [intros Hs; rewrite (B Hs); cbn; now rewrite <- app_assoc|]. split.
        * intros Hs Hs'. destruct (C Hs Hs') as [[Hi|Hl] C2]; (split; [|exact C2]); [left; now right|right; auto].
        * intros Hs Hl [Hx|[Hx|Hx]]; [discriminate Hx|discriminate Hx|]. auto.
      + assert (ok = false) as -> by (destruct ok; auto; destruct Ne; now apply Ha).
        assert (Dx : during n t E TxOpen (xrun xs0 (past ++ [OExec x n q a]))) by (rewrite xrun_snoc, Es; exact D').
        destruct (IH n t _ _ eq_refl Dx R') as (E' & st' & A & B & C & G). exists E', st'. cbn [map snd].
        change (OExec x n q a :: map snd h) with ([OExec x n q a] ++ map snd h). rewrite app_assoc.
        split; [exact A|]. split; [exact B|]. split.
        * intros Hs Hs'. destruct (C Hs Hs') as [[Hi|Hl] C2]; (split; [|exact C2]); [left; now right|right; auto].
        * intros Hs Hl [Hx|[Hx|Hx]]; [discriminate Hx|discriminate Hx|]. auto.
    - injection Ho as ->. destruct (xstep (xrun xs0 past) (OCommit x n a)) as [s' e] eqn:Es.
      assert (Ea : answered past (OCommit x n a) = e) by (unfold answered; now rewrite Es). rewrite Ea in Ha.
      destruct (RO _ _ _ R) as [[-> [[Hx _]|[_ R']]]|[Hr _]]; [destruct Hx| |destruct Hr].
      change (map snd ((true, OCommit x n a) :: h)) with ([OCommit x n a] ++ map snd h). rewrite app_assoc.
      destruct (commit_own _ _ _ _ _ _ _ _ D Es) as [(_ & D' & Hl)|[(Ne & _ & D')|(_ & X & _)]]; [| |congruence].
      + assert (Dx : during n t E TxCommitted (xrun xs0 (past ++ [OCommit x n a]))) by (rewrite xrun_snoc, Es; exact D').
        destruct (IH n t _ TxCommitted eq_refl Dx R') as (E' & st' & A & B & C & G). exists E', st'. split; [exact A|]. split; [exact B|]. split.
        * intros _ _. split; [|intros b Hi; apply (woven_left _ _ _ _ _ W) in Hi; rewrite Forall_forall in R'; exact (R' _ Hi)]. destruct Hl as [-> | ->]; [left; left; f_equal; now apply Ha|right; exists x, n; now left].
        * intros _ Hl' _. apply G; auto. discriminate.
      + assert (Dx : during n t E TxRolledBack (xrun xs0 (past ++ [OCommit x n a]))) by (rewrite xrun_snoc, Es; exact D').
        assert (ok = false) as -> by (destruct ok; auto; destruct Ne; now apply Ha).
        destruct (IH n t _ TxRolledBack eq_refl Dx R') as (E' & st' & A & B & C & G). exists E', st'. split; [exact A|]. split; [exact B|]. split.
        * intros _ Hs'. destruct (C ltac:(discriminate) Hs') as [[Hi|Hl'] C2]; (split; [|exact C2]); [left; now right|right; auto].
        * intros _ _ [X|[X|X]]; [discriminate X|discriminate X|]. rewrite Forall_forall in R'. destruct (R' _ X).
    - injection Ho as ->. destruct (xstep (xrun xs0 past) (ORollback x n a)) as [s' e] eqn:Es.
      change (map snd ((true, ORollback x n a) :: h)) with ([ORollback x n a] ++ map snd h). rewrite app_assoc.
      assert (R' : Forall is_roll ms) by (destruct (RO _ _ _ R) as [[_ [[Hx _]|[[b Hb] _]]]|[_ R']]; [destruct Hx|discriminate Hb|exact R']).
      assert (Nc : ~ In (MCommit true) ms) by (rewrite Forall_forall in R'; intros Hi; exact (R' _ Hi)).
      destruct (rollback_own _ _ _ _ _ _ _ _ D Es) as [(-> & D')|(Ns & D')].
      + assert (Dx : during n t E TxRolledBack (xrun xs0 (past ++ [ORollback x n a]))) by (rewrite xrun_snoc, Es; exact D').
        destruct (IH n t _ TxRolledBack eq_refl Dx R') as (E' & st' & A & B & C & G). exists E', st'. split; [exact A|]. split; [exact B|]. split.
        * intros _ Hs'. destruct (C ltac:(discriminate) Hs') as [[Hi|Hl'] C2]; (split; [|exact C2]); [left; now right|right; auto].
        * intros _ _ [X|[X|X]]; [discriminate X|discriminate X|contradiction].
      + assert (Dx : during n t E st (xrun xs0 (past ++ [ORollback x n a]))) by (rewrite xrun_snoc, Es; exact D').
        destruct (IH n t _ st eq_refl Dx (RT _ Ns _ R')) as (E' & st' & A & B & C & G). exists E', st'. split; [exact A|]. split; [exact B|]. split.
        * intros Hs Hs'. destruct (C Hs Hs') as [[Hi|Hl'] C2]; (split; [|exact C2]); [left; now right|right; auto].
        * intros Hs Hl [X|[X|X]]; [|discriminate X|contradiction]. auto.
  Qed.

  Lemma before0 : before xs0.
  Proof.
    split; [|split].
    - intros c k t Hi. destruct c as [|[|c]]; destruct Hi.
    - intros d' q _ [].
    - intros [|t] tx q; discriminate.
  Qed.
  (** nobody's context, as long as the run has not begun *)
  Lemma weave_before ms h left own past : woven x c0 Q own past ms h left -> before (xrun xs0 past) ->
    (ms = [] \/ ms = [MBegin false] -> before (xrun xs0 (past ++ map snd h))) /\
    (own = None -> forall sts tl, ms = MBegin true :: sts ++ tl -> Forall is_stmt sts -> ending tl ->
      before (xrun xs0 (past ++ map snd h)) /\ (left <> []) \/
      exists n t E' st', during n t E' st' (xrun xs0 (past ++ map snd h)) /\
      (st' = TxCommitted -> E' = trues ms) /\
      (st' = TxCommitted -> (In (MCommit true) ms \/ lost_commit h) /\ forall b, ~ In (MCommit b) left) /\
      (left = [] -> In (MCommit true) ms -> st' = TxCommitted)).
  Proof.
    induction 1 as [own past ms|own past ms o h left F W IH|past ok a ms h left Hc Ha W IH|n0 past q ok a ms h left Ha W IH|n0 past ok a ms h left Ha W IH|n0 past ok a ms h left Ha W IH]; intros B.
    - cbn [map]. rewrite app_nil_r. split; [auto|]. intros _ sts tl -> _ _. left. split; [auto|discriminate].
    - destruct F as (F1 & F2 & F3). destruct (xstep (xrun xs0 past) o) as [s' e] eqn:Es.
      assert (B' : before (xrun xs0 (past ++ [o]))) by (rewrite xrun_snoc, Es; eapply before_foreign; [exact B|exact F3|exact Es]).
      change (map snd ((false, o) :: h)) with ([o] ++ map snd h). rewrite app_assoc. destruct (IH B') as [I1 I2]. split; [exact I1|].
      intros Hn sts tl Em Hs Ht. destruct (I2 Hn sts tl Em Hs Ht) as [X|(n & t & E' & st' & A1 & A2 & A3 & A4)]; [left; exact X|right].
      exists n, t, E', st'. split; [exact A1|]. split; [exact A2|]. split; [|exact A4]. intros Hx. destruct (A3 Hx) as [[|(y & m & Hi)] G]; auto. split; [right; exists y, m; now right|exact G].
    - destruct (xstep (xrun xs0 past) (OBegin x c0 a)) as [s' e] eqn:Es.
      assert (Ea : answered past (OBegin x c0 a) = e) by (unfold answered; now rewrite Es). rewrite Ea in Ha.
      change (map snd ((true, OBegin x c0 a) :: h)) with ([OBegin x c0 a] ++ map snd h). rewrite app_assoc. split.
      + intros [X|X]; [discriminate X|]. injection X as -> ->.
        assert (B' : before (xrun xs0 (past ++ [OBegin x c0 a]))) by (rewrite xrun_snoc, Es; exact (before_foreign (xrun xs0 past) (OBegin x c0 a) s' e B Logic.I Es)).
        apply (IH B'). auto.
      + intros _ sts tl Em Hs Ht. injection Em as -> ->. right. assert (e = None) as -> by now apply Ha.
        pose proof (begin_own _ _ _ B Es) as D.
        assert (D' : during (next_ctx past) (length (w_txs (xs_w (xrun xs0 past)))) [] TxOpen (xrun xs0 (past ++ [OBegin x c0 a]))) by (rewrite xrun_snoc, Es; exact D).
        destruct (weave_during _ _ _ _ _ W _ _ _ _ eq_refl D') as (E' & st' & A1 & A2 & A3 & A4); [exists sts, tl; auto|].
        eexists _, _, E', st'. split; [exact A1|]. split; [exact A2|]. split.
        * intros Hx. destruct (A3 ltac:(discriminate) Hx) as [[Y|(y & m & Hi)] G]; (split; [|exact G]); [left; now right|right; exists y, m; now right].
        * intros Hl [X|X]; [discriminate X|]. apply A4; auto. discriminate.
    - split; [intros [X|X]; discriminate X|discriminate].
    - split; [intros [X|X]; discriminate X|discriminate].
    - split; [intros [X|X]; discriminate X|discriminate].
  Qed.
End Weave.

(** Together: a run among others. *)
Lemma run_among_others cfg keys main s o s' plan ms x d c0 h left :
  c_tx cfg = true -> s_trace s = [] -> save cfg keys main s = (o, s') -> x_db x = Some d -> micros plan 0 (s_trace s') ms -> woven x c0 (own_stmt plan) None [] ms h left ->
  (nothing_of (own_stmt plan) (map snd h) \/ everything_of (own_stmt plan) ms d (map snd h)) /\
  (forall r, o = Done r -> bad r = false -> left = [] -> everything_of (own_stmt plan) ms d (map snd h)) /\
  (forall r, o = Done r -> bad r = true -> ~ lost_commit h -> nothing_of (own_stmt plan) (map snd h)) /\
  (forall b, In (MCommit b) left -> nothing_of (own_stmt plan) (map snd h)).
Proof.
  intros Ht Hs H Hd M W. destruct (run_micros plan _ _ _ _ _ _ _ Ht Hs H M) as [S G].
  assert (Bf : before (own_stmt plan) (xrun xs0 (map snd h)) -> nothing_of (own_stmt plan) (map snd h)) by (intros (_ & L & _) d' q Hq; exact (L d' q Hq)).
  destruct (weave_before x c0 d (own_stmt plan) Hd _ _ _ _ _ W (before0 _)) as [W1 W2]. cbn [app] in W1, W2.
  assert (X : before (own_stmt plan) (xrun xs0 (map snd h)) /\ (left = [] -> ~ In (MCommit true) ms) \/ exists n t E' st', during x d (own_stmt plan) n t E' st' (xrun xs0 (map snd h)) /\
      (st' = TxCommitted -> E' = trues ms) /\
      (st' = TxCommitted -> (In (MCommit true) ms \/ lost_commit h) /\ forall b, ~ In (MCommit b) left) /\
      (left = [] -> In (MCommit true) ms -> st' = TxCommitted)).
  { destruct S as [-> |[-> |(sts & tl & Em & Fs & En)]].
    - left. split; [auto|intros _ []].
    - left. split; [auto|intros _ [|[]]; discriminate].
    - destruct (W2 eq_refl sts tl Em Fs En) as [[B L]|B]; [left; split; [exact B|congruence]|right; exact B]. }
  destruct X as [[B Bl]|(n & t & E' & st' & D & A2 & A3 & A4)].
  - specialize (Bf B). split; [auto|]. split; [|split; auto]. intros r Ho Hb Hl. exfalso. destruct G as [[G _]|[_ G]]; [exact (Bl Hl G)|]. rewrite (G r Ho) in Hb. discriminate.
  - assert (No : st' <> TxCommitted -> nothing_of (own_stmt plan) (map snd h)).
    { intros N d' q Hq Hi. apply (du_log _ _ _ _ _ _ _ _ D d' q Hq) in Hi. tauto. }
    assert (Ev : st' = TxCommitted -> everything_of (own_stmt plan) ms d (map snd h)).
    { intros Ec. split.
      - intros q Hq. assert (Hw : own_stmt plan q) by (eapply micros_own; eauto). apply (du_log _ _ _ _ _ _ _ _ D d q Hw). rewrite (A2 Ec), trues_In. auto.
      - intros d' q Hw Hi. apply (du_log _ _ _ _ _ _ _ _ D d' q Hw) in Hi. rewrite (A2 Ec), trues_In in Hi. tauto. }
    assert (Dec : st' = TxCommitted \/ st' <> TxCommitted) by (destruct st'; auto; right; discriminate).
    split; [destruct Dec; auto|]. split; [|split].
    + intros r Ho Hb Hl. apply Ev, A4; auto. destruct G as [[G _]|[_ G]]; auto. rewrite (G r Ho) in Hb. discriminate.
    + intros r Ho Hb Hl. apply No. intros Ec. destruct (A3 Ec) as [[Y|Y] _]; [|auto]. destruct G as [[_ [G|(r' & G & G')]]|[G _]]; [congruence| |contradiction].
      rewrite Ho in G. injection G as <-. congruence.
    + intros b Hi. apply No. intros Ec. destruct (A3 Ec) as [_ Y]. exact (Y b Hi).
Qed.

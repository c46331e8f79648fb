(** C97: the transactional events of a run are sent if and only if its data is committed. *)
From Verif Require Import FlowModel FlowSpec InterSpec BusSpec BusProof InterProof InterProof2 InterProps FlowProof.
Local Open Scope string_scope. Local Open Scope list_scope. Local Open Scope nat_scope.
Ltac state := match goal with |- context [fexec ?a ?s] => let v := eval vm_compute in (fexec a s) in replace (fexec a s) with v by (vm_compute; reflexivity) | |- context [frun ?a ?s] => let v := eval vm_compute in (frun a s) in replace (frun a s) with v by (vm_compute; reflexivity) end.

(** Four runs of service A, B is registered too.  Run 0 commits its data and its bus; the process of run 1 dies after the commit of
    its data; the answer to the commit of run 2 is lost, the data is committed later; the process of run 3 dies before it commits.
    A checker of A settles 1, 2 and 3. *)
Definition four : list fmove :=
  [ FReg "A"; FReg "B"; FBegin "A" 5 [ev1]; FBegin "A" 5 [ev1; ev2]; FBegin "A" 5 [ev2]; FBegin "A" 5 [ev2; ev2];
    FRun 0 (FcCommit true); FRun 0 FcBusCommit; FNext 0; FNext 0; FNext 0; FNext 0; FNext 0; FNext 0; FNext 0;
    FRun 1 (FcCommit true); FDie 1; FRun 2 (FcCommit false); FTick 3; FSettle 2 true; FDie 3; FTick 3;
    FCheck "A"; FSnap 0; FCheckEnd 0 [ACommit (Some 2) true; ACommit (Some 2) true; ARoll true] ].
Definition row1 := mkT 1 "A" [ev1] 5. Definition row2 := mkT 2 "A" [ev1; ev2] 5. Definition row3 := mkT 3 "A" [ev2] 5. Definition row4 := mkT 4 "A" [ev2; ev2] 5.
Example four_ok : let st := frun four fstart in
  always truthful four fstart /\ always patient four fstart /\ always looks_once four fstart /\ always in_time four fstart /\ always no_cleaning four fstart /\
  In (HBegun row1 ["A"; "B"]) (i_log (f_bus st)) /\ In (HBegun row2 ["A"; "B"]) (i_log (f_bus st)) /\ In (HBegun row3 ["A"; "B"]) (i_log (f_bus st)) /\ In (HBegun row4 ["A"; "B"]) (i_log (f_bus st)) /\
  committed st row1 /\ committed st row2 /\ committed st row3 /\ ~ committed st row4 /\ b_tx (i_db (f_bus st)) = [] /\
  tabled 1 (i_db (f_bus st)) = [ev1] /\ tabled 2 (i_db (f_bus st)) = [ev1; ev2] /\ tabled 3 (i_db (f_bus st)) = [ev2] /\ tabled 4 (i_db (f_bus st)) = [].
Proof.
  cbv zeta. split; [|split; [|split; [|split; [|split]]]].
  - do 24 (split; [exact Logic.I|]). split; [|exact Logic.I]. unfold truthful. state. intros t x [H|[H|[H|[]]]] C; injection H as <- <-; try destruct C; cbn; tauto.
  - do 24 (split; [exact Logic.I|]). split; [|exact Logic.I]. unfold patient. state. intros t x [H|[H|[H|[]]]] C; injection H as <- <-; try destruct C. split; [cbn; lia|].
    intros ([|[|[|[|[|i]]]]] & p & E & O); cbn in E; try discriminate E; injection E; intros; subst; destruct O; discriminate.
  - do 24 (split; [exact Logic.I|]). split; [|exact Logic.I]. unfold looks_once. state. intros t x seen [H|[H|[H|[]]]] C E; injection H as <- <-; try destruct C. injection E as <-. cbn. lia.
  - unfold four. cbn [always]. repeat (split; [first [exact Logic.I|unfold in_time; state; intros p t E; injection E as <- <-; cbn; lia]|]). exact Logic.I.
  - repeat split; auto.
  - state. cbn. repeat split; auto; try tauto. lia.
Qed.

(** Whatever dies and whenever: if the registered checkers say "commit" only for committed data, then events are stored only for a
    run whose data is committed, they are the events the run sent ... *)
Theorem C97_only_if_committed : forall acts id evs, let st := frun acts fstart in always truthful acts fstart ->
  In (HStored id evs) (i_log (f_bus st)) -> exists t sv, In (HBegun t sv) (i_log (f_bus st)) /\ tr_id t = id /\ evs = tr_events t /\ committed st t.
Proof.
  cbv zeta. intros acts id evs T H. pose proof (asked_run acts fstart finv_start T (fun x (e : False) => match e with end)) as K. destruct (bus_history acts fstart) as (l & E & _). change (f_bus fstart) with istart in E.
  rewrite E in H. destruct (C85_stored_only_if_asked l id evs H) as (A & t & sv & B & Et & Ee). rewrite <- E in *. exists t, sv. repeat split; auto. unfold committed. rewrite Et. now apply K.
Qed.
Print Assumptions C97_only_if_committed.
(** ... and as long as the cleaners do nothing, the table holds no event of an uncommitted run and no delivery record points to one. *)
Theorem C97_uncommitted_has_no_rows : forall acts t sv, let st := frun acts fstart in always truthful acts fstart -> always no_cleaning acts fstart ->
  In (HBegun t sv) (i_log (f_bus st)) -> ~ committed st t ->
  tabled (tr_id t) (i_db (f_bus st)) = [] /\ forall v ids, ~ In (HDelivered (tr_id t) v ids) (i_log (f_bus st)).
Proof.
  cbv zeta. intros acts t sv T C B U. pose proof (asked_run acts fstart finv_start T (fun x (e : False) => match e with end)) as K. destruct (bus_history acts fstart) as (l & E & N). specialize (N C). change (f_bus fstart) with istart in E.
  pose proof (fi_bus _ (finv_reach acts)) as V. assert (Z : tr_id t <> 0) by (pose proof (proj2 (v_nt _ _ _ _ V) t sv B); lia).
  assert (A : ~ In (HAsked (tr_id t)) (i_log (f_bus (frun acts fstart)))) by (intros A; exact (U (K _ A))). rewrite E in *.
  split; [now apply C86_no_commit_no_events|]. intros v ids D.
  destruct (w_del _ _ _ (iw_reach l N istart iw_start) _ v ids D) as (_ & t0 & rows & T0 & (C0 & _) & _). rewrite <- T0 in A. exact (A (proj1 (C85_stored_only_if_asked l _ _ C0))).
Qed.
Print Assumptions C97_uncommitted_has_no_rows.
Example C97_uncommitted_case : let st := frun four fstart in In (HBegun row4 ["A"; "B"]) (i_log (f_bus st)) /\ ~ committed st row4 /\ always truthful four fstart /\ always no_cleaning four fstart.
Proof. cbv zeta. destruct four_ok as (K1 & K2 & K3 & K4 & K5 & K6 & K7 & K8 & K9 & Ka & Kb & Kc & Kd & Ke & _). exact (conj K9 (conj Kd (conj K1 K5))). Qed.

Lemma trow_dec : forall a b : trow, {a = b} + {a <> b}.
Proof. repeat decide equality. Qed.
(** In the other direction: if the checkers say "rollback" only for a run that is over and has not committed, then the events of a
    committed run are not lost: its row is still there - for the next check - or they were stored, with delivery records for every
    service registered when it was begun. *)
Theorem C97_committed_not_lost_partial : forall acts t sv, let st := frun acts fstart in always patient acts fstart ->
  In (HBegun t sv) (i_log (f_bus st)) -> committed st t -> In t (b_tx (i_db (f_bus st))) \/ sent t sv (i_log (f_bus st)).
Proof.
  cbv zeta. intros acts t sv P B C. pose proof (rolled_run acts fstart finv_start P (fun x (e : False) => match e with end)) as K. destruct (bus_history acts fstart) as (l & E & _). change (f_bus fstart) with istart in E.
  destruct (in_dec trow_dec t (b_tx (i_db (f_bus (frun acts fstart))))) as [I|I]; [now left|right]. rewrite E in *. destruct (C85_never_lost l t sv B I) as [R|R]; auto. destruct (K (tr_id t)) as (_ & X & _); [now rewrite E|contradiction].
Qed.
Print Assumptions C97_committed_not_lost_partial.
(** The same if a checker just looks for the data - once, at any time since it read its rows - provided that runs which commit do so
    before the timeout of their event transaction. *)
Theorem C97_in_time_not_lost_partial : forall acts t sv, let st := frun acts fstart in always looks_once acts fstart -> always in_time acts fstart ->
  In (HBegun t sv) (i_log (f_bus st)) -> committed st t -> In t (b_tx (i_db (f_bus st))) \/ sent t sv (i_log (f_bus st)).
Proof.
  cbv zeta. intros acts t sv P M B C. pose proof (timely_run acts fstart finv_start P M timely_start) as K. destruct (bus_history acts fstart) as (l & E & _). change (f_bus fstart) with istart in E.
  destruct (in_dec trow_dec t (b_tx (i_db (f_bus (frun acts fstart))))) as [I|I]; [now left|right]. rewrite E in *. destruct (C85_never_lost l t sv B I) as [R|R]; auto. destruct (tm_rol _ K (tr_id t)) as (_ & X & _); [now rewrite E|contradiction].
Qed.
Print Assumptions C97_in_time_not_lost_partial.
Example C97_not_lost_case : let st := frun four fstart in always patient four fstart /\ always looks_once four fstart /\ always in_time four fstart /\
  In (HBegun row3 ["A"; "B"]) (i_log (f_bus st)) /\ committed st row3 /\ ~ In row3 (b_tx (i_db (f_bus st))).
Proof. cbv zeta. destruct four_ok as (K1 & K2 & K3 & K4 & K5 & K6 & K7 & K8 & K9 & Ka & Kb & Kc & Kd & Ke & _). rewrite Ke. exact (conj K2 (conj K3 (conj K4 (conj K8 (conj Kc (fun e : False => match e with end)))))). Qed.

(** Without that, events of committed data are lost for ever: a run takes longer than its timeout, the checker does not find its
    data and says "rollback", the run commits, and its process dies before the bus stored the events. *)
Definition slow : list fmove :=
  [ FReg "A"; FBegin "A" 5 [ev1]; FTick 6; FCheck "A"; FSnap 0; FCheckEnd 0 [ARoll true]; FRun 0 (FcCommit true); FDie 0 ].
Theorem C97_slow_run_lost_refuted : exists acts t sv, let st := frun acts fstart in always truthful acts fstart /\ always looks_once acts fstart /\ always no_cleaning acts fstart /\
  In (HBegun t sv) (i_log (f_bus st)) /\ committed st t /\ tr_events t <> [] /\
  forall more, copies (tr_id t) (i_log (f_bus (frun (acts ++ more) fstart))) = 0 /\ ~ In t (b_tx (i_db (f_bus (frun (acts ++ more) fstart)))).
Proof.
  exists slow, row1, ["A"]. cbv zeta. split; [|split; [|split; [|split; [|split; [|split]]]]].
  - do 5 (split; [exact Logic.I|]). split; [|repeat split]. intros t x [H|[]] C. injection H as <- <-. destruct C.
  - do 5 (split; [exact Logic.I|]). split; [|repeat split]. intros t x seen [H|[]] C E. injection E as <-. intros [].
  - repeat split.
  - cbn. auto.
  - cbn. auto.
  - discriminate.
  - intros more. rewrite frun_app. destruct (bus_history slow fstart) as (l & E & _). destruct (bus_history more (frun slow fstart)) as (l2 & E2 & _). change (f_bus fstart) with istart in E. rewrite E in E2. rewrite E2, <- irun_app.
    assert (S : settled 1 (irun l istart)).
    { rewrite <- E. unfold settled. cbn. split; [lia|]. split; [contradiction|]. split; [intros p [<-|[]]; exact Logic.I|]. intros k t [<-|[]] []. }
    destruct (C86_settled_is_final l l2 1 S) as [S2 C2]. split; [cbn [tr_id row1]; rewrite C2, <- E; reflexivity|]. intros H. now apply (proj1 (proj2 S2) row1 H).
Qed.
Print Assumptions C97_slow_run_lost_refuted.

(** A Commit of the bus that returned nil means that the events are stored - also for a run the checker rolled back before. *)
Theorem C97_bus_commit_ok : forall acts id, let st := frun acts fstart in In (HCommitOk id) (i_log (f_bus st)) ->
  exists t sv, In (HBegun t sv) (i_log (f_bus st)) /\ tr_id t = id /\ In (HStored id (tr_events t)) (i_log (f_bus st)).
Proof. cbv zeta. intros acts id H. destruct (bus_history acts fstart) as (l & E & _). change (f_bus fstart) with istart in E. rewrite E in *. now apply C85_commit_ok_means_stored. Qed.
Print Assumptions C97_bus_commit_ok.
Example C97_bus_commit_case : let st := frun (firstn 7 slow ++ [FRun 0 FcBusCommit; FNext 0; FNext 0; FNext 0; FNext 0; FNext 0; FNext 0]) fstart in
  In (HRollback 1) (i_log (f_bus st)) /\ In (HCommitOk 1) (i_log (f_bus st)) /\ committed st row1 /\ tabled 1 (i_db (f_bus st)) = [ev1].
Proof. cbv zeta. state. cbn. tauto. Qed.

(** A pending transaction is settled by one undisturbed timeout check. *)
Lemma check_keeps snap t a d d' l : check_one snap t a d = (d', l) -> b_svc d' = b_svc d /\ incl (b_tx d') (b_tx d).
Proof.
  intros H. destruct a as [|del|n del]; cbn [check_one] in H.
  - injection H as <- <-. split; auto. apply incl_refl.
  - injection H as <- <-. destruct del; cbn; split; auto; try apply incl_refl. apply incl_filter.
  - destruct (memb (tr_id t) snap); [injection H as <- <-; split; auto; apply incl_refl|]. destruct n as [k|]; [|injection H as <- <-; split; auto; apply incl_refl].
    destruct (deliver_to (tr_id t) (firstn k (b_svc d)) (fst (insert_events (tr_id t) (tr_events t) d)) (snd (insert_events (tr_id t) (tr_events t) d))) as [d1 l1] eqn:E.
    destruct (deliver_to_spec _ _ _ _ _ _ E) as (S1 & S2 & S3 & S4 & S5 & S6). injection H as <- <-. cbn in S1, S3. destruct (_ && del); cbn; split; auto; rewrite S1; [apply incl_filter|apply incl_refl].
Qed.
Lemma list_keeps snap : forall trs as_ d d' l, check_list snap trs as_ d = (d', l) -> b_svc d' = b_svc d /\ incl (b_tx d') (b_tx d).
Proof.
  induction trs as [|t r IH]; intros as_ d d' l H; [injection H as <- <-; split; auto; apply incl_refl|]. destruct as_ as [|a ar]; [injection H as <- <-; split; auto; apply incl_refl|]. cbn [check_list] in H.
  destruct (check_one snap t a d) as [d1 l1] eqn:E1. destruct (check_list snap r ar d1) as [d2 l2] eqn:E2. injection H as <- <-. destruct (check_keeps _ _ _ _ _ _ E1) as [A B], (IH _ _ _ _ E2) as [C D]. split; [congruence|]. eapply incl_tran; eauto.
Qed.
Lemma gone t d : ~ In t (b_tx (snd (delete_tx t d))).
Proof. cbn. intros H. apply filter_In in H. rewrite Nat.eqb_refl in H. destruct H. discriminate. Qed.
Lemma check_settles snap t a d d' l : check_one snap t a d = (d', l) -> (forall del, a = ARoll del -> del = true) -> a <> AOther ->
  (forall n del, a = ACommit n del -> ~ In (tr_id t) snap /\ del = true /\ exists k, n = Some k /\ length (b_svc d) <= k) ->
  ~ In t (b_tx d') /\ (a_commit a -> sent t (b_svc d) l).
Proof.
  intros H Hr Ho Hc. destruct a as [|del|n del]; [congruence| |]; cbn [check_one] in H.
  - rewrite (Hr del eq_refl) in H. injection H as <- <-. split; [apply gone|intros []].
  - destruct (Hc n del eq_refl) as (Hs & -> & k & -> & Hk). destruct (memb (tr_id t) snap) eqn:M; [exfalso; apply Hs; now apply memb_In|].
    destruct (deliver_to (tr_id t) (firstn k (b_svc d)) (fst (insert_events (tr_id t) (tr_events t) d)) (snd (insert_events (tr_id t) (tr_events t) d))) as [d1 l1] eqn:E.
    destruct (deliver_to_spec _ _ _ _ _ _ E) as (S1 & S2 & S3 & S4 & S5 & S6). apply Nat.leb_le in Hk. rewrite Hk in H. apply Nat.leb_le in Hk. cbn [andb] in H. injection H as <- <-. split; [apply gone|]. intros _. split; [right; now left|].
    intros v Hv. eexists. right. right. apply S6. now rewrite firstn_all2.
Qed.
Lemma list_settles snap ans : forall trs d d' l t, check_list snap trs (map ans trs) d = (d', l) -> In t trs -> (forall del, ans t = ARoll del -> del = true) -> ans t <> AOther ->
  (forall n del, ans t = ACommit n del -> ~ In (tr_id t) snap /\ del = true /\ exists k, n = Some k /\ length (b_svc d) <= k) ->
  ~ In t (b_tx d') /\ (a_commit (ans t) -> sent t (b_svc d) l).
Proof.
  induction trs as [|x r IH]; intros d d' l t H I0 Hr Ho Hc; [destruct I0|]. destruct I0 as [-> |I]; cbn [check_list map] in H.
  - destruct (check_one snap t (ans t) d) as [d1 l1] eqn:E1. destruct (check_list snap r (map ans r) d1) as [d2 l2] eqn:E2. injection H as <- <-.
    destruct (check_settles _ _ _ _ _ _ E1 Hr Ho Hc) as [A B]. destruct (list_keeps _ _ _ _ _ _ E2) as [_ C]. split; [auto|]. intros X. destruct (B X) as [B1 B2]. split; [apply in_app_iff; auto|]. intros v Hv. destruct (B2 v Hv) as [ids B3]. exists ids. apply in_app_iff; auto.
  - destruct (check_one snap x (ans x) d) as [d1 l1] eqn:E1. destruct (check_list snap r (map ans r) d1) as [d2 l2] eqn:E2. injection H as <- <-.
    destruct (check_keeps _ _ _ _ _ _ E1) as [C _]. destruct (IH _ _ _ _ E2 I Hr Ho) as [A B]; [now rewrite C|]. rewrite C in B. split; auto. intros X. destruct (B X) as [B1 B2]. split; [apply in_app_iff; auto|]. intros v Hv. destruct (B2 v Hv) as [ids B3]. exists ids. apply in_app_iff; auto.
Qed.
(** If the row is overdue, no check of its service is at work, and its events are not stored, then one check that is not disturbed
    settles it as the registered checker says: after "rollback" the row is gone, after "commit" the row is gone and the events are
    stored and delivered to every registered service - whatever is answered for the other rows. *)
Theorem C97_pending_settles : forall acts t ans, let st := frun acts fstart in let svc := tr_service t in let j := length (i_chk (f_bus st)) in
  In t (b_tx (i_db (f_bus st))) -> tr_due t < i_now (f_bus st) -> (forall k x, In k (i_chk (f_bus st)) -> In x (held k) -> tr_service x <> svc) ->
  (forall r, In r (b_ev (i_db (f_bus st))) -> er_trans r <> tr_id t) ->
  let st' := frun [FCheck svc; FSnap j; FCheckEnd j (map ans (due_rows svc (i_now (f_bus st)) (i_db (f_bus st))))] st in
  (ans t = ARoll true -> ~ In t (b_tx (i_db (f_bus st')))) /\
  (forall n, ans t = ACommit (Some n) true -> length (b_svc (i_db (f_bus st))) <= n -> ~ In t (b_tx (i_db (f_bus st'))) /\ sent t (b_svc (i_db (f_bus st))) (i_log (f_bus st'))).
Proof.
  cbv zeta. intros acts t ans Ht Hd Hf He. pose proof (fi_bus _ (finv_reach acts)) as V. destruct (frun acts fstart) as [[d now ps ks h] rs data seen]. cbn [f_bus i_db i_now i_chk i_pub i_log] in *. set (svc := tr_service t) in *.
  assert (F : forall x, In x (due_rows svc now d) <-> In x (b_tx d) /\ tr_service x = svc /\ tr_due x < now).
  { intros x. unfold due_rows. rewrite filter_In, andb_true_iff, String.eqb_eq, Nat.ltb_lt. tauto. }
  assert (X : existsb (locked ks) (due_rows svc now d) = false).
  { apply not_true_is_false. intros X. apply existsb_exists in X. destruct X as (x & Hx & Lx). apply F in Hx. destruct Hx as (Hx & Sx & _). unfold locked in Lx. apply existsb_exists in Lx. destruct Lx as (k & Hk & Lk).
    apply existsb_exists in Lk. destruct Lk as (y & Hy & Ey). apply Nat.eqb_eq in Ey. destruct (v_chk _ _ _ _ V k y Hk Hy) as [sv By]. destruct (v_tx _ _ _ _ V x Hx) as [sv' Bx].
    destruct (v_uni _ _ _ _ V _ _ _ _ By Bx Ey) as [-> _]. now apply (Hf k x). }
  assert (L : forall x : kproc, nth_error (ks ++ [x]) (length ks) = Some x) by (intros x; rewrite nth_error_app2, Nat.sub_diag by lia; reflexivity).
  assert (E1 : exists s1, fexec (FCheck svc) (mkF (mkI d now ps ks h) rs data seen) = mkF (mkI d now ps (ks ++ [KHold (due_rows svc now d)]) h) rs data s1) by (cbn [fexec iexec]; rewrite X; eexists; reflexivity).
  destruct E1 as [s1 E1]. cbn [frun]. rewrite E1.
  assert (E2 : fexec (FSnap (length ks)) (mkF (mkI d now ps (ks ++ [KHold (due_rows svc now d)]) h) rs data s1) = mkF (mkI d now ps (set_nth (length ks) (KSnap (due_rows svc now d) (map er_trans (b_ev d))) (ks ++ [KHold (due_rows svc now d)])) h) rs data s1) by (cbn [fexec iexec]; rewrite L; reflexivity).
  rewrite E2. cbn [fexec iexec f_bus]. rewrite (nth_set_same _ _ _ _ (L _)).
  destruct (check_list (map er_trans (b_ev d)) (due_rows svc now d) (map ans (due_rows svc now d)) d) as [d' l] eqn:E. cbn [f_bus i_db i_log].
  assert (S : ~ In (tr_id t) (map er_trans (b_ev d))) by (intros S; apply in_map_iff in S; destruct S as (r & Er & Hr); exact (He r Hr Er)).
  assert (I : In t (due_rows svc now d)) by (apply F; auto).
  split.
  - intros A. destruct (list_settles _ _ _ _ _ _ t E I) as [G _]; auto; rewrite A; try discriminate. intros del Eq. congruence.
  - intros n A Ln. destruct (list_settles _ _ _ _ _ _ t E I) as [G Q]; try (rewrite A; discriminate).
    + intros m del Eq. rewrite A in Eq. injection Eq as <- <-. eauto.
    + split; auto. rewrite A in Q. destruct (Q Logic.I) as [Q1 Q2]. split; [apply in_app_iff; auto|]. intros v Hv. destruct (Q2 v Hv) as [ids Q3]. exists ids. apply in_app_iff; auto.
Qed.
Print Assumptions C97_pending_settles.
Example C97_pending_case : let st := frun (firstn 22 four) fstart in In row2 (b_tx (i_db (f_bus st))) /\ tr_due row2 < i_now (f_bus st) /\ i_chk (f_bus st) = [] /\ map er_trans (b_ev (i_db (f_bus st))) = [1] /\
  length (b_svc (i_db (f_bus st))) <= 2.
Proof. cbv zeta. state. cbn. repeat split; auto; lia. Qed.

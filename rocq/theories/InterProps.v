(** C85, C86: event transactions with publishers and timeout checkers interleaved statement by statement. *)
From Verif Require Import InterModel InterSpec BusSpec BusProof InterProof InterProof2.
Local Open Scope string_scope.
Local Open Scope list_scope.
Local Open Scope nat_scope.

(** A concrete run: two services; publisher 0 begins a transaction, is slow, and calls Commit; its query for stored events
    finds none; meanwhile the transaction is overdue, a checker takes it, says commit and stores and delivers the events. *)
Definition ev1 : devent := mkDev "x" "a" STTransaction 1 0.
Definition ev2 : devent := mkDev "y" "a" STTransaction 2 0.
Definition race : list iact :=
  [ IReg "A"; IReg "B"; IBegin "A" 5 [ev1; ev2]; ITick 10; ICheck "A"; ICommit 0; INext 0; ISnap 0;
    ICheckEnd 0 [ACommit (Some 2) true]; INext 0; INext 0; INext 0; INext 0; INext 0; INext 0 ].
Definition race_state : ist := irun race istart.
Example race_ok : In (HCommitOk 1) (i_log race_state) /\ b_tx (i_db race_state) = [] /\ attempts 1 (i_log race_state) = 2 /\ copies 1 (i_log race_state) = 2.
Proof. cbn. tauto. Qed.
Example race_moves : Forall no_removal race.
Proof. repeat constructor. Qed.

(** Events are stored only for a transaction for which a Commit was called, and they are the events it was begun with. *)
Theorem C85_stored_only_if_asked : forall acts id evs, In (HStored id evs) (i_log (irun acts istart)) ->
  In (HAsked id) (i_log (irun acts istart)) /\ exists t sv, In (HBegun t sv) (i_log (irun acts istart)) /\ tr_id t = id /\ evs = tr_events t.
Proof. intros acts id evs H. exact (v_sto _ _ _ _ (iv_reach acts) id evs H). Qed.
Print Assumptions C85_stored_only_if_asked.

(** A row of DispatchBegin that is gone was rolled back on request, or its events were stored and delivery records made
    for every service that was registered when it was begun. *)
Theorem C85_never_lost : forall acts t sv, In (HBegun t sv) (i_log (irun acts istart)) -> ~ In t (b_tx (i_db (irun acts istart))) ->
  In (HRollback (tr_id t)) (i_log (irun acts istart)) \/ sent t sv (i_log (irun acts istart)).
Proof. intros acts t sv. exact (v_gone _ _ _ _ (iv_reach acts) t sv). Qed.
Print Assumptions C85_never_lost.
Example C85_race_case : In (HBegun (mkT 1 "A" [ev1; ev2] 5) ["A"; "B"]) (i_log race_state) /\ ~ In (HRollback 1) (i_log race_state) /\ sent (mkT 1 "A" [ev1; ev2] 5) ["A"; "B"] (i_log race_state).
Proof.
  split; [cbn; auto|]. split; [cbn; intuition discriminate|]. split; [cbn; tauto|]. cbn. intros v [<-|[<-|[]]]; [exists [1; 2]|exists [1; 2]]; cbn; tauto.
Qed.

(** A Commit of the publisher that returned nil: the events were stored (by it or by somebody else). *)
Theorem C85_commit_ok_means_stored : forall acts id, In (HCommitOk id) (i_log (irun acts istart)) -> exists t sv, In (HBegun t sv) (i_log (irun acts istart)) /\ tr_id t = id /\ In (HStored id (tr_events t)) (i_log (irun acts istart)).
Proof.
  intros acts id H. destruct (v_ok _ _ _ _ (iv_reach acts) id H) as [evs X]. destruct (v_sto _ _ _ _ (iv_reach acts) id evs X) as (_ & t & sv & B & E & ->). eauto.
Qed.
Print Assumptions C85_commit_ok_means_stored.

(** As long as nothing is cleaned away, the event table holds for every transaction exactly what was stored for it, in
    that order and complete, never a part of its events. *)
Theorem C85_log_is_the_table : forall acts id, Forall no_removal acts -> id <> 0 ->
  tabled id (i_db (irun acts istart)) = logged id (i_log (irun acts istart)).
Proof. intros acts id N H. exact (w_log _ _ _ (iw_reach acts N istart iw_start) id H). Qed.
Print Assumptions C85_log_is_the_table.
Theorem C85_whole_copies : forall acts t sv, Forall no_removal acts -> In (HBegun t sv) (i_log (irun acts istart)) ->
  tabled (tr_id t) (i_db (irun acts istart)) = concat (repeat (tr_events t) (copies (tr_id t) (i_log (irun acts istart)))).
Proof.
  intros acts t sv N H. pose proof (v_nt _ _ _ _ (iv_reach acts)) as [_ B]. specialize (B t sv H). rewrite (C85_log_is_the_table acts (tr_id t) N) by lia.
  assert (S : forall evs, In (HStored (tr_id t) evs) (i_log (irun acts istart)) -> evs = tr_events t).
  { intros evs X. destruct (C85_stored_only_if_asked acts _ _ X) as (_ & t' & sv' & B' & E & ->). now destruct (v_uni _ _ _ _ (iv_reach acts) t' sv' t sv B' H E) as [-> _]. }
  revert S. generalize (i_log (irun acts istart)). clear. intros h S. unfold logged, copies. induction h as [|e h IH]; auto. cbn [flat_map filter].
  destruct e as [t' sv'|i|i|i evs|i v ids|i|i]; try (apply IH; intros x Hx; apply S; now right).
  destruct (i =? tr_id t) eqn:E; [|apply IH; intros x Hx; apply S; now right]. cbn [length repeat concat]. apply Nat.eqb_eq in E. subst i. rewrite (S evs (or_introl eq_refl)), IH; auto. intros x Hx. apply S. now right.
Qed.
Print Assumptions C85_whole_copies.
Example C85_two_copies : tabled 1 (i_db race_state) = [ev1; ev2; ev1; ev2].
Proof. reflexivity. Qed.

(** Every delivery record that was made for a transaction is there, and is for a complete copy of its events. *)
Theorem C85_deliveries_are_in_the_table : forall acts id v ids, Forall no_removal acts -> In (HDelivered id v ids) (i_log (irun acts istart)) ->
  (forall x, In x ids -> exists s, In s (b_sv (i_db (irun acts istart))) /\ sr_service s = v /\ sr_event s = x) /\
  exists t sv rows, In (HBegun t sv) (i_log (irun acts istart)) /\ tr_id t = id /\ ids = map er_id rows /\ incl rows (b_ev (i_db (irun acts istart))) /\ map er_ev rows = tr_events t /\ forall r, In r rows -> er_trans r = id.
Proof.
  intros acts id v ids N H. destruct (w_del _ _ _ (iw_reach acts N istart iw_start) id v ids H) as (A & t & rows & T & (C0 & C1 & C2 & C3) & E). split; auto.
  destruct (C85_stored_only_if_asked acts _ _ C0) as (_ & t' & sv & B & Ei & Ee). exists t', sv, rows. rewrite <- Ee. subst id. auto 7.
Qed.
Print Assumptions C85_deliveries_are_in_the_table.

(** ** C86: how often *)
Lemma flat_map_nil_in {A B} (f : A -> list B) l : (forall x, In x l -> f x = []) -> flat_map f l = [].
Proof. induction l as [|x l IH]; intros H; cbn; auto. rewrite (H x (or_introl eq_refl)). apply IH. intros y Hy. apply H. now right. Qed.
(** The events of a transaction are stored at most as often as Commit is called for it, by the publisher or a checker. *)
Theorem C86_copies_at_most_attempts : forall acts id, copies id (i_log (irun acts istart)) <= attempts id (i_log (irun acts istart)).
Proof. intros acts id. pose proof (v_cnt _ _ _ _ (iv_reach acts) id). lia. Qed.
Print Assumptions C86_copies_at_most_attempts.

(** Once the row is gone and nobody is at work on it any more, no further copy is ever stored. *)
Theorem C86_settled_is_final : forall acts more id, settled id (irun acts istart) ->
  settled id (irun (acts ++ more) istart) /\ copies id (i_log (irun (acts ++ more) istart)) = copies id (i_log (irun acts istart)).
Proof. intros acts more id S. rewrite irun_app. now apply settled_run. Qed.
Print Assumptions C86_settled_is_final.
Example C86_race_settles : settled 1 race_state.
Proof.
  unfold settled. change (i_pub race_state) with [PEnd]. change (i_chk race_state) with [KEnd]. change (b_tx (i_db race_state)) with (@nil trow). change (b_nt (i_db race_state)) with 2.
  split; [lia|]. split; [contradiction|]. split; [intros p [<-|[]]; exact I|]. intros k t [<-|[]] [].
Qed.

(** Exactly once is refuted without any error or crash: publisher and checker both find no stored events, both store them,
    both succeed; each service gets every event twice. *)
Theorem C86_exactly_once_refuted : exists acts id t sv, Forall no_removal acts /\ (forall i, ~ In (IStop i) acts) /\ (forall j, ~ In (IAbort j) acts) /\
  In (HBegun t sv) (i_log (irun acts istart)) /\ tr_id t = id /\ In (HCommitOk id) (i_log (irun acts istart)) /\ settled id (irun acts istart) /\
  tabled id (i_db (irun acts istart)) = tr_events t ++ tr_events t /\ tr_events t <> [].
Proof.
  exists race, 1, (mkT 1 "A" [ev1; ev2] 5), ["A"; "B"]. split; [apply race_moves|]. split; [cbn; intuition discriminate|]. split; [cbn; intuition discriminate|].
  split; [apply C85_race_case|]. split; [reflexivity|]. split; [apply race_ok|]. split; [apply C86_race_settles|]. split; [reflexivity|discriminate].
Qed.
Print Assumptions C86_exactly_once_refuted.

(** A Rollback that returned nil does not mean that the events are not stored: the checker may have stored them. *)
Definition race2 : list iact :=
  [ IReg "A"; IBegin "A" 5 [ev1]; ITick 10; ICheck "A"; ISnap 0; ICheckEnd 0 [ACommit (Some 1) true]; IRollback 0; INext 0 ].
Theorem C86_rollback_means_not_stored_refuted : exists acts id, Forall no_removal acts /\ In (HRollbackOk id) (i_log (irun acts istart)) /\ tabled id (i_db (irun acts istart)) <> [].
Proof. exists race2, 1. split; [repeat constructor|]. split; [cbn; tauto|discriminate]. Qed.
Print Assumptions C86_rollback_means_not_stored_refuted.
(** What holds: a transaction for which nobody called Commit has no event in the table. *)
Theorem C86_no_commit_no_events : forall acts id, Forall no_removal acts -> id <> 0 -> ~ In (HAsked id) (i_log (irun acts istart)) -> tabled id (i_db (irun acts istart)) = [].
Proof.
  intros acts id N Z H. rewrite (C85_log_is_the_table acts id N Z). unfold logged. apply flat_map_nil_in. intros e He. destruct e as [t' sv'|i|i|i evs|i v ids|i|i]; auto.
  destruct (Nat.eqb_spec i id) as [->|]; auto. exfalso. apply H. now apply (C85_stored_only_if_asked acts id evs).
Qed.
Print Assumptions C86_no_commit_no_events.

(* ------------------------------------------------------------ when checkers look at a transaction *)
Definition elapsed (acts : list iact) : nat := list_sum (map (fun a => match a with ITick n => n | _ => 0 end) acts).
Lemma now_step a st : i_now (iexec a st) = i_now st + match a with ITick n => n | _ => 0 end.
Proof.
  destruct st as [d now ps ks h]. destruct a; cbn [iexec i_now]; rewrite ?Nat.add_0_r; auto;
    repeat first [reflexivity | match goal with |- context [match ?x with _ => _ end] => destruct x end | progress cbn [i_now]].
Qed.
Lemma now_run acts : forall st, i_now (irun acts st) = i_now st + elapsed acts.
Proof.
  induction acts as [|a t IH]; intros st; cbn [irun]; [unfold elapsed; cbn; lia|]. rewrite IH, now_step. unfold elapsed. cbn [map]. unfold list_sum. cbn [fold_right]. lia.
Qed.
Lemma overdue_step a st : (forall k t, In k (i_chk st) -> In t (held k) -> tr_due t < i_now st) -> forall k t, In k (i_chk (iexec a st)) -> In t (held k) -> tr_due t < i_now (iexec a st).
Proof.
  intros H. rewrite now_step. destruct st as [d now ps ks h]. cbn [i_chk i_now] in H.
  assert (S : forall x, (forall t, In t (held x) -> exists k, In k ks /\ In t (held k)) -> forall i k t, In k (set_nth i x ks) -> In t (held k) -> tr_due t < now).
  { intros x Hx i k t Hk Ht. apply in_set in Hk. destruct Hk as [->|Hk]; [|eauto]. destruct (Hx t Ht) as (k' & Hk' & Ht'). eauto. }
  assert (M : forall n k t, In k ks -> In t (held k) -> tr_due t < now + n) by (intros n k t Hk Ht; specialize (H k t Hk Ht); lia).
  destruct a; cbn [iexec]; try exact (M _).
  - destruct evs; [exact (M 0)|]. exact (M 0).
  - destruct (nth_error ps i) as [[]|]; exact (M 0).
  - destruct (nth_error ps i) as [[]|]; exact (M 0).
  - destruct (nth_error ps i) as [p|]; [|exact (M 0)]. destruct (pub_step ks p d) as [[p' d'] l]. exact (M 0).
  - destruct (existsb _ _); [exact (M 0)|]. cbn [i_chk i_now]. rewrite Nat.add_0_r. intros k t Hk Ht. apply in_app_iff in Hk. destruct Hk as [Hk|[<-|[]]]; [eauto|].
    cbn [held] in Ht. apply filter_In in Ht. destruct Ht as [_ Ht]. apply andb_true_iff in Ht. now apply Nat.ltb_lt.
  - destruct (nth_error ks j) as [[trs|trs snap|]|] eqn:E; try exact (M 0). cbn [i_chk i_now]. rewrite Nat.add_0_r. apply S. intros t Ht. exists (KHold trs). split; [eapply nth_error_In; eauto|exact Ht].
  - destruct (nth_error ks j) as [[trs|trs snap|]|] eqn:E; try exact (M 0). destruct (check_list snap trs answers d) as [d' l]. cbn [i_chk i_now]. rewrite Nat.add_0_r. apply S. contradiction.
  - cbn [i_chk i_now]. rewrite Nat.add_0_r. apply S. contradiction.
Qed.
Lemma overdue_run acts : forall st, (forall k t, In k (i_chk st) -> In t (held k) -> tr_due t < i_now st) -> forall k t, In k (i_chk (irun acts st)) -> In t (held k) -> tr_due t < i_now (irun acts st).
Proof. induction acts as [|a r IH]; intros st H; cbn [irun]; auto. apply IH. now apply overdue_step. Qed.
Lemma log_step a st e : In e (i_log st) -> In e (i_log (iexec a st)).
Proof.
  destruct st as [d now ps ks h]. cbn [i_log]. intros H. destruct a; cbn [iexec i_log]; auto;
    repeat first [exact H | apply in_app_iff; left; exact H | match goal with |- context [match ?x with _ => _ end] => destruct x end | progress cbn [i_log]].
Qed.
Lemma log_grows acts : forall st e, In e (i_log st) -> In e (i_log (irun acts st)).
Proof. induction acts as [|a r IH]; intros st e H; cbn [irun]; auto. apply IH. now apply log_step. Qed.
(** DispatchBegin gives the publisher its timeout: as long as it has not passed, no checker looks at the transaction. *)
Theorem C85_checker_waits_for_the_timeout : forall acts svc timeout evs more, evs <> [] -> elapsed more <= timeout ->
  exists t, i_log (irun (acts ++ [IBegin svc timeout evs]) istart) = i_log (irun acts istart) ++ [HBegun t (b_svc (i_db (irun acts istart)))] /\ tr_events t = evs /\
  forall k t', In k (i_chk (irun (acts ++ IBegin svc timeout evs :: more) istart)) -> In t' (held k) -> tr_id t' <> tr_id t.
Proof.
  intros acts svc timeout evs more N E. set (st := irun acts istart). set (t := mkT (b_nt (i_db st)) svc evs (i_now st + timeout)). exists t.
  assert (L : i_log (iexec (IBegin svc timeout evs) st) = i_log st ++ [HBegun t (b_svc (i_db st))]) by (destruct st as [d now ps ks h]; destruct evs; [congruence|reflexivity]).
  rewrite irun_app. cbn [irun]. fold st. split; [exact L|]. split; [reflexivity|]. intros k t' Hk Ht Eq.
  assert (B : exists sv, In (HBegun t' sv) (i_log (irun (acts ++ IBegin svc timeout evs :: more) istart))) by (apply (v_chk _ _ _ _ (iv_reach _) k); auto). destruct B as [sv B].
  assert (B' : In (HBegun t (b_svc (i_db st))) (i_log (irun (acts ++ IBegin svc timeout evs :: more) istart))).
  { rewrite irun_app. cbn [irun]. fold st. apply (log_grows more). rewrite L. apply in_app_iff. right. now left. }
  destruct (v_uni _ _ _ _ (iv_reach _) _ _ _ _ B B' Eq) as [-> _].
  assert (O : tr_due t < i_now (irun (acts ++ IBegin svc timeout evs :: more) istart)) by (apply (overdue_run _ istart) with (k := k); auto; intros ? ? []).
  rewrite irun_app, now_run in O. fold st in O. unfold elapsed in O, E. cbn [map] in O. unfold list_sum in O, E. cbn [fold_right] in O. cbn [tr_due t] in O. lia.
Qed.
Print Assumptions C85_checker_waits_for_the_timeout.
(** A transaction nobody decided is looked at: when a checker of its service comes after the timeout, it takes the row unless
    somebody holds one of the overdue rows of the service. *)
Theorem C85_checker_takes_overdue : forall acts svc t, let st := irun acts istart in In t (b_tx (i_db st)) -> tr_service t = svc -> tr_due t < i_now st ->
  (forall k x, In k (i_chk st) -> In x (held k) -> tr_service x <> svc) ->
  exists k, In k (i_chk (irun (acts ++ [ICheck svc]) istart)) /\ In t (held k) /\ forall x, In x (held k) -> tr_service x = svc.
Proof.
  intros acts svc t st Ht Es Hd Hf. rewrite irun_app. cbn [irun]. fold st. pose proof (iv_reach acts) as V. fold st in V. destruct st as [d now ps ks h]. cbn [i_db i_now i_pub i_chk i_log iexec] in *.
  assert (F : forall x, In x (due_rows svc now d) <-> In x (b_tx d) /\ tr_service x = svc /\ tr_due x < now).
  { intros x. unfold due_rows. rewrite filter_In, andb_true_iff, String.eqb_eq, Nat.ltb_lt. tauto. }
  destruct (existsb (locked ks) (due_rows svc now d)) eqn:X.
  - exfalso. apply existsb_exists in X. destruct X as (x & Hx & Lx). apply F in Hx. destruct Hx as (Hx & Sx & _). unfold locked in Lx. apply existsb_exists in Lx. destruct Lx as (k & Hk & Lk).
    apply existsb_exists in Lk. destruct Lk as (y & Hy & Ey). apply Nat.eqb_eq in Ey. destruct (v_chk _ _ _ _ V k y Hk Hy) as [sv By]. destruct (v_tx _ _ _ _ V x Hx) as [sv' Bx].
    destruct (v_uni _ _ _ _ V _ _ _ _ By Bx Ey) as [-> _]. now apply (Hf k x).
  - exists (KHold (due_rows svc now d)). cbn [i_chk]. split; [apply in_app_iff; right; now left|]. cbn [held]. split; [apply F; auto|]. intros x Hx. now apply F in Hx.
Qed.
Print Assumptions C85_checker_takes_overdue.
Example C85_timeout_case : let a := [IReg "A"; IBegin "A" 5 [ev1]; ITick 5; ICheck "A"] in
  map held (i_chk (irun a istart)) = [[]] /\ map held (i_chk (irun (a ++ [ITick 1; ICheck "A"]) istart)) = [[]; [mkT 1 "A" [ev1] 5]].
Proof. split; reflexivity. Qed.

(** Who looks after the events of a transaction were stored does not store them again: a Commit of the publisher that looks now returns
    nil at once and changes nothing; a checker whose reads begin now adds no copy, whenever it comes to an end and whatever it is told. *)
Lemma set_nth_get {A} : forall j (x : A) l, j < length l -> nth_error (set_nth j x l) j = Some x.
Proof. induction j; intros x [|y l] H; cbn in *; try lia; auto. apply IHj. lia. Qed.
Lemma set_nth_other {A} : forall i j (x : A) l, i <> j -> nth_error (set_nth i x l) j = nth_error l j.
Proof. induction i; intros [|j] x [|y l] H; cbn; auto; try congruence. Qed.
Lemma snap_stays trs snap j : forall a st, nth_error (i_chk st) j = Some (KSnap trs snap) ->
  nth_error (i_chk (iexec a st)) j = Some (KSnap trs snap) \/ nth_error (i_chk (iexec a st)) j = Some KEnd.
Proof.
  intros a [d now ps ks h] H. cbn [i_chk] in H. assert (L : j < length ks) by (apply nth_error_Some; congruence).
  assert (S : forall i x, nth_error ks i <> Some (KSnap trs snap) \/ x = KEnd -> nth_error (set_nth i x ks) j = Some (KSnap trs snap) \/ nth_error (set_nth i x ks) j = Some KEnd).
  { intros i x D. destruct (Nat.eq_dec i j) as [->|N]; [rewrite set_nth_get by exact L; destruct D as [D|D]; [congruence|subst x; auto]|rewrite set_nth_other by exact N; auto]. }
  destruct a; cbn [iexec i_chk]; try (left; exact H); try (left; repeat (match goal with |- context [match ?x with _ => _ end] => destruct x end; cbn [i_chk]); exact H).
  - left. destruct (existsb _ _); cbn [i_chk]; [exact H|]. rewrite nth_error_app1 by exact L. exact H.
  - destruct (nth_error ks j0) as [[trs0|trs0 s0|]|] eqn:E; cbn [i_chk]; auto. apply S. left. congruence.
  - destruct (nth_error ks j0) as [[trs0|trs0 s0|]|] eqn:E; cbn [i_chk]; auto. destruct (check_list s0 trs0 answers d). cbn [i_chk]. apply S. now right.
  - apply S. now right.
Qed.
Lemma end_stays j : forall a st, nth_error (i_chk st) j = Some KEnd -> nth_error (i_chk (iexec a st)) j = Some KEnd.
Proof.
  intros a [d now ps ks h] H. cbn [i_chk] in H. assert (L : j < length ks) by (apply nth_error_Some; congruence).
  assert (S : forall i x, nth_error ks i <> Some KEnd \/ x = KEnd -> nth_error (set_nth i x ks) j = Some KEnd).
  { intros i x D. destruct (Nat.eq_dec i j) as [->|N]; [rewrite set_nth_get by exact L; destruct D as [D|D]; [congruence|subst x; auto]|rewrite set_nth_other by exact N; auto]. }
  destruct a; cbn [iexec i_chk]; try exact H; try (repeat (match goal with |- context [match ?x with _ => _ end] => destruct x end; cbn [i_chk]); exact H).
  - destruct (existsb _ _); cbn [i_chk]; [exact H|]. rewrite nth_error_app1 by exact L. exact H.
  - destruct (nth_error ks j0) as [[trs0|trs0 s0|]|] eqn:E; cbn [i_chk]; auto. apply S. left. congruence.
  - destruct (nth_error ks j0) as [[trs0|trs0 s0|]|] eqn:E; cbn [i_chk]; auto. destruct (check_list s0 trs0 answers d). cbn [i_chk]. apply S. now right.
  - apply S. now right.
Qed.
Lemma check_in_snap snap id t a d : memb id snap = true -> tr_id t = id -> copies id (snd (check_one snap t a d)) = 0.
Proof. intros M <-. destruct a; cbn [check_one]; try reflexivity. rewrite M. reflexivity. Qed.
Lemma check_list_in_snap snap id : memb id snap = true -> forall trs as_ d, copies id (snd (check_list snap trs as_ d)) = 0.
Proof.
  intros M. induction trs as [|t r IH]; intros [|a ar] d; cbn [check_list]; auto. destruct (check_one snap t a d) as [d1 l1] eqn:E1. pose proof (IH ar d1) as I2. destruct (check_list snap r ar d1) as [d2 l2]. cbn [snd] in *. rewrite copies_app, I2, Nat.add_0_r.
  destruct (Nat.eq_dec (tr_id t) id) as [X|X]; [|exact (proj1 (check_settled _ _ _ _ _ _ _ E1 X))]. pose proof (check_in_snap snap id t a d M X) as Z. rewrite E1 in Z. exact Z.
Qed.
Theorem C86_looking_after_means_no_copy : forall acts id, let st := irun acts istart in tabled id (i_db st) <> [] ->
  (forall i t, nth_error (i_pub st) i = Some (PFind t) -> tr_id t = id ->
     i_db (iexec (INext i) st) = i_db st /\ i_log (iexec (INext i) st) = i_log st ++ [HCommitOk id]) /\
  (forall j trs mid answers, nth_error (i_chk st) j = Some (KHold trs) ->
     let later := irun mid (iexec (ISnap j) st) in
     copies id (i_log (iexec (ICheckEnd j answers) later)) = copies id (i_log later)).
Proof.
  intros acts id st T.
  assert (M : memb id (map er_trans (b_ev (i_db st))) = true).
  { unfold tabled in T. apply memb_In. destruct (filter (fun r => er_trans r =? id) (b_ev (i_db st))) as [|r rs] eqn:E; [now destruct T|]. assert (X : In r (filter (fun r => er_trans r =? id) (b_ev (i_db st)))) by (rewrite E; now left). apply filter_In in X. destruct X as [X1 X2]. apply Nat.eqb_eq in X2. rewrite <- X2. now apply in_map. }
  split.
  - intros i t Hp <-. destruct st as [d now ps ks h]. cbn [i_pub i_db i_log] in *. cbn [iexec]. rewrite Hp. cbn [pub_step].
    assert (F : fst (find_trans (tr_id t) d) = true).
    { apply memb_In, in_map_iff in M. destruct M as (r & R1 & R2). cbn. apply existsb_exists. exists r. split; auto. now apply Nat.eqb_eq. }
    rewrite F. split; reflexivity.
  - intros j trs mid answers Hk later.
    assert (S : nth_error (i_chk later) j = Some (KSnap trs (map er_trans (b_ev (i_db st)))) \/ nth_error (i_chk later) j = Some KEnd).
    { unfold later. assert (S0 : nth_error (i_chk (iexec (ISnap j) st)) j = Some (KSnap trs (map er_trans (b_ev (i_db st))))).
      { destruct st as [d now ps ks h]. cbn [i_chk i_db] in *. cbn [iexec]. rewrite Hk. cbn [i_chk]. apply set_nth_get. apply nth_error_Some. congruence. }
      clear later. revert S0. generalize (iexec (ISnap j) st) as s0. intros s0 S0. assert (S1 : nth_error (i_chk s0) j = Some (KSnap trs (map er_trans (b_ev (i_db st)))) \/ nth_error (i_chk s0) j = Some KEnd) by auto. clear - S1. revert s0 S1. generalize dependent (map er_trans (b_ev (i_db st))). intros snap. induction mid as [|a mid IH]; intros s0 S1; cbn [irun]; auto. apply IH. destruct S1 as [S1|S1]; [now apply snap_stays|right; now apply end_stays]. }
    destruct later as [d now ps ks h]. cbn [i_chk i_log] in *. cbn [iexec]. destruct S as [-> | ->]; [|reflexivity].
    pose proof (check_list_in_snap _ id M trs answers d) as Z. destruct (check_list _ trs answers d) as [d' l]. cbn [snd i_log] in *. rewrite copies_app, Z. lia.
Qed.
Print Assumptions C86_looking_after_means_no_copy.
(** the publisher of [race] has stored its events: a checker that begins to read now adds nothing, though it is told to commit *)
Example C86_looking_after_example :
  let st := irun [IReg "a"; IBegin "s" 5 [ev1]; ICommit 0; INext 0; INext 0; ITick 9; ICheck "s"] istart in
  tabled 1 (i_db st) <> [] /\ nth_error (i_chk st) 0 = Some (KHold (b_tx (i_db st))) /\ b_tx (i_db st) <> [] /\
  i_log (irun [ISnap 0; ICheckEnd 0 [ACommit (Some 1) true]] st) = i_log st ++ [HAsked 1].
Proof. vm_compute. repeat split; discriminate. Qed.

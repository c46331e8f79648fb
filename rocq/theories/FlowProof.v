(** Invariants for C97. *)
From Verif Require Import FlowModel FlowSpec InterSpec BusSpec BusProof InterProof InterProof2 InterProps.
Local Open Scope string_scope. Local Open Scope list_scope. Local Open Scope nat_scope.

(** log entries that ask for nothing *)
Definition calm (e : hev) : Prop := match e with HBegun _ _ | HAsked _ | HRollback _ => False | _ => True end.
Lemma calm_in e l : Forall calm l -> In e l -> calm e.
Proof. rewrite Forall_forall. auto. Qed.
Lemma deliver_calm id rows : forall svcs d d' l, deliver_to id svcs rows d = (d', l) -> Forall calm l.
Proof. induction svcs as [|v r IH]; cbn; intros d d' l; [intros [= <- <-]; constructor|]. destruct (deliver_to id r rows _) as [d1 l1] eqn:E. intros [= <- <-]. constructor; [exact Logic.I|eauto]. Qed.
Lemma check_one_log snap t a d d' l : check_one snap t a d = (d', l) -> forall e, In e l -> calm e \/ (e = HAsked (tr_id t) /\ a_commit a) \/ (e = HRollback (tr_id t) /\ a_rollback a).
Proof.
  destruct a as [|del|n del]; cbn [check_one].
  - intros [= <- <-] e [].
  - intros [= <- <-] e [<-|[]]. right. right. split; cbn; auto.
  - destruct (memb (tr_id t) snap); [intros [= <- <-] e [<-|[]]; right; left; split; cbn; auto|]. destruct n as [k|]; [|intros [= <- <-] e [<-|[]]; right; left; split; cbn; auto].
    destruct (deliver_to _ _ _ _) as [d1 l1] eqn:E. intros [= <- <-] e [<-|[<-|He]]; [right; left; split; cbn; auto|left; exact Logic.I|]. left. apply (calm_in e l1); auto. eapply deliver_calm; eauto.
Qed.
Lemma check_list_log snap : forall trs as_ d d' l, check_list snap trs as_ d = (d', l) -> forall e, In e l ->
  calm e \/ exists t a, In (t, a) (combine trs as_) /\ ((e = HAsked (tr_id t) /\ a_commit a) \/ (e = HRollback (tr_id t) /\ a_rollback a)).
Proof.
  induction trs as [|t r IH]; intros [|a ar] d d' l; cbn [check_list combine]; try (intros [= <- <-] e []).
  destruct (check_one snap t a d) as [d1 l1] eqn:E1. destruct (check_list snap r ar d1) as [d2 l2] eqn:E2. intros [= <- <-] e He. apply in_app_iff in He. destruct He as [He|He].
  - destruct (check_one_log _ _ _ _ _ _ E1 e He) as [C|C]; auto. right. exists t, a. split; [now left|exact C].
  - destruct (IH _ _ _ _ E2 e He) as [C|(t' & a' & C1 & C2)]; auto. right. exists t', a'. split; [now right|exact C2].
Qed.

(** the bus inside a flow is one of InterModel *)
Definition moves (a : fmove) (st : flow) : list iact :=
  match a with
  | FBegin svc timeout evs => match evs with [] => [] | _ => [IBegin svc timeout evs] end
  | FRun i c => match nth_error (f_runs st) i with Some (p, _) => match next_phase p c, bus_of i p c with Some _, Some x => [x] | _, _ => [] end | None => [] end
  | FSettle _ _ => []
  | FNext i => [INext i]
  | FDie i => match nth_error (f_runs st) i with Some _ => [IStop i] | None => [] end
  | FReg n => [IReg n] | FTick n => [ITick n] | FPlain e o => [IPlain e o] | FRemove ids => [IRemove ids]
  | FCheck s => [ICheck s] | FSnap j => [ISnap j] | FCheckEnd j an => [ICheckEnd j an] | FCheckAbort j => [IAbort j]
  end.
Lemma bus_moves a st : f_bus (fexec a st) = irun (moves a st) (f_bus st).
Proof.
  destruct st as [b rs data seen]. destruct a; cbn [fexec moves f_bus f_runs irun]; auto.
  - destruct evs; reflexivity.
  - destruct (nth_error rs i) as [[p t]|]; auto. destruct (next_phase p c); auto. destruct (bus_of i p c); reflexivity.
  - destruct (nth_error rs i) as [[[] t]|]; reflexivity.
  - destruct (nth_error rs i) as [[p t]|]; reflexivity.
Qed.
Lemma moves_keep a st : no_cleaning a st -> Forall no_removal (moves a st).
Proof.
  destruct a; cbn; intros H; repeat constructor; try contradiction.
  - destruct evs; repeat constructor.
  - destruct (nth_error (f_runs st) i) as [[p t]|]; [|constructor]. destruct p, c; cbn; try destruct ok; repeat constructor.
  - destruct (nth_error (f_runs st) i); repeat constructor.
Qed.
Lemma bus_history acts : forall st, exists l, f_bus (frun acts st) = irun l (f_bus st) /\ (always no_cleaning acts st -> Forall no_removal l).
Proof.
  induction acts as [|a t IH]; intros st; cbn [frun always]; [exists []; split; [reflexivity|constructor]|]. destruct (IH (fexec a st)) as (l & E & K).
  exists (moves a st ++ l). split; [rewrite E, bus_moves, irun_app; reflexivity|]. intros [A B]. apply Forall_app. split; auto. now apply moves_keep.
Qed.
Lemma frun_app l1 l2 : forall st, frun (l1 ++ l2) st = frun l2 (frun l1 st).
Proof. induction l1 as [|a t IH]; intros st; cbn; auto. Qed.
Lemma always_app P l1 l2 : forall st, always P (l1 ++ l2) st <-> always P l1 st /\ always P l2 (frun l1 st).
Proof. induction l1 as [|a t IH]; intros st; cbn; [tauto|]. rewrite IH. tauto. Qed.

(** what a step adds to the log *)
Definition new_entry (a : fmove) (st : flow) (e : hev) : Prop :=
  match e with
  | HBegun t sv => exists svc timeout evs, a = FBegin svc timeout evs /\ evs <> [] /\ t = mkT (b_nt (i_db (f_bus st))) svc evs (i_now (f_bus st) + timeout)
  | HAsked i => (exists k t, a = FRun k FcBusCommit /\ nth_error (f_runs st) k = Some (PhCommitted, t) /\ nth_error (i_pub (f_bus st)) k = Some (PHave t) /\ tr_id t = i) \/
                (exists j an t x, a = FCheckEnd j an /\ In (t, x) (asked_about j an st) /\ a_commit x /\ tr_id t = i)
  | HRollback i => (exists k t, a = FRun k FcBusRollback /\ nth_error (f_runs st) k = Some (PhFailed, t) /\ nth_error (i_pub (f_bus st)) k = Some (PHave t) /\ tr_id t = i) \/
                (exists j an t x, a = FCheckEnd j an /\ In (t, x) (asked_about j an st) /\ a_rollback x /\ tr_id t = i)
  | _ => True
  end.
Lemma calm_new a st e : calm e -> new_entry a st e.
Proof. destruct e; cbn; intros []; exact Logic.I. Qed.
Lemma pub_calm ks p d p' d' l : pub_step ks p d = (p', d', l) -> Forall calm l.
Proof.
  destruct p; cbn [pub_step]; try (intros [= <- <- <-]; repeat constructor; fail).
  - destruct (fst _); intros [= <- <- <-]; repeat constructor.
  - destruct svcs; intros [= <- <- <-]; repeat constructor.
  - destruct (locked ks t); intros [= <- <- <-]; repeat constructor.
  - destruct (locked ks t); intros [= <- <- <-]; repeat constructor.
Qed.
(** the publishers of live runs still hold their context *)
Definition live (p : phase) : Prop := p = PhHave \/ p = PhCommitted \/ p = PhFailed.
Definition paired (st : flow) : Prop := forall i p t, nth_error (f_runs st) i = Some (p, t) -> live p -> nth_error (i_pub (f_bus st)) i = Some (PHave t).
Lemma step_log a st : paired st -> exists l, i_log (f_bus (fexec a st)) = i_log (f_bus st) ++ l /\ forall e, In e l -> new_entry a st e.
Proof.
  intros P. destruct st as [b rs data seen]. unfold paired in P. cbn [f_runs f_bus] in P.
  assert (Z : exists l, i_log b = i_log b ++ l /\ forall e, In e l -> new_entry a (mkF b rs data seen) e) by (exists []; rewrite app_nil_r; split; [reflexivity|intros e []]).
  destruct a; cbn [fexec f_bus].
  - destruct evs as [|e0 er]; [exact Z|]. destruct b as [d now ps ks h]. cbn [iexec f_bus]. destruct (insert_tx svc (e0 :: er) (now + timeout) d) as [t d'] eqn:E. cbn [i_log f_bus]. eexists. split; [reflexivity|]. intros e [<-|[]]. cbn. exists svc, timeout, (e0 :: er).
    split; auto. split; [discriminate|]. unfold insert_tx in E. injection E as <- <-. reflexivity.
  - destruct (nth_error rs i) as [[p t]|] eqn:N; [|exact Z]. destruct (next_phase p c) as [p'|] eqn:Np; [|exact Z]. cbn [f_bus].
    destruct (bus_of i p c) as [x|] eqn:B; [|exact Z]. destruct p, c; try discriminate; cbn in B; injection B as <-.
    + pose proof (P i PhCommitted t N ltac:(right; auto)) as Q. destruct b as [d now ps ks h]. cbn [iexec i_pub i_log] in *. rewrite Q. cbn [i_log]. eexists. split; [reflexivity|]. intros e [<-|[]]. cbn. left. exists i, t. auto.
    + pose proof (P i PhFailed t N ltac:(right; auto)) as Q. destruct b as [d now ps ks h]. cbn [iexec i_pub i_log] in *. rewrite Q. cbn [i_log]. eexists. split; [reflexivity|]. intros e [<-|[]]. cbn. left. exists i, t. auto.
  - destruct (nth_error rs i) as [[[] t]|]; exact Z.
  - destruct b as [d now ps ks h]. cbn [iexec i_log] in *. destruct (nth_error ps i) as [p|]; [|exact Z]. destruct (pub_step ks p d) as [[p' d'] l] eqn:E. cbn [i_log]. exists l. split; auto. intros e He. apply calm_new. eapply calm_in; [eapply pub_calm; eauto|auto].
  - destruct (nth_error rs i) as [[p t]|]; [|exact Z]. destruct b as [d now ps ks h]. exact Z.
  - destruct b as [d now ps ks h]; exact Z.
  - destruct b as [d now ps ks h]; exact Z.
  - destruct b as [d now ps ks h]; exact Z.
  - destruct b as [d now ps ks h]; exact Z.
  - destruct b as [d now ps ks h]. cbn [iexec f_bus]. destruct (existsb _ _); exact Z.
  - destruct b as [d now ps ks h]. cbn [iexec]. destruct (nth_error ks j) as [[]|]; exact Z.
  - destruct b as [d now ps ks h]. cbn [iexec]. destruct (nth_error ks j) as [[trs|trs snap|]|] eqn:Ek; try exact Z. destruct (check_list snap trs answers d) as [d' l] eqn:E. cbn [i_log]. exists l. split; auto. intros e He.
    destruct (check_list_log _ _ _ _ _ _ E e He) as [C|(t & x & C & D)]; [now apply calm_new|].
    assert (AA : In (t, x) (asked_about j answers (mkF (mkI d now ps ks h) rs data seen))) by (unfold asked_about; cbn [f_bus i_chk]; rewrite Ek; exact C).
    destruct D as [[-> D]|[-> D]]; cbn; right; exists j, answers, t, x; auto.
  - destruct b as [d now ps ks h]; exact Z.
Qed.

Record finv (st : flow) : Prop := {
  fi_bus : iv (i_db (f_bus st)) (i_pub (f_bus st)) (i_chk (f_bus st)) (i_log (f_bus st));
  fi_len : length (f_runs st) = length (i_pub (f_bus st));
  fi_run : forall i p t, nth_error (f_runs st) i = Some (p, t) -> exists sv, In (HBegun t sv) (i_log (f_bus st));
  fi_all : forall t sv, In (HBegun t sv) (i_log (f_bus st)) -> exists i p, nth_error (f_runs st) i = Some (p, t);
  fi_dist : forall i j p q t u, nth_error (f_runs st) i = Some (p, t) -> nth_error (f_runs st) j = Some (q, u) -> tr_id t = tr_id u -> i = j;
  fi_pair : paired st;
  fi_com : forall i t, nth_error (f_runs st) i = Some (PhCommitted, t) -> In (tr_id t) (f_data st);
  fi_not : forall i p t, nth_error (f_runs st) i = Some (p, t) -> (p = PhHave \/ p = PhUnsure \/ p = PhFailed) -> ~ In (tr_id t) (f_data st);
  fi_dat : forall x, In x (f_data st) -> exists i p t, nth_error (f_runs st) i = Some (p, t) /\ tr_id t = x;
  fi_ph : forall i p t, nth_error (f_runs st) i = Some (p, t) -> p <> PhIdle /\ p <> PhOpen;
  fi_seen : length (f_seen st) = length (i_chk (f_bus st)) }.
Lemma set_nth_length {A} (x : A) : forall l i, length (set_nth i x l) = length l.
Proof. induction l as [|y t IH]; intros [|i]; cbn; auto. Qed.
Lemma nth_set_same {A} (x : A) : forall l i y, nth_error l i = Some y -> nth_error (set_nth i x l) i = Some x.
Proof. induction l as [|z t IH]; intros [|i] y; cbn; try discriminate; auto. apply IH. Qed.
Lemma nth_set_other {A} (x : A) : forall l i j, i <> j -> nth_error (set_nth i x l) j = nth_error l j.
Proof. induction l as [|z t IH]; intros [|i] [|j] N; cbn; try reflexivity; try congruence. apply IH. congruence. Qed.

Lemma begun_new a st t sv : paired st -> In (HBegun t sv) (i_log (f_bus (fexec a st))) -> In (HBegun t sv) (i_log (f_bus st)) \/ new_entry a st (HBegun t sv).
Proof. intros P H. destruct (step_log a st P) as (l & E & N). rewrite E in H. apply in_app_iff in H. destruct H as [H|H]; auto. Qed.
Lemma log_kept a st e : In e (i_log (f_bus st)) -> In e (i_log (f_bus (fexec a st))).
Proof. rewrite bus_moves. apply log_grows. Qed.
Lemma iv_moves a st : finv st -> iv (i_db (f_bus (fexec a st))) (i_pub (f_bus (fexec a st))) (i_chk (f_bus (fexec a st))) (i_log (f_bus (fexec a st))).
Proof. intros F. rewrite bus_moves. apply iv_run, (fi_bus st F). Qed.

(** steps in which no run moves *)
Lemma finv_env a st : finv st -> f_runs (fexec a st) = f_runs st -> f_data (fexec a st) = f_data st -> (forall s t e, a <> FBegin s t e) ->
  length (i_pub (f_bus (fexec a st))) = length (i_pub (f_bus st)) -> (forall i t, nth_error (i_pub (f_bus st)) i = Some (PHave t) -> nth_error (i_pub (f_bus (fexec a st))) i = Some (PHave t)) ->
  length (f_seen (fexec a st)) = length (i_chk (f_bus (fexec a st))) -> finv (fexec a st).
Proof.
  intros F Er Ed Na Lp Hp Ls. split.
  - now apply iv_moves.
  - rewrite Er, Lp. apply (fi_len _ F).
  - rewrite Er. intros i p t N. destruct (fi_run _ F i p t N) as (sv & B). exists sv. now apply log_kept.
  - rewrite Er. intros t sv B. destruct (begun_new a st t sv (fi_pair _ F) B) as [B'|(s & k & e & -> & _)]; [apply (fi_all _ F t sv B')|]. now elim (Na s k e).
  - rewrite Er. apply (fi_dist _ F).
  - unfold paired. rewrite Er. intros i p t N L. apply Hp. exact (fi_pair _ F i p t N L).
  - rewrite Er, Ed. apply (fi_com _ F).
  - rewrite Er, Ed. apply (fi_not _ F).
  - rewrite Er, Ed. apply (fi_dat _ F).
  - rewrite Er. apply (fi_ph _ F).
  - exact Ls.
Qed.
(** steps in which run [i] moves to another phase *)
Lemma finv_move a st i p p' t : finv st -> p' <> PhIdle /\ p' <> PhOpen -> nth_error (f_runs st) i = Some (p, t) -> f_runs (fexec a st) = set_nth i (p', t) (f_runs st) -> (forall s t e, a <> FBegin s t e) ->
  length (i_pub (f_bus (fexec a st))) = length (i_pub (f_bus st)) -> (forall j u, j <> i -> nth_error (i_pub (f_bus st)) j = Some (PHave u) -> nth_error (i_pub (f_bus (fexec a st))) j = Some (PHave u)) ->
  (live p' -> nth_error (i_pub (f_bus (fexec a st))) i = Some (PHave t)) -> i_chk (f_bus (fexec a st)) = i_chk (f_bus st) -> f_seen (fexec a st) = f_seen st ->
  (f_data (fexec a st) = f_data st /\ (p' = PhCommitted -> p = PhCommitted) /\ ((p' = PhHave \/ p' = PhUnsure \/ p' = PhFailed) -> (p = PhHave \/ p = PhUnsure \/ p = PhFailed)) \/
   f_data (fexec a st) = tr_id t :: f_data st /\ (p' = PhCommitted \/ p' = PhOver)) ->
  finv (fexec a st).
Proof.
  intros F Hph Ni Er Na Lp Hp Hl Ec Es D.
  assert (S : forall j q u, nth_error (f_runs (fexec a st)) j = Some (q, u) -> (j = i /\ q = p' /\ u = t) \/ (j <> i /\ nth_error (f_runs st) j = Some (q, u))).
  { rewrite Er. intros j q u N. destruct (nth_set _ _ _ _ _ N) as [[<- X]|[Nj X]]; [injection X as -> ->; auto|right; auto]. }
  assert (T : forall j q u, nth_error (f_runs (fexec a st)) j = Some (q, u) -> exists q', nth_error (f_runs st) j = Some (q', u)).
  { intros j q u N. destruct (S j q u N) as [(-> & -> & ->)|[_ X]]; eauto. }
  split.
  - now apply iv_moves.
  - rewrite Er, set_nth_length, Lp. apply (fi_len _ F).
  - intros j q u N. destruct (T j q u N) as (q' & X). destruct (fi_run _ F j q' u X) as (sv & B). exists sv. now apply log_kept.
  - intros u sv B. destruct (begun_new a st u sv (fi_pair _ F) B) as [B'|(s & k & e & -> & _)]; [|now elim (Na s k e)]. destruct (fi_all _ F u sv B') as (j & q & X).
    destruct (Nat.eq_dec i j) as [<-|Nj]; [rewrite Ni in X; injection X as <- <-; exists i, p'; rewrite Er; eapply nth_set_same; eauto|]. exists j, q. rewrite Er, nth_set_other; auto.
  - intros j k q r u v N1 N2 E. destruct (T _ _ _ N1) as (q1 & X1). destruct (T _ _ _ N2) as (q2 & X2). exact (fi_dist _ F j k q1 q2 u v X1 X2 E).
  - intros j q u N L. destruct (S j q u N) as [(-> & -> & ->)|[Nj X]]; [now apply Hl|]. apply Hp; auto. exact (fi_pair _ F j q u X L).
  - intros j u N. destruct (S j PhCommitted u N) as [(-> & <- & ->)|[Nj X]].
    + destruct D as [(-> & D & _)|(-> & _)]; [|now left]. apply (fi_com _ F i). now rewrite <- (D eq_refl).
    + pose proof (fi_com _ F j u X) as Y. destruct D as [(-> & _)|(-> & _)]; auto. now right.
  - intros j q u N L. destruct (S j q u N) as [(-> & -> & ->)|[Nj X]].
    + destruct D as [(-> & _ & D)|(_ & [-> | ->])]; [|destruct L as [|[|]]; discriminate..]. exact (fi_not _ F i p t Ni (D L)).
    + pose proof (fi_not _ F j q u X L) as Y. destruct D as [(-> & _)|(-> & _)]; auto. intros [E|I]; auto. apply Nj. symmetry. exact (fi_dist _ F i j p q t u Ni X E).
  - intros x Hx.
    assert (Hx' : x = tr_id t \/ In x (f_data st)) by (destruct D as [(E & _)|(E & _)]; rewrite E in Hx; [auto|destruct Hx as [<-|]; auto]).
    destruct Hx' as [->|Hx']; [exists i, p', t; rewrite Er; split; [eapply nth_set_same; eauto|auto]|].
    destruct (fi_dat _ F x Hx') as (j & q & u & X & E). destruct (Nat.eq_dec i j) as [<-|Nj]; [rewrite Ni in X; injection X as <- <-; exists i, p', t; rewrite Er; split; [eapply nth_set_same; eauto|auto]|].
    exists j, q, u. rewrite Er, nth_set_other; auto.
  - intros j q u N. destruct (S j q u N) as [(-> & -> & ->)|[Nj X]]; auto. exact (fi_ph _ F j q u X).
  - rewrite Ec, Es. apply (fi_seen _ F).
Qed.

Lemma finv_step a st : finv st -> finv (fexec a st).
Proof.
  intros F. destruct a.
  - (* FBegin *)
    destruct evs as [|e0 er]; [destruct st as [b0 rs0 da0 se0]; exact F|].
    set (a := FBegin svc timeout (e0 :: er)). set (t := mkT (b_nt (i_db (f_bus st))) svc (e0 :: er) (i_now (f_bus st) + timeout)).
    assert (Er : f_runs (fexec a st) = f_runs st ++ [(PhHave, t)]) by (destruct st as [[] ? ? ?]; reflexivity).
    assert (Ep : i_pub (f_bus (fexec a st)) = i_pub (f_bus st) ++ [PHave t]) by (destruct st as [[] ? ? ?]; reflexivity).
    assert (El : i_log (f_bus (fexec a st)) = i_log (f_bus st) ++ [HBegun t (b_svc (i_db (f_bus st)))]) by (destruct st as [[] ? ? ?]; reflexivity).
    assert (Ed : f_data (fexec a st) = f_data st) by (destruct st as [[] ? ? ?]; reflexivity).
    assert (Fr : forall u sv, In (HBegun u sv) (i_log (f_bus st)) -> tr_id u <> tr_id t). { intros u sv B E. pose proof (proj2 (v_nt _ _ _ _ (fi_bus _ F)) u sv B) as X. rewrite E in X. cbn in X. lia. }
    assert (S : forall j q u, nth_error (f_runs (fexec a st)) j = Some (q, u) -> nth_error (f_runs st) j = Some (q, u) \/ (j = length (f_runs st) /\ q = PhHave /\ u = t)).
    { rewrite Er. intros j q u N. destruct (Nat.lt_ge_cases j (length (f_runs st))) as [L|L]; [rewrite nth_error_app1 in N by auto; auto|]. right. rewrite nth_error_app2 in N by auto.
      destruct (j - length (f_runs st)) as [|k] eqn:E; cbn in N; [injection N as <- <-; split; auto; lia|destruct k; discriminate]. }
    assert (Fd : ~ In (tr_id t) (f_data st)). { intros I. destruct (fi_dat _ F _ I) as (i & p & u & X & E). destruct (fi_run _ F i p u X) as (sv & B). now apply (Fr u sv B). }
    split.
    + now apply iv_moves.
    + rewrite Er, Ep, !app_length, (fi_len _ F). reflexivity.
    + intros j q u N. rewrite El. destruct (S j q u N) as [X|(-> & -> & ->)]; [|eexists; apply in_app_iff; right; now left]. destruct (fi_run _ F j q u X) as (sv & B). exists sv. apply in_app_iff. now left.
    + intros u sv B. rewrite El in B. rewrite Er. apply in_app_iff in B. destruct B as [B|[B|[]]].
      * destruct (fi_all _ F u sv B) as (j & q & X). exists j, q. rewrite nth_error_app1; auto. apply nth_error_Some. congruence.
      * injection B as <- <-. exists (length (f_runs st)), PhHave. rewrite nth_error_app2, Nat.sub_diag by auto. reflexivity.
    + intros i j p q u v N1 N2 E. destruct (S _ _ _ N1) as [X1|(-> & -> & ->)], (S _ _ _ N2) as [X2|(-> & -> & ->)]; auto.
      * exact (fi_dist _ F i j p q u v X1 X2 E).
      * destruct (fi_run _ F _ _ _ X1) as (sv & B). now elim (Fr u sv B).
      * destruct (fi_run _ F _ _ _ X2) as (sv & B). now elim (Fr v sv B).
    + intros i p u N L. rewrite Ep. destruct (S _ _ _ N) as [X|(-> & -> & ->)].
      * pose proof (fi_pair _ F i p u X L) as Y. rewrite nth_error_app1; auto. apply nth_error_Some. congruence.
      * rewrite (fi_len _ F), nth_error_app2, Nat.sub_diag by auto. reflexivity.
    + intros i u N. rewrite Ed. destruct (S _ _ _ N) as [X|(-> & E & ->)]; [|discriminate]. exact (fi_com _ F i u X).
    + intros i p u N L. rewrite Ed. destruct (S _ _ _ N) as [X|(-> & -> & ->)]; auto. exact (fi_not _ F i p u X L).
    + intros x Hx. rewrite Ed in Hx. destruct (fi_dat _ F x Hx) as (i & p & u & X & E). exists i, p, u. split; auto. rewrite Er, nth_error_app1; auto. apply nth_error_Some. congruence.
    + intros i p u N. destruct (S _ _ _ N) as [X|(-> & -> & ->)]; [exact (fi_ph _ F i p u X)|split; discriminate].
    + pose proof (fi_seen _ F). destruct st as [[] ? ? ?]. exact H.
  - (* FRun *)
    destruct (nth_error (f_runs st) i) as [[p t]|] eqn:N; [|destruct st as [b0 rs0 da0 se0]; cbn [fexec f_runs] in *; rewrite N; exact F].
    destruct (next_phase p c) as [p'|] eqn:Np; [|destruct st as [b0 rs0 da0 se0]; cbn [fexec f_runs] in *; rewrite N, Np; exact F].
    pose proof (fi_ph _ F i p t N) as [Ph1 Ph2].
    assert (Hli : live p -> nth_error (i_pub (f_bus st)) i = Some (PHave t)) by (apply (fi_pair _ F i p t N)).
    destruct st as [[d now ps ks h] rs data seen]. cbn [f_runs f_bus i_pub f_data] in *.
    apply finv_move with (i := i) (p := p) (p' := p') (t := t); auto; try discriminate; cbn [fexec]; rewrite ?N, ?Np.
    + destruct p, c; cbn in Np; try congruence; injection Np as <-; try destruct ok; split; discriminate.
    + reflexivity.
    + destruct p, c; cbn in Np; try discriminate; try reflexivity; cbn [bus_of f_bus iexec i_pub]; destruct (nth_error ps i) as [[]|]; cbn [f_bus i_pub]; rewrite ?set_nth_length; reflexivity.
    + intros j u Nj Hj. destruct p, c; cbn in Np; try discriminate; try exact Hj; cbn [bus_of f_bus iexec i_pub]; destruct (nth_error ps i) as [[]|]; cbn [f_bus i_pub]; rewrite ?nth_set_other by auto; exact Hj.
    + intros L. destruct p, c; cbn in Np; try discriminate; injection Np as <-; try (destruct ok); destruct L as [L|[L|L]]; try discriminate; try congruence; cbn [bus_of f_bus i_pub]; apply Hli; unfold live; auto.
    + destruct p, c; cbn in Np; try discriminate; try reflexivity; cbn [bus_of f_bus iexec i_chk]; destruct (nth_error ps i) as [[]|]; reflexivity.
    + reflexivity.
    + destruct p, c; cbn in Np; try discriminate; injection Np as <-; try destruct ok; cbn [f_data]; try congruence;
        try (right; split; [reflexivity|auto; fail]); (left; split; [reflexivity|split; [intros X; try discriminate X|intros X; auto; try (destruct X as [X|[X|X]]; discriminate X)]]).
  - (* FSettle *)
    destruct (nth_error (f_runs st) i) as [[p t]|] eqn:N; [|destruct st as [b0 rs0 da0 se0]; cbn [fexec f_runs] in *; rewrite N; exact F].
    destruct p; try (destruct st as [b0 rs0 da0 se0]; cbn [fexec f_runs] in *; rewrite N; exact F).
    destruct st as [b rs data seen]. cbn [f_runs] in N. apply finv_move with (i := i) (p := PhUnsure) (p' := PhOver) (t := t); auto; try discriminate; cbn [fexec]; rewrite ?N; auto.
    + split; discriminate.
    + intros [L|[L|L]]; discriminate.
    + destruct done; cbn [f_data]; [right; auto|left]. split; auto. split; [discriminate|]. intros [|[|]]; discriminate.
  - (* FNext *)
    pose proof (fi_seen _ F) as Sn. destruct st as [[d now ps ks h] rs data seen]. cbn [f_bus i_chk f_seen] in Sn. apply finv_env; auto; try discriminate; cbn [fexec f_bus iexec i_pub f_seen].
    + destruct (nth_error ps i) as [p|]; auto. destruct (pub_step ks p d) as [[p' d'] l]. cbn [i_pub]. apply set_nth_length.
    + intros j t Hj. destruct (nth_error ps i) as [p|] eqn:Np; auto. destruct (pub_step ks p d) as [[p' d'] l] eqn:E. cbn [i_pub]. destruct (Nat.eq_dec i j) as [<-|Nj]; [|now rewrite nth_set_other].
      rewrite Hj in Np. injection Np as <-. cbn in E. injection E as <- <- <-. eapply nth_set_same; eauto.
    + destruct (nth_error ps i) as [p|]; auto. destruct (pub_step ks p d) as [[p' d'] l]. exact Sn.
  - (* FDie *)
    destruct (nth_error (f_runs st) i) as [[p t]|] eqn:N; [|destruct st as [b0 rs0 da0 se0]; cbn [fexec f_runs] in *; rewrite N; exact F].
    destruct st as [[d now ps ks h] rs data seen]. cbn [f_runs] in N. set (p' := match p with PhUnsure => PhUnsure | _ => PhOver end).
    apply finv_move with (i := i) (p := p) (p' := p') (t := t); auto; try discriminate; cbn [fexec]; rewrite ?N; cbn [f_bus iexec i_pub f_runs f_data]; auto.
    + unfold p'. destruct p; split; discriminate.
    + apply set_nth_length.
    + intros j u Nj Hj. rewrite nth_set_other by auto. exact Hj.
    + unfold p'. intros [L|[L|L]]; destruct p; discriminate.
    + left. split; auto. unfold p'. split; [destruct p; discriminate|]. intros [L|[L|L]]; destruct p; try discriminate; auto.
  - pose proof (fi_seen _ F) as Sn. destruct st as [[d now ps ks h] rs data seen]. apply finv_env; auto; discriminate.
  - pose proof (fi_seen _ F) as Sn. destruct st as [[d now ps ks h] rs data seen]. apply finv_env; auto; discriminate.
  - pose proof (fi_seen _ F) as Sn. destruct st as [[d now ps ks h] rs data seen]. apply finv_env; auto; discriminate.
  - pose proof (fi_seen _ F) as Sn. destruct st as [[d now ps ks h] rs data seen]. apply finv_env; auto; discriminate.
  - (* FCheck *)
    pose proof (fi_seen _ F) as Sn. destruct st as [[d now ps ks h] rs data seen]. cbn [f_bus i_chk f_seen] in Sn. apply finv_env; auto; try discriminate; cbn [fexec f_bus iexec f_seen]; destruct (existsb _ _); cbn [i_pub i_chk]; auto.
    + rewrite Nat.ltb_irrefl. exact Sn.
    + rewrite app_length. cbn [length]. replace (length ks <? length ks + 1) with true by (symmetry; apply Nat.ltb_lt; lia). rewrite app_length, Sn. reflexivity.
  - pose proof (fi_seen _ F) as Sn. destruct st as [[d now ps ks h] rs data seen]. cbn [f_bus i_chk f_seen] in Sn. apply finv_env; auto; try discriminate; cbn [fexec f_bus iexec f_seen]; destruct (nth_error ks j) as [[]|]; cbn [i_pub i_chk]; rewrite ?set_nth_length; auto.
  - pose proof (fi_seen _ F) as Sn. destruct st as [[d now ps ks h] rs data seen]. cbn [f_bus i_chk f_seen] in Sn. apply finv_env; auto; try discriminate; cbn [fexec f_bus iexec f_seen]; destruct (nth_error ks j) as [[trs|trs snap|]|]; cbn [i_pub i_chk]; auto; destruct (check_list snap trs answers d) as [d' l]; cbn [i_pub i_chk]; rewrite ?set_nth_length; auto.
  - pose proof (fi_seen _ F) as Sn. destruct st as [[d now ps ks h] rs data seen]. cbn [f_bus i_chk f_seen] in Sn. apply finv_env; auto; try discriminate; cbn [fexec f_bus iexec f_seen i_chk]; rewrite ?set_nth_length; auto.
Qed.
Lemma finv_start : finv fstart.
Proof.
  split.
  - apply iv_start.
  - reflexivity.
  - intros [|i] p t E; discriminate E.
  - intros t sv [].
  - intros [|i] j p q t u E; discriminate E.
  - intros [|i] p t E; discriminate E.
  - intros [|i] t E; discriminate E.
  - intros [|i] p t E; discriminate E.
  - intros x [].
  - intros [|i] p t E; discriminate E.
  - reflexivity.
Qed.
Lemma finv_run acts : forall st, finv st -> finv (frun acts st).
Proof. induction acts as [|a t IH]; intros st F; cbn; auto. apply IH. now apply finv_step. Qed.
Lemma finv_reach acts : finv (frun acts fstart).
Proof. apply finv_run, finv_start. Qed.

Lemma data_kept a st x : In x (f_data st) -> In x (f_data (fexec a st)).
Proof.
  destruct st as [b rs data seen]. destruct a; cbn [fexec f_data]; auto.
  - destruct evs; auto.
  - destruct (nth_error rs i) as [[p t]|]; auto. destruct (next_phase p c) as [[]|]; cbn [f_data]; auto. intros H. now right.
  - destruct (nth_error rs i) as [[[] t]|]; auto. destruct done; cbn [f_data]; auto. intros H. now right.
  - destruct (nth_error rs i) as [[p t]|]; auto.
Qed.
Lemma data_new a st x : In x (f_data (fexec a st)) -> In x (f_data st) \/
  exists i p t, nth_error (f_runs st) i = Some (p, t) /\ tr_id t = x /\ ((a = FRun i (FcCommit true) /\ p = PhHave) \/ (a = FSettle i true /\ p = PhUnsure)).
Proof.
  destruct st as [b rs data seen]. destruct a; cbn [fexec f_data f_runs]; auto.
  - destruct evs; auto.
  - destruct (nth_error rs i) as [[p t]|] eqn:N; auto. destruct p, c; cbn; auto; destruct ok; cbn; auto. intros [<-|H]; auto. right. exists i, PhHave, t. auto.
  - destruct (nth_error rs i) as [[[] t]|] eqn:N; auto. destruct done; cbn; auto. intros [<-|H]; auto. right. exists i, PhUnsure, t. auto.
  - destruct (nth_error rs i) as [[p t]|]; auto.
Qed.
(** a run that is over stays over *)
Lemma open_before a st i p t : nth_error (f_runs (fexec a st)) i = Some (p, t) -> p = PhHave \/ p = PhUnsure -> finv st ->
  (exists q, nth_error (f_runs st) i = Some (q, t) /\ (q = PhHave \/ q = PhUnsure)) \/ (exists s o e, a = FBegin s o e /\ t = mkT (b_nt (i_db (f_bus st))) s e (i_now (f_bus st) + o)).
Proof.
  intros N O F. pose proof (fi_ph _ F) as Ph. destruct st as [[d now ps ks h] rs data seen]. cbn [f_runs] in Ph. destruct a; cbn [fexec f_runs f_bus i_now i_db] in *; try (left; exists p; auto; fail).
  - destruct evs as [|e0 er]; [left; exists p; auto|]. cbn [f_runs] in N. destruct (Nat.lt_ge_cases i (length rs)) as [L|L]; [rewrite nth_error_app1 in N by auto; left; exists p; auto|]. rewrite nth_error_app2 in N by auto.
    destruct (i - length rs) as [|k]; cbn in N; [|destruct k; discriminate]. injection N as <- <-. right. exists svc, timeout, (e0 :: er). auto.
  - destruct (nth_error rs i0) as [[q u]|] eqn:Q; [|left; exists p; auto]. destruct (next_phase q c) as [q'|] eqn:Nq; [|left; exists p; auto]. cbn [f_runs] in N. destruct (nth_set _ _ _ _ _ N) as [[<- X]|[Nj X]]; [|left; exists p; auto].
    injection X as <- <-. left. exists q. split; auto. pose proof (Ph _ _ _ Q) as [P1 P2]. destruct q, c; cbn in Nq; try discriminate; try congruence; try destruct ok; injection Nq as <-; destruct O; try discriminate; auto.
  - destruct (nth_error rs i0) as [[[] u]|] eqn:Q; try (left; exists p; auto; fail). cbn [f_runs] in N. destruct (nth_set _ _ _ _ _ N) as [[<- X]|[Nj X]]; [|left; exists p; auto]. injection X as Xp ->. rewrite Xp in O. destruct O; discriminate.
  - destruct (nth_error rs i0) as [[q u]|] eqn:Q; [|left; exists p; auto]. cbn [f_runs] in N. destruct (nth_set _ _ _ _ _ N) as [[<- X]|[Nj X]]; [|left; exists p; auto]. injection X as Xp ->. left. exists q. split; auto. rewrite Xp in O. destruct q; destruct O; try discriminate; auto.
Qed.

(** ** nothing is stored for a run that did not commit *)
Definition asked_ok (st : flow) : Prop := forall x, In (HAsked x) (i_log (f_bus st)) -> In x (f_data st).
Lemma asked_step a st : finv st -> truthful a st -> asked_ok st -> asked_ok (fexec a st).
Proof.
  intros F T K x H. apply data_kept. destruct (step_log a st (fi_pair _ F)) as (l & E & N). rewrite E in H. apply in_app_iff in H. destruct H as [H|H]; [now apply K|].
  destruct (N _ H) as [(k & t & -> & R & _ & <-)|(j & an & t & y & -> & A & C & <-)]; [exact (fi_com _ F k t R)|]. exact (T t y A C).
Qed.
Lemma asked_run acts : forall st, finv st -> always truthful acts st -> asked_ok st -> asked_ok (frun acts st).
Proof. induction acts as [|a t IH]; intros st F A K; cbn; auto. destruct A as [A B]. apply IH; auto; [now apply finv_step|now apply asked_step]. Qed.

(** ** rolled back only if not committed *)
Definition begun (st : flow) (x : nat) : Prop := exists t sv, In (HBegun t sv) (i_log (f_bus st)) /\ tr_id t = x.
Definition rolled_ok (st : flow) : Prop := forall x, In (HRollback x) (i_log (f_bus st)) -> begun st x /\ ~ In x (f_data st) /\ forall i p t, nth_error (f_runs st) i = Some (p, t) -> tr_id t = x -> p <> PhHave /\ p <> PhUnsure.
Lemma asked_begun st j an t y : finv st -> In (t, y) (asked_about j an st) -> (exists sv, In (HBegun t sv) (i_log (f_bus st))) /\ exists k, nth_error (i_chk (f_bus st)) j = Some k /\ In t (held k).
Proof.
  intros F A. unfold asked_about in A. destruct (nth_error (i_chk (f_bus st)) j) as [[trs|trs snap|]|] eqn:Ek; try destruct A. apply in_combine_l in A. split; [apply (v_chk _ _ _ _ (fi_bus _ F) (KSnap trs snap)); [eapply nth_error_In; eauto|exact A]|eauto].
Qed.
Lemma rolled_new a st x : finv st -> patient a st -> rolled_ok st -> In (HRollback x) (i_log (f_bus (fexec a st))) ->
  begun st x /\ ~ In x (f_data st) /\ (forall i p t, nth_error (f_runs st) i = Some (p, t) -> tr_id t = x -> p <> PhHave /\ p <> PhUnsure).
Proof.
  intros F P K H. destruct (step_log a st (fi_pair _ F)) as (l & E & N). rewrite E in H. apply in_app_iff in H. destruct H as [H|H]; [now apply K|].
  destruct (N _ H) as [(k & t & -> & R & _ & <-)|(j & an & t & y & -> & A & C & <-)].
  - destruct (fi_run _ F _ _ _ R) as (sv & B). split; [exists t, sv; auto|]. split; [apply (fi_not _ F k PhFailed t R); auto|]. intros i p u Ni Eq. pose proof (fi_dist _ F i k p PhFailed u t Ni R Eq) as ->. rewrite R in Ni. injection Ni as <- <-. split; discriminate.
  - destruct (P t y A C) as [P1 P2]. destruct (asked_begun _ _ _ _ _ F A) as ((sv & B) & _). split; [exists t, sv; auto|]. split; auto. intros i p u Ni Eq. destruct (fi_run _ F _ _ _ Ni) as (sv' & B'). destruct (v_uni _ _ _ _ (fi_bus _ F) _ _ _ _ B' B Eq) as [-> _].
    split; intros ->; apply P2; exists i; eexists; split; eauto.
Qed.
Lemma rolled_step a st : finv st -> patient a st -> rolled_ok st -> rolled_ok (fexec a st).
Proof.
  intros F P K x H. destruct (rolled_new a st x F P K H) as ((t0 & sv0 & B0 & E0) & A & B). split; [exists t0, sv0; split; auto; now apply log_kept|]. split.
  - intros I. destruct (data_new a st x I) as [I'|(i & p & t & N & E & [[_ ->]|[_ ->]])]; auto; destruct (B i _ t N E); congruence.
  - intros i p t N E. enough (X : p = PhHave \/ p = PhUnsure -> False) by (split; intros ->; apply X; auto). intros O. destruct (open_before a st i p t N O F) as [(q & Q & Oq)|(s & o & e & _ & ->)].
    + destruct (B i q t Q E). destruct Oq; congruence.
    + cbn in E. pose proof (proj2 (v_nt _ _ _ _ (fi_bus _ F)) t0 sv0 B0). lia.
Qed.
Lemma rolled_run acts : forall st, finv st -> always patient acts st -> rolled_ok st -> rolled_ok (frun acts st).
Proof. induction acts as [|a t IH]; intros st F A K; cbn; auto. destruct A as [A B]. apply IH; auto; [now apply finv_step|now apply rolled_step]. Qed.

(** ** the same if runs are in time and checkers look once *)
Record timely (st : flow) : Prop := {
  tm_due : forall k t, In k (i_chk (f_bus st)) -> In t (held k) -> tr_due t < i_now (f_bus st);
  tm_seen : forall j k t seen, nth_error (i_chk (f_bus st)) j = Some k -> In t (held k) -> nth_error (f_seen st) j = Some seen -> In (tr_id t) (f_data st) -> In (tr_id t) seen;
  tm_rol : forall x, In (HRollback x) (i_log (f_bus st)) -> begun st x /\ ~ In x (f_data st) /\ forall i p t, nth_error (f_runs st) i = Some (p, t) -> tr_id t = x -> p = PhHave \/ p = PhUnsure -> tr_due t < i_now (f_bus st) }.
Lemma now_moves a st : i_now (f_bus st) <= i_now (f_bus (fexec a st)).
Proof. rewrite bus_moves, now_run. lia. Qed.
Lemma chk_step a st : finv st -> forall j k t, nth_error (i_chk (f_bus (fexec a st))) j = Some k -> In t (held k) ->
  (exists k0, nth_error (i_chk (f_bus st)) j = Some k0 /\ In t (held k0) /\ nth_error (f_seen (fexec a st)) j = nth_error (f_seen st) j) \/
  (nth_error (f_seen (fexec a st)) j = Some (f_data st) /\ f_data (fexec a st) = f_data st).
Proof.
  intros F j k t. pose proof (fi_seen _ F) as L. destruct st as [[d now ps ks h] rs data seen]. cbn [f_bus i_chk f_seen] in L.
  assert (Z : forall k0, nth_error ks j = Some k0 -> In t (held k0) -> nth_error ks j = Some k0 /\ In t (held k0) /\ nth_error seen j = nth_error seen j) by auto.
  destruct a; cbn [fexec].
  - destruct evs; cbn [f_bus iexec i_chk f_seen]; intros N H; left; exists k; auto.
  - intros N H. left. exists k. destruct (nth_error rs i) as [[p u]|]; auto. destruct (next_phase p c); auto. destruct p, c; cbn [bus_of f_bus iexec i_chk f_seen] in *; auto; destruct (nth_error ps i) as [[]|]; auto.
  - intros N H. left. exists k. destruct (nth_error rs i) as [[[] u]|]; auto.
  - cbn [f_bus iexec f_seen]. destruct (nth_error ps i) as [p|]; [destruct (pub_step ks p d) as [[p' d'] l]|]; intros N H; left; exists k; auto.
  - intros N H. left. exists k. destruct (nth_error rs i) as [[p u]|]; auto.
  - intros N H. left. exists k. auto.
  - intros N H. left. exists k. auto.
  - intros N H. left. exists k. auto.
  - intros N H. left. exists k. auto.
  - cbn [f_bus iexec f_seen f_data]. destruct (existsb _ _); cbn [i_chk]; [rewrite Nat.ltb_irrefl; intros N H; left; exists k; auto|]. rewrite app_length. cbn [length]. replace (length ks <? length ks + 1) with true by (symmetry; apply Nat.ltb_lt; lia).
    intros N H. destruct (Nat.lt_ge_cases j (length ks)) as [Lj|Lj].
    + rewrite nth_error_app1 in N by auto. left. exists k. split; [exact N|]. split; auto. rewrite nth_error_app1 by lia. reflexivity.
    + rewrite nth_error_app2 in N by auto. right. split; auto. destruct (j - length ks) as [|m] eqn:Ej; [|destruct m; discriminate]. rewrite nth_error_app2 by lia. replace (j - length seen) with 0 by lia. reflexivity.
  - cbn [f_bus iexec f_seen]. destruct (nth_error ks j0) as [[trs|trs snap|]|] eqn:E; cbn [i_chk]; intros N H; left; try (exists k; auto; fail). destruct (nth_set _ _ _ _ _ N) as [[<- ->]|[Nj X]]; [exists (KHold trs); auto|exists k; auto].
  - cbn [f_bus iexec f_seen]. destruct (nth_error ks j0) as [[trs|trs snap|]|] eqn:E; cbn [i_chk]; try (intros N H; left; exists k; auto; fail). destruct (check_list snap trs answers d) as [d' l]. cbn [i_chk]. intros N H. left. destruct (nth_set _ _ _ _ _ N) as [[<- ->]|[Nj X]]; [destruct H|exists k; auto].
  - cbn [f_bus iexec f_seen i_chk]. intros N H. left. destruct (nth_set _ _ _ _ _ N) as [[<- ->]|[Nj X]]; [destruct H|exists k; auto].
Qed.
Lemma timely_step a st : finv st -> looks_once a st -> in_time a st -> timely st -> timely (fexec a st).
Proof.
  intros F P M K. pose proof (now_moves a st) as W. pose proof (finv_step a st F) as F'.
  assert (D : forall x, In x (f_data (fexec a st)) -> ~ In x (f_data st) -> forall t sv, In (HBegun t sv) (i_log (f_bus st)) -> tr_id t = x -> i_now (f_bus st) <= tr_due t /\ exists i p, nth_error (f_runs st) i = Some (p, t) /\ (p = PhHave \/ p = PhUnsure)).
  { intros x I O t sv B E. destruct (data_new a st x I) as [I'|(i & p & u & N & Eu & C)]; [contradiction|]. destruct (fi_run _ F _ _ _ N) as (sv' & B'). rewrite <- E in Eu. destruct (v_uni _ _ _ _ (fi_bus _ F) _ _ _ _ B' B Eu) as [-> _].
    destruct C as [[-> ->]|[-> ->]]; (split; [exact (M _ _ N)|eauto]). }
  split.
  - intros k t Hk Ht. rewrite bus_moves in *. revert k t Hk Ht. apply overdue_run. apply (tm_due _ K).
  - intros j k t seen Nk Ht Ns I. destruct (chk_step a st F j k t Nk Ht) as [(k0 & N0 & H0 & E)|[E E2]].
    + rewrite E in Ns. destruct (in_dec Nat.eq_dec (tr_id t) (f_data st)) as [I'|O]; [exact (tm_seen _ K j k0 t seen N0 H0 Ns I')|].
      destruct (v_chk _ _ _ _ (fi_bus _ F) k0 t (nth_error_In _ _ N0) H0) as (sv & B). destruct (D _ I O t sv B eq_refl) as [X _]. pose proof (tm_due _ K k0 t (nth_error_In _ _ N0) H0). lia.
    + rewrite E in Ns. injection Ns as <-. now rewrite E2 in I.
  - intros x H.
    assert (X : begun st x /\ ~ In x (f_data st) /\ forall i p t, nth_error (f_runs st) i = Some (p, t) -> tr_id t = x -> p = PhHave \/ p = PhUnsure -> tr_due t < i_now (f_bus st)).
    { destruct (step_log a st (fi_pair _ F)) as (l & E & N). rewrite E in H. apply in_app_iff in H. destruct H as [H|H]; [now apply (tm_rol _ K)|].
      destruct (N _ H) as [(k & t & -> & R & _ & <-)|(j & an & t & y & -> & A & C & <-)].
      - destruct (fi_run _ F _ _ _ R) as (sv & B). split; [exists t, sv; auto|]. split; [apply (fi_not _ F k PhFailed t R); auto|]. intros i p u Ni Eq. pose proof (fi_dist _ F i k p PhFailed u t Ni R Eq) as ->. rewrite R in Ni. injection Ni as <- <-. intros [|]; discriminate.
      - destruct (asked_begun _ _ _ _ _ F A) as ((sv & B) & (k & Nk & Hk)). split; [exists t, sv; auto|].
        assert (S : exists seen, nth_error (f_seen st) j = Some seen). { destruct (nth_error (f_seen st) j) eqn:Es; eauto. exfalso. apply nth_error_None in Es. rewrite (fi_seen _ F) in Es. apply nth_error_None in Es. congruence. }
        destruct S as (seen & S). split.
        + intros I. apply (P t y seen A C S). exact (tm_seen _ K j k t seen Nk Hk S I).
        + intros i p u Ni Eq _. destruct (fi_run _ F _ _ _ Ni) as (sv' & B'). destruct (v_uni _ _ _ _ (fi_bus _ F) _ _ _ _ B' B Eq) as [-> _]. exact (tm_due _ K k t (nth_error_In _ _ Nk) Hk). }
    destruct X as ((t0 & sv0 & B0 & E0) & O & X). split; [exists t0, sv0; split; auto; now apply log_kept|]. split.
    + intros I. destruct (D x I O t0 sv0 B0 E0) as (X1 & i & p & N & Op). specialize (X i p t0 N E0 Op). lia.
    + intros i p t N E Op. destruct (open_before a st i p t N Op F) as [(q & Q & Oq)|(s & o & e & _ & ->)]; [specialize (X i q t Q E Oq); lia|]. cbn in E. pose proof (proj2 (v_nt _ _ _ _ (fi_bus _ F)) t0 sv0 B0). lia.
Qed.
Lemma timely_run acts : forall st, finv st -> always looks_once acts st -> always in_time acts st -> timely st -> timely (frun acts st).
Proof. induction acts as [|a t IH]; intros st F A C K; cbn; auto. destruct A as [A B], C as [C D]. apply IH; auto; [now apply finv_step|now apply timely_step]. Qed.
Lemma timely_start : timely fstart.
Proof. split; cbn; try contradiction. Qed.

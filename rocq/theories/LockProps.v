(** Concurrent runs and their lock keys (engine.go 1208-1242).  Each run is one of the runs of EngineModel, with its own
    configuration, body and environment; the runs are interleaved arbitrarily. *)
From Verif Require Import EngineProof8 EngineProps.
From Verif Require Import EngineModel.

(** A run at some moment: the calls it has made ([past]) and those it is going to make ([future]). *)
Record arun := mkRun { u_keys : list string; u_past : list (call * resp); u_future : list (call * resp) }.
(** It is really a run of the engine: some command executed in some environment makes these calls.  (A run whose process
    overflows its stack, or whose locker panics, is not covered.) *)
Definition is_run (u : arun) : Prop :=
  exists cfg main h o s', save cfg (u_keys u) main (new_stage h) = (o, s') /\ o <> Crash /\ no_lock_panic (s_trace s') /\
    s_trace s' = u_past u ++ u_future u.
(** Having made the calls [tr], the run holds the lock [k]. *)
Definition holds (tr : list (call * resp)) (k : string) : Prop :=
  (exists r, In (KLock k, r) tr /\ r_ans r = AOk) /\ ~ (exists r, In (KUnLock k, r) tr).
Definition unfinished (u : arun) : Prop := u_future u <> [].
(** Its next call waits for a lock that another run holds. *)
Definition blocked (us : list arun) (u : arun) : Prop :=
  exists k r q v, u_future u = (KLock k, r) :: q /\ In v us /\ holds (u_past v) k.

(** the calls of a run: locks in ascending order, then no lock call, then the releases *)
Lemma run_parts u : is_run u -> u_past u ++ u_future u = [] \/
  exists sorted n ls mid rest, Permutation sorted (map lock_name (u_keys u)) /\ StronglySorted str_lt sorted /\ u_past u ++ u_future u = ls ++ mid ++ rest /\
    map fst ls = map KLock (firstn n sorted) /\ Forall (fun c => is_lock_call (fst c) = false) mid /\
    Forall (fun c => forall k, fst c <> KLock k) rest /\ (forall k, In k (locks_taken ls) -> exists r, In (KUnLock k, r) rest) /\
    (locks_taken ls = sorted \/ mid = []) /\ Forall (fun c => is_lock_call (fst c) = true \/ is_post (fst c) = true) rest.
Proof.
  intros (cfg & main & h & o & s' & H & Hc & Hp & T). destruct (C04_locks_bracket_the_transaction cfg h (u_keys u) main o s' H Hc Hp) as [A B].
  rewrite <- T. destruct (adj_repeat_NoDup (u_keys u)) as [_ _].
  assert (D : NoDup (u_keys u) \/ ~ NoDup (u_keys u)) by (destruct (ListDec.NoDup_dec string_dec (u_keys u)); auto).
  destruct D as [D|D]; [right|left; apply (A D)].
  destruct (B D) as (sorted & n & ls & mid & us & post & P1 & P2 & E & M & F & U & Po & Ta & _).
  exists sorted, n, ls, mid, (us ++ post). split; [exact P1|]. split; [exact P2|]. split; [exact E|]. split; [exact M|].
  split; [eapply Forall_impl; [|exact F]; cbn; tauto|].
  assert (Hu : forall c, In c us -> exists k, fst c = KUnLock k).
  { intros c Hi. assert (Hj : In (fst c) (map fst us)) by now apply in_map. rewrite U in Hj. apply in_map_iff in Hj. destruct Hj as (k & Hk & _). eauto. }
  split; [|split; [|split]].
  - apply Forall_app. split; apply Forall_forall; intros c Hi k Hk.
    + destruct (Hu c Hi) as (k' & Hk'). congruence.
    + rewrite Forall_forall in Po. specialize (Po c Hi). rewrite Hk in Po. discriminate.
  - intros k Hk. assert (Hj : In (KUnLock k) (map fst us)) by (rewrite U; now apply in_map). apply in_map_iff in Hj. destruct Hj as ([c r] & Ec & Hi). cbn in Ec. subst c.
    exists r. apply in_app_iff. now left.
  - destruct Ta as [Ta|(Ta & _)]; auto.
  - apply Forall_app. split; apply Forall_forall; intros c Hi.
    + destruct (Hu c Hi) as (k & Hk). left. now rewrite Hk.
    + rewrite Forall_forall in Po. right. auto.
Qed.
Lemma taken_in ls k r : In (KLock k, r) ls -> r_ans r = AOk -> In k (locks_taken ls).
Proof.
  intros Hi Hr. unfold locks_taken. apply in_flat_map. exists (KLock k, r). split; auto. cbn. unfold answered_ok. rewrite Hr. now left.
Qed.
Lemma taken_granted ls k : In k (locks_taken ls) -> exists r, In (KLock k, r) ls /\ r_ans r = AOk.
Proof.
  unfold locks_taken. intros H. apply in_flat_map in H. destruct H as ([c r] & Hi & H). cbn in H. destruct c; try contradiction.
  unfold answered_ok in H. destruct (r_ans r) eqn:E; try contradiction. destruct H as [->|[]]. eauto.
Qed.
Lemma not_later (mid rest : list (call * resp)) k r : Forall (fun c => is_lock_call (fst c) = false) mid -> Forall (fun c => forall k, fst c <> KLock k) rest -> ~ In (KLock k, r) (mid ++ rest).
Proof.
  intros F1 F2 H. apply in_app_iff in H. rewrite Forall_forall in F1, F2. destruct H as [H|H]; [specialize (F1 _ H); discriminate|exact (F2 _ H k eq_refl)].
Qed.
Lemma next_lock_above u k r q k' : is_run u -> u_future u = (KLock k, r) :: q -> holds (u_past u) k' -> str_lt k' k.
Proof.
  intros Hu Hq [(r' & Hi & Hr) _]. destruct (run_parts u Hu) as [E|(sorted & n & ls & mid & rest & _ & S & E & M & F1 & F2 & _)].
  { rewrite Hq in E. destruct (u_past u); discriminate. }
  rewrite Hq in E. apply app_eq_app in E. destruct E as (l & [[E1 E2]|[E1 E2]]).
  - exfalso. eapply (not_later mid rest k r F1 F2). rewrite E2. apply in_app_iff. right. now left.
  - destruct l as [|c l].
    { exfalso. cbn in E2. eapply (not_later mid rest k r F1 F2). rewrite <- E2. now left. }
    cbn in E2. injection E2 as <- E2. rewrite E1, map_app in M. cbn in M.
    assert (exists P R, firstn n sorted = P ++ k :: R /\ map fst (u_past u) = map KLock P) as (P & R & EP & EM).
    { revert M. generalize (firstn n sorted) as w. induction (u_past u) as [|c t IH]; intros w M.
      - destruct w as [|z w]; [discriminate|]. cbn in M. injection M as <- _. exists [], w. auto.
      - destruct w as [|z w]; [discriminate|]. cbn in M. injection M as M1 M2. 
        assert (Hx : exists P R, w = P ++ k :: R /\ map fst t = map KLock P).
        { clear - M2. revert w M2. induction t as [|c t IH]; intros w M2; (destruct w as [|z w]; [discriminate|]); cbn in M2.
          - injection M2 as <- _. exists [], w. auto.
          - injection M2 as M1 M2. destruct (IH _ M2) as (P & R & -> & E). exists (z :: P), R. cbn. rewrite M1, E. auto. }
        destruct Hx as (P & R & -> & E). exists (z :: P), R. cbn. rewrite M1, E. auto. }
    assert (S' : StronglySorted str_lt (P ++ k :: R)).
    { rewrite <- EP. clear - S. revert n. induction S as [|x t S IH Hx]; intros [|n]; cbn; constructor; auto. rewrite Forall_forall in Hx |- *. intros y Hy. apply Hx. rewrite <- (firstn_skipn n t). apply in_app_iff. now left. }
    assert (HP : In k' P).
    { assert (Hj : In (KLock k') (map fst (u_past u))) by (change (KLock k') with (fst (KLock k', r')); now apply in_map).
      rewrite EM in Hj. apply in_map_iff in Hj. destruct Hj as (y & [= ->] & Hy). exact Hy. }
    clear - S' HP. induction P as [|x P IH]; [destruct HP|]. cbn in S'. inversion S' as [|? ? S1 Hx]. subst. destruct HP as [->|HP]; [|auto].
    rewrite Forall_forall in Hx. apply Hx. apply in_app_iff. right. now left.
Qed.
Lemma holder_unfinished u k : is_run u -> holds (u_past u) k -> unfinished u.
Proof.
  intros Hu [(r & Hi & Hr) Hn] Hf. destruct (run_parts u Hu) as [E|(sorted & n & ls & mid & rest & _ & S & E & M & F1 & F2 & U & _)];
    rewrite Hf, app_nil_r in E; rewrite E in *; [destruct Hi|].
  apply in_app_iff in Hi. destruct Hi as [Hi|Hi]; [|exact (not_later mid rest k r F1 F2 Hi)].
  destruct (U k (taken_in _ _ _ Hi Hr)) as (x & Hx). apply Hn. exists x. rewrite !in_app_iff. auto.
Qed.

(* ---------------------------------------------------------------- C05 *)
(** Whatever the interleaving and whatever the locker granted so far: as long as some run is not finished, some
    unfinished run does not wait for a lock held by another one. *)
Theorem C05_no_deadlock :
  forall us, Forall is_run us -> (exists u, In u us /\ unfinished u) -> exists u, In u us /\ unfinished u /\ ~ blocked us u.
Proof.
  intros us Hall (u0 & Hu0 & Hf0). rewrite Forall_forall in Hall.
  (* the next lock of a run *)
  set (next := fun u => match u_future u with (KLock k, _) :: _ => Some k | _ => None end).
  assert (Hmax : forall l, incl l us -> (exists u, In u l /\ unfinished u) -> (exists u, In u l /\ unfinished u /\ next u = None) \/
    exists u k, In u l /\ next u = Some k /\ forall v k', In v l -> next v = Some k' -> k' = k \/ str_lt k' k).
  { induction l as [|v l IH]; intros Hi (u & Hu & Hf); [destruct Hu|].
    destruct (next v) as [k|] eqn:Ev.
    - assert (D : (exists w, In w l /\ unfinished w) \/ ~ (exists w, In w l /\ unfinished w)).
      { clear. induction l as [|w l IH]; [right; intros (x & [] & _)|]. destruct (u_future w) eqn:E.
        - destruct IH as [(x & Hx & Hy)|IH]; [left; exists x; split; [now right|auto]|]. right. intros (x & [<-|Hx] & Hy); [now apply Hy|apply IH; eauto].
        - left. exists w. split; [now left|]. unfold unfinished. rewrite E. discriminate. }
      destruct D as [D|D].
      + destruct (IH (fun x Hx => Hi x (or_intror Hx)) D) as [(w & H1 & H2 & H3)|(w & k1 & H1 & H2 & H3)]; [left; exists w; split; [now right|auto]|right].
        destruct (str_ltb_total k1 k) as [L|[->|L]].
        * exists v, k. split; [now left|]. split; auto. intros x kx [<-|Hx] Hk; [left; congruence|]. right. destruct (H3 x kx Hx Hk) as [->|Lx]; [exact L|]. exact (str_ltb_trans _ _ _ Lx L).
        * exists w, k. split; [now right|]. split; auto. intros x kx [<-|Hx] Hk; [left; congruence|exact (H3 x kx Hx Hk)].
        * exists w, k1. split; [now right|]. split; auto. intros x kx [<-|Hx] Hk; [right; assert (kx = k) by congruence; subst; exact L|exact (H3 x kx Hx Hk)].
      + right. exists v, k. split; [now left|]. split; auto. intros x kx [<-|Hx] Hk; [left; congruence|]. exfalso. apply D. exists x. split; auto.
        unfold unfinished. unfold next in Hk. destruct (u_future x); discriminate.
    - destruct (u_future v) as [|c t] eqn:Eu.
      + destruct Hu as [->|Hu]; [now exfalso; apply Hf|]. destruct (IH (fun x Hx => Hi x (or_intror Hx))) as [(w & H1 & H2 & H3)|(w & k1 & H1 & H2 & H3)]; [eauto|left; exists w; split; [now right|auto]|right].
        exists w, k1. split; [now right|]. split; auto. intros x kx [<-|Hx] Hk; [congruence|exact (H3 x kx Hx Hk)].
      + left. exists v. split; [now left|]. split; auto. unfold unfinished. rewrite Eu. discriminate. }
  destruct (Hmax us (incl_refl _) (ex_intro _ u0 (conj Hu0 Hf0))) as [(u & H1 & H2 & H3)|(u & k & H1 & H2 & H3)].
  - exists u. split; auto. split; auto. intros (k & r & q & v & E & _). unfold next in H3. rewrite E in H3. discriminate.
  - assert (Ef : exists r q, u_future u = (KLock k, r) :: q).
    { unfold next in H2. destruct (u_future u) as [|[c r] q]; [discriminate|]. destruct c; try discriminate. injection H2 as ->. eauto. }
    destruct Ef as (r & q & Ef).
    assert (D : (exists v, In v us /\ holds (u_past v) k) \/ ~ (exists v, In v us /\ holds (u_past v) k)).
    { assert (Dh : forall tr, holds tr k \/ ~ holds tr k).
      { intros tr. unfold holds.
        assert (D1 : (exists r, In (KLock k, r) tr /\ r_ans r = AOk) \/ ~ (exists r, In (KLock k, r) tr /\ r_ans r = AOk)).
        { clear. induction tr as [|[c x] t IH]; [right; intros (r & [] & _)|]. destruct IH as [(r & H & E)|IH]; [left; exists r; split; [now right|auto]|].
          destruct c as [k'| | | | | | | | | | | | |]; try (right; intros (r & [Hx|Hx] & E); [discriminate|apply IH; eauto]).
          destruct (string_dec k' k) as [->|Hne]; [|right; intros (r & [Hx|Hx] & E); [congruence|apply IH; eauto]].
          destruct (r_ans x) eqn:Ex; [left; exists x; split; [now left|auto]|right; intros (r & [Hx|Hx] & E); [congruence|apply IH; eauto]..]. }
        assert (D2 : (exists r, In (KUnLock k, r) tr) \/ ~ (exists r, In (KUnLock k, r) tr)).
        { clear. induction tr as [|[c x] t IH]; [right; intros (r & [])|]. destruct IH as [(r & H)|IH]; [left; exists r; now right|].
          destruct c as [|k'| | | | | | | | | | | |]; try (right; intros (r & [Hx|Hx]); [discriminate|apply IH; eauto]).
          destruct (string_dec k' k) as [->|Hne]; [left; exists x; now left|right; intros (r & [Hx|Hx]); [congruence|apply IH; eauto]]. }
        tauto. }
      clear - Dh. induction us as [|v l IH]; [right; intros (x & [] & _)|]. destruct (Dh (u_past v)) as [D|D]; [left; exists v; split; [now left|auto]|].
      destruct IH as [(x & Hx & Hy)|IH]; [left; exists x; split; [now right|auto]|]. right. intros (x & [<-|Hx] & Hy); [auto|apply IH; eauto]. }
    destruct D as [(v & Hv & Hh)|D].
    + (* the holder is unfinished; it is the one that can proceed unless it waits for a larger lock *)
      exists v. split; auto. split; [eapply holder_unfinished; eauto|]. intros (k2 & r2 & q2 & w & E2 & _).
      assert (L : str_lt k k2) by (eapply next_lock_above; eauto).
      destruct (H3 v k2 Hv) as [->|L']; [unfold next; now rewrite E2| |].
      * unfold str_lt in L. rewrite str_ltb_irrefl in L. discriminate.
      * unfold str_lt in L, L'. apply str_ltb_antisym in L. congruence.
    + exists u. split; auto. split; [unfold unfinished; rewrite Ef; discriminate|]. intros (k2 & r2 & q2 & w & E2 & Hw & Hh). rewrite Ef in E2. injection E2 as <- _ _. apply D. eauto.
Qed.
Print Assumptions C05_no_deadlock.

(* ---------------------------------------------------------------- C06 *)
(** The run has begun its work (opened the transaction, executed something, ...) and released nothing yet. *)
Definition working (u : arun) : Prop :=
  (exists c, In c (u_past u) /\ is_lock_call (fst c) = false /\ is_post (fst c) = false) /\ ~ (exists k r, In (KUnLock k, r) (u_past u)).
Lemma working_holds u k : is_run u -> working u -> In k (u_keys u) -> holds (u_past u) (lock_name k).
Proof.
  intros Hu [(c & Hc & C1 & C2) Hn] Hk. split; [|intros (r & Hr); apply Hn; eauto].
  destruct (run_parts u Hu) as [E|(sorted & n & ls & mid & rest & P & S & E & M & F1 & F2 & U & T & F3)].
  { destruct (u_past u); [destruct Hc|discriminate]. }
  apply app_eq_app in E. destruct E as (l & [[E1 E2]|[E1 E2]]).
  - assert (Hm : mid <> []).
    { rewrite E1 in Hc. apply in_app_iff in Hc. destruct Hc as [Hc|Hc].
      - exfalso. assert (Hj : In (fst c) (map fst ls)) by now apply in_map. rewrite M in Hj. apply in_map_iff in Hj. destruct Hj as (z & Hz & _). rewrite <- Hz in C1. discriminate.
      - intros ->. cbn in E2. rewrite Forall_forall in F3. destruct (F3 c) as [X|X]; [rewrite E2; apply in_app_iff; auto|congruence..]. }
    destruct T as [T|T]; [|contradiction].
    destruct (taken_granted ls (lock_name k)) as (r & Hr & Hr').
    { rewrite T. eapply Permutation_in; [symmetry; exact P|]. now apply in_map. }
    exists r. split; auto. rewrite E1. apply in_app_iff. now left.
  - exfalso. assert (Hj : In (fst c) (map fst ls)) by (apply in_map; rewrite E1; apply in_app_iff; auto). rewrite M in Hj. apply in_map_iff in Hj. destruct Hj as (z & Hz & _). rewrite <- Hz in C1. discriminate.
Qed.
(** If the locker never lets two runs hold the same key, two working runs share no key. *)
Theorem C06_runs_with_common_key_do_not_overlap :
  forall u v, is_run u -> is_run v -> (forall k, ~ (holds (u_past u) k /\ holds (u_past v) k)) ->
  working u -> working v -> forall k, In k (u_keys u) -> ~ In k (u_keys v).
Proof.
  intros u v Hu Hv Hx Wu Wv k Ku Kv. apply (Hx (lock_name k)). split; apply working_holds; auto.
Qed.
Print Assumptions C06_runs_with_common_key_do_not_overlap.

(** two runs, keys b,a and c,b: the first holds a and b and is inside its transaction, the second waits for b *)
Definition lk_trace (keys : list string) : list (call * resp) := s_trace (snd (save (ex_cfg true false BusPlain None 0 all_ok) keys ex_add (new_stage ex_heap))).
Definition run1 : arun := mkRun ["b"; "a"]%string (firstn 3 (lk_trace ["b"; "a"]%string)) (skipn 3 (lk_trace ["b"; "a"]%string)).
Definition run2 : arun := mkRun ["c"; "b"]%string [] (lk_trace ["c"; "b"]%string).
Example C05_example : is_run run1 /\ is_run run2 /\ working run1 /\ blocked [run1; run2] run2 /\ ~ blocked [run1; run2] run1.
Proof.
  assert (R : forall keys o tr, fst (save (ex_cfg true false BusPlain None 0 all_ok) keys ex_add (new_stage ex_heap)) = Done o -> lk_trace keys = tr ->
     Forall (fun c => r_ans (snd c) = AOk) tr -> forall p q, p ++ q = tr -> is_run (mkRun keys p q)).
  { intros keys o tr H E F p q Epq. exists (ex_cfg true false BusPlain None 0 all_ok), ex_add, ex_heap. do 2 eexists. split; [apply surjective_pairing|].
    cbn [u_keys u_past u_future]. rewrite H. fold (lk_trace keys). rewrite E. split; [discriminate|]. split; [|congruence].
    intros c r Hi _. rewrite Forall_forall in F. specialize (F _ Hi). cbn in F. congruence. }
  split; [|split; [|split; [|split]]].
  - eapply R; [vm_compute; reflexivity|vm_compute; reflexivity|repeat constructor|vm_compute; reflexivity].
  - eapply R; [vm_compute; reflexivity|vm_compute; reflexivity|repeat constructor|vm_compute; reflexivity].
  - split; [exists (KBegin, ok_resp); vm_compute; auto 6|]. intros (k & r & H). vm_compute in H. intuition discriminate.
  - exists "ddd_engine_b"%string, ok_resp, (tl (lk_trace ["c"; "b"]%string)), run1. split; [vm_compute; reflexivity|]. split; [now left|]. split; [exists ok_resp; vm_compute; auto 6|].
    intros (r & H). vm_compute in H. intuition discriminate.
  - intros (k & r & q & v & E & _). vm_compute in E. discriminate.
Qed.

(** Properties of the database lock (lock/db/sql.go). *)
From Verif Require Import DbLockModel DbLockSpec DbLockProof5.

(* ---------------------------------------------------------------- C31 *)
(** In every state reachable by clients that Lock and UnLock (no renewal), whatever the interleaving of their statements,
    the failures and the crashes: two clients that hold the same key with valid leases are one and the same. *)
Theorem C31_db_lock_exclusive :
  forall ttl retry w c1 c2 k, reachable ttl retry false w ->
  holding w c1 k -> holding w c2 k -> lease_valid ttl w c1 -> lease_valid ttl w c2 -> c1 = c2.
Proof. exact exclusive. Qed.
Print Assumptions C31_db_lock_exclusive.

(** Example worlds: client 0 takes the key at time 10; client 1 reads the row, time passes, client 1 takes over. *)
Definition w_start : world := mkW (fun _ => None) 10 0 (fun _ => mkC PIdle None) [].
Lemma start_ok : initial w_start.
Proof. split; [auto|]. split; [auto|]. discriminate. Qed.
(** reads off a property of the final state of a schedule *)
Lemma at_end {A} (e : option world) (f : world -> A) x w : option_map f e = Some x -> e = Some w -> f w = x.
Proof. intros H ->. cbn in H. congruence. Qed.
Lemma ends (e : option world) : option_map (fun _ => tt) e = Some tt -> exists w, e = Some w.
Proof. destruct e; [eauto|discriminate]. Qed.
Ltac rd E f x := let H := fresh in let e := match type of E with ?e = _ => e end in
  assert (H : option_map f e = Some x) by (vm_compute; reflexivity); apply (fun h => at_end e f x _ h E) in H; cbv beta in H.
Definition yes (_ : world) : bool := true.
Definition take (c : nat) : list act := ACall c "k"%string :: repeat (ALock c) 4.     (* NewID, SELECT, now, INSERT *)
Definition take_over (c : nat) : list act := ACall c "k"%string :: repeat (ALock c) 5. (* NewID, SELECT, check, now, UPDATE *)
Notation c31_end := (sched 5 false false yes 2 (take 0 ++ [ATick 2]) w_start).
Example C31_example : exists w, reachable 5 false false w /\ holding w 0 "k" /\ lease_valid 5 w 0.
Proof.
  destruct (ends c31_end) as (w & E); [vm_compute; reflexivity|]. exists w.
  destruct (sched_steps 5 false false yes (fun _ => True) 2 (fun _ _ _ => I) _ _ _ E (fun _ _ => eq_refl) w_start (or_introl (conj eq_refl I))) as [S _].
  split; [exists w_start; split; [apply start_ok|eapply steps_in_steps; eauto]|].
  rd E (fun w => c_ph (w_cl w 0)) (PHeld (mkH "k"%string 0)). rd E (fun w => lease_of (w_hist w) 0) (Some 10). rd E w_now 12.
  split; [eexists; split; [eassumption|reflexivity]|]. exists 10. split; [assumption|]. lia.
Qed.

(* ---------------------------------------------------------------- C32 *)
(** False: client 0 renews in time throughout (its lease is valid at every moment), client 1 read the row before the
    renewal, and takes the lock over, because the conditional UPDATE compares only the locker id. *)
Definition chk32 (w : world) : bool :=
  forallb (fun c => match c_ph (w_cl w c) with
                    | PHeld _ => match lease_of (w_hist w) c with Some ts => w_now w <? ts + 5 | None => false end
                    | _ => true end) [0; 1].
Definition steal : list act :=
  take 0 ++ [ATick 3; ACall 1 "k"%string; ALock 1; ALock 1;         (* 13: client 1 has read updated_at = 10 *)
             ATick 1; ARenCall 0; ARen 0; ARen 0;                    (* 14: client 0 renews *)
             ATick 1; ALock 1; ALock 1; ALock 1].                    (* 15: client 1 finds 10 expired, updates *)
Notation c32_end := (sched 5 false true chk32 2 steal w_start).
Lemma chk32_ok w : chk32 w = true -> (forall c, 2 <= c -> w_cl w c = mkC PIdle None) -> in_time 5 0 w.
Proof.
  intros H I c k (h & P & _). unfold chk32 in H. rewrite forallb_forall in H.
  assert (Hc : c = 0 \/ c = 1 \/ 2 <= c) by lia. destruct Hc as [Hc|[Hc|Hc]]; [| |rewrite (I c Hc) in P; discriminate].
  - specialize (H c (or_introl (eq_sym Hc))). rewrite P in H. destruct (lease_of (w_hist w) c) as [ts|]; [|discriminate]. apply Nat.ltb_lt in H. exists ts. split; auto. lia.
  - specialize (H c (or_intror (or_introl (eq_sym Hc)))). rewrite P in H. destruct (lease_of (w_hist w) c) as [ts|]; [|discriminate]. apply Nat.ltb_lt in H. exists ts. split; auto. lia.
Qed.
Theorem C32_renewed_lock_refuted :
  ~ (forall ttl retry w0 w c1 c2 k, initial w0 -> steps_in ttl retry true (in_time ttl 0) w0 w -> holding w c1 k -> holding w c2 k -> c1 = c2).
Proof.
  intros H. destruct (ends c32_end) as (w & E); [vm_compute; reflexivity|].
  destruct (sched_steps 5 false true chk32 (in_time 5 0) 2 chk32_ok _ _ _ E (fun _ _ => eq_refl) w_start) as [S _].
  { left. split; auto. apply chk32_ok; [reflexivity|auto]. }
  assert (0 = 1); [|discriminate]. apply (H 5 false w_start w 0 1 "k"%string start_ok S).
  - exists (mkH "k"%string 0). split; [|reflexivity]. rd E (fun w => c_ph (w_cl w 0)) (PHeld (mkH "k"%string 0)). assumption.
  - exists (mkH "k"%string 1). split; [|reflexivity]. rd E (fun w => c_ph (w_cl w 1)) (PHeld (mkH "k"%string 1)). assumption.
Qed.
Print Assumptions C32_renewed_lock_refuted.
(** True: if a margin is kept between the renewals and the end of the lease, and every Lock call goes from reading the row
    to its conditional UPDATE within that margin, no two clients hold a key - renewals or not. *)
Theorem C32_renewed_lock_with_margin_partial :
  forall ttl margin retry runs w0 w c1 c2 k, initial w0 ->
  steps_in ttl retry runs (fun w => in_time ttl margin w /\ prompt margin (w_hist w)) w0 w ->
  holding w c1 k -> holding w c2 k -> c1 = c2.
Proof. intros ttl margin retry runs. exact (holders_agree ttl margin runs retry). Qed.
Print Assumptions C32_renewed_lock_with_margin_partial.
(** the hypotheses are met by a run in which client 0 renews and client 1 tries and is refused *)
Definition chk32m (w : world) : bool :=
  forallb (fun c => match c_ph (w_cl w c) with
                    | PHeld _ => match lease_of (w_hist w) c with Some ts => w_now w + 1 <? ts + 5 | None => false end
                    | _ => true end) [0; 1] &&
  forallb (fun e => match e_stmt e with QUpdate _ _ _ _ => e_who e =? 0 | _ => true end) (w_hist w) &&
  forallb (fun e => match e_stmt e with QSelect _ => e_who e =? 1 | _ => true end) (skipn 1 (w_hist w)) &&
  match w_hist w with _ :: e :: _ => match e_stmt e with QInsert _ _ _ => e_who e =? 0 | _ => false end | _ => true end.
Definition honest : list act :=
  take 0 ++ [ATick 3; ARenCall 0; ARen 0; ARen 0; ATick 2; ACall 1 "k"%string; ALock 1; ALock 1; ALock 1].
Notation c32m_end := (sched 5 false true chk32m 2 honest w_start).
Lemma chk32m_ok w : chk32m w = true -> (forall c, 2 <= c -> w_cl w c = mkC PIdle None) -> in_time 5 1 w /\ prompt 1 (w_hist w).
Proof.
  intros H I. unfold chk32m in H. rewrite !andb_true_iff in H. destruct H as [[[H1 H2] H3] H4]. rewrite forallb_forall in H1, H2, H3. split.
  - intros c k (h & P & _). assert (Hc : c = 0 \/ c = 1 \/ 2 <= c) by lia. destruct Hc as [Hc|[Hc|Hc]]; [| |rewrite (I c Hc) in P; discriminate].
    + specialize (H1 c (or_introl (eq_sym Hc))). rewrite P in H1. destruct (lease_of (w_hist w) c) as [ts|]; [|discriminate]. apply Nat.ltb_lt in H1. eauto.
    + specialize (H1 c (or_intror (or_introl (eq_sym Hc)))). rewrite P in H1. destruct (lease_of (w_hist w) c) as [ts|]; [|discriminate]. apply Nat.ltb_lt in H1. eauto.
  - intros p m q e1 e2 key E Hw Hm Hs (wid & id & ts & Hu). exfalso.
    assert (W2 : e_who e2 = 0).
    { apply Nat.eqb_eq. specialize (H2 e2). rewrite Hu in H2. apply H2. rewrite E, in_app_iff. right. right. rewrite in_app_iff. right. now left. }
    destruct p as [|e0 p].
    + cbn in E. rewrite E in H4. destruct m as [|x m].
      * cbn in H4. rewrite Hu in H4. discriminate.
      * cbn in H4. apply (Hm x); [now left|]. destruct (e_stmt x); try discriminate. apply Nat.eqb_eq in H4. congruence.
    + assert (W1 : e_who e1 = 1); [|lia]. apply Nat.eqb_eq. specialize (H3 e1). rewrite Hs in H3. apply H3. rewrite E. cbn [skipn app]. rewrite in_app_iff. right. now left.
Qed.
Example C32_example : exists w, steps_in 5 false true (fun w => in_time 5 1 w /\ prompt 1 (w_hist w)) w_start w /\ holding w 0 "k" /\ w_cl w 1 = mkC (PFailed LLocked) None /\ w_now w = 15.
Proof.
  destruct (ends c32m_end) as (w & E); [vm_compute; reflexivity|].
  destruct (sched_steps 5 false true chk32m _ 2 chk32m_ok _ _ _ E (fun _ _ => eq_refl) w_start) as [S _].
  { left. split; auto. apply chk32m_ok; [reflexivity|auto]. }
  exists w. split; [exact S|]. rd E (fun w => c_ph (w_cl w 0)) (PHeld (mkH "k"%string 0)). rd E (fun w => w_cl w 1) (mkC (PFailed LLocked) None). rd E w_now 15.
  split; [eexists; split; [eassumption|reflexivity]|]. split; assumption.
Qed.

(* ---------------------------------------------------------------- C33 *)
(** Client [c] executes its UnLock.  If that removes a row, the row is the one under [c]'s key with the identity [c]'s Lock
    returned, which no other client ever stored; the row of any other holder stays; if the key's row is missing or not
    [c]'s, UnLock reports an error and changes nothing. *)
Theorem C33_unlock_only_own :
  forall ttl retry runs w c h p o p' w', reachable ttl retry runs w -> c_ph (w_cl w c) = PUnlock h p -> op c o p w = (p', w') ->
  (forall k, w_tab w' k <> w_tab w k -> k = h_key h /\ w_tab w' k = None /\ exists r, w_tab w k = Some r /\ lr_id r = h_id h /\
     forall e, In e (w_hist w) -> writes_id e (lr_id r) -> e_who e = c) /\
  (forall d hd r, d <> c -> c_ph (w_cl w d) = PHeld hd -> w_tab w (h_key hd) = Some r -> lr_id r = h_id hd -> w_tab w' (h_key hd) = Some r) /\
  (match w_tab w (h_key h) with Some r => lr_id r <> h_id h | None => True end -> p' = Ret false /\ forall k, w_tab w' k = w_tab w k).
Proof.
  intros ttl retry runs w c h p o p' w' Hr Hp Ho. destruct (reach_any ttl retry runs w Hr) as (a & (Et & En & Ex & Eh & S & _) & G).
  pose proof (S c) as Sc. rewrite Hp in Sc. inversion Sc as [| | | | | |h' E1 E2]. subst h' p. symmetry in E2. unfold UnLock in Ho. apply op_stmt in Ho. destruct Ho as [-> ->]. cbn [w_tab].
  rewrite Et, Eh in *.
  assert (Hc : uses (a_v a c) = Some (h_id h)) by now rewrite E2.
  destruct (eff_cases o (QDelete (h_key h) (h_id h)) (a_tab a)) as [E|(r & R1 & R2 & E)]; rewrite E.
  - split; [|split]; auto; [intros k Hk; now destruct Hk|]. intros Hm. split; auto. destruct o; cbn; auto. destruct (a_tab a (h_key h)) as [r|]; auto.
    destruct (Nat.eqb_spec (lr_id r) (h_id h)); auto. contradiction.
  - split; [|split].
    + intros k Hk. destruct (string_dec k (h_key h)) as [->|N]; [|now rewrite tset_off in Hk]. split; auto. split; [apply tset_at|]. exists r. split; auto. split; auto.
      intros e He Hw. apply (g_hist a G e (lr_id r) He Hw). now rewrite R2.
    + intros d hd r' N Hd Hr' Hi. destruct (string_dec (h_key hd) (h_key h)) as [K|K]; [|now rewrite tset_off]. exfalso. apply N. apply (g_dist a G d c (h_id h)); auto.
      pose proof (S d) as Sd. rewrite Hd in Sd. inversion Sd as [| | | | |? X Y|]. subst. cbn. rewrite K in Hr'. congruence.
    + rewrite R1. intros X. contradiction.
Qed.
Print Assumptions C33_unlock_only_own.
(** client 0 lets its lease expire, client 1 takes the key over, client 0 then calls UnLock: error, the row stays *)
Definition lost : list act := take 0 ++ [ATick 6] ++ take_over 1 ++ [AUnCall 0].
Notation c33_end := (sched 5 true false yes 2 lost w_start).
Example C33_example : exists w h, reachable 5 true false w /\ c_ph (w_cl w 0) = PUnlock h (UnLock h) /\ holding w 1 "k" /\ w_tab w "k"%string = Some (mkRow 1 16).
Proof.
  destruct (ends c33_end) as (w & E); [vm_compute; reflexivity|]. exists w, (mkH "k"%string 0).
  destruct (sched_steps 5 true false yes (fun _ => True) 2 (fun _ _ _ => I) _ _ _ E (fun _ _ => eq_refl) w_start (or_introl (conj eq_refl I))) as [S _].
  split; [exists w_start; split; [apply start_ok|eapply steps_in_steps; eauto]|].
  rd E (fun w => c_ph (w_cl w 0)) (PUnlock (mkH "k"%string 0) (UnLock (mkH "k"%string 0))). rd E (fun w => c_ph (w_cl w 1)) (PHeld (mkH "k"%string 1)). rd E (fun w => w_tab w "k"%string) (Some (mkRow 1 16)).
  split; [assumption|]. split; [eexists; split; [eassumption|reflexivity]|assumption].
Qed.

(* ---------------------------------------------------------------- C34 *)
(** A key whose row was last written at least ttl ago (its holder has disappeared) is taken over by a Lock call that nobody
    disturbs; a free key is taken; nothing else in the table changes. *)
Theorem C34_takeover_after_ttl :
  forall ttl retry c w key w' r, solo c w (Lock ttl retry key) w' r ->
  match w_tab w key with Some row => lr_upd row + ttl <= w_now w | None => True end ->
  exists h ts, r = LOk h /\ h_key h = key /\ w_now w <= ts /\ w_tab w' key = Some (mkRow (h_id h) ts) /\ forall k, k <> key -> w_tab w' k = w_tab w k.
Proof.
  intros ttl retry c w key w' r H Hx.
  assert (L : exists h ts, r = LOk h /\ h_key h = key /\ w_now w <= ts /\ w_tab w' = tset (w_tab w) key (Some (mkRow (h_id h) ts))).
  { destruct (w_tab w key) as [row|] eqn:E; [eapply lock_expired; eauto|eapply lock_free; eauto]. }
  destruct L as (h & ts & E1 & E2 & E3 & E4). exists h, ts. rewrite E4. split; auto. split; auto. split; auto. split; [apply tset_at|]. intros k N. now apply tset_off.
Qed.
Print Assumptions C34_takeover_after_ttl.
(** UnLock of a client whose row is still there, when the database answers, succeeds; and whenever UnLock reports success the
    key is free: a Lock call nobody disturbs gets it at once, without waiting for the lease. *)
Theorem C33_unlock_frees :
  forall ttl retry runs w c h p o p' w', reachable ttl retry runs w -> c_ph (w_cl w c) = PUnlock h p -> op c o p w = (p', w') ->
  ((exists r, w_tab w (h_key h) = Some r /\ lr_id r = h_id h) -> o = OOk -> p' = Ret true) /\
  (p' = Ret true -> w_tab w' (h_key h) = None /\
     forall d w2 r2, solo d w' (Lock ttl retry (h_key h)) w2 r2 -> exists h2, r2 = LOk h2 /\ h_key h2 = h_key h).
Proof.
  intros ttl retry runs w c h p o p' w' Hr Hp Ho. destruct (reach_any ttl retry runs w Hr) as (a & (Et & En & Ex & Eh & S & _) & G).
  pose proof (S c) as Sc. rewrite Hp in Sc. inversion Sc as [| | | | | |h' E1 E2]. subst h' p. unfold UnLock in Ho. apply op_stmt in Ho. destruct Ho as [-> ->].
  split.
  - intros (r & R1 & R2) ->. cbn. rewrite R1, R2, Nat.eqb_refl. reflexivity.
  - intros E. match goal with |- w_tab ?w _ = None /\ _ => assert (N : w_tab w (h_key h) = None) end.
    { destruct o; cbn in *; try discriminate E. destruct (w_tab w (h_key h)) as [r|]; [|discriminate E]. destruct (Nat.eqb (lr_id r) (h_id h)); [apply tset_at|discriminate E]. }
    split; auto. intros d w2 r2 L. destruct (C34_takeover_after_ttl ttl retry d _ _ _ _ L) as (h2 & ts & A & B & _); [now rewrite N|]. eauto.
Qed.
Print Assumptions C33_unlock_frees.
(** As long as the lease of a holder is valid - it may have crashed, it has just not called UnLock - a Lock call that ends
    before the lease does is refused with ErrEntityLocked and changes nothing. *)
Theorem C34_refused_before_ttl :
  forall ttl retry w c k ts, reachable ttl retry false w -> holding w c k -> lease_of (w_hist w) c = Some ts ->
  forall d w' r, solo d w (Lock ttl retry k) w' r -> w_now w' < ts + ttl -> r = LLocked /\ w_tab w' = w_tab w.
Proof.
  intros ttl retry w c k ts Hr (h & P & K) L d w' r S Hn. destruct (reach_false ttl retry w Hr) as (a & (Et & En & Ex & Eh & Se & _) & G & F).
  pose proof (Se c) as Sc. rewrite P in Sc. inversion Sc as [| | | | |? X Y|]. subst. symmetry in Y. destruct (f_held ttl a F c h Y) as (u & M1 & M2 & M3).
  rewrite Eh, M1 in L. injection L as ->. pose proof (solo_later _ _ _ _ _ S). rewrite En in *.
  destruct M3 as [M3|M3]; [|lia]. rewrite <- Et in M3. rewrite <- En in *. eapply (lock_refused ttl retry d w _ w' r _ S M3); cbn; auto.
Qed.
Print Assumptions C34_refused_before_ttl.
Example C34_example : exists w r, solo 1 w_start (Lock 5 false "k") w r /\ w_tab w_start "k"%string = None.
Proof.
  do 2 eexists. split; [|reflexivity]. cbn. unfold lock1.
  eapply (solo_op 1 _ _ 0); [reflexivity|reflexivity|]. cbn. eapply (solo_op 1 _ _ 1); [reflexivity|reflexivity|]. cbn.
  eapply (solo_op 1 _ _ 0); [reflexivity|reflexivity|]. cbn. eapply (solo_op 1 _ _ 2); [reflexivity|reflexivity|]. cbn. apply solo_ret.
Qed.

(* ---------------------------------------------------------------- C35 *)
(** Whatever the database answers: Lock with retry is a sequence of at least one and at most five attempts (one SELECT
    each), all but the last of which ended with ErrEntityLocked; its result is that of the last attempt, and it gives up
    early only on a result other than ErrEntityLocked. *)
Theorem C35_at_most_five_attempts :
  forall ttl key tr r, calls (Lock ttl true key) tr r -> exists atts,
    tr = concat (map fst atts) /\ Forall (fun x => calls (Lock ttl false key) (fst x) (snd x)) atts /\
    length (filter is_select tr) = length atts /\ 1 <= length atts <= 5 /\
    (exists init t, atts = init ++ [(t, r)] /\ Forall (fun x => snd x = LLocked) init) /\ (length atts = 5 \/ r <> LLocked).
Proof. intros ttl key tr r H. exact (retry_split ttl 4 key tr r H). Qed.
Print Assumptions C35_at_most_five_attempts.
(** without retry there is one attempt *)
Theorem C35_no_retry_one_attempt :
  forall ttl key tr r, calls (Lock ttl false key) tr r -> length (filter is_select tr) = 1.
Proof.
  intros ttl key tr r H. cbn in H. apply lock1_split in H. destruct H as (tr1 & r1 & tr2 & -> & _ & H2 & H3). inversion H2. subst. now rewrite app_nil_r.
Qed.
Print Assumptions C35_no_retry_one_attempt.
Example C35_example : calls (Lock 5 true "k") (concat (repeat [IId 7; IStmt (QSelect "k") (RRow (mkRow 3 10)); INow 12] 5)) LLocked.
Proof. cbn. repeat constructor. Qed.

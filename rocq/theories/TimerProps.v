(** C49-C52: the timer. *)
From Verif Require Import TimerModel TimerSpec TimerProof TimerProof2.
From Verif Require BusProof.
Local Open Scope string_scope. Local Open Scope list_scope. Local Open Scope nat_scope.

(* ---------------------------------------------------------------- C49 *)
(** In every interleaving of any number of instances (of any services), registrations and cancellations, the handler is called
    at most once for each scheduled time of a job, plus once more for each call that was lost: the process died during the
    handler, or saving the job or COMMIT failed. *)
Theorem C49_at_most_once :
  forall parse zero_ok svcs w id n, always_later parse -> treach parse zero_ok svcs w ->
    called (at_time id n) (tw_hist w) <= lost (at_time id n) (tw_hist w) + 1.
Proof.
  intros parse zero_ok svcs w id n L R. apply (count_bound parse zero_ok svcs L (at_time id n)); auto; unfold at_time.
  - intros a b A B. apply andb_true_iff in A, B. destruct A as [A _], B as [B _]. apply Nat.eqb_eq in A, B. congruence.
  - intros a b A B _. apply andb_true_iff in A, B. destruct A as [_ A], B as [_ B]. apply Nat.eqb_eq in A, B. lia.
Qed.
Print Assumptions C49_at_most_once.
(** Nothing is called before its time or for a job of another service, and two handlers never run at the same time for the
    same job - with or without losses. *)
Theorem C49_no_overlap :
  forall parse zero_ok svcs w, always_later parse -> treach parse zero_ok svcs w ->
    (forall t p j, In (TCall t p j) (tw_hist w) -> j_service j = svcs p /\ j_next j <= t /\ j_status j = TToRun) /\
    (forall p q tp tq j j', tw_poll w p = TPRun tp (Some j) -> tw_poll w q = TPRun tq (Some j') -> p <> q -> j_id j <> j_id j').
Proof.
  intros parse zero_ok svcs w L R. pose proof (reach_tinv parse zero_ok svcs L w R) as V. split.
  - intros t p j H. destruct (v_call _ _ _ V t p j H) as (_ & _ & D & _). now apply is_due_spec in D.
  - intros p q tp tq j j' A B N E. apply N. eapply (v_one _ _ _ V); eauto.
Qed.
Print Assumptions C49_no_overlap.
(** a cron expression that activates every tenth time unit *)
Definition tens : string -> option (nat -> nat) := fun e => if String.eqb e "tens" then Some (fun t => 10 * (t / 10 + 1)) else None.
Lemma tens_later : always_later tens.
Proof. intros e f t. unfold tens. destruct (String.eqb e "tens"); [|discriminate]. intros [= <-]. change (t < 10 * (t / 10 + 1)). assert (H10 : 10 <> 0) by discriminate. pose proof (Nat.div_mod t 10 H10) as A. pose proof (Nat.mod_upper_bound t 10 H10) as B. rewrite A at 1. rewrite Nat.mul_add_distr_l, Nat.mul_1_r. apply Nat.add_lt_mono_l. exact B. Qed.
Definition two : nat -> string := fun _ => "a".
(** two instances find the same two jobs; one handles the cron job, the other one skips it while it is locked and again later,
    and handles the one-shot job *)
Definition race : list tact :=
  [ARun 0 "a" "k1" (ReqCron "tens") 1; AInsert 0 true; ARun 0 "a" "k2" (ReqOnce 12) 2; AInsert 0 true; ATick 13; AFind 0; AFind 1; ALock 0 true; ALock 1 true; AEnd 0 true true;
   ALock 1 true; ALock 0 true; AEnd 1 false true; AFind 2; ALock 2 true].
Example C49_example : exists w, trun tens true two race tworld0 = Some w /\ treach tens true two w /\
  called (at_time 1 10) (tw_hist w) = 1 /\ called (at_time 2 12) (tw_hist w) = 1 /\ called (fun _ => true) (tw_hist w) = 2 /\ lost (fun _ => true) (tw_hist w) = 0 /\
  t_rows (tw_db w) = [mkJ 1 "a" "k1" "tens" 20 TToRun 1; mkJ 2 "a" "k2" "" 12 TFinished 2].
Proof.
  assert (G : forall l w0 w, treach tens true two w0 -> trun tens true two l w0 = Some w -> treach tens true two w).
  { induction l as [|a l IH]; intros w0 w R H; cbn in H; [injection H as <-; auto|]. destruct (texec tens true two a w0) as [w1|] eqn:E; [|discriminate]. apply (IH w1 w); auto. eapply tr_step; eauto. }
  destruct (trun tens true two race tworld0) as [w|] eqn:E; [|vm_compute in E; discriminate]. exists w. split; auto. split; [eapply G; eauto; constructor|].
  assert (X : option_map (fun w => (called (at_time 1 10) (tw_hist w), called (at_time 2 12) (tw_hist w), called (fun _ => true) (tw_hist w), lost (fun _ => true) (tw_hist w), t_rows (tw_db w))) (trun tens true two race tworld0) = Some (1, 1, 2, 0, [mkJ 1 "a" "k1" "tens" 20 TToRun 1; mkJ 2 "a" "k2" "" 12 TFinished 2])) by (vm_compute; reflexivity).
  rewrite E in X. cbn [option_map] in X. injection X as X1 X2 X3 X4 X5. auto 7.
Qed.

(* ---------------------------------------------------------------- C50 *)
(** One registration: the table is unchanged, or exactly one job with the requested key, payload and schedule is added, and
    there was no job with this key.  Requests for the past and unparsable expressions are refused. *)
Theorem C50_register_partial :
  forall parse zero_ok svc key q payload now d r d', timer_run parse zero_ok svc key q payload now d = (r, d') ->
    (d' = d \/ (r = RNil /\ exists j, t_rows d' = t_rows d ++ [j] /\ j_service j = svc /\ j_key j = key /\ j_payload j = payload /\ j_status j = TToRun /\
        match q with ReqOnce t => j_cron j = "" /\ j_next j = t | ReqCron e => j_cron j = e /\ (e <> "" -> exists f, parse e = Some f /\ j_next j = f now) end)) /\
    ((exists x, In x (t_rows d) /\ j_key x = key) -> d' = d) /\
    (forall t, q = ReqOnce t -> t < now -> r = ROverdue /\ d' = d) /\
    (forall e, q = ReqCron e -> e <> "" -> parse e = None -> r = RCron /\ d' = d).
Proof.
  intros parse zero_ok svc key q payload now d r d' H. unfold timer_run in H.
  destruct (new_job parse svc key q payload now) as [e|j] eqn:Ej.
  - injection H as <- <-. split; auto. split; auto. unfold new_job in Ej. split.
    + intros t -> Lt. apply Nat.ltb_lt in Lt. rewrite Lt in Ej. injection Ej as <-. auto.
    + intros x -> N P. unfold job_reset in Ej. cbn in Ej. rewrite P in Ej. destruct (String.eqb_spec x ""); [contradiction|]. injection Ej as <-. auto.
  - assert (J : j_service j = svc /\ j_key j = key /\ j_payload j = payload /\ j_status j = TToRun /\ match q with ReqOnce t => j_cron j = "" /\ j_next j = t | ReqCron e => j_cron j = e /\ (e <> "" -> exists f, parse e = Some f /\ j_next j = f now) end).
    { unfold new_job in Ej. destruct q as [e|t].
      - unfold job_reset in Ej. cbn in Ej. destruct (String.eqb_spec e "") as [->|N]; [injection Ej as <-; cbn; repeat split; auto; tauto|]. destruct (parse e) as [f|] eqn:P; [|discriminate]. injection Ej as <-. cbn. repeat split; auto. eauto.
      - destruct (t <? now); [discriminate|]. injection Ej as <-. cbn. auto 7. }
    assert (No1 : forall t, q = ReqOnce t -> t < now -> r = ROverdue /\ d' = d). { intros t -> Lt. unfold new_job in Ej. apply Nat.ltb_lt in Lt. rewrite Lt in Ej. discriminate. }
    assert (No2 : forall e, q = ReqCron e -> e <> "" -> parse e = None -> r = RCron /\ d' = d). { intros e -> N P. unfold new_job, job_reset in Ej. cbn in Ej. rewrite P in Ej. destruct (String.eqb_spec e ""); [contradiction|discriminate]. }
    destruct J as (J1 & J2 & J3 & J4 & J5).
    destruct (job_found svc key d); [injection H as <- <-; auto|]. destruct (job_insert zero_ok j d) as [d1|] eqn:Ei; injection H as <- <-; [|auto]. unfold job_insert in Ei. destruct (existsb _ _) eqn:Ex; [discriminate|]. destruct (_ && _); [discriminate|]. injection Ei as <-. split; [|split; auto].
    + right. split; auto. eexists. split; [reflexivity|]. cbn. auto 6.
    + intros (x & X1 & X2). exfalso. rewrite <- not_true_iff_false in Ex. apply Ex. apply existsb_exists. exists x. split; auto. rewrite X2, J2. apply String.eqb_refl.
Qed.
Print Assumptions C50_register_partial.
(** A new key is really registered (RunOnce in time, a cron expression with a future activation). *)
Theorem C50_register_works_partial :
  forall parse zero_ok svc key q payload now d, key <> "" -> (forall x, In x (t_rows d) -> j_key x <> key) ->
    match q with ReqOnce t => now <= t /\ 0 < t | ReqCron e => e <> "" /\ exists f, parse e = Some f /\ 0 < f now end ->
    exists d', timer_run parse zero_ok svc key q payload now d = (RNil, d') /\ length (t_rows d') = S (length (t_rows d)).
Proof.
  intros parse zero_ok svc key q payload now d Nk Nx Q.
  assert (F : job_found svc key d = false). { unfold job_found. apply not_true_iff_false. intros E. apply existsb_exists in E. destruct E as (x & X1 & X2). apply andb_true_iff in X2. destruct X2 as [_ X2]. apply orb_true_iff in X2. destruct X2 as [X2|X2]; apply String.eqb_eq in X2; [auto|now apply (Nx x)]. }
  assert (I : forall j, j_key j = key -> 0 < j_next j -> exists d', job_insert zero_ok j d = Some d' /\ length (t_rows d') = S (length (t_rows d))).
  { intros j Kj Pj. unfold job_insert. assert (existsb (fun x => String.eqb (j_key x) (j_key j)) (t_rows d) = false) as ->. { apply not_true_iff_false. intros E. apply existsb_exists in E. destruct E as (x & X1 & X2). apply String.eqb_eq in X2. apply (Nx x); auto. congruence. }
    assert (j_next j =? 0 = false) as -> by (apply Nat.eqb_neq; lia). cbn. eexists. split; [reflexivity|]. cbn. rewrite app_length. cbn. lia. }
  unfold timer_run. destruct q as [e|t]; cbn [new_job].
  - destruct Q as [Ne (f & P & Pos)]. unfold job_reset. cbn. rewrite P. destruct (String.eqb_spec e ""); [contradiction|]. rewrite F. match goal with |- context [job_insert _ ?j _] => destruct (I j eq_refl Pos) as (d' & -> & L) end. eauto.
  - destruct Q as [Le Pos]. assert (t <? now = false) as -> by (apply Nat.ltb_ge; lia). rewrite F. match goal with |- context [job_insert _ ?j _] => destruct (I j eq_refl Pos) as (d' & -> & L) end. eauto.
Qed.
Print Assumptions C50_register_works_partial.
(** In every interleaving - registrations with the same key at the same time included - an existing job is only changed by
    the handler run of that very job, and only removed by Cancel of its key; keys stay unique. *)
Theorem C50_never_overwritten_partial :
  forall parse zero_ok svcs w a w' x, always_later parse -> treach parse zero_ok svcs w -> texec parse zero_ok svcs a w = Some w' -> In x (t_rows (tw_db w)) ->
    NoDup (map j_key (t_rows (tw_db w'))) /\
    (In x (t_rows (tw_db w')) \/ a = ACancel (j_key x) \/ exists p err todo, a = AEnd p err true /\ tw_poll w p = TPRun todo (Some x) /\ In (job_after parse (tw_now w) x) (t_rows (tw_db w'))).
Proof.
  intros parse zero_ok svcs w a w' x L R H Hx. split; [apply (v_keys parse svcs w'), (reach_tinv parse zero_ok svcs L w'); eapply tr_step; eauto|].
  pose proof (reach_tinv parse zero_ok svcs L w R) as V. destruct w as [d now po lk rg h]. cbn [tw_db tw_now tw_poll] in *. destruct a; cbn [texec] in H.
  - injection H as <-. auto.
  - destruct (rg r); [discriminate|]. destruct (new_job _ _ _ _ _ _) as [e|j]; [|destruct (job_found svc key d)]; injection H as <-; auto.
  - destruct (rg r) as [[q j]|]; [|discriminate]. destruct (if ok then _ else None) as [d'|] eqn:E; injection H as <-; auto. left. cbn. destruct ok; [|discriminate]. unfold job_insert in E. destruct (existsb _ _); [discriminate|]. destruct (_ && _); [discriminate|]. injection E as <-. cbn. apply in_app_iff; auto.
  - destruct (existsb _ _); [discriminate|]. injection H as <-. cbn. unfold timer_cancel. destruct (String.eqb key ""); auto. destruct (String.eqb_spec (j_key x) key) as [E|E]; [right; left; congruence|]. left. cbn. apply filter_In. split; auto. apply String.eqb_neq in E. now rewrite E.
  - destruct (po p); [|discriminate]. injection H as <-. auto.
  - destruct (po p) as [|[|j todo] [run|]]; try discriminate; [injection H as <-; auto|]. destruct (negb ok || memb (j_id j) lk); [injection H as <-; auto|]. destruct (job_lock _ _ _ _); injection H as <-; auto.
  - destruct (po p) as [|todo [j|]] eqn:Ep; try discriminate. destruct (if ok then _ else None) as [d'|] eqn:E; injection H as <-; auto. destruct ok; [|discriminate]. unfold job_save in E. destruct (_ && _); [discriminate|]. injection E as <-.
    assert (Ij : j_id (job_after parse now j) = j_id j). { unfold job_after, job_reset. destruct (String.eqb (j_cron j) ""); auto. destruct (parse (j_cron j)); auto. }
    destruct (v_run _ _ _ V p todo j Ep) as (Jr & _). cbn [tw_db] in Jr. cbn [t_rows tw_db]. destruct (Nat.eq_dec (j_id x) (j_id j)) as [Ei|Ei].
    + assert (x = j) as -> by (apply (BusProof.NoDup_map_inj j_id (t_rows d)); auto; apply (v_ids _ _ _ V)). right; right. exists p, err, todo. split; auto. split; auto. apply in_map_iff. exists j. rewrite Ij, Nat.eqb_refl. auto.
    + left. apply in_map_iff. exists x. split; auto. rewrite Ij. now rewrite (proj2 (Nat.eqb_neq _ _) Ei).
  - destruct (po p) as [|todo [j|]]; injection H as <-; auto.
Qed.
Print Assumptions C50_never_overwritten_partial.
(** The empty cron expression is not valid, but it is not parsed: on a server that accepts the zero date it is registered, as a job
    that is due at once and runs a single time. *)
Theorem C50_empty_expression_refuted :
  forall parse, parse "" = None -> exists svc key payload now d d' j, timer_run parse true svc key (ReqCron "") payload now d = (RNil, d') /\ d' <> d /\
    In j (t_rows d') /\ j_key j = key /\ is_due svc now j = true.
Proof.
  intros parse _. exists "a", "k", 7, 5, (mkTD [] 1). eexists. exists (mkJ 1 "a" "k" "" 0 TToRun 7). split; [reflexivity|]. split; [discriminate|]. split; [left; reflexivity|]. split; reflexivity.
Qed.
Print Assumptions C50_empty_expression_refuted.
(** Keys are unique over all services, and Cancel does not look at the service: a service cannot register a key another one
    uses, but it can cancel the other one's job. *)
Theorem C50_keys_shared_by_services_refuted :
  exists parse zero_ok svc svc' key d, svc <> svc' /\ (forall x, In x (t_rows d) -> j_service x = svc') /\ t_rows d <> [] /\
    (forall t p now, timer_run parse zero_ok svc key (ReqOnce t) p now d = (if t <? now then ROverdue else RSql, d)) /\ t_rows (timer_cancel key d) = [].
Proof.
  exists tens, true, "a", "b", "k", (mkTD [mkJ 1 "b" "k" "" 5 TToRun 0] 2). split; [discriminate|]. split; [intros x [<-|[]]; auto|]. split; [discriminate|]. split; [|reflexivity]. intros t p now. unfold timer_run. cbn [new_job]. destruct (t <? now); reflexivity.
Qed.
Print Assumptions C50_keys_shared_by_services_refuted.
Example C50_example : exists d, timer_run tens true "a" "k" (ReqCron "tens") 1 5 (mkTD [] 1) = (RNil, d) /\ t_rows d = [mkJ 1 "a" "k" "tens" 10 TToRun 1] /\
  timer_run tens true "a" "k" (ReqOnce 9) 2 6 d = (RNil, d) /\ timer_run tens true "a" "l" (ReqCron "no") 2 6 d = (RCron, d).
Proof. eexists. split; [reflexivity|]. repeat split; reflexivity. Qed.

(* ---------------------------------------------------------------- C51 *)
(** A one-shot job is called at most once in its life, plus once for each lost call - in every interleaving. *)
Theorem C51_at_most_once_partial :
  forall parse zero_ok svcs w id, always_later parse -> treach parse zero_ok svcs w ->
    called (one_shot id) (tw_hist w) <= lost (one_shot id) (tw_hist w) + 1.
Proof.
  intros parse zero_ok svcs w id L R. apply (count_bound parse zero_ok svcs L (one_shot id)); auto; unfold one_shot.
  - intros a b A B. apply andb_true_iff in A, B. destruct A as [A _], B as [B _]. apply Nat.eqb_eq in A, B. congruence.
  - intros a b A B N. apply andb_true_iff in A. destruct A as [_ A]. apply String.eqb_eq in A. contradiction.
Qed.
Print Assumptions C51_at_most_once_partial.
(** A poll without faults calls the handler for exactly the due jobs of the service, each once, in table order; afterwards the
    one-shot ones among them are finished, the cron ones rescheduled, all other jobs are as before. *)
Theorem C51_poll_fires_due_jobs_partial :
  forall parse zero_ok now svc d, always_later parse -> NoDup (map j_id (t_rows d)) ->
    (forall x, In x (t_rows d) -> is_due svc now x = true -> zero_ok = true \/ 0 < j_next x) ->
    poll_jobs parse zero_ok now svc d = (mkTD (map (fun x => if is_due svc now x then job_after parse now x else x) (t_rows d)) (t_nid d), due_jobs svc now d).
Proof.
  intros parse zero_ok now svc d L N Z. unfold poll_jobs, due_jobs.
  assert (Ij : forall j, j_id (job_after parse now j) = j_id j). { intros j. unfold job_after, job_reset. destruct (String.eqb (j_cron j) ""); auto. destruct (parse (j_cron j)); auto. }
  assert (Sv : forall x d, zero_ok = true \/ 0 < j_next x -> job_save zero_ok (job_after parse now x) d = Some (mkTD (map (fun y => if j_id y =? j_id x then job_after parse now x else y) (t_rows d)) (t_nid d))).
  { intros x d0 [->|P]; unfold job_save; rewrite Ij; [now rewrite andb_false_r|]. assert (j_next (job_after parse now x) =? 0 = false) as ->; auto. apply Nat.eqb_neq. unfold job_after, job_reset. destruct (String.eqb (j_cron x) ""); [cbn; lia|]. destruct (parse (j_cron x)) eqn:E; cbn; [pose proof (L _ _ now E)|]; lia. }
  (* the part of the table already handled *)
  enough (G : forall rest done, NoDup (map j_id (done ++ rest)) -> (forall x, In x rest -> is_due svc now x = true -> zero_ok = true \/ 0 < j_next x) ->
     handle_jobs parse zero_ok now svc (filter (is_due svc now) rest) (mkTD (done ++ rest) (t_nid d)) = (mkTD (done ++ map (fun x => if is_due svc now x then job_after parse now x else x) rest) (t_nid d), filter (is_due svc now) rest)).
  { specialize (G (t_rows d) [] N Z). cbn in G. destruct d; auto. }
  induction rest as [|x rest IH]; intros done Nd Zd; cbn [filter map]; [cbn; auto|].
  assert (Zt : forall y, In y rest -> is_due svc now y = true -> zero_ok = true \/ 0 < j_next y) by (intros y Hy; apply Zd; now right).
  destruct (is_due svc now x) eqn:Ex.
  - cbn [handle_jobs]. assert (job_lock svc now (j_id x) (mkTD (done ++ x :: rest) (t_nid d)) = Some x) as ->.
    { unfold job_lock. cbn [t_rows]. destruct (find _ _) as [y|] eqn:F.
      - apply find_some in F. destruct F as [F1 F2]. apply andb_true_iff in F2. destruct F2 as [_ F2]. apply Nat.eqb_eq in F2. f_equal. apply (BusProof.NoDup_map_inj j_id (done ++ x :: rest)); auto. apply in_app_iff. right. now left.
      - exfalso. assert (C : In x (done ++ x :: rest)) by (apply in_app_iff; right; now left). apply (find_none _ _ F x) in C. rewrite Ex, Nat.eqb_refl in C. discriminate. }
    rewrite Sv by (apply Zd; auto; now left). cbn [t_rows t_nid].
    assert (Upd : map (fun y => if j_id y =? j_id x then job_after parse now x else y) (done ++ x :: rest) = (done ++ [job_after parse now x]) ++ rest).
    { rewrite map_app, <- app_assoc. cbn. rewrite Nat.eqb_refl. rewrite map_app in Nd. cbn in Nd. apply NoDup_remove in Nd. destruct Nd as [_ Nd].
      assert (Id : forall l, (forall y, In y l -> In (j_id y) (map j_id done ++ map j_id rest)) -> map (fun y => if j_id y =? j_id x then job_after parse now x else y) l = l).
      { induction l as [|y l IHl]; intros Hl; auto. cbn. rewrite IHl by (intros; apply Hl; now right). destruct (Nat.eqb_spec (j_id y) (j_id x)) as [E|]; auto. exfalso. apply Nd. rewrite <- E. apply Hl. now left. }
      rewrite !Id; auto; intros y Hy; apply in_app_iff; [right|left]; now apply in_map. }
    rewrite Upd, IH; auto.
    + rewrite <- app_assoc. auto.
    + rewrite !map_app in *. cbn in *. rewrite Ij. rewrite <- app_assoc. auto.
  - replace (done ++ x :: rest) with ((done ++ [x]) ++ rest) in * by (rewrite <- app_assoc; auto). rewrite IH; auto. rewrite <- app_assoc. auto.
Qed.
Print Assumptions C51_poll_fires_due_jobs_partial.
(** But the key of a one-shot job that has fired cannot be used again: scheduling it reports success and does nothing, and
    unless somebody cancels the key the handler is never called for it again, in no interleaving. *)
Definition finished_row (x : tjob) (w : tworld) : Prop := In x (t_rows (tw_db w)) /\ j_status x <> TToRun.
Theorem C51_reschedule_refuted :
  (forall parse zero_ok svcs w x, always_later parse -> treach parse zero_ok svcs w -> finished_row x w ->
    (forall q payload, let r := timer_run parse zero_ok (j_service x) (j_key x) q payload (tw_now w) (tw_db w) in snd r = tw_db w /\ (forall t, q = ReqOnce t -> tw_now w <= t -> fst r = RNil)) /\
    forall l w', (forall a, In a l -> a <> ACancel (j_key x)) -> trun parse zero_ok svcs l w = Some w' ->
      finished_row x w' /\ forall t p j, In (TCall t p j) (tw_hist w') -> j_key j = j_key x -> In (TCall t p j) (tw_hist w)) /\
  exists w x, treach tens true two w /\ finished_row x w /\ j_cron x = "".
Proof.
  split.
  - intros parse zero_ok svcs w x L R [Fx Sx]. split.
    + intros q payload. cbn zeta. unfold timer_run. assert (F : job_found (j_service x) (j_key x) (tw_db w) = true). { apply existsb_exists. exists x. split; auto. rewrite !String.eqb_refl. apply orb_true_r. }
      destruct (new_job parse (j_service x) (j_key x) q payload (tw_now w)) as [e|j] eqn:E; cbn; split; auto.
      * intros t -> Le. unfold new_job in E. assert (t <? tw_now w = false) as X by (apply Nat.ltb_ge; lia). rewrite X in E. discriminate.
      * now rewrite F.
      * now rewrite F.
    + intros l. revert w R Fx. induction l as [|a l IH]; intros w R Fx w' Na H; cbn in H; [injection H as <-; split; auto; split; auto|].
      destruct (texec parse zero_ok svcs a w) as [w1|] eqn:E; [|discriminate].
      assert (R1 : treach parse zero_ok svcs w1) by (eapply tr_step; eauto). pose proof (reach_tinv parse zero_ok svcs L w R) as V.
      assert (F1 : In x (t_rows (tw_db w1))). { destruct (C50_never_overwritten_partial parse zero_ok svcs w a w1 x L R E Fx) as [_ [A|[A|(p & err & todo & A & B & _)]]]; auto; [exfalso; apply (Na a); auto; now left|]. exfalso. destruct (v_run _ _ _ V p todo x B) as (_ & _ & C). apply is_due_spec in C. tauto. }
      destruct (IH w1 R1 F1 w' (fun a Ha => Na a (or_intror Ha)) H) as [G1 G2]. split; auto. intros t p j Hin Ej. specialize (G2 t p j Hin Ej).
      destruct (step_effect _ _ _ _ _ _ E) as [extra E1 E2 E3|p' j' E1 E2 E3 E4 E5 E6 E7|p' j' ev E1 E2 E3 E4]; rewrite E1 in G2.
      * apply in_app_iff in G2. destruct G2 as [G2|G2]; auto. destruct (E2 _ G2) as (? & ? & ? & ? & ?). discriminate.
      * destruct G2 as [G2|G2]; auto. injection G2 as <- <- <-. exfalso. assert (j' = x) as -> by (apply (BusProof.NoDup_map_inj j_key (t_rows (tw_db w))); auto; apply (v_keys _ _ _ V)). apply is_due_spec in E3. tauto.
      * destruct G2 as [G2|G2]; auto. destruct E2 as [->|(? & ? & ->)]; discriminate.
  - destruct C49_example as (w & _ & R & _ & _ & _ & _ & E). exists w, (mkJ 2 "a" "k2" "" 12 TFinished 2). split; auto. split; auto. split; [rewrite E; right; now left|discriminate].
Qed.
Print Assumptions C51_reschedule_refuted.
Example C51_example : exists d, t_rows d = [mkJ 1 "a" "k1" "tens" 10 TToRun 1; mkJ 2 "a" "k2" "" 12 TToRun 2; mkJ 3 "b" "k3" "" 12 TToRun 2] /\
  snd (poll_jobs tens true 13 "a" d) = firstn 2 (t_rows d) /\ map j_status (t_rows (fst (poll_jobs tens true 13 "a" d))) = [TToRun; TFinished; TToRun] /\
  snd (poll_jobs tens true 14 "a" (fst (poll_jobs tens true 13 "a" d))) = [].
Proof. exists (mkTD [mkJ 1 "a" "k1" "tens" 10 TToRun 1; mkJ 2 "a" "k2" "" 12 TToRun 2; mkJ 3 "b" "k3" "" 12 TToRun 2] 4). repeat split; reflexivity. Qed.

(* ---------------------------------------------------------------- C52 *)
(** Whenever the handler of a cron job has ended - with or without an error: the histories contain both - and the job was saved, it
    is to run again at a time after the end of the handler, namely the next activation of its expression; nothing else of
    it has changed. *)
Theorem C52_rescheduled_partial :
  forall parse zero_ok svcs w t p j j', always_later parse -> treach parse zero_ok svcs w -> In (TSaved t p j j') (tw_hist w) -> j_cron j <> "" ->
    j_status j' = TToRun /\ t < j_next j' /\ (exists f, parse (j_cron j) = Some f /\ j_next j' = f t) /\ same_job j' j.
Proof.
  intros parse zero_ok svcs w t p j j' L R. induction R as [|w a w' R IH H]; [intros []|]. intros Hin N.
  destruct (step_effect _ _ _ _ _ _ H) as [extra E1 E2 E3|p0 j0 E1 E2 E3 E4 E5 E6 E7|p0 j0 ev E1 E2 E3 E4].
  - rewrite E1 in Hin. apply in_app_iff in Hin. destruct Hin as [Hin|Hin]; auto. destruct (E2 _ Hin) as (? & ? & ? & ? & ?). discriminate.
  - rewrite E1 in Hin. destruct Hin as [Hin|Hin]; [discriminate|auto].
  - rewrite E1 in Hin. destruct Hin as [Hin|Hin]; auto. subst ev. destruct E2 as [E2|(t0 & j1 & E2)]; [discriminate|]. injection E2 as <- <- <- <-.
    destruct E3 as (todo & E3). pose proof (reach_tinv parse zero_ok svcs L w R) as V. destruct (v_run _ _ _ V p todo j E3) as (Jr & _).
    assert (V' : tinv parse svcs w') by (apply (reach_tinv parse zero_ok svcs L w'); eapply tr_step; eauto). destruct (v_saved _ _ _ V' t p j j') as (_ & -> & _); [rewrite E1; now left|].
    pose proof (v_cron _ _ _ V j Jr N) as Pn. destruct (job_after_spec parse L t j (fun _ => Pn)) as (S1 & _ & S2). destruct (S2 N) as [S3 S4]. split; auto. split; auto. split; auto.
    unfold job_after, job_reset. destruct (String.eqb_spec (j_cron j) ""); [contradiction|]. destruct (parse (j_cron j)) as [f|]; [|contradiction]. exists f. auto.
Qed.
Print Assumptions C52_rescheduled_partial.
(** An error of the handler makes no difference at all. *)
Theorem C52_errors_ignored_partial :
  forall parse zero_ok svcs p ok w, texec parse zero_ok svcs (AEnd p true ok) w = texec parse zero_ok svcs (AEnd p false ok) w.
Proof. reflexivity. Qed.
Print Assumptions C52_errors_ignored_partial.
(** Over the history of a job its scheduled times never go back, and they grow strictly unless the earlier call was lost. *)
Theorem C52_times_grow_partial :
  forall parse zero_ok svcs w h1 h2 h3 t p j t' p' j', always_later parse -> treach parse zero_ok svcs w ->
    tw_hist w = h1 ++ TCall t p j :: h2 ++ TCall t' p' j' :: h3 -> j_id j = j_id j' ->
    t' <= t /\ j_next j' <= j_next j /\ same_job j j' /\ (j_next j' = j_next j -> In (TLost p' j') (h2 ++ TCall t' p' j' :: h3)).
Proof.
  intros parse zero_ok svcs w h1 h2 h3 t p j t' p' j' L R E Ei. destruct (call_step parse zero_ok svcs w h1 t p j _ R E) as (w0 & R0 & E0 & -> & Jr & Jd & Lk). pose proof (reach_tinv parse zero_ok svcs L w0 R0) as V.
  assert (Hin : In (TCall t' p' j') (tw_hist w0)) by (rewrite E0; apply in_app_iff; right; now left).
  destruct (v_call _ _ _ V t' p' j' Hin) as (_ & B & _ & C & D). destruct (C j Jr Ei) as [C1 C2]. split; auto. split; auto. split; auto. intros En.
  apply is_due_spec in Jd. destruct Jd as (_ & _ & St). destruct D as [(todo & D)|[(t1 & j1 & D)|D]].
  - (* the earlier handler would still be running, and hold the lock *)
    exfalso. apply Lk. rewrite Ei. apply (v_run _ _ _ V p' todo j' D).
  - exfalso. destruct (v_saved _ _ _ V t1 p' j' j1 D) as (_ & _ & _ & S). destruct (S j Jr Ei) as [X|[_ X]]; [contradiction|lia].
  - rewrite E0 in D. auto.
Qed.
Print Assumptions C52_times_grow_partial.
(** An expression that never activates (the 30th of February) parses; on a server that accepts the zero date the job is registered
    as due since the zero time, and it stays so: every poll fires it again. *)
Definition never_cron : string -> option (nat -> nat) := fun _ => Some (fun _ => 0).
Theorem C52_impossible_cron_refuted :
  exists d j, timer_run never_cron true "a" "k" (ReqCron "0 0 0 30 2 ?") 1 5 (mkTD [] 1) = (RNil, d) /\ In j (t_rows d) /\
    forall now, poll_jobs never_cron true now "a" d = (d, [j]) /\ j_next j <= now.
Proof. eexists. exists (mkJ 1 "a" "k" "0 0 0 30 2 ?" 0 TToRun 1). split; [reflexivity|]. split; [left; reflexivity|]. intros now. split; [reflexivity|apply Nat.le_0_l]. Qed.
Print Assumptions C52_impossible_cron_refuted.
(** If the expression of a due job cannot be parsed (the row was edited, or written by a program with another parser), a poll on
    a table of any content calls the handler once more and closes the job as failed; no later poll calls it. *)
Theorem C52_broken_expression_closed :
  forall parse zero_ok now svc d j, always_later parse -> NoDup (map j_id (t_rows d)) ->
    (forall x, In x (t_rows d) -> is_due svc now x = true -> zero_ok = true \/ 0 < j_next x) ->
    In j (t_rows d) -> is_due svc now j = true -> j_cron j <> "" -> parse (j_cron j) = None ->
    let d' := fst (poll_jobs parse zero_ok now svc d) in
    In (mkJ (j_id j) (j_service j) (j_key j) (j_cron j) (j_next j) TFailed (j_payload j)) (t_rows d') /\
    forall now' svc' x, In x (due_jobs svc' now' d') -> j_id x <> j_id j.
Proof.
  intros parse zero_ok now svc d j L N Z Hj Hd Hc Hp d'. unfold d'. rewrite (C51_poll_fires_due_jobs_partial parse zero_ok now svc d L N Z). cbn [fst].
  assert (A : job_after parse now j = mkJ (j_id j) (j_service j) (j_key j) (j_cron j) (j_next j) TFailed (j_payload j)).
  { unfold job_after, job_reset, job_close. destruct (String.eqb_spec (j_cron j) ""); [contradiction|]. now rewrite Hp. }
  split.
  - cbn [t_rows]. apply in_map_iff. exists j. rewrite Hd. auto.
  - intros now' svc' x Hx E. apply filter_In in Hx. destruct Hx as [Hx Hx2]. cbn [t_rows] in Hx. apply in_map_iff in Hx. destruct Hx as (y & Ey & Hy).
    assert (Iy : j_id x = j_id y). { subst x. destruct (is_due svc now y); auto. unfold job_after, job_reset. destruct (String.eqb (j_cron y) ""); auto. destruct (parse (j_cron y)); auto. }
    assert (y = j) as -> by (apply (BusProof.NoDup_map_inj j_id (t_rows d)); auto; congruence). rewrite Hd, A in Ey. subst x. apply is_due_spec in Hx2. destruct Hx2 as (_ & _ & Hx2). discriminate.
Qed.
Print Assumptions C52_broken_expression_closed.
Example C52_broken_example : let d := mkTD [mkJ 1 "a" "k1" "no" 5 TToRun 1; mkJ 2 "a" "k2" "tens" 5 TToRun 1] 3 in tens "no" = None /\ poll_jobs tens true 6 "a" d = (mkTD [mkJ 1 "a" "k1" "no" 5 TFailed 1; mkJ 2 "a" "k2" "tens" 10 TToRun 1] 3, t_rows d).
Proof. split; reflexivity. Qed.
(** Hypotheses met: the race of C49 continued until the cron job has fired three times, with errors. *)
Definition cron_ops : list tact := race ++ [ALock 0 true; ALock 1 true; ATick 9; AFind 0; ALock 0 true; ATick 1; AEnd 0 true true; ALock 0 true; ATick 20; AFind 1; ALock 1 true; AEnd 1 true true].
Example C52_example : exists w t p j j', trun tens true two cron_ops tworld0 = Some w /\ In (TSaved t p j j') (tw_hist w) /\ j_cron j <> "" /\ called (fun j => j_id j =? 1) (tw_hist w) = 3.
Proof.
  destruct (trun tens true two cron_ops tworld0) as [w|] eqn:E; [|vm_compute in E; discriminate].
  assert (X : option_map (fun w => (hd_error (tw_hist w), called (fun j => j_id j =? 1) (tw_hist w))) (trun tens true two cron_ops tworld0) = Some (Some (TSaved 43 1 (mkJ 1 "a" "k1" "tens" 30 TToRun 1) (mkJ 1 "a" "k1" "tens" 50 TToRun 1)), 3)) by (vm_compute; reflexivity).
  rewrite E in X. cbn [option_map] in X. injection X as X1 X2. do 5 eexists. split; [reflexivity|]. split; [destruct (tw_hist w); [discriminate|]; cbn in X1; injection X1 as X1; left; exact X1|]. split; [discriminate|auto].
Qed.

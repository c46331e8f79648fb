(** Property theorems about one engine run as seen from outside: database, locks, hooks, event bus.
    Vocabulary: DbSpec.v (database as a function of the calls), EventSpec.v (events). *)
From Verif Require Import GraphProof5 EngineProof8.
From Verif Require Import EngineModel.

(* ---------------------------------------------------------------- a concrete engine for the examples *)
Definition ex_conv : heap -> ptr -> option ptr -> op -> conv :=
  fun h p _ _ => CModel (mkModel (e_type (h p)) (e_id (h p)) (e_data (h p))).
Definition ok_resp : resp := mkResp AOk (fun h => h) "gen"%string true.
Definition err_resp (n : nat) : resp := mkResp (AErr (EUser n)) (fun h => h) ""%string false.
Definition ex_cfg (tx dry : bool) (bus : bus_kind) (pers : option (event -> err + model)) (posts : nat) (oracle : nat -> resp) : config :=
  mkConfig tx false dry bus pers posts ex_conv (fun _ _ _ => false) (fun _ => ord_id) (fun _ l => l) 20 oracle.
Definition all_ok : nat -> resp := fun _ => ok_resp.
Definition fail_at (k : nat) : nat -> resp := fun n => if Nat.eqb n k then err_resp 7 else ok_resp.
Definition ex_ev (i : string) (t : send_type) (z : Z) : event := mkEvent i "t"%string t "s"%string ""%string z.
Definition ev1 : event := ex_ev "e1"%string SendNormal 5.
Definition ev2 : event := ex_ev "e2"%string SendTx 3.
(** root 1 with child 2, both new; root 3 without id *)
Definition ex_ent (i : string) (ty : nat) (kids : list ptr) (evs : list event) (cols : list string) : ent :=
  mkEnt i false ty None [mkField "L"%string true false (FSlice kids)] evs cols.
Definition ex_heap : heap := fun p =>
  match p with
  | 1 => ex_ent "r"%string 1 [2] [ev1] ["v"%string]
  | 2 => ex_ent "c"%string 2 [] [ev2] ["w"%string]
  | 3 => ex_ent ""%string 1 [] [] []
  | _ => ex_ent ""%string 0 [] [] []
  end.
Definition ex_add : body (option err) := BAdd [1] (BRet None).
Definition m_r := mkModel 1 "r"%string ["v"%string].
Definition m_c := mkModel 2 "c"%string ["w"%string].
Definition ex_actions := [mkAction OpInsert [m_r] []; mkAction OpInsert [m_c] []].
Definition outcome (cfg : config) (keys : list string) (main : body (option err)) (h : heap) : out result * list call :=
  let x := save cfg keys main (new_stage h) in (fst x, map fst (s_trace (snd x))).

(* ---------------------------------------------------------------- C01 *)
(** [p]: the calls made when the process dies or somebody looks.  Before the successful commit nothing is visible,
    from then on everything; a run reported as failed or broken never committed. *)
Theorem C01_all_or_nothing :
  forall cfg junk h keys main d0 o s', c_tx cfg = true -> save cfg keys main (new_stage h) = (o, s') ->
  (forall p q, s_trace s' = p ++ q ->
     (~ commit_ok p -> visible junk d0 p = d0) /\
     (commit_ok p -> visible junk d0 p = visible junk d0 (s_trace s'))) /\
  (forall r, o = Done r -> res_err r <> None \/ res_break r = true ->
     ~ commit_ok (s_trace s') /\ visible junk d0 (s_trace s') = d0).
Proof.
  intros cfg junk h keys main d0 o s' Ht H. destruct (all_or_nothing cfg junk h keys main d0 o s' Ht H) as [A B].
  split; [exact A|]. intros r Hr Hx. specialize (B r Hr Hx). split; auto. apply (A (s_trace s') []); [now rewrite app_nil_r|exact B].
Qed.
Print Assumptions C01_all_or_nothing.
(** the executor refuses the second insert *)
Example C01_example :
  outcome (ex_cfg true false BusPlain None 0 (fail_at 3)) ["k"%string] ex_add ex_heap =
  (Done (mkResult (Some (EList [EUser 7])) false [] None),
   [KLock "ddd_engine_k"%string; KBegin; KExec (mkAction OpInsert [m_r] []); KExec (mkAction OpInsert [m_c] []); KRollback; KUnLock "ddd_engine_k"%string]).
Proof. vm_compute. reflexivity. Qed.

(* ---------------------------------------------------------------- C02 *)
Theorem C02_commits_what_it_reports :
  forall cfg junk h keys main d0 r s', save cfg keys main (new_stage h) = (Done r, s') ->
  res_err r = None -> res_break r = false -> ~ exec_failed (s_trace s') ->
  visible junk d0 (s_trace s') = apply_actions d0 (res_actions r) /\ execs (s_trace s') = res_actions r.
Proof. exact (fun cfg => commits_reported cfg). Qed.
Print Assumptions C02_commits_what_it_reports.
Example C02_example :
  outcome (ex_cfg true false BusPlain None 0 all_ok) [] ex_add ex_heap =
  (Done (mkResult None false ex_actions None),
   [KBegin; KExec (mkAction OpInsert [m_r] []); KExec (mkAction OpInsert [m_c] []); KDispatch [ev2; ev1]; KCommit]).
Proof. vm_compute. reflexivity. Qed.

(* ---------------------------------------------------------------- C03 *)
Theorem C03_dry_run_is_silent :
  forall cfg h keys main o s', c_dry cfg = true -> save cfg keys main (new_stage h) = (o, s') ->
  Forall (fun c => is_write (fst c) = false /\ is_publish (fst c) = false) (s_trace s') /\
  (forall r, o = Done r -> res_actions r = []).
Proof. exact (fun cfg => dry_run cfg). Qed.
Print Assumptions C03_dry_run_is_silent.
Example C03_example :
  outcome (ex_cfg true true BusTx None 0 all_ok) [] ex_add ex_heap = (Done (mkResult None false [] None), [KBegin; KCommit]).
Proof. vm_compute. reflexivity. Qed.

(* ---------------------------------------------------------------- C04 *)
(** The calls of a run: locks in strictly ascending order ([ls]), the transaction and everything inside it ([mid]),
    the release of exactly the locks taken ([us]), the post-save hooks.  If a lock is refused [mid] is empty.
    Every successfully begun transaction is committed or rolled back inside [mid], i.e. before any release.
    Not covered: a stack overflow ([Crash]) and a locker that itself panics. *)
Theorem C04_locks_bracket_the_transaction :
  forall cfg h keys main o s', save cfg keys main (new_stage h) = (o, s') ->
  o <> Crash -> no_lock_panic (s_trace s') ->
  (~ NoDup keys -> s_trace s' = [] /\ exists r e, o = Done r /\ res_err r = Some e) /\
  (NoDup keys -> exists sorted n ls mid us post,
     Permutation sorted (map lock_name keys) /\ StronglySorted str_lt sorted /\
     s_trace s' = ls ++ mid ++ us ++ post /\
     map fst ls = map KLock (firstn n sorted) /\
     Forall (fun c => is_lock_call (fst c) = false /\ is_post (fst c) = false) mid /\
     map fst us = map KUnLock (locks_taken ls) /\
     Forall (fun c => is_post (fst c) = true) post /\
     (locks_taken ls = sorted \/ (mid = [] /\ post = [] /\ exists r e, o = Done r /\ res_err r = Some e)) /\
     (forall rb, In (KBegin, rb) mid -> r_ans rb = AOk -> exists r', In (KCommit, r') mid \/ In (KRollback, r') mid)).
Proof. exact (fun cfg => locks_bracket cfg). Qed.
Print Assumptions C04_locks_bracket_the_transaction.
(** three keys, the body panics *)
Example C04_example :
  outcome (ex_cfg true false BusPlain None 1 all_ok) ["b"; "a"; "c"]%string BPanic ex_heap =
  (Panic, [KLock "ddd_engine_a"; KLock "ddd_engine_b"; KLock "ddd_engine_c"; KBegin; KRollback;
           KUnLock "ddd_engine_a"; KUnLock "ddd_engine_b"; KUnLock "ddd_engine_c"]%string).
Proof. vm_compute. reflexivity. Qed.
(** the second lock is refused *)
Example C04_example_refused :
  outcome (ex_cfg true false BusPlain None 1 (fail_at 1)) ["b"; "a"; "c"]%string ex_add ex_heap =
  (Done (fails (EWrap (EUser 7))), [KLock "ddd_engine_a"; KLock "ddd_engine_b"; KUnLock "ddd_engine_a"]%string).
Proof. vm_compute. reflexivity. Qed.

(* ---------------------------------------------------------------- C07 *)
(** Save, and every Run whose command's Init succeeds. *)
Theorem C07_post_save_hooks_partial :
  forall cfg h keys main r s', save cfg keys main (new_stage h) = (Done r, s') ->
  exists pre post, s_trace s' = pre ++ post /\ Forall (fun c => is_post (fst c) = false) pre /\
    map fst post = match res_err r with None => map KPostSave (seq 0 (c_posts cfg)) | Some _ => [] end.
Proof. exact (fun cfg => post_save cfg). Qed.
Print Assumptions C07_post_save_hooks_partial.
(** The full claim fails for a command whose Init breaks: no error, and the registered hook is not called. *)
Theorem C07_init_break_refuted :
  exists cfg h main r s', run_command cfg (inl (EWrap EBreak)) main (new_stage h) = (Done r, s') /\
    res_err r = None /\ c_posts cfg = 1 /\ s_trace s' = [].
Proof. exists (ex_cfg true false BusPlain None 1 all_ok), ex_heap, ex_add. eexists _, _. split; [reflexivity|]. auto. Qed.
Print Assumptions C07_init_break_refuted.
Example C07_example :
  outcome (ex_cfg true false BusPlain None 2 all_ok) ["k"%string] (BRet (Some EBreak)) ex_heap =
  (Done (mkResult None true [] None), [KLock "ddd_engine_k"%string; KBegin; KRollback; KUnLock "ddd_engine_k"%string; KPostSave 0; KPostSave 1]).
Proof. vm_compute. reflexivity. Qed.

(* ---------------------------------------------------------------- C08 *)
(** [e] is ErrBreak or wraps it (fmt.Errorf "%w", errors.Join). *)
Inductive wraps_break : err -> Prop :=
| wb_break : wraps_break EBreak
| wb_wrap e : wraps_break e -> wraps_break (EWrap e)
| wb_join e l : In e l -> wraps_break e -> wraps_break (EJoin l).
Fixpoint err_size (e : err) : nat :=
  match e with
  | EWrap e => S (err_size e)
  | EJoin l | EList l => S (fold_right (fun e n => err_size e + n) 0 l)
  | _ => 1
  end.
Lemma is_break_spec e : is_break e = true <-> wraps_break e.
Proof.
  split.
  - assert (H : forall n e, err_size e <= n -> is_break e = true -> wraps_break e); [|apply (H (err_size e)); lia].
    clear. induction n as [|n IH]; intros e Hs H.
    { destruct e; cbn in Hs; lia. }
    destruct e; cbn in *; try discriminate; [constructor|constructor; apply IH; [lia|auto]|].
    apply existsb_exists in H. destruct H as (x & Hx & H). apply (wb_join x); auto. apply IH; auto.
    enough (err_size x <= fold_right (fun e n => err_size e + n) 0 l) by lia.
    clear - Hx. induction l as [|y t IHl]; [destruct Hx|]. cbn. destruct Hx as [->|Hx]; [lia|]. specialize (IHl Hx). lia.
  - induction 1; cbn; auto. apply existsb_exists. eauto.
Qed.
(** [res] is what the body returned when it was run on a fresh stage. *)
Theorem C08_break_or_error :
  forall cfg junk d0 h keys main r s', save cfg keys main (new_stage h) = (Done r, s') ->
  (not_started keys (s_trace s') /\ res_err r <> None /\ res_break r = false) \/
  exists s0 s1 res, run_body cfg main s0 = (Done res, s1) /\ (exists tr, s0 = with_trace (new_stage h) tr) /\
    match res with
    | Some e => (wraps_break e -> res_break r = true /\ res_err r = None /\
                                  (c_tx cfg = true -> visible junk d0 (s_trace s') = d0)) /\
                (~ wraps_break e -> res_break r = false /\ res_err r = Some e)
    | None => res_break r = false
    end.
Proof.
  intros cfg junk d0 h keys main r s' H. destruct (break_or_error cfg h keys main r s' H) as [Hx|(s0 & s1 & res & H1 & H2 & H3)]; [auto|].
  right. exists s0, s1, res. split; auto. split; auto. destruct res as [e|]; auto. rewrite <- is_break_spec.
  destruct (is_break e); (split; intros Hx; [|first [exact H3|congruence]]); [|discriminate].
  destruct H3 as [A B]. split; auto. split; auto. intros Ht.
  destruct (C01_all_or_nothing cfg junk h keys main d0 _ s' Ht H) as [_ C]. apply (C r eq_refl). auto.
Qed.
Print Assumptions C08_break_or_error.
Example C08_example :
  fst (outcome (ex_cfg true false BusPlain None 0 all_ok) [] (BRet (Some (EWrap (EJoin [EUser 1; EBreak])))) ex_heap) = Done (mkResult None true [] None) /\
  fst (outcome (ex_cfg true false BusPlain None 0 all_ok) [] (BRet (Some (EList [EBreak]))) ex_heap) = Done (fail (EList [EBreak])).
Proof. split; vm_compute; reflexivity. Qed.

(* ---------------------------------------------------------------- C24 *)
(** The final state [s'] shows which events are attached where; deleted entities are those in the container's list,
    see C24_deleted_entities_remembered. *)
Theorem C24_events_published_once_in_order :
  forall cfg h keys main r s', orders_ok cfg -> save cfg keys main (new_stage h) = (Done r, s') ->
  c_dry cfg = false -> res_err r = None -> res_break r = false -> event_ids_unique s' ->
  NoDup (published (s_trace s')) /\
  (forall e, In e (published (s_trace s')) <-> attached s' e) /\
  (forall l x, In (KDispatch l, x) (s_trace s') \/ In (KDispatchBegin l, x) (s_trace s') -> StronglySorted ev_before l) /\
  (c_tx cfg = false \/ c_bus cfg <> BusTx -> StronglySorted ev_before (published (s_trace s'))).
Proof. exact (fun cfg => events_published cfg). Qed.
Print Assumptions C24_events_published_once_in_order.
(** The iteration orders of Go's maps do not matter. *)
Theorem C24_order_independent :
  forall cfg1 cfg2 s e1 s1 e2 s2, orders_ok cfg1 -> orders_ok cfg2 -> event_ids_unique s ->
  collectEvents cfg1 s = (Done e1, s1) -> collectEvents cfg2 s = (Done e2, s2) -> e1 = e2.
Proof. exact collect_order_independent. Qed.
Print Assumptions C24_order_independent.

(* ---------------------------------------------------------------- C25 *)
Theorem C25_transactional_bus_protocol :
  forall cfg h keys main o s', c_tx cfg = true -> save cfg keys main (new_stage h) = (o, s') ->
  (forall p x q, s_trace s' = p ++ (KBusCommit, x) :: q -> commit_ok p) /\
  (forall p x q, s_trace s' = p ++ (KBusRollback, x) :: q -> (exists r, In (KRollback, r) p) /\ ~ commit_ok (s_trace s')) /\
  ~ ((exists x, In (KBusCommit, x) (s_trace s')) /\ (exists x, In (KBusRollback, x) (s_trace s'))) /\
  (forall p x q, s_trace s' = p ++ (KCommit, x) :: q -> Forall (fun c => match fst c with KDispatch _ | KDispatchBegin _ => False | _ => True end) q) /\
  (tx_registered (s_trace s') -> forall r, o = Done r ->
     (commit_ok (s_trace s') -> exists x, In (KBusCommit, x) (s_trace s')) /\
     (res_err r <> None \/ res_break r = true ->
        (exists x, In (KCommit, x) (s_trace s') /\ r_ans x <> AOk) \/ exists x, In (KBusRollback, x) (s_trace s'))).
Proof.
  intros cfg h keys main o s' Ht H. destruct (bus_protocol cfg h keys main o s' Ht H) as (A & B & C & D).
  repeat (split; [assumption|]). split; [|split; assumption]. intros [(x & Hx) (y & Hy)].
  apply in_split in Hx. destruct Hx as (p & q & Ep). apply in_split in Hy. destruct Hy as (p' & q' & Ep').
  apply A in Ep as Hc. destruct (B _ _ _ Ep') as [_ Hn]. apply Hn. rewrite Ep. apply commit_ok_app. now left.
Qed.
Print Assumptions C25_transactional_bus_protocol.
Example C25_example :
  outcome (ex_cfg true false BusTx None 0 all_ok) [] ex_add ex_heap =
  (Done (mkResult None false ex_actions None),
   [KBegin; KExec (mkAction OpInsert [m_r] []); KExec (mkAction OpInsert [m_c] []); KDispatchBegin [ev2]; KDispatch [ev1]; KCommit; KBusCommit]) /\
  snd (outcome (ex_cfg true false BusTx None 0 (fail_at 4)) [] ex_add ex_heap) =
   [KBegin; KExec (mkAction OpInsert [m_r] []); KExec (mkAction OpInsert [m_c] []); KDispatchBegin [ev2]; KDispatch [ev1]; KRollback; KBusRollback].
Proof. split; vm_compute; reflexivity. Qed.

(* ---------------------------------------------------------------- C26 *)
(** In full false: an ordinary event is handed over (and accepted) before the commit, which then fails. *)
Theorem C26_ordinary_event_of_failed_run_refuted :
  exists cfg h main r s' x e, c_tx cfg = true /\ save cfg [] main (new_stage h) = (Done r, s') /\
    In (KDispatch [e], x) (s_trace s') /\ r_ans x = AOk /\ ~ commit_ok (s_trace s') /\ res_err r <> None.
Proof.
  exists (ex_cfg true false BusTx None 0 (fail_at 4)), (hset ex_heap 2 (ex_ent "c"%string 2 [] [] [])), ex_add. eexists _, _, ok_resp, ev1.
  split; [reflexivity|]. split; [vm_compute; reflexivity|]. split; [cbn; auto 8|]. split; [reflexivity|]. split; [|discriminate].
  intros (y & Hy & Hok). cbn in Hy. destruct Hy as [Hy|[Hy|[Hy|[Hy|[Hy|[]]]]]]; try discriminate. injection Hy as <-. discriminate.
Qed.
Print Assumptions C26_ordinary_event_of_failed_run_refuted.
(** What holds: with a transactional bus the transactional events of a run that did not commit are never confirmed. *)
Theorem C26_transactional_events_not_confirmed_partial :
  forall cfg h keys main o s', c_tx cfg = true -> save cfg keys main (new_stage h) = (o, s') -> ~ commit_ok (s_trace s') ->
  forall x, ~ In (KBusCommit, x) (s_trace s').
Proof.
  intros cfg h keys main o s' Ht H Hn x Hx. destruct (bus_protocol cfg h keys main o s' Ht H) as (A & _).
  apply in_split in Hx. destruct Hx as (p & q & Ep). apply A in Ep as Hc. apply Hn. rewrite Ep. apply commit_ok_app. now left.
Qed.
Print Assumptions C26_transactional_events_not_confirmed_partial.

(* ---------------------------------------------------------------- C27 *)
(** At every hand-over of events [l] to the bus, the rows of [l] have been inserted, in the still open transaction. *)
Theorem C27_events_persisted_with_the_data :
  forall cfg h keys main o s' f, save cfg keys main (new_stage h) = (o, s') -> c_persist cfg = Some f ->
  forall p c x q l, s_trace s' = p ++ (c, x) :: q -> c = KDispatch l \/ c = KDispatchBegin l ->
  exists evs ms rx, incl l evs /\ Forall2 (fun e m => f e = inr m) evs ms /\
    In (KExec (mkAction OpInsert ms []), rx) p /\ r_ans rx = AOk /\
    ~ commit_ok p /\ (c_tx cfg = true -> exists rb, In (KBegin, rb) p /\ r_ans rb = AOk).
Proof. exact (fun cfg => events_persisted cfg). Qed.
Print Assumptions C27_events_persisted_with_the_data.
Definition ex_persist (e : event) : err + model := inr (mkModel 9 (ev_id e) [ev_payload e]).
Example C27_example :
  snd (outcome (ex_cfg true false BusTx (Some ex_persist) 0 all_ok) [] ex_add ex_heap) =
   [KBegin; KExec (mkAction OpInsert [m_r] []); KExec (mkAction OpInsert [m_c] []);
    KExec (mkAction OpInsert [mkModel 9 "e2" [""]; mkModel 9 "e1" [""]] []);
    KDispatchBegin [ev2]; KDispatch [ev1]; KCommit; KBusCommit]%string.
Proof. vm_compute. reflexivity. Qed.

(** C103: a Stage that is saved more than once (NewStage().Main(f).Save(ctx), then Main(g).Save(ctx), ...). *)
From Verif Require Import StageProof4 EngineProps.

(** what all Saves so far called, in order *)
Notation calls_of l := (concat (map snd l)).
(** every Save runs in a transaction (the default, engine.go 442) *)
Notation transactional ops := (forall cfg keys main, In (OSave cfg keys main) ops -> c_tx cfg = true).

(** One Save of a fresh stage is the run of the engine model, a later one with no refused Commit before it
    is that run from the state the stage is in; and the good result is always the shared one. *)
Theorem C103_engine_model_agrees : forall cfg keys main s,
  (forall h, stage_save cfg keys main None (new_stage h) = save cfg keys main (new_stage h)) /\
  stage_save cfg keys main None s = save cfg keys main (with_errs s []) /\
  (forall r s', do_ cfg main s = (Done r, s') -> bad r = false -> r = mkResult None false (s_actions s') (s_output s')).
Proof.
  intros cfg keys main s. split; [intros h; exact (stage_save_none cfg keys main (new_stage h))|]. split; [apply stage_save_none|].
  intros r s' H Hg. destruct (inner_do cfg main _ _ _ H) as (d & _ & G). exact (G r eq_refl Hg).
Qed.
Print Assumptions C103_engine_model_agrees.

(** Each Save is all or nothing of its own, whatever was saved, refused or changed before: cut anywhere, the
    database shows what it showed before this Save, or all of it; a Save that reports an error or a break changed
    nothing; one that reports success did exactly the writes it called for. *)
Theorem C103_each_save_all_or_nothing_partial : forall junk h n ops d0 l g, transactional ops ->
  stage_run ops (fresh_stage h n) = (l, g) ->
  s_trace (g_st g) = calls_of l /\
  forall k o calls, nth_error l k = Some (o, calls) ->
  let earlier := calls_of (firstn k l) in
  let before := visible junk d0 earlier in
  let after := visible junk d0 (earlier ++ calls) in
  (forall p q, calls = p ++ q ->
     (~ commit_ok p -> visible junk d0 (earlier ++ p) = before) /\
     (commit_ok p -> visible junk d0 (earlier ++ p) = after)) /\
  (forall r, o = Done r -> res_err r <> None \/ res_break r = true -> ~ commit_ok calls /\ after = before) /\
  (forall r, o = Done r -> res_err r = None -> res_break r = false -> ~ exec_failed calls -> after = apply_actions before (execs calls)).
Proof.
  intros junk h n ops d0 l g Ht H. apply (stage_run_saves False) in H; [|intros c k m Hi; split; [eauto|contradiction]]. destruct (saves_db False junk _ _ _ H d0) as [T Hk].
  split; [exact T|]. intros k o calls Hn. cbv zeta. specialize (Hk k o calls Hn). cbv zeta in Hk. destruct Hk as (_ & Hp & (cfg & left & s & s' & O)).
  rewrite (Hp calls [] (eq_sym (app_nil_r _))). destruct O as [_ Hbr Hcl Honce Hbad Hgood _ _ _ _ _].
  set (before := visible junk d0 (calls_of (firstn k l))) in *.
  assert (Hno : forall p q, calls = p ++ q -> ~ commit_ok p -> visible junk before p = before).
  { intros p q E Hc. rewrite E in Hbr. apply bracketed_app in Hbr. destruct Hbr as [B1 _].
    unfold visible at 1. fold (dbrun junk (mkDb before None) p). rewrite (bracketed_committed junk p false (mkDb before None) B1); [reflexivity|discriminate|exact Hc]. }
  split; [|split].
  - intros p q E. rewrite (Hp p q E). split; [eauto|]. intros Hc. specialize (Honce p q E Hc). rewrite E in Hbr. apply bracketed_app in Hbr. destruct Hbr as [B1 B2].
    unfold visible. fold (dbrun junk (mkDb before None) p). fold (dbrun junk (mkDb before None) calls). rewrite E, dbrun_app.
    symmetry. apply (bracketed_committed junk q (opened false p)); [exact B2| |exact Honce]. apply opened_pending. discriminate.
  - intros r Hr Hx. assert (Hb : bad r = true) by (unfold bad; destruct (res_err r); [reflexivity|destruct Hx as [Hx|Hx]; [congruence|exact Hx]]).
    specialize (Hbad r Hr Hb). split; [exact Hbad|]. apply (Hno calls []); [now rewrite app_nil_r|exact Hbad].
  - intros r Hr He Hb Hf. apply (Hgood r); auto. unfold bad. now rewrite He.
Qed.
Print Assumptions C103_each_save_all_or_nothing_partial.

(** After a refused Commit the stage is dead: no later Save commits, changes the database or reports success,
    although nothing else ever fails. *)
Theorem C103_dead_after_refused_commit : forall junk h n ops d0 l g, transactional ops ->
  stage_run ops (fresh_stage h n) = (l, g) ->
  forall k o calls r e, nth_error l k = Some (o, calls) -> In (KCommit, r) calls -> r_ans r = AErr e ->
  forall j o' calls', k < j -> nth_error l j = Some (o', calls') ->
  (forall r', ~ In (KCommit, r') calls') /\
  visible junk d0 (calls_of (firstn j l) ++ calls') = visible junk d0 (calls_of (firstn j l)) /\
  forall r', o' = Done r' -> res_err r' <> None \/ res_break r' = true.
Proof.
  intros junk h n ops d0 l g Ht H k o calls r e Hk Hi He j o' calls' Hlt Hj.
  assert (Hs : saves False (fresh_stage h n) l g) by (apply (stage_run_saves False ops); [intros c1 k1 m1 Hi1; split; [eauto|contradiction]|exact H]).
  destruct (saves_refused False _ _ _ Hs k o calls r e j o' calls' Hk Hi He Hlt Hj) as [Hn Hb].
  split; [intros r'; now apply nc_in|]. split.
  - destruct (C103_each_save_all_or_nothing_partial junk h n ops d0 l g Ht H) as [_ A]. specialize (A j o' calls' Hj). cbv zeta in A.
    destruct A as [A _]. apply (A calls' []); [now rewrite app_nil_r|]. intros (r' & Hr' & _). now apply nc_in in Hr'.
  - intros r' Hr'. specialize (Hb r' Hr'). unfold bad in Hb. destruct (res_err r'); [left; discriminate|right; exact Hb].
Qed.
Print Assumptions C103_dead_after_refused_commit.

(** The result of a Save lists the actions of all Saves of the stage so far, failed and rolled back ones included. *)
Theorem C103_actions_of_all_saves : forall h n ops l g, transactional ops ->
  (forall cfg keys main, In (OSave cfg keys main) ops -> c_dry cfg = false) ->
  stage_run ops (fresh_stage h n) = (l, g) ->
  forall k r calls, nth_error l k = Some (Done r, calls) -> res_err r = None -> res_break r = false ->
  ~ exec_failed (calls_of (firstn (S k) l)) -> res_actions r = execs (calls_of (firstn (S k) l)).
Proof.
  intros h n ops l g Ht Hd H k r calls Hk He Hb Hf. apply (stage_run_saves True) in H; [|intros c k1 m Hi; split; [eauto|intros _; eauto]].
  rewrite (saves_actions True _ _ _ H Logic.I k r calls Hk); [reflexivity|unfold bad; now rewrite He|exact Hf].
Qed.
Print Assumptions C103_actions_of_all_saves.

(** Number of post-save hooks that the stage has at its k-th Save (from 0): the engine's own [n] and those given to the
    stage before, by WithOption or by a command run on it. *)
Fixpoint hooks_at (n : nat) (ops : list sop) (k : nat) : nat :=
  match ops with
  | [] => n
  | OHook :: t => hooks_at (S n) t k
  | OSave _ _ _ :: t => match k with O => n | S k' => hooks_at n t k' end
  | OCode _ :: t => hooks_at n t k
  end.
(** A Save that did not fail calls, at its very end, every hook the stage has by then, each once, in the order given -
    also those of commands that ran on the stage before; a failed one calls none. *)
Theorem C103_post_save_hooks_accumulate : forall h n ops l g, stage_run ops (fresh_stage h n) = (l, g) ->
  forall k r calls, nth_error l k = Some (Done r, calls) ->
  exists earlier post, calls = earlier ++ post /\
    (forall c i, In c earlier -> fst c <> KPostSave i) /\
    map fst post = match res_err r with None => map KPostSave (seq 0 (hooks_at n ops k)) | Some _ => [] end.
Proof.
  intros h n ops l g H. assert (Hn : g_posts (fresh_stage h n) = n) by reflexivity. revert Hn H. generalize (fresh_stage h n) as g0.
  intros g0 Hn H. revert g0 n Hn l g H. induction ops as [|[cfg keys main| |f] t IH]; intros g0 n Hn l g H k r calls Hk; cbn in H.
  - injection H as <- <-. destruct k; discriminate.
  - unfold do_save in H. destruct (stage_save (set_posts cfg (g_posts g0)) keys main (g_left g0) (g_st g0)) as [o s1] eqn:E. cbn [fst] in H.
    assert (Hhead : forall r0, o = Done r0 -> exists earlier post, calls_from (g_st g0) s1 = earlier ++ post /\
      (forall c i, In c earlier -> fst c <> KPostSave i) /\
      map fst post = match res_err r0 with None => map KPostSave (seq 0 n) | Some _ => [] end).
    { intros r0 ->. destruct (save_posts _ _ _ _ _ _ _ E) as (d & post & T & C & Hm). exists d, post.
      rewrite (calls_from_app _ _ _ T). split; [reflexivity|]. split.
      - intros c i Hc He. unfold np_calls in C. rewrite Forall_forall in C. specialize (C c Hc). rewrite He in C. discriminate.
      - cbn in Hm. now rewrite Hn in Hm. }
    destruct o as [r0| |].
    3:{ injection H as <- <-. destruct k as [|[|k]]; discriminate. }
    1,2: destruct (stage_run t _) as [l2 g2] eqn:E2; injection H as <- <-; destruct k as [|k];
      [first [discriminate Hk | injection Hk as -> <-; exact (Hhead r eq_refl)]|cbn in Hk; refine (IH _ n _ _ _ E2 k r calls Hk); exact Hn].
  - refine (IH _ (S n) _ _ _ H k r calls Hk). cbn. now rewrite Hn.
  - refine (IH _ n _ _ _ H k r calls Hk). exact Hn.
Qed.
Print Assumptions C103_post_save_hooks_accumulate.

(** How to save twice without repeating: let the main function end with Repository.Save.  If that Save succeeds, later
    Saves of the stage whose main function does nothing write nothing, however many, with whatever keys, hooks and options
    (without event persistence, engine.go 1184-1192; [c_fuel] is the size of the machine's stack). *)
Definition then_save (main : body (option err)) : body (option err) :=
  body_bind main (fun e => match e with Some x => BRet (Some x) | None => BSave (fun e => BRet e) end).
Definition idles (fuel : nat) (ops : list sop) : Prop := forall op, In op ops ->
  op = OHook \/ exists cfg keys, op = OSave cfg keys (BRet None) /\ c_fuel cfg = fuel /\ c_persist cfg = None.
Theorem C103_saved_by_the_repository_not_repeated : forall cfg keys main later g r calls l g2, orders_ok cfg ->
  stage_run (OSave cfg keys (then_save main) :: later) g = ((Done r, calls) :: l, g2) -> res_err r = None -> res_break r = false ->
  idles (c_fuel cfg) later -> execs (calls_of l) = [].
Proof.
  intros cfg keys main later g r calls l g2 Ho H He Hb Hi. cbn [stage_run] in H. unfold do_save in H.
  destruct (stage_save (set_posts cfg (g_posts g)) keys (then_save main) (g_left g) (g_st g)) as [o s1] eqn:E. cbn [fst] in H.
  assert (C : o = Done r -> clean cfg s1).
  { intros ->. assert (B : bad r = false) by (unfold bad; now rewrite He).
    apply (clean_base (set_posts cfg (g_posts g)) cfg s1 s1); auto.
    refine (settles_save _ _ _ _ _ _ _ _ _ E B); [exact Ho|]. apply settled_by_save. exact Ho. }
  assert (R : exists g1, g_st g1 = s1 /\ o = Done r /\ stage_run later g1 = (l, g2)).
  { destruct o as [r0| |].
    1,2: destruct (stage_run later _) as [l1 g3] eqn:E1; injection H as -> _ <- <-; eexists; split; [|split; [reflexivity|exact E1]]; reflexivity.
    injection H as H1 _ _ _. discriminate H1. }
  destruct R as (g1 & <- & Ro & R). specialize (C Ro). clear - C R Hi.
  revert g1 l g2 C R. induction later as [|op t IH]; intros g1 l g2 C R; [injection R as <- <-; reflexivity|].
  assert (Ht : idles (c_fuel cfg) t) by (intros x Hx; apply Hi; now right).
  destruct (Hi op (or_introl eq_refl)) as [->|(c2 & k2 & -> & F & P)]; cbn [stage_run] in R; [refine (IH Ht _ _ _ _ R); exact C|].
  unfold do_save in R. destruct (stage_save (set_posts c2 (g_posts g1)) k2 (BRet None) (g_left g1) (g_st g1)) as [o s2] eqn:E. cbn [fst] in R.
  destruct (tame_save cfg false (set_posts c2 (g_posts g1)) F (or_intror P) k2 (g_left g1) _ _ _ C E) as (d & T & Q & C2).
  rewrite (calls_from_app _ _ _ T) in R.
  assert (Hd : execs d = []).
  { clear - Q. induction Q as [|[c x] d Hc Q IH]; [reflexivity|]. unfold execs in *. cbn [flat_map fst]. destruct c; cbn in Hc |- *; auto. discriminate. }
  destruct o as [r0| |].
  1,2: destruct (stage_run t _) as [l3 g3] eqn:E3; injection R as <- <-; cbn [map snd concat]; rewrite execs_app, Hd; refine (IH Ht _ _ _ _ E3); exact C2.
  injection R as <- <-. cbn. now rewrite app_nil_r.
Qed.
Print Assumptions C103_saved_by_the_repository_not_repeated.

(* ---------------------------------------------------------------- the stages of the witnesses *)
Notation cfg_ok bus oracle := (ex_cfg true false bus None 0 oracle).
Definition report (l : list saved) : list (out result * list call) := map (fun x => (fst x, map fst (snd x))) l.
Definition idle : body (option err) := BRet None.
Definition twice (cfg : config) : list sop := [OSave cfg [] ex_add; OSave cfg [] idle].
Lemma twice_tx cfg : c_tx cfg = true -> transactional (twice cfg).
Proof. intros Ht c k m [H|[H|[]]]; injection H as <- _ _; exact Ht. Qed.
Definition writes_and_publishes : list call := map KExec ex_actions ++ [KDispatch [ev2; ev1]].

(** The second Save, in whose main function nothing happens, inserts the first one's rows again and publishes its
    events again: nothing between the two tells the stage that they are saved (engine.go 1164-1204 never calls
    updateSnapshot or unDirty). *)
Theorem C103_repeats_earlier_writes_refuted :
  report (fst (stage_run (twice (cfg_ok BusPlain all_ok)) (fresh_stage ex_heap 0))) =
    [(Done (mkResult None false ex_actions None), [KBegin] ++ writes_and_publishes ++ [KCommit]);
     (Done (mkResult None false (ex_actions ++ ex_actions) None), [KBegin] ++ writes_and_publishes ++ [KCommit])] /\
  ~ (forall h n ops l g k r calls, transactional ops -> stage_run ops (fresh_stage h n) = (l, g) ->
       nth_error l k = Some (Done r, calls) -> res_err r = None -> res_break r = false -> res_actions r = execs calls) /\
  ~ (forall h n cfg keys main l g r1 c1 r2 c2, c_tx cfg = true ->
       stage_run [OSave cfg keys main; OSave cfg [] idle] (fresh_stage h n) = (l, g) ->
       l = [(Done r1, c1); (Done r2, c2)] -> res_err r1 = None -> res_break r1 = false -> execs c2 = []).
Proof.
  split; [vm_compute; reflexivity|].
  destruct (stage_run (twice (cfg_ok BusPlain all_ok)) (fresh_stage ex_heap 0)) as [l g] eqn:E.
  pose proof (f_equal fst E) as El. cbn [fst] in El. split.
  - intros H. specialize (H ex_heap 0 _ l g 1
      (mkResult None false (ex_actions ++ ex_actions) None) (snd (nth 1 l (Panic, []))) (twice_tx (cfg_ok BusPlain all_ok) eq_refl) E).
    rewrite <- El in H. vm_compute in H. specialize (H eq_refl eq_refl eq_refl). discriminate.
  - intros H. specialize (H ex_heap 0 (cfg_ok BusPlain all_ok) [] ex_add l g
      (mkResult None false ex_actions None) (snd (nth 0 l (Panic, [])))
      (mkResult None false (ex_actions ++ ex_actions) None) (snd (nth 1 l (Panic, []))) eq_refl E).
    rewrite <- El in H. vm_compute in H. specialize (H eq_refl eq_refl eq_refl). discriminate.
Qed.
Print Assumptions C103_repeats_earlier_writes_refuted.

(** The database refuses one Commit and accepts everything afterwards: the second Save, with nothing to do, is
    rolled back and reports the first one's error. *)
Theorem C103_refused_commit_remembered_refuted :
  let cfg := cfg_ok BusPlain (fail_at 4) in
  report (fst (stage_run (twice cfg) (fresh_stage ex_heap 0))) =
    [(Done (mkResult (Some (EUser 7)) false ex_actions None), [KBegin] ++ writes_and_publishes ++ [KCommit]);
     (Done (mkResult (Some (EUser 7)) false (ex_actions ++ ex_actions) None), [KBegin] ++ writes_and_publishes ++ [KRollback])] /\
  (forall n, 5 <= n -> r_ans (c_oracle cfg n) = AOk) /\
  ~ (forall h n ops l g k r calls, transactional ops -> stage_run ops (fresh_stage h n) = (l, g) ->
       nth_error l k = Some (Done r, calls) -> (forall cfg keys main, In (OSave cfg keys main) ops -> main = idle \/ main = ex_add) -> res_err r <> None ->
       (exists c x, In (c, x) calls /\ r_ans x <> AOk)).
Proof.
  cbv zeta. split; [vm_compute; reflexivity|]. split.
  { intros n Hn. cbn. unfold fail_at. replace (n =? 4) with false by (symmetry; apply Nat.eqb_neq; lia). reflexivity. }
  destruct (stage_run (twice (cfg_ok BusPlain (fail_at 4))) (fresh_stage ex_heap 0)) as [l g] eqn:E.
  pose proof (f_equal fst E) as El. cbn [fst] in El.
  intros H. specialize (H ex_heap 0 _ l g 1
      (mkResult (Some (EUser 7)) false (ex_actions ++ ex_actions) None) (snd (nth 1 l (Panic, []))) (twice_tx (cfg_ok BusPlain (fail_at 4)) eq_refl) E).
  assert (Hm : forall cfg keys main, In (OSave cfg keys main) (twice (cfg_ok BusPlain (fail_at 4))) -> main = idle \/ main = ex_add).
  { intros c k m [Hi|[Hi|[]]]; injection Hi as _ _ <-; auto. }
  rewrite <- El in H. 
  assert (Hnth : nth_error (fst (stage_run (twice (cfg_ok BusPlain (fail_at 4))) (fresh_stage ex_heap 0))) 1 =
    Some (Done (mkResult (Some (EUser 7)) false (ex_actions ++ ex_actions) None), snd (nth 1 (fst (stage_run (twice (cfg_ok BusPlain (fail_at 4))) (fresh_stage ex_heap 0))) (Panic, [])))) by (vm_compute; reflexivity).
  specialize (H Hnth Hm ltac:(discriminate)). destruct H as (c & x & H1 & H2). vm_compute in H1.
  repeat (destruct H1 as [H1|H1]; [apply H2; injection H1 as <- <-; reflexivity|]). exact H1.
Qed.
Print Assumptions C103_refused_commit_remembered_refuted.

(** A failed Save makes the event bus roll back the event transaction that an earlier Save committed: the second
    Save has begun none itself, its main function returned an error. *)
Definition then_fails (cfg : config) : list sop := [OSave cfg [] ex_add; OSave cfg [] (BRet (Some (EUser 3)))].
Theorem C103_committed_events_rolled_back_refuted :
  report (fst (stage_run (then_fails (cfg_ok BusTx all_ok)) (fresh_stage ex_heap 0))) =
    [(Done (mkResult None false ex_actions None), [KBegin] ++ map KExec ex_actions ++ [KDispatchBegin [ev2]; KDispatch [ev1]; KCommit; KBusCommit]);
     (Done (fail (EUser 3)), [KBegin; KRollback; KBusRollback])] /\
  ~ (forall h n ops l g k o calls, transactional ops -> stage_run ops (fresh_stage h n) = (l, g) ->
       nth_error l k = Some (o, calls) -> In KBusRollback (map fst calls) -> exists evs, In (KDispatchBegin evs) (map fst calls)).
Proof.
  split; [vm_compute; reflexivity|].
  destruct (stage_run (then_fails (cfg_ok BusTx all_ok)) (fresh_stage ex_heap 0)) as [l g] eqn:E.
  pose proof (f_equal fst E) as El. cbn [fst] in El.
  assert (Htx : transactional (then_fails (cfg_ok BusTx all_ok))) by (intros c k m [H|[H|[]]]; injection H as <- _ _; reflexivity).
  intros H. specialize (H ex_heap 0 _ l g 1 (Done (fail (EUser 3))) (snd (nth 1 l (Panic, []))) Htx E).
  rewrite <- El in H. vm_compute in H. destruct (H eq_refl) as (evs & Hin); [auto|]. repeat (destruct Hin as [Hin|Hin]; [discriminate|]). exact Hin.
Qed.
Print Assumptions C103_committed_events_rolled_back_refuted.

(** Such a main function does save: the hypotheses of C103_saved_by_the_repository_not_repeated are met, the first Save
    writes and the second does not.  But the events are published by both (engine.go 971-998 collects what the entities
    hold, and nothing takes an event from them). *)
Theorem C103_events_repeated_even_so_refuted :
  let cfg := cfg_ok BusPlain all_ok in
  let ops := [OSave cfg [] (then_save ex_add); OHook; OSave cfg [] idle] in
  report (fst (stage_run ops (fresh_stage ex_heap 0))) =
    [(Done (mkResult None false ex_actions None), [KBegin] ++ writes_and_publishes ++ [KCommit]);
     (Done (mkResult None false ex_actions None), [KBegin; KDispatch [ev2; ev1]; KCommit; KPostSave 0])] /\
  idles (c_fuel cfg) [OHook; OSave cfg [] idle] /\ orders_ok cfg /\
  ~ (forall cfg keys main g r1 calls1 r2 calls2 g2, orders_ok cfg -> c_tx cfg = true ->
       stage_run [OSave cfg keys (then_save main); OSave cfg keys idle] g = ([(Done r1, calls1); (Done r2, calls2)], g2) ->
       res_err r1 = None -> res_break r1 = false -> forall evs, In (KDispatch evs) (map fst calls1) -> ~ In (KDispatch evs) (map fst calls2)).
Proof.
  assert (Ho : orders_ok (cfg_ok BusPlain all_ok)) by (split; [intros n; intros l; apply Permutation_refl|intros n l; apply Permutation_refl]).
  cbv zeta. split; [vm_compute; reflexivity|]. split; [|split; [exact Ho|]].
  { intros op [<-|[<-|[]]]; [now left|]. right. eexists _, _. repeat split; reflexivity. }
  intros H.
  destruct (stage_run [OSave (cfg_ok BusPlain all_ok) [] (then_save ex_add); OSave (cfg_ok BusPlain all_ok) [] idle] (fresh_stage ex_heap 0)) as [l g] eqn:E.
  pose proof (f_equal fst E) as El. cbn [fst] in El.
  specialize (H (cfg_ok BusPlain all_ok) [] ex_add (fresh_stage ex_heap 0) (mkResult None false ex_actions None) (snd (nth 0 l (Panic, [])))
    (mkResult None false ex_actions None) (snd (nth 1 l (Panic, []))) g Ho eq_refl).
  rewrite E in H. rewrite <- El in H. vm_compute in H. 
  refine (H eq_refl eq_refl eq_refl _ _ _); [right; right; right; left; reflexivity|right; left; reflexivity].
Qed.
Print Assumptions C103_events_repeated_even_so_refuted.

(** With event persistence the second Save inserts the events' rows again - the very statement the first Save executed,
    so that with the event's id as primary key the database refuses it - although its main function does nothing. *)
Theorem C103_events_stored_again_refuted :
  let cfg := ex_cfg true false BusPlain (Some ex_persist) 0 all_ok in
  map (fun x => execs (snd x)) (fst (stage_run [OSave cfg [] (then_save ex_add); OSave cfg [] idle] (fresh_stage ex_heap 0))) =
    [ex_actions ++ [mkAction OpInsert [mkModel 9 "e2"%string [ev_payload ev2]; mkModel 9 "e1"%string [ev_payload ev1]] []];
     [mkAction OpInsert [mkModel 9 "e2"%string [ev_payload ev2]; mkModel 9 "e1"%string [ev_payload ev1]] []]].
Proof. vm_compute. reflexivity. Qed.
Print Assumptions C103_events_stored_again_refuted.

(** A creation that failed cannot be repeated on the same stage: the container still has the root. *)
Theorem C103_failed_creation_repeated_refuted :
  let cfg := cfg_ok BusPlain (fail_at 1) in
  report (fst (stage_run [OSave cfg [] ex_add; OSave cfg [] ex_add] (fresh_stage ex_heap 0))) =
    [(Done (fails (EUser 7)), [KBegin; KExec (mkAction OpInsert [m_r] []); KRollback]);
     (Done (fail (EJoin [ERepeated])), [KBegin; KRollback])].
Proof. vm_compute. reflexivity. Qed.
Print Assumptions C103_failed_creation_repeated_refuted.

(** The result of a successful Save is the stage's own: a later Save changes it in the caller's hands, here from
    success to an error. *)
Theorem C103_result_changes_later_refuted : 
  let x := stage_run (twice (cfg_ok BusPlain (fail_at 9))) (fresh_stage ex_heap 0) in
  nth_error (map fst (fst x)) 0 = Some (Done (mkResult None false ex_actions None)) /\
  result_now (snd x) = mkResult (Some (EUser 7)) false (ex_actions ++ ex_actions) None.
Proof. vm_compute. split; reflexivity. Qed.
Print Assumptions C103_result_changes_later_refuted.

(** Two commands run on one stage: the second one's Save calls the PostSave of both. *)
Theorem C103_post_save_of_earlier_command_refuted :
  let cfg := cfg_ok BusPlain all_ok in
  let cmd := stage_command cfg [] (BRet (inr [])) (fun _ => BRet None) in
  report (fst (stage_run (cmd ++ cmd) (fresh_stage ex_heap 0))) =
    [(Done (mkResult None false [] None), [KBegin; KCommit; KPostSave 0]);
     (Done (mkResult None false [] None), [KBegin; KCommit; KPostSave 0; KPostSave 1])].
Proof. vm_compute. reflexivity. Qed.
Print Assumptions C103_post_save_of_earlier_command_refuted.

(** The hypotheses of the positive theorems are met: a success, a change by the caller, a break, a hook, a success. *)
Example C103_meets_hypotheses :
  let cfg := cfg_ok BusPlain all_ok in
  let ops := [OSave cfg ["b"; "a"]%string ex_add; OCode (fun h => hset h 2 (ex_ent "c"%string 2 [] [] ["x"%string]));
              OSave cfg [] (BRet (Some EBreak)); OHook; OSave cfg ["a"]%string idle] in
  transactional ops /\
  map fst (fst (stage_run ops (fresh_stage ex_heap 0))) =
    [Done (mkResult None false ex_actions None); Done (mkResult None true [] None);
     Done (mkResult None false (ex_actions ++ [mkAction OpInsert [m_r] []; mkAction OpInsert [mkModel 2 "c"%string ["x"%string]] []]) None)] /\
  exists d, visible (fun d => d) (fun _ => None) (calls_of (fst (stage_run ops (fresh_stage ex_heap 0)))) = d /\ d (2, "c"%string) = Some ["x"%string].
Proof.
  cbv zeta. split; [|split; [vm_compute; reflexivity|]].
  - intros c k m H. repeat (destruct H as [H|H]; [try discriminate H; injection H as <- _ _; reflexivity|]). destruct H.
  - eexists. split; [reflexivity|]. vm_compute. reflexivity.
Qed.

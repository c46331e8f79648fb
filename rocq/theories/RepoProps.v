(** Property theorems about the repository and container API inside a command body. *)
From Verif Require Import GraphProof5 RepoProof EngineProof5 EngineProof8 EngineProps SaveProps.
From Verif Require Import EngineModel.

(** The state in which a call inside the body is made: [b] is the part of the body before it. *)
Definition reached_by {X} (cfg : config) (h : heap) (b : body X) (x : X) (s1 s' : st) : Prop :=
  exists tr d, run_body cfg b (with_trace (new_stage h) tr) = (Done x, s1) /\ s_trace s' = s_trace s1 ++ d.
Definition no_error (r : result) : Prop := res_err r = None /\ res_break r = false.
Lemma no_error_bad r : no_error r -> bad r = false.
Proof. intros [H1 H2]. unfold bad. now rewrite H1. Qed.

Lemma split_run {X} cfg keys h (b : body X) (f : X -> body (option err)) r s' : orders_ok cfg ->
  save cfg keys (body_bind b f) (new_stage h) = (Done r, s') -> no_error r ->
  exists x s1 s2 s3 d, reached_by cfg h b x s1 s' /\ run_body cfg (f x) s1 = (Done None, s2) /\ s_errs s2 = [] /\ persist cfg s2 = (Done None, s3) /\
    s_heap s' = s_heap s3 /\ s_cont s' = s_cont s3 /\ s_trace s' = s_trace s3 ++ d.
Proof.
  intros Ho H Hn. apply no_error_bad in Hn. destruct (run_steps cfg keys h _ r s' Ho H Hn) as (tr & s2 & s3 & d & H1 & He & H2 & Eh & Ec & T).
  rewrite run_body_bind in H1. apply bind_done in H1. destruct H1 as (x & s1 & H0 & H1). exists x, s1, s2, s3, d.
  split; [|auto 8]. destruct (q_run_body cfg (f x) _ _ _ H1) as (d1 & Q1). destruct (q_persist cfg _ _ _ H2) as (d2 & Q2).
  exists tr, (d1 ++ d2 ++ d). split; [exact H0|]. rewrite T, (q_trace _ _ _ _ Q2), (q_trace _ _ _ _ Q1). now rewrite <- !app_assoc.
Qed.
Lemma reached_closed {X} cfg h (b : body X) x s1 s' : orders_ok cfg -> conv_total cfg -> reached_by cfg h b x s1 s' -> pool_closed (s_pool s1).
Proof. intros Ho Hc (tr & d & H & _). apply (closed_body cfg b Ho Hc _ _ _ H). apply closed_empty. Qed.

(* ---------------------------------------------------------------- C19 *)
(** The unrestricted claim is false: a later Get forgets the added root.  Root 1 is added, root 3 (another
    object, with id) is loaded; the run succeeds and nothing is inserted. *)
Definition c19_heap : heap := fun p => match p with
  | 1 => ex_ent "r"%string 1 [] [] ["v"%string]
  | 3 => ex_ent "x"%string 1 [] [] ["y"%string]
  | _ => ex_ent ""%string 0 [] [] [] end.
Theorem C19_added_root_inserted_refuted :
  exists cfg main r s', orders_ok cfg /\ conv_total cfg /\
    main = BAdd [1] (BGet 3 (fun e => BRet e)) /\ save cfg [] main (new_stage c19_heap) = (Done r, s') /\ no_error r /\ s_errs s' = [] /\
    In 1 (ct_roots (s_cont s')) /\ res_actions r = [] /\ execs (s_trace s') = [].
Proof.
  exists (ex_cfg true false BusPlain None 0 all_ok), (BAdd [1] (BGet 3 (fun e => BRet e))). do 2 eexists.
  split; [split; [intros n q m; cbn; unfold ord_id; apply Permutation_refl|intros n l; apply Permutation_refl]|]. split; [intros h p par; exact I|]. split; [reflexivity|].
  split; [vm_compute; reflexivity|]. vm_compute. auto 6.
Qed.
Print Assumptions C19_added_root_inserted_refuted.

(** It holds if after the Add the body only looks at and modifies entities, adds further roots, sets its output. *)
Theorem C19_added_root_inserted_partial :
  forall cfg keys h X (b : body X) ps (tail : X -> body (option err)) r s', orders_ok cfg -> keeps_types cfg -> conv_total cfg -> c_dry cfg = false ->
  (forall x, plain (tail x)) ->
  save cfg keys (body_bind b (fun x => BAdd ps (tail x))) (new_stage h) = (Done r, s') -> no_error r ->
  exists x s1 s2 s3, reached_by cfg h b x s1 s' /\ run_body cfg (BAdd ps (tail x)) s1 = (Done None, s2) /\ persist cfg s2 = (Done None, s3) /\
    (go_maps (s_heap s2) (s_pool s2) -> after_unread cfg (s_trace s') ->
     forall p m, In p ps -> c_conv cfg (s_heap s') p (Some meta) OpInsert = CModel m -> executed (s_trace s') OpInsert m).
Proof.
  intros cfg keys h X b ps tail r s' Ho Ht Hc Hd Hp H Hn.
  destruct (split_run cfg keys h b _ r s' Ho H Hn) as (x & s1 & s2 & s3 & d & Hr & H1 & He & H2 & Eh & Ec & T).
  exists x, s1, s2, s3. do 3 (split; [assumption|]). intros Hm Ha p m Hi Hcv.
  assert (HM : must_save cfg s2 CNew meta meta_key p) by (eapply added_must_save; eauto using reached_closed).
  assert (Ha3 : after_unread cfg (s_trace s3)) by (intros q t y Hy; apply (Ha q t y); rewrite T; apply in_app_iff; auto).
  rewrite Eh in Hcv. destruct (persist_executes cfg Ht Ho s2 s3 CNew meta meta_key p m Hm Hd H2 Ha3 HM Hcv) as (a & y & E1 & E2).
  exists a, y. split; [rewrite T; apply in_app_iff; auto|exact E2].
Qed.
Print Assumptions C19_added_root_inserted_partial.
(** root 1 is loaded first, then root 3 added and root 1 modified *)
Definition c19_tail : body (option err) := BMut (fun h => hset h 1 (set_dirty (h 1) true)) (BRet None).
Example C19_example :
  plain c19_tail /\
  outcome (ex_cfg true false BusPlain None 0 all_ok) [] (body_bind (BGet 3 (fun e => BRet e)) (fun _ => BAdd [1] c19_tail)) c19_heap =
  (Done (mkResult None false [mkAction OpInsert [mkModel 1 "r"%string ["v"%string]] []] None), [KBegin; KBuild 3; KExec (mkAction OpInsert [mkModel 1 "r"%string ["v"%string]] []); KCommit]).
Proof. split; [exact I|vm_compute; reflexivity]. Qed.

(* ---------------------------------------------------------------- C20 *)
(** False in general: two roots that were not loaded, removed one after the other; only the second is deleted. *)
Theorem C20_removed_root_deleted_refuted :
  exists cfg main r s', orders_ok cfg /\ conv_total cfg /\
    main = BRemove [1] (BRemove [3] (BRet None)) /\ save cfg [] main (new_stage c19_heap) = (Done r, s') /\ no_error r /\ s_errs s' = [] /\
    execs (s_trace s') = [mkAction OpDelete [mkModel 1 "x"%string ["y"%string]] []].
Proof.
  exists (ex_cfg true false BusPlain None 0 all_ok), (BRemove [1] (BRemove [3] (BRet None))). do 2 eexists.
  split; [split; [intros n q m; cbn; unfold ord_id; apply Permutation_refl|intros n l; apply Permutation_refl]|]. split; [intros h p par; exact I|]. split; [reflexivity|].
  split; [vm_compute; reflexivity|]. vm_compute. auto 6.
Qed.
Print Assumptions C20_removed_root_deleted_refuted.
(** It holds for a root that was loaded, or not known at all, if after the Remove the body does not load or remove
    anything and the root is not attached elsewhere. *)
Theorem C20_removed_root_deleted_partial :
  forall cfg keys h X (b : body X) ps (tail : X -> body (option err)) r s', orders_ok cfg -> keeps_types cfg -> conv_total cfg -> c_dry cfg = false ->
  (forall x, plain (tail x)) ->
  save cfg keys (body_bind b (fun x => BRemove ps (tail x))) (new_stage h) = (Done r, s') -> no_error r ->
  exists x s1 s2 s3, reached_by cfg h b x s1 s' /\ run_body cfg (BRemove ps (tail x)) s1 = (Done None, s2) /\ persist cfg s2 = (Done None, s3) /\
    (go_maps (s_heap s2) (s_pool s2) -> after_unread cfg (s_trace s') ->
     forall p m, In p ps -> loaded_root s1 p \/ ~ In p (ct_roots (s_cont s1)) -> ~ reach (kids_now s2) meta p ->
       c_conv cfg (s_heap s') p (Some meta) OpDelete = CModel m -> executed (s_trace s') OpDelete m).
Proof.
  intros cfg keys h X b ps tail r s' Ho Ht Hc Hd Hp H Hn.
  destruct (split_run cfg keys h b _ r s' Ho H Hn) as (x & s1 & s2 & s3 & d & Hr & H1 & He & H2 & Eh & Ec & T).
  exists x, s1, s2, s3. do 3 (split; [assumption|]). intros Hm Ha p m Hi HL Hnr Hcv.
  assert (HM : must_save cfg s2 CDelete meta meta_key p) by (eapply removed_must_save; eauto using reached_closed).
  assert (Ha3 : after_unread cfg (s_trace s3)) by (intros q t y Hy; apply (Ha q t y); rewrite T; apply in_app_iff; auto).
  rewrite Eh in Hcv. destruct (persist_executes cfg Ht Ho s2 s3 CDelete meta meta_key p m Hm Hd H2 Ha3 HM Hcv) as (a & y & E1 & E2).
  exists a, y. split; [rewrite T; apply in_app_iff; auto|exact E2].
Qed.
Print Assumptions C20_removed_root_deleted_partial.
(** root 3 is loaded, then both it and the unknown root 1 are removed in one call *)
Example C20_example :
  outcome (ex_cfg true false BusPlain None 0 all_ok) [] (body_bind (BGet 3 (fun e => BRet e)) (fun _ => BRemove [3; 1] c19_tail)) c19_heap =
  (Done (mkResult None false [mkAction OpDelete [mkModel 1 "x"%string ["y"%string]; mkModel 1 "r"%string ["v"%string]] []] None),
   [KBegin; KBuild 3; KExec (mkAction OpDelete [mkModel 1 "x"%string ["y"%string]; mkModel 1 "r"%string ["v"%string]] []); KCommit]).
Proof. vm_compute. reflexivity. Qed.

(* ---------------------------------------------------------------- C21 *)
(** The call repo.Add(ps...) must be refused: some root was loaded before, is a root already, or is repeated. *)
Definition add_rejected (s : st) (ps : list ptr) : Prop :=
  exists pre r post, ps = pre ++ r :: post /\ (s_pool s r <> None \/ In r (ct_roots (s_cont s)) \/ In r pre).
(** The call repo.Remove(ps...) must be refused: some root is repeated, or known without being a root (e.g. removed before). *)
Definition remove_rejected (s : st) (ps : list ptr) : Prop :=
  ~ NoDup ps \/ exists r, In r ps /\ ~ In r (ct_roots (s_cont s)) /\ s_pool s r <> None.

Theorem C21_rejected_add_fails_the_run :
  forall cfg junk d0 keys h X (b : body X) ps (rest : X -> body (option err)) r s', orders_ok cfg ->
  save cfg keys (body_bind b (fun x => BAdd ps (rest x))) (new_stage h) = (Done r, s') ->
  (no_error r -> exists x s1, reached_by cfg h b x s1 s' /\ ~ add_rejected s1 ps) /\
  (~ no_error r -> c_tx cfg = true -> ~ commit_ok (s_trace s') /\ visible junk d0 (s_trace s') = d0).
Proof.
  intros cfg junk d0 keys h X b ps rest r s' Ho H. split.
  - intros Hn. destruct (split_run cfg keys h b _ r s' Ho H Hn) as (x & s1 & s2 & s3 & d & Hr & H1 & He & _).
    exists x, s1. split; auto. intros (pre & q & post & -> & Hq). cbn [run_body] in H1. unfold bind in H1.
    destruct (repo_add_spec (pre ++ q :: post) s1) as (sa & Ea & Hs). rewrite Ea in H1.
    destruct (grows_body cfg (rest x) _ _ _ H1) as [(l & G) _]. rewrite He in G. symmetry in G. apply app_eq_nil in G. destruct G as [G _].
    destruct Hs as [(e & n & q' & -> & _)|(-> & Hnew & Hnd)]; [cbn in G; destruct (s_errs s1); discriminate|].
    destruct (Hnew q) as [N1 N2]; [apply in_app_iff; right; now left|]. destruct Hq as [Hq|[Hq|Hq]]; [congruence|contradiction|].
    apply NoDup_remove_2 in Hnd. apply Hnd, in_app_iff. now left.
  - intros Hn Ht. destruct (C01_all_or_nothing cfg junk h keys _ d0 _ s' Ht H) as [_ B]. apply (B r eq_refl).
    unfold no_error in Hn. destruct (res_err r); [left; discriminate|]. destruct (res_break r); [now right|]. exfalso. auto.
Qed.
Print Assumptions C21_rejected_add_fails_the_run.
Theorem C21_rejected_remove_fails_the_run :
  forall cfg junk d0 keys h X (b : body X) ps (rest : X -> body (option err)) r s', orders_ok cfg ->
  save cfg keys (body_bind b (fun x => BRemove ps (rest x))) (new_stage h) = (Done r, s') ->
  (no_error r -> exists x s1, reached_by cfg h b x s1 s' /\ ~ remove_rejected s1 ps) /\
  (~ no_error r -> c_tx cfg = true -> ~ commit_ok (s_trace s') /\ visible junk d0 (s_trace s') = d0).
Proof.
  intros cfg junk d0 keys h X b ps rest r s' Ho H. split.
  - intros Hn. destruct (split_run cfg keys h b _ r s' Ho H Hn) as (x & s1 & s2 & s3 & d & Hr & H1 & He & _).
    exists x, s1. split; auto. cbn [run_body] in H1. apply bind_done in H1. destruct H1 as (u & sa & Ea & H1). destruct u.
    destruct (grows_body cfg (rest x) _ _ _ H1) as [(l & G) _]. rewrite He in G. symmetry in G. apply app_eq_nil in G. destruct G as [G _].
    destruct (repo_remove_spec cfg ps s1 _ sa Ho Ea eq_refl) as [E|R]; [now apply erring_nonempty in E|].
    intros [N|(q & Q1 & Q2 & Q3)]; [exact (N (rm_nodup _ _ _ _ R))|]. apply Q3. exact (rm_new _ _ _ _ R q Q1 Q2).
  - intros Hn Ht. destruct (C01_all_or_nothing cfg junk h keys _ d0 _ s' Ht H) as [_ B]. apply (B r eq_refl).
    unfold no_error in Hn. destruct (res_err r); [left; discriminate|]. destruct (res_break r); [now right|]. exfalso. auto.
Qed.
Print Assumptions C21_rejected_remove_fails_the_run.
(** Loading a root that is known already - a root, loaded before, or named twice - is reported to the command at once; nothing is
    asked of the database and nothing becomes known by it. *)
Theorem C21_loading_twice_is_reported :
  forall cfg X (k : option err -> body X) s,
    (forall f roots, add_rejected s roots -> exists e s', run_body cfg (BCustomGet f roots k) s = run_body cfg (k (Some e)) s' /\ s_trace s' = s_trace s /\ s_pool s' = s_pool s) /\
    (forall root, s_pool s root <> None -> exists e, run_body cfg (BGet root k) s = run_body cfg (k (Some e)) s).
Proof.
  intros cfg X k s. split.
  - intros f roots Hr. cbn [run_body].
    assert (AT : forall m n s e s', m s = (Done (Some e), s') -> andthen m n s = (Done (Some e), s')) by (intros m n s0 e s' H; unfold andthen, bind; rewrite H; reflexivity).
    assert (E : forall roots s0, add_rejected s0 roots -> exists e s', each (fun r => bind get (fun s => if has_snapshot s r then ret (Some EHasAdded) else meta_add r)) roots s0 = (Done (Some e), s') /\ s_trace s' = s_trace s0 /\ s_pool s' = s_pool s0).
    { clear. induction roots as [|q t IH]; intros s0 (pre & r & post & E & H); [destruct pre; discriminate E|]. cbn [each]. unfold andthen at 1, bind at 1. unfold bind at 1. cbn [get]. unfold has_snapshot.
      destruct (s_pool s0 q) as [sn|] eqn:Ep; [exists EHasAdded, s0; auto|]. unfold meta_add, bind, get. unfold cont_add. destruct (memb q (ct_roots (s_cont s0))) eqn:Em; [exists ERepeated, s0; auto|].
      unfold upd, ret. cbv beta iota.
      match goal with |- exists e s', each _ t ?s1 = _ /\ _ => destruct (IH s1) as (e & s' & E1 & E2 & E3) end.
      - destruct pre as [|q' pre]; injection E as -> ->.
        + exfalso. destruct H as [H|[H|[]]]; [congruence|]. apply memb_In in H. congruence.
        + exists pre, r, post. split; auto. cbn. rewrite in_app_iff. cbn. cbn in H. tauto.
      - exists e, s'. split; auto. }
    destruct (E roots (with_heap s (f (s_heap s)))) as (e & s' & E1 & E2 & E3); [exact Hr|].
    assert (C : repo_custom_get cfg f roots s = (Done (Some e), s')) by exact (AT _ _ _ e s' E1). unfold bind. rewrite C. exists e, s'. auto.
  - intros root H. cbn [run_body]. unfold repo_get, bind, get, has_snapshot. destruct (s_pool s root) eqn:E; [|contradiction]. exists EHasAdded. reflexivity.
Qed.
Print Assumptions C21_loading_twice_is_reported.

(** A body that ignored the rejection and returned nil gets an Error, not a Break. *)
Theorem C21_ignored_rejection_is_an_error :
  forall cfg keys h main r s', save cfg keys main (new_stage h) = (Done r, s') ->
  (forall tr s1, run_body cfg main (with_trace (new_stage h) tr) = (Done None, s1) -> s_errs s1 <> []) ->
  (forall tr e s1, run_body cfg main (with_trace (new_stage h) tr) = (Done (Some e), s1) -> ~ wraps_break e) ->
  res_err r <> None /\ res_break r = false.
Proof.
  intros cfg keys h main r s' H Hn Hb.
  destruct (C08_break_or_error cfg (fun d => d) (fun _ => None) h keys main r s' H) as [(_ & A & B)|(s0 & s1 & res & H1 & (tr & ->) & Hm)]; [auto|].
  destruct res as [e|].
  - destruct Hm as [_ Hm]. destruct (Hm (Hb _ _ _ H1)) as [A B]. rewrite B. split; [discriminate|auto].
  - split; [|exact Hm]. intros He. 
    destruct (save_do cfg keys main h _ _ H) as [[_ N]|(a & d & b & of & s2 & Hdo & _ & _ & _ & _ & _ & _ & _ & _ & Hof)].
    + specialize (N r eq_refl). unfold bad in N. rewrite He in N. congruence.
    + assert (Hg : bad r = false) by (unfold bad; now rewrite He). specialize (Hof r eq_refl Hg). subst of.
      destruct (do_success cfg main _ r s2 Hdo Hg) as (s3 & _ & _ & _ & H3 & E3 & _). exact (Hn _ _ H3 E3).
Qed.
Print Assumptions C21_ignored_rejection_is_an_error.
(** root 3 is loaded; adding it again is rejected; the body goes on and returns nil *)
Example C21_example :
  outcome (ex_cfg true false BusPlain None 0 all_ok) [] (BGet 3 (fun _ => BAdd [1; 3] (BRet None))) c19_heap =
  (Done (fail (EJoin [EMustBeNew])), [KBegin; KBuild 3; KRollback]) /\
  outcome (ex_cfg true false BusPlain None 0 all_ok) [] (BGet 3 (fun _ => BRemove [3] (BRemove [3] (BRet None)))) c19_heap =
  (Done (fail (EJoin [EMustBeNew; ENotFound])), [KBegin; KBuild 3; KRollback]).
Proof. split; vm_compute; reflexivity. Qed.

(* ---------------------------------------------------------------- C22 *)
(** False: RootContainer is passed by value, so the errors it collects are lost.  The command builds nothing, adds
    root 1 twice and removes root 3, which is not there. *)
Definition c22_main : body (option err) :=
  command_main (BRet (inr [])) (fun _ => BRootAdd 1 (BRootAdd 1 (BRootRemove 3 (BRet None)))).
Theorem C22_rejected_container_call_refuted :
  exists cfg r s', orders_ok cfg /\ save cfg [] c22_main (new_stage c19_heap) = (Done r, s') /\ no_error r /\
    execs (s_trace s') = [mkAction OpInsert [mkModel 1 "r"%string ["v"%string]] []] /\ commit_ok (s_trace s').
Proof.
  exists (ex_cfg true false BusPlain None 0 all_ok). do 2 eexists.
  split; [split; [intros n q m; cbn; unfold ord_id; apply Permutation_refl|intros n l; apply Permutation_refl]|].
  split; [vm_compute; reflexivity|]. split; [split; reflexivity|]. split; [vm_compute; reflexivity|].
  exists ok_resp. vm_compute. auto.
Qed.
Print Assumptions C22_rejected_container_call_refuted.
(** What does hold: a rejected call changes nothing at all, an accepted one exactly the root list. *)
Theorem C22_container_calls_partial :
  forall s p,
  (In p (ct_roots (s_cont s)) -> root_add p s = (Done tt, s)) /\
  (~ In p (ct_roots (s_cont s)) -> exists s', root_add p s = (Done tt, s') /\ forall q, In q (ct_roots (s_cont s')) <-> In q (ct_roots (s_cont s)) \/ q = p) /\
  (~ In p (ct_roots (s_cont s)) -> root_remove p s = (Done tt, s)) /\
  (In p (ct_roots (s_cont s)) -> exists s', root_remove p s = (Done tt, s') /\ In p (ct_deleted (s_cont s')) /\
     forall q, In q (ct_roots (s_cont s')) <-> In q (ct_roots (s_cont s)) /\ q <> p).
Proof.
  intros s p. unfold root_add, root_remove, meta_add, bind, get.
  assert (Er : meta_remove p s = match cont_remove (s_cont s) p with None => (Done (Some ENotFound), s) | Some c => (Done None, with_cont s c) end) by apply meta_remove_eq.
  rewrite Er. unfold cont_add.
  split; [|split; [|split]].
  - intros H. apply memb_In in H. now rewrite H.
  - intros H. rewrite <- memb_In in H. destruct (memb p _); [congruence|]. eexists. split; [reflexivity|]. cbn. intros q. rewrite in_app_iff. cbn. intuition.
  - intros H. destruct (GraphProof4.cont_remove_spec (s_cont s) p) as [_ R]. now rewrite (R H).
  - intros H. destruct (GraphProof4.cont_remove_spec (s_cont s) p) as [R _]. destruct (R H) as (c & E & Q & D). rewrite E. eexists. split; [reflexivity|]. cbn. rewrite D, in_app_iff. split; [right; now left|exact Q].
Qed.
Print Assumptions C22_container_calls_partial.

(* ---------------------------------------------------------------- C24, continued *)
(** Entities taken out of an aggregate, or deleted as roots, are in the list whose events are collected; nothing is ever
    dropped from that list. *)
Theorem C24_deleted_entities_remembered :
  forall cfg keys h main r s', orders_ok cfg -> keeps_types cfg -> save cfg keys main (new_stage h) = (Done r, s') -> no_error r ->
  exists tr s1, run_body cfg main (with_trace (new_stage h) tr) = (Done None, s1) /\
    incl (ct_deleted (s_cont s1)) (ct_deleted (s_cont s')) /\
    (go_maps (s_heap s1) (s_pool s1) -> forall par k p, must_save cfg s1 CDelete par k p -> In p (ct_deleted (s_cont s'))).
Proof.
  intros cfg keys h main r s' Ho Ht H Hn. destruct (run_steps cfg keys h main r s' Ho H (no_error_bad _ Hn)) as (tr & s1 & s2 & d & H1 & He & H2 & Eh & Ec & T).
  exists tr, s1. split; [exact H1|]. rewrite Ec. split; [apply (grows_persist cfg _ _ _ H2)|]. intros Hm par k p HM. eapply persist_remembers; eauto.
Qed.
Print Assumptions C24_deleted_entities_remembered.
Theorem C24_deleted_list_only_grows :
  forall cfg X (b : body X) s o s', run_body cfg b s = (o, s') -> incl (ct_deleted (s_cont s)) (ct_deleted (s_cont s')).
Proof. intros cfg X b s o s' H. apply (grows_body cfg b _ _ _ H). Qed.
Print Assumptions C24_deleted_list_only_grows.
(** root 1 (event e1) has child 2 (event e2), which is taken out after loading; both events are published *)
Definition c24_heap : heap := fun p => match p with
  | 1 => ex_ent "r"%string 1 [2] [ev1] ["v"%string]
  | 2 => ex_ent "c"%string 2 [] [ev2] ["w"%string]
  | _ => ex_ent ""%string 0 [] [] [] end.
Example C24_example :
  outcome (ex_cfg true false BusPlain None 0 all_ok) [] (BGet 1 (fun e => BMut (fun h => hset h 1 (ex_ent "r"%string 1 [] [ev1] ["v"%string])) (BRet e))) c24_heap =
  (Done (mkResult None false [mkAction OpDelete [mkModel 2 "c"%string ["w"%string]] []] None),
   [KBegin; KBuild 1; KExec (mkAction OpDelete [mkModel 2 "c"%string ["w"%string]] []); KDispatch [ev2; ev1]; KCommit]).
Proof. vm_compute. reflexivity. Qed.

(** A stage whose first Save ends with Repository.Save: what later Saves find. *)
From Verif Require Export StageProof3 EngineProof12 CommandProps.

Section Tame.
  Variable cfg : config.
  (** may statements be executed *)
  Variable w : bool.
  Definition calm_call (c : call) : Prop := match c with KExec _ => w = true | _ => True end.
  (** a piece of a Save that leaves the entities as the last commit found them *)
  Definition tame {A} (m : M A) : Prop := forall s o s', clean cfg s -> m s = (o, s') ->
    exists d, s_trace s' = s_trace s ++ d /\ Forall (fun c => calm_call (fst c)) d /\ clean cfg s'.

  Lemma clean_base cfg' s s' : c_fuel cfg' = c_fuel cfg -> s_heap s' = s_heap s -> s_pool s' = s_pool s -> ct_roots (s_cont s') = ct_roots (s_cont s) ->
    clean cfg s -> clean cfg' s'.
  Proof.
    intros F H P R [W Sn D]. assert (K : kids_now s' = kids_now s) by (unfold kids_now; now rewrite H, R).
    constructor; rewrite K; [now rewrite F|now rewrite P|now rewrite H].
  Qed.
  Lemma tame_ret {A} (a : A) : tame (ret a).
  Proof. intros s o s' C [= <- <-]. exists []. rewrite app_nil_r. auto. Qed.
  Lemma tame_crash {A} : tame (@crash A).
  Proof. intros s o s' C [= <- <-]. exists []. rewrite app_nil_r. auto. Qed.
  Lemma tame_get : tame get.
  Proof. intros s o s' C [= <- <-]. exists []. rewrite app_nil_r. auto. Qed.
  Lemma tame_upd f : (forall s, s_heap (f s) = s_heap s /\ s_pool (f s) = s_pool s /\ ct_roots (s_cont (f s)) = ct_roots (s_cont s) /\ s_trace (f s) = s_trace s) -> tame (upd f).
  Proof.
    intros F s o s' C [= <- <-]. destruct (F s) as (A & B & D & E). exists []. rewrite app_nil_r. split; [exact E|]. split; [constructor|]. now apply (clean_base cfg s).
  Qed.
  Lemma tame_bind {A B} (m : M A) (f : A -> M B) : tame m -> (forall a, tame (f a)) -> tame (bind m f).
  Proof.
    intros Hm Hf s o s' C H. unfold bind in H. destruct (m s) as [o1 s1] eqn:E. destruct (Hm _ _ _ C E) as (d1 & T1 & C1 & K1).
    destruct o1 as [a| |]; [|injection H as <- <-; exists d1; auto..].
    destruct (Hf a _ _ _ K1 H) as (d2 & T2 & C2 & K2). exists (d1 ++ d2). split; [rewrite T2, T1; now rewrite app_assoc|split; [apply Forall_app; auto|exact K2]].
  Qed.
  Lemma tame_finally {A} (m : M A) (fin : M unit) : tame m -> tame fin -> tame (finally m fin).
  Proof.
    intros Hm Hf s o s' C H. unfold finally in H. destruct (m s) as [o1 s1] eqn:E. destruct (Hm _ _ _ C E) as (d1 & T1 & C1 & K1).
    destruct o1 as [a| |]; [| |injection H as <- <-; exists d1; auto];
      destruct (fin s1) as [o2 s2] eqn:E2; destruct (Hf _ _ _ K1 E2) as (d2 & T2 & C2 & K2);
      assert (s' = s2) as -> by (destruct o2; injection H as <- <-; reflexivity);
      exists (d1 ++ d2); (split; [rewrite T2, T1; now rewrite app_assoc|split; [apply Forall_app; auto|exact K2]]).
  Qed.
  Lemma tame_on_panic {A} (m : M A) (fin : M unit) : tame m -> tame fin -> tame (on_panic m fin).
  Proof.
    intros Hm Hf s o s' C H. unfold on_panic in H. destruct (m s) as [o1 s1] eqn:E. destruct (Hm _ _ _ C E) as (d1 & T1 & C1 & K1).
    destruct o1 as [a| |]; [injection H as <- <-; exists d1; auto| |injection H as <- <-; exists d1; auto].
    destruct (fin s1) as [o2 s2] eqn:E2; destruct (Hf _ _ _ K1 E2) as (d2 & T2 & C2 & K2).
    assert (s' = s2) as -> by (destruct o2; injection H as <- <-; reflexivity).
    exists (d1 ++ d2). split; [rewrite T2, T1; now rewrite app_assoc|split; [apply Forall_app; auto|exact K2]].
  Qed.
  Variable c2 : config.
  Hypothesis Hfuel : c_fuel c2 = c_fuel cfg.
  Lemma tame_ecall c : mutates c = false -> calm_call c -> tame (ecall c2 c).
  Proof.
    intros Hm Hc s o s' C H. unfold ecall in H. rewrite Hm in H. exists [(c, c_oracle c2 (length (s_trace s)))].
    assert (s' = with_trace s (s_trace s ++ [(c, c_oracle c2 (length (s_trace s)))])) as -> by (destruct (r_ans _); injection H as <- <-; reflexivity).
    split; [reflexivity|]. split; [constructor; [exact Hc|constructor]|]. now apply (clean_base cfg s).
  Qed.
  Lemma tame_err c : mutates c = false -> calm_call c -> tame (ecall_err c2 c).
  Proof. intros Hm Hc. unfold ecall_err. apply tame_bind; [now apply tame_ecall|]. intros r. apply tame_ret. Qed.
  Lemma tame_ignore c : mutates c = false -> calm_call c -> tame (ignore_err c2 c).
  Proof. intros Hm Hc. unfold ignore_err. apply tame_bind; [now apply tame_ecall|]. intros r. apply tame_ret. Qed.
  Lemma tame_andthen m n : tame m -> tame n -> tame (andthen m n).
  Proof. intros Hm Hn. unfold andthen. apply tame_bind; [exact Hm|]. intros [e|]; [apply tame_ret|exact Hn]. Qed.
  Lemma tame_each {A} (f : A -> M (option err)) l : (forall a, tame (f a)) -> tame (each f l).
  Proof. intros Hf. induction l; cbn; [apply tame_ret|]. now apply tame_andthen. Qed.
  Lemma tame_walk p : tame (walk_from c2 p).
  Proof.
    unfold walk_from. apply tame_bind; [apply tame_get|]. intros s. apply tame_bind; [apply tame_upd; auto|]. intros _.
    destruct (walk _ _ _ _ _); [apply tame_ret|apply tame_crash].
  Qed.
  Lemma tame_walk_all ps : tame (walk_all c2 ps).
  Proof.
    induction ps; cbn; [apply tame_ret|]. apply tame_bind; [apply tame_walk|]. intros l. apply tame_bind; [exact IHps|]. intros r. apply tame_ret.
  Qed.
  Lemma tame_collect : tame (collectEvents c2).
  Proof.
    unfold collectEvents. apply tame_bind; [apply tame_walk|]. intros l. apply tame_bind; [apply tame_get|]. intros s.
    apply tame_bind; [apply tame_walk_all|]. intros d. apply tame_bind; [apply tame_get|]. intros s2. cbv zeta.
    apply tame_bind; [apply tame_upd; auto|]. intros _. apply tame_ret.
  Qed.
  Lemma tame_dispatch evs : tame (dispatchEvents c2 evs).
  Proof.
    unfold dispatchEvents. destruct (c_dry c2); [apply tame_ret|]. destruct (negb (c_tx c2)); [now apply tame_err|].
    destruct (c_bus c2); [now apply tame_err..|]. apply tame_andthen.
    - destruct (filter _ _); [apply tame_ret|]. apply tame_bind; [now apply tame_ecall|]. intros r. apply tame_bind; [apply tame_upd; auto|]. intros _. apply tame_ret.
    - destruct (filter _ _); [apply tame_ret|]. now apply tame_err.
  Qed.
  Lemma tame_exec acts : w = true -> tame (exec c2 acts).
  Proof.
    intros Hw. unfold exec. destruct (c_dry c2); [apply tame_ret|]. apply tame_andthen.
    - apply tame_each. intros a. now apply tame_err.
    - apply tame_bind; [apply tame_upd; auto|]. intros _. apply tame_ret.
  Qed.
  Hypothesis Hw : w = true \/ c_persist c2 = None.
  Lemma tame_publish evs : tame (publish c2 evs).
  Proof.
    unfold publish. destruct evs as [|e evs]; [apply tame_bind; [apply tame_get|intros; apply tame_ret]|].
    apply tame_bind.
    - destruct (c_persist c2) as [f|]; [|apply tame_ret]. destruct Hw as [W|W]; [|discriminate W].
      destruct (persist_models _ _); [apply tame_ret|]. apply tame_bind; [now apply tame_exec|]. intros x. apply tame_ret.
    - intros [r|]; [apply tame_ret|]. destruct (c_bus c2); [apply tame_ret|..]; (apply tame_bind; [apply tame_dispatch|]; intros [x|]; [apply tame_ret|]; apply tame_bind; [apply tame_get|intros; apply tame_ret]).
  Qed.
  Lemma tame_persist : tame (persist c2).
  Proof.
    intros s o s' C H. assert (C2 : clean c2 s) by (now apply (clean_base c2 s)).
    destruct (clean_persist c2 s C2) as [P|P]; rewrite P in H; injection H as <- <-; exists []; cbn; rewrite !app_nil_r;
      (split; [reflexivity|]; split; [constructor|]); apply (clean_base cfg s); auto; cbn; now rewrite ?app_nil_r.
  Qed.
  Lemma tame_idle : tame (do_ c2 (BRet None)).
  Proof.
    unfold do_. apply tame_bind; [apply tame_ret|]. intros [x|]; [apply tame_ret|]. apply tame_bind; [apply tame_get|]. intros s.
    destruct (repo_error s); [apply tame_ret|]. apply tame_bind; [apply tame_persist|]. intros [x|]; [apply tame_ret|].
    apply tame_bind; [apply tame_collect|]. intros evs. apply tame_publish.
  Qed.
  Lemma tame_bus c : mutates c = false -> calm_call c -> tame (bus_call c2 c).
  Proof.
    intros Hm Hc. unfold bus_call. apply tame_bind; [apply tame_get|]. intros s. destruct (c_bus c2); [apply tame_ret..|].
    destruct (s_evctx s); [now apply tame_ignore|apply tame_ret].
  Qed.
  Lemma tame_tx f : tame f -> tame (in_tx c2 f).
  Proof.
    intros Hf. unfold in_tx. apply tame_bind; [now apply tame_err|]. intros [e|]; [apply tame_ret|]. apply tame_on_panic; [|now apply tame_ignore].
    apply tame_bind; [exact Hf|]. intros r. destruct (bad r).
    - apply tame_bind; [now apply tame_ignore|]. intros _. apply tame_bind; [now apply tame_bus|]. intros _. apply tame_ret.
    - apply tame_bind; [now apply tame_err|]. intros [x|]; [apply tame_ret|]. apply tame_bind; [now apply tame_bus|]. intros _. apply tame_ret.
  Qed.
  Lemma tame_release l : tame (release c2 l).
  Proof. induction l; cbn; [apply tame_ret|]. apply tame_bind; [now apply tame_ignore|auto]. Qed.
  Lemma tame_acquire ks : forall got, tame (acquire c2 ks got).
  Proof.
    induction ks; intros got; cbn; [apply tame_ret|]. apply tame_bind; [now apply tame_err|]. intros [x|]; [apply tame_ret|auto].
  Qed.
  Lemma tame_lock f keys : tame f -> tame (on_lock c2 f keys).
  Proof.
    intros Hf. unfold on_lock. cbv zeta. destruct (adj_repeat _); [apply tame_ret|]. apply tame_bind; [apply tame_acquire|]. intros [got [e|]]; apply tame_finally; try apply tame_release; [apply tame_ret|exact Hf].
  Qed.
  Lemma tame_posts n : forall i, tame (post_hooks c2 n i).
  Proof. induction n; intros i; cbn; [apply tame_ret|]. apply tame_bind; [now apply tame_ignore|auto]. Qed.
  Lemma tame_save keys left : tame (stage_save c2 keys (BRet None) left).
  Proof.
    unfold stage_save. apply tame_bind; [apply tame_upd; auto|]. intros _. cbv zeta.
    assert (D : tame (stage_do c2 (BRet None) left)) by (unfold stage_do; apply tame_bind; [apply tame_idle|intros; apply tame_ret]).
    assert (T : tame (if c_tx c2 then in_tx c2 (stage_do c2 (BRet None) left) else stage_do c2 (BRet None) left)) by (destruct (c_tx c2); [now apply tame_tx|exact D]).
    apply tame_bind; [destruct keys; [exact T|now apply tame_lock]|]. intros r. destruct (res_err r); [apply tame_ret|].
    apply tame_bind; [apply tame_posts|]. intros _. apply tame_ret.
  Qed.
End Tame.

(** A piece of a Save that, if it ends well, leaves the entities as a commit found them. *)
Section Settles.
  Variable cfg : config.
  Definition settles (m : M result) : Prop := forall s r s', m s = (Done r, s') -> bad r = false -> clean cfg s'.
  Let Tm {A} (m : M A) := tame cfg true m.
  Lemma settles_bad e : bad e = true -> settles (ret e).
  Proof. intros B s r s' [= <- <-]. congruence. Qed.
  (** the rest keeps it *)
  Lemma settles_keep (m : M result) (f : result -> M result) : settles m ->
    (forall r, bad r = true -> forall s r' s', f r s = (Done r', s') -> bad r' = true) -> (forall r, bad r = false -> Tm (f r)) -> settles (bind m f).
  Proof.
    intros Hm Hb Hf s r s' H B. unfold bind in H. destruct (m s) as [[r1| |] s1] eqn:E; try discriminate.
    destruct (bad r1) eqn:B1; [rewrite (Hb r1 B1 _ _ _ H) in B; discriminate|].
    destruct (Hf r1 B1 s1 _ _ (Hm _ _ _ E B1) H) as (d & _ & _ & C). exact C.
  Qed.
  Lemma settles_do main : orders_ok cfg -> (forall s s', run_body cfg main s = (Done None, s') -> clean cfg s') -> settles (do_ cfg main).
  Proof.
    intros Ho Hm s r s' H B. unfold do_ in H. unfold bind at 1 in H. destruct (run_body cfg main s) as [[[x|]| |] s1] eqn:E; try discriminate.
    - injection H as <- <-. unfold fail_or_break in B. destruct (is_break x); discriminate.
    - specialize (Hm _ _ E). unfold bind at 1, get in H. destruct (repo_error s1) as [x|]; [injection H as <- <-; discriminate|].
      assert (T : Tm (e <- persist cfg ;; match e with Some x => ret (fails x) | None => evs <- collectEvents cfg ;; publish cfg evs end)).
      { apply tame_bind; [now apply tame_persist|]. intros [x|]; [apply tame_ret|]. apply tame_bind; [now apply tame_collect|]. intros evs. apply tame_publish; auto. }
      destruct (T _ _ _ Hm H) as (d & _ & _ & C). exact C.
  Qed.
  Lemma settles_stage_do main left : settles (do_ cfg main) -> settles (stage_do cfg main left).
  Proof.
    intros Hm. unfold stage_do. apply settles_keep; [exact Hm| |intros; apply tame_ret].
    intros r B s r' s' [= <- <-]. unfold with_left. now rewrite B.
  Qed.
  Lemma settles_tx f : settles f -> settles (in_tx cfg f).
  Proof.
    intros Hf s r s' H B. unfold in_tx in H. unfold bind at 1 in H. destruct (ecall_err cfg KBegin s) as [[[x|]| |] s1]; try discriminate; [injection H as <- <-; discriminate|].
    unfold on_panic in H.
    match type of H with (match ?m s1 with _ => _ end) = _ => assert (K : settles m); [|destruct (m s1) as [[r1| |] s2] eqn:E] end.
    - apply settles_keep; [exact Hf| |].
      + intros r1 B1 t r' t' H1. rewrite B1 in H1. unfold bind in H1. destruct (ignore_err cfg KRollback t) as [[| |] t1]; try discriminate.
        destruct (bus_call cfg KBusRollback t1) as [[| |] t2]; try discriminate. injection H1 as <- <-. exact B1.
      + intros r1 B1. rewrite B1. apply tame_bind; [now apply tame_err|]. intros [x|]; [apply tame_ret|]. apply tame_bind; [now apply tame_bus|]. intros _. apply tame_ret.
    - injection H as <- <-. exact (K _ _ _ E B).
    - destruct (ignore_err cfg KRollback s2) as [[| |] ?]; discriminate.
    - discriminate.
  Qed.
  Lemma settles_lock f keys : settles f -> settles (on_lock cfg f keys).
  Proof.
    intros Hf s r s' H B. unfold on_lock in H. cbv zeta in H. destruct (adj_repeat _); [injection H as <- <-; discriminate|].
    unfold bind in H. destruct (acquire cfg _ [] s) as [[[got e]| |] s1]; try discriminate. cbn [fst snd] in H. unfold finally in H.
    match type of H with (match ?m s1 with _ => _ end) = _ => assert (K : settles m); [|destruct (m s1) as [[r1| |] s2] eqn:E] end.
    - destruct e; [now apply settles_bad|exact Hf].
    - destruct (release cfg got s2) as [[u| |] s3] eqn:R; try discriminate. injection H as <- <-.
      assert (T : Tm (release cfg got)) by now apply tame_release. destruct (T _ _ _ (K _ _ _ E B) R) as (d & _ & _ & C). exact C.
    - destruct (release cfg got s2) as [[u| |] s3]; discriminate.
    - discriminate.
  Qed.
  Lemma settles_save keys main left : orders_ok cfg -> (forall s s', run_body cfg main s = (Done None, s') -> clean cfg s') -> settles (stage_save cfg keys main left).
  Proof.
    intros Ho Hm. assert (S1 : settles (stage_do cfg main left)) by now apply settles_stage_do, settles_do.
    assert (S2 : settles (if c_tx cfg then in_tx cfg (stage_do cfg main left) else stage_do cfg main left)) by (destruct (c_tx cfg); [now apply settles_tx|exact S1]).
    intros s r s' H B. unfold stage_save in H. cbv zeta in H. unfold bind at 1, upd at 1 in H. revert H B. 
    match goal with |- bind ?m ?f ?x = _ -> _ => assert (K : settles (bind m f)); [|intros H B; exact (K _ _ _ H B)] end.
    apply settles_keep.
    - destruct keys; [exact S2|now apply settles_lock].
    - intros r0 B0 t r' t' H. destruct (res_err r0) eqn:Er; [injection H as <- <-; exact B0|].
      unfold bind in H. destruct (post_hooks cfg (c_posts cfg) 0 t) as [[| |] t1]; try discriminate. injection H as <- <-. exact B0.
    - intros r0 _. destruct (res_err r0); [apply tame_ret|]. apply tame_bind; [now apply tame_posts|]. intros _. apply tame_ret.
  Qed.
  (** a main function that ends with Repository.Save *)
  Lemma settled_by_save main : orders_ok cfg -> forall s s',
    run_body cfg (body_bind main (fun e => match e with Some x => BRet (Some x) | None => BSave (fun e => BRet e) end)) s = (Done None, s') -> clean cfg s'.
  Proof.
    intros Ho s s' H. rewrite run_bind in H. unfold bind in H. destruct (run_body cfg main s) as [[[x|]| |] s1]; try discriminate.
    cbn [run_body] in H. unfold bind in H. destruct (repo_save cfg s1) as [[e| |] s2] eqn:E; try discriminate. injection H as -> ->.
    unfold repo_save, bind, get in E. destruct (repo_error s1); [discriminate|]. now apply commit_clean in E.
  Qed.
End Settles.

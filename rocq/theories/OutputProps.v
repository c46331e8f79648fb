(** C68: Result.Output. *)
From Verif Require Import EngineProof1 EngineProps OutputSpec.
From Verif Require Import EngineModel.

Definition keepo (s s' : st) : Prop := s_output s' = s_output s.
Section KeepOutput.
  Variable cfg : config.
  Notation K := (pres keepo).
  Lemma ko_refl s : keepo s s. Proof. reflexivity. Qed.
  Lemma ko_trans s1 s2 s3 : keepo s1 s2 -> keepo s2 s3 -> keepo s1 s3. Proof. unfold keepo. congruence. Qed.
  Lemma kret {A} (a : A) : K (ret a). Proof. now apply pres_ret. Qed.
  Lemma kbind {A B} (m : M A) (f : A -> M B) : K m -> (forall a, K (f a)) -> K (bind m f).
  Proof. apply pres_bind. exact ko_trans. Qed.
  Lemma kthen m n : K m -> K n -> K (andthen m n).
  Proof. apply pres_andthen; [exact ko_refl|exact ko_trans]. Qed.
  Lemma keach {A} (f : A -> M (option err)) l : (forall x, K (f x)) -> K (each f l).
  Proof. intros. apply pres_each; auto; [exact ko_refl|exact ko_trans]. Qed.
  Lemma kupd f : (forall s, s_output (f s) = s_output s) -> K (upd f).
  Proof. intros H. apply pres_upd. exact H. Qed.
  Lemma kget : K get. Proof. now apply pres_get. Qed.
  Lemma kcrash {A} : K (@crash A). Proof. now apply pres_crash. Qed.
  Lemma kpanic {A} : K (@panic A). Proof. now apply pres_panic. Qed.
  Lemma kcall c : K (ecall cfg c).
  Proof. intros s o s' H. unfold ecall in H. unfold keepo. destruct (mutates c), (r_ans _); injection H as <- <-; reflexivity. Qed.
  Ltac k := repeat first
    [ apply kret | apply kget | apply kcrash | apply kpanic
    | apply kbind; [|intros ?] | apply kthen | apply keach; intros ?
    | apply kcall | apply kupd; intros ?; reflexivity
    | progress unfold ecall_err
    | match goal with
      | |- K (match ?x with _ => _ end) => destruct x
      | |- K (if ?x then _ else _) => destruct x
      end ].
  Lemma k_walk p : K (walk_from cfg p). Proof. unfold walk_from. k. Qed.
  Lemma k_snap : K (updateSnapshot cfg). Proof. unfold updateSnapshot. k; try apply k_walk. Qed.
  Lemma k_flush : K (flush cfg). Proof. unfold flush. k; try apply k_snap. Qed.
  Lemma k_undirty : K (unDirty cfg). Proof. unfold unDirty. k; try apply k_walk. Qed.
  Lemma k_persist : K (persist cfg).
  Proof. unfold persist, changed, hooks, execHook, putNewID, putID, makeActions, exec, recycle. k. Qed.
  Lemma k_commit : K (commit cfg). Proof. unfold commit. apply kthen; [apply k_persist|]. apply kthen; [apply k_flush|]. apply kbind; [apply k_undirty|intros; apply kret]. Qed.
  Lemma k_meta_add p : K (meta_add p). Proof. unfold meta_add. k. Qed.
  Lemma k_meta_remove p : K (meta_remove p). Proof. unfold meta_remove. k. Qed.
  Lemma k_add ps : K (repo_add ps). Proof. unfold repo_add, append_err. k; try apply k_meta_add. Qed.
  Lemma k_walk_all ps : K (walk_all cfg ps). Proof. induction ps as [|p t IH]; cbn; k; auto; try apply k_walk. Qed.
  Lemma k_collect : K (collectEvents cfg). Proof. unfold collectEvents. k; try first [apply k_walk|apply k_walk_all]. Qed.

  Lemma last_output_nil b : last_output [] b = b. Proof. reflexivity. Qed.
  Lemma last_output_cons d l b : last_output (d :: l) b = last_output l (Some d).
  Proof. unfold last_output. cbn. destruct (rev l) eqn:E; reflexivity. Qed.

  (** the logging body behaves like the body *)
  Definition map_out {A B} (f : A -> B) (o : out A) : out B := match o with Done a => Done (f a) | Panic => Panic | Crash => Crash end.
  Lemma logged_same {R} (b : body R) : forall l s, run_body cfg b s = (map_out fst (fst (run_body cfg (logged b l) s)), snd (run_body cfg (logged b l) s)).
  Proof.
    induction b as [r| |k IH|f k IH|p k IH|f ps k IH|ps k IH|ps k IH|k IH|d k IH|p k IH|ps k IH|p k IH|p k IH]; intros l s; cbn [run_body logged]; try reflexivity;
      try (exact (IH _ _ _)); try (exact (IH _ _)); try (exact (IH _ _ _ _)).
    - unfold bind. destruct (repo_get cfg p s) as [[e| |] s1]; [apply IH|reflexivity|reflexivity].
    - unfold bind. destruct (repo_custom_get cfg f ps s) as [[e| |] s1]; [apply IH|reflexivity|reflexivity].
    - unfold bind. destruct (repo_add ps s) as [[e| |] s1]; [apply IH|reflexivity|reflexivity].
    - unfold bind. destruct (repo_remove cfg ps s) as [[e| |] s1]; [apply IH|reflexivity|reflexivity].
    - unfold bind. destruct (repo_save cfg s) as [[e| |] s1]; [apply IH|reflexivity|reflexivity].
    - unfold bind. destruct (cmd_build cfg p s) as [[e| |] s1]; [apply IH|reflexivity|reflexivity].
    - unfold bind. destruct (cmd_load cfg ps s) as [[e| |] s1]; [apply IH|reflexivity|reflexivity].
    - unfold bind. destruct (root_add p s) as [[e| |] s1]; [apply IH|reflexivity|reflexivity].
    - unfold bind. destruct (root_remove p s) as [[e| |] s1]; [apply IH|reflexivity|reflexivity].
  Qed.
  Lemma logged_output {R} (b : body R) : forall l s r l' s', run_body cfg (logged b l) s = (Done (r, l'), s') ->
    exists l2, l' = l ++ l2 /\ s_output s' = last_output l2 (s_output s).
  Proof.
    assert (Step : forall {X} (m : M X) (s s1 : st) (x : X), K m -> m s = (Done x, s1) -> s_output s1 = s_output s) by (intros X m s s1 x Hm E; exact (Hm _ _ _ E)).
    induction b as [r0| |k IH|f k IH|p k IH|f ps k IH|ps k IH|ps k IH|k IH|d k IH|p k IH|ps k IH|p k IH|p k IH]; intros l s r l' s' H; cbn in H.
    - injection H as <- <- <-. exists []. now rewrite app_nil_r.
    - discriminate.
    - unfold bind, get in H. eauto.
    - unfold bind, upd in H. destruct (IH _ _ _ _ _ H) as (l2 & E1 & E2). exists l2. auto.
    - apply bind_done in H. destruct H as (e & s1 & H1 & H2). destruct (IH _ _ _ _ _ _ H2) as (l2 & E1 & E2). exists l2. split; auto. rewrite E2. f_equal.
      eapply Step; [|exact H1]. unfold repo_get. k; try first [apply k_meta_add|apply k_snap].
    - apply bind_done in H. destruct H as (e & s1 & H1 & H2). destruct (IH _ _ _ _ _ _ H2) as (l2 & E1 & E2). exists l2. split; auto. rewrite E2. f_equal.
      eapply Step; [|exact H1]. unfold repo_custom_get. k; try first [apply k_meta_add|apply k_snap].
    - apply bind_done in H. destruct H as (e & s1 & H1 & H2). destruct (IH _ _ _ _ _ H2) as (l2 & E1 & E2). exists l2. split; auto. rewrite E2. f_equal.
      eapply Step; [|exact H1]. apply k_add.
    - apply bind_done in H. destruct H as (e & s1 & H1 & H2). destruct (IH _ _ _ _ _ H2) as (l2 & E1 & E2). exists l2. split; auto. rewrite E2. f_equal.
      eapply Step; [|exact H1]. unfold repo_remove, append_err. k; try first [apply k_add|apply k_snap|apply k_meta_remove].
    - apply bind_done in H. destruct H as (e & s1 & H1 & H2). destruct (IH _ _ _ _ _ _ H2) as (l2 & E1 & E2). exists l2. split; auto. rewrite E2. f_equal.
      eapply Step; [|exact H1]. unfold repo_save. apply kbind; [apply kget|intros s0; destruct (repo_error s0); [apply kret|apply k_commit]].
    - unfold bind, upd in H. destruct (IH _ _ _ _ _ H) as (l2 & E1 & E2). exists (d :: l2). split; [rewrite E1, <- app_assoc; reflexivity|]. rewrite last_output_cons. exact E2.
    - apply bind_done in H. destruct H as (e & s1 & H1 & H2). destruct (IH _ _ _ _ _ _ H2) as (l2 & E1 & E2). exists l2. split; auto. rewrite E2. f_equal.
      eapply Step; [|exact H1]. unfold cmd_build. k.
    - apply bind_done in H. destruct H as (e & s1 & H1 & H2). destruct (IH _ _ _ _ _ _ H2) as (l2 & E1 & E2). exists l2. split; auto. rewrite E2. f_equal.
      eapply Step; [|exact H1]. unfold cmd_load. k; try apply k_flush.
    - apply bind_done in H. destruct H as (e & s1 & H1 & H2). destruct (IH _ _ _ _ _ H2) as (l2 & E1 & E2). exists l2. split; auto. rewrite E2. f_equal.
      eapply Step; [|exact H1]. unfold root_add. k; try apply k_meta_add.
    - apply bind_done in H. destruct H as (e & s1 & H1 & H2). destruct (IH _ _ _ _ _ H2) as (l2 & E1 & E2). exists l2. split; auto. rewrite E2. f_equal.
      eapply Step; [|exact H1]. unfold root_remove. k; try apply k_meta_remove.
  Qed.

  (** the part of the run that builds the result *)
  Lemma publish_output evs s r s' : publish cfg evs s = (Done r, s') -> bad r = false -> res_output r = s_output s.
  Proof.
    unfold publish. intros H Hb. destruct evs as [|ev evs].
    { injection H as <- <-. reflexivity. }
    apply bind_done in H. destruct H as (p & s1 & H1 & H2).
    assert (E1 : s_output s1 = s_output s).
    { destruct (c_persist cfg) as [f|]; [destruct (persist_models f (ev :: evs)) as [x|ms]|]; [now injection H1 as <- <-| |now injection H1 as <- <-].
      refine ((_ : K _) _ _ _ H1). unfold exec. k. }
    destruct p as [r0|].
    { injection H2 as <- <-. exfalso. destruct (c_persist cfg) as [f|]; [|discriminate]. destruct (persist_models f (ev :: evs)).
      - injection H1 as <- <-. discriminate.
      - apply bind_done in H1. destruct H1 as (e & s2 & _ & H1). destruct e; injection H1; intros; subst; discriminate. }
    destruct (c_bus cfg) eqn:Eb.
    { injection H2 as <- <-. discriminate. }
    all: apply bind_done in H2; destruct H2 as (e & s2 & H2 & H3); destruct e as [x|]; [injection H3 as <- <-; discriminate|]; injection H3 as <- <-; cbn; rewrite <- E1;
      refine ((_ : K _) _ _ _ H2); unfold dispatchEvents; k.
  Qed.
  Lemma do_output main s r s' : do_ cfg main s = (Done r, s') -> bad r = false ->
    exists s1 outs, run_body cfg (logged main []) s = (Done (None, outs), s1) /\ res_output r = last_output outs (s_output s).
  Proof.
    intros H Hb. unfold do_ in H. apply bind_done in H. destruct H as (e & s1 & H1 & H2).
    assert (L := logged_same main [] s). rewrite H1 in L. destruct (run_body cfg (logged main []) s) as [[[e' outs]| |] s1'] eqn:El; cbn in L; try discriminate.
    injection L as -> ->. destruct e' as [x|]. { injection H2 as <- <-. unfold fail_or_break in Hb. destruct (is_break x); discriminate. }
    destruct (logged_output main _ _ _ _ _ El) as (l2 & E1 & E2). cbn in E1. subst l2.
    exists s1', outs. split; auto.
    unfold bind at 1, get in H2. destruct (repo_error s1'). { injection H2 as <- <-. discriminate. }
    apply bind_done in H2. destruct H2 as (e2 & s2 & H2 & H3). destruct e2. { injection H3 as <- <-. discriminate. }
    apply bind_done in H3. destruct H3 as (evs & s3 & H3 & H4). rewrite (publish_output _ _ _ _ H4 Hb), (k_collect _ _ _ H3), (k_persist _ _ _ H2). exact E2.
  Qed.
  Lemma opening_call c s o s' : ecall_err cfg c s = (o, s') -> opening c = true -> exists d, s' = with_trace s (s_trace s ++ d) /\ Forall (fun x => opening (fst x) = true) d.
  Proof.
    unfold ecall_err, bind, ecall, ret. intros H Hc. set (r := c_oracle cfg (length (s_trace s))) in *. exists [(c, r)].
    assert (mutates c = false) as E by (destruct c; cbn in *; congruence). rewrite E in H. split; [|repeat constructor; exact Hc]. destruct (r_ans r); injection H as <- <-; reflexivity.
  Qed.
  Lemma tx_output main s r s' : in_tx cfg (do_ cfg main) s = (Done r, s') -> bad r = false ->
    exists d s1 outs, Forall (fun x => opening (fst x) = true) d /\ run_body cfg (logged main []) (with_trace s (s_trace s ++ d)) = (Done (None, outs), s1) /\ res_output r = last_output outs (s_output s).
  Proof.
    intros H Hb. unfold in_tx in H. apply bind_done in H. destruct H as (e & s1 & H1 & H2). destruct e. { injection H2 as <- <-. discriminate. }
    destruct (opening_call _ _ _ _ H1 eq_refl) as (d & -> & Fd). unfold on_panic in H2.
    destruct (bind (do_ cfg main) _ (with_trace s (s_trace s ++ d))) as [[a| |] s2] eqn:E; [|destruct (ignore_err cfg KRollback s2) as [[]]; discriminate|discriminate].
    injection H2 as -> ->. apply bind_done in E. destruct E as (r1 & s3 & E1 & E2).
    assert (r = r1). { destruct (bad r1) eqn:B1.
      - exfalso. apply bind_done in E2. destruct E2 as (? & ? & _ & E2). apply bind_done in E2. destruct E2 as (? & ? & _ & E2). injection E2 as <- <-. congruence.
      - apply bind_done in E2. destruct E2 as (c & s4 & _ & E2). destruct c. { injection E2 as <- <-. cbn in Hb. discriminate. } apply bind_done in E2. destruct E2 as (? & ? & _ & E2). now injection E2 as <- <-. }
    subst r1. destruct (do_output main _ _ _ E1 Hb) as (s4 & outs & A & B). exists d, s4, outs. auto.
  Qed.
  Lemma acquire_opening ks : forall got s g s', acquire cfg ks got s = (Done g, s') -> exists d, s' = with_trace s (s_trace s ++ d) /\ Forall (fun x => opening (fst x) = true) d.
  Proof.
    induction ks as [|x ks IH]; intros got s g s' H; cbn in H.
    - injection H as _ <-. exists []. split; [rewrite app_nil_r; destruct s; reflexivity|constructor].
    - apply bind_done in H. destruct H as (e & s1 & H1 & H2). destruct (opening_call _ _ _ _ H1 eq_refl) as (d & -> & Fd). destruct e.
      + injection H2 as _ <-. eauto.
      + destruct (IH _ _ _ _ H2) as (d2 & -> & Fd2). exists (d ++ d2). cbn. rewrite app_assoc. split; [reflexivity|apply Forall_app; auto].
  Qed.
End KeepOutput.

(** In a run that neither failed nor broke off, Result.Output is what the command passed to Output last: [outs] are the data
    its body passed to Output when it ran (from the state after taking the locks and opening the transaction). *)
Theorem C68_output_returned_partial :
  forall cfg keys main s r s', save cfg keys main s = (Done r, s') -> res_err r = None -> res_break r = false ->
  exists d s1 outs, Forall (fun x => opening (fst x) = true) d /\
    run_body cfg (logged main []) (with_trace s (s_trace s ++ d)) = (Done (None, outs), s1) /\
    res_output r = last_output outs (s_output s).
Proof.
  intros cfg keys main s r s' H He Hk. assert (Hb : bad r = false) by (unfold bad; now rewrite He).
  unfold save in H. apply bind_done in H. destruct H as (r1 & s1 & H1 & H2).
  assert (r = r1) as ->. { destruct (res_err r1) eqn:E1. - now injection H2 as <- <-. - apply bind_done in H2. destruct H2 as (? & ? & _ & H2). now injection H2 as <- <-. }
  assert (Core : forall s0 s2, (if c_tx cfg then in_tx cfg (do_ cfg main) else do_ cfg main) s0 = (Done r1, s2) -> exists d s3 outs, Forall (fun x => opening (fst x) = true) d /\
     run_body cfg (logged main []) (with_trace s0 (s_trace s0 ++ d)) = (Done (None, outs), s3) /\ res_output r1 = last_output outs (s_output s0)).
  { intros s0 s2 H. destruct (c_tx cfg); [eapply tx_output; eauto|]. destruct (do_output cfg main _ _ _ H Hb) as (s3 & outs & A & B). exists [], s3, outs. rewrite app_nil_r. split; [constructor|]. destruct s0; auto. }
  destruct keys as [|k0 ks]; [eapply Core; exact H1|].
  unfold on_lock in H1. destruct (adj_repeat _). { injection H1 as <- <-. discriminate. }
  apply bind_done in H1. destruct H1 as ([got le] & s2 & Ha & Hf). destruct (acquire_opening cfg _ _ _ _ _ Ha) as (d & -> & Fd).
  unfold finally in Hf. cbn [fst snd] in Hf. destruct le as [x|].
  { cbn in Hf. destruct (release cfg got _) as [[]]; try discriminate. injection Hf as <- <-. discriminate. }
  destruct ((if c_tx cfg then in_tx cfg (do_ cfg main) else do_ cfg main) (with_trace s (s_trace s ++ d))) as [[r2| |] s3] eqn:E; cbn [c_tx] in Hf.
  - destruct (release cfg got s3) as [[]]; try discriminate. injection Hf as -> _. destruct (Core _ _ E) as (d2 & s4 & outs & F2 & A & B). exists (d ++ d2), s4, outs.
    split; [apply Forall_app; auto|]. cbn in A. rewrite <- app_assoc in A. destruct s; exact (conj A B).
  - destruct (release cfg got s3) as [[]]; discriminate.
  - discriminate.
Qed.
Print Assumptions C68_output_returned_partial.

(** The body that keeps the log behaves exactly like the body itself. *)
Theorem C68_logging_is_neutral :
  forall cfg R (b : body R) s, match run_body cfg (logged b []) s, run_body cfg b s with
    | (Done (r, _), s1), (Done r', s2) => r = r' /\ s1 = s2
    | (Panic, s1), (Panic, s2) | (Crash, s1), (Crash, s2) => s1 = s2
    | _, _ => False end.
Proof. intros cfg R b s. rewrite (logged_same cfg b [] s). destruct (run_body cfg (logged b []) s) as [[[r l]| |] s1]; cbn; auto. Qed.
Print Assumptions C68_logging_is_neutral.

(** A run that breaks off loses its output, although it did not fail and its post-save hooks run. *)
Theorem C68_break_loses_output_refuted :
  ~ (forall cfg keys main s r s', save cfg keys main s = (Done r, s') -> res_err r = None ->
     forall d s1 e outs, run_body cfg (logged main []) (with_trace s (s_trace s ++ d)) = (Done (e, outs), s1) -> outs <> [] -> res_output r <> None).
Proof.
  intros H. set (main := BOutput "x"%string (BRet (Some EBreak))).
  refine (H (ex_cfg false false BusPlain None 1 all_ok) [] main (new_stage ex_heap) (mkResult None true [] None) _ eq_refl eq_refl [] _ _ ["x"%string] eq_refl _ eq_refl). discriminate.
Qed.
Print Assumptions C68_break_loses_output_refuted.
(** Calling Output in Init does not keep Build and Act from running (command.go 99-103 says it does). *)
Theorem C68_output_in_init_does_not_stop_refuted :
  ~ (forall cfg main h d r s', save cfg [] main (with_output (new_stage h) (Some d)) = (Done r, s') -> execs (s_trace s') = []).
Proof.
  intros H. specialize (H (ex_cfg true false BusPlain None 0 all_ok) ex_add ex_heap "x"%string).
  assert (V : match save (ex_cfg true false BusPlain None 0 all_ok) [] ex_add (with_output (new_stage ex_heap) (Some "x"%string)) with (Done _, s') => execs (s_trace s') | _ => [] end = ex_actions) by (vm_compute; reflexivity).
  destruct (save _ _ _ _) as [[r| |] s']; try discriminate. specialize (H r s' eq_refl). rewrite H in V. discriminate.
Qed.
Print Assumptions C68_output_in_init_does_not_stop_refuted.
Example C68_example :
  let main := BOutput "a"%string (BAdd [1] (BSave (fun _ => BOutput "b"%string (BRet None)))) in
  let cfg := ex_cfg true false BusPlain None 1 all_ok in
  let x := save cfg ["k"%string] main (new_stage ex_heap) in
  (match fst x with Done r => res_err r = None /\ res_break r = false /\ res_output r = Some "b"%string | _ => False end) /\
  (match fst (run_body cfg (logged main []) (new_stage ex_heap)) with Done p => p = (None, ["a"%string; "b"%string]) | _ => False end).
Proof. vm_compute. auto. Qed.

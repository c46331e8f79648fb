(** C67: options. *)
From Verif Require Import OptProof2.

(** What a run does is decided by the options of its engine followed by its own, the last of a kind winning; options given
    to other runs or engines have no effect.  For post-save hooks this holds if the engine's hook slice was full, or if no
    sibling run was given a hook since this one got its first. *)
Theorem C67_options_partial :
  forall grow h s e l x os, (forall c, c < grow c) -> wf h -> nth_error (stages_made h) s = Some e -> nth_error (engines_made h) e = Some (l, x, os) ->
  exists st, let w := run grow world0 h in nth_error (w_stages w) s = Some st /\
    let all := os ++ given s h in let v := o_vals (st_opts st) in
    v_tx v = latest tx_of all true /\ v_rec v = latest rec_of all false /\ v_dry v = latest dry_of all false /\ v_persist v = latest persist_of all None /\
    (settled s h -> let p := st_parts st in
       p_locker p = latest locker_of all l /\ p_exec p = latest exec_of all x /\ p_bus p = latest bus_of all 0 /\ p_timer p = latest timer_of all 0 /\
       p_idgen p = latest idgen_of all 0 /\ p_log p = latest log_of all 0) /\
    (In (p_bus (st_parts st)) (w_bus_regs w) /\ In (p_timer (st_parts st)) (w_timer_regs w)) /\
    (undisturbed s h \/ cap_after grow (length (hooks_in os)) = length (hooks_in os) -> hooks_called w st = hooks_in all).
Proof.
  intros grow h s e l x os Hg W Hs He. assert (I := inv_run grow Hg h W).
  destruct (nth_error (w_stages (run grow world0 h)) s) as [st|] eqn:Es.
  2:{ apply nth_error_None in Es. rewrite (i_sl _ _ _ I) in Es. assert (s < length (stages_made h)) by (apply nth_error_Some; congruence). lia. }
  destruct (inv_stage grow _ _ _ _ I Es) as (e' & en & l' & x' & os' & E1 & E2 & E3 & Q & _).
  rewrite Hs in E1. injection E1 as <-. rewrite He in E3. injection E3 as <- <- <-.
  destruct Q as (A1 & A2 & A3 & A4 & A5 & A6 & A7 & A8). exists st. cbv zeta. split; auto.
  destruct (apply_vals_latest (os ++ given s h) (default_vals l x)) as (V1 & V2 & V3 & V4 & V5 & V6 & V7 & V8 & V9 & V10). rewrite <- A3 in *. cbn [default_vals v_tx v_rec v_dry v_locker v_exec v_persist v_log v_bus v_timer v_idgen] in *.
  do 4 (split; [assumption|]). split; [|split; [exact A8|]].
  - intros S. rewrite (A7 S). cbn. auto 10.
  - intros U. apply A6. destruct U as [U|U]; [now left|right]. intros e0 l0 x0 os0 Y1 Y2. rewrite Hs in Y1. injection Y1 as <-. rewrite He in Y2. injection Y2 as <- <- <-. exact U.
Qed.
Print Assumptions C67_options_partial.

(** Without the condition it is false: an engine with three hooks, two overlapping runs with one hook each. *)
Theorem C67_overlapping_runs_refuted :
  ~ (forall h s e l x os st, wf h -> nth_error (stages_made h) s = Some e -> nth_error (engines_made h) e = Some (l, x, os) ->
       nth_error (w_stages (run go_grow world0 h)) s = Some st -> hooks_called (run go_grow world0 h) st = hooks_in (os ++ given s h)).
Proof.
  intros H.
  set (h := [MkEngine 1 1 [OHook 1; OHook 2; OHook 3]; MkStage 0; Give 0 (OHook 10); Settle 0; MkStage 0; Give 1 (OHook 20); Settle 1]).
  assert (W : wf h). { intros h1 v h2 E. do 7 (destruct h1 as [|? h1]; [injection E as <- _; cbn; auto with arith|injection E as <- E]). destruct h1; discriminate. }
  specialize (H h 0 0 1 1 _ _ W eq_refl eq_refl eq_refl). vm_compute in H. discriminate.
Qed.
Print Assumptions C67_overlapping_runs_refuted.

(** Go's growth: engines with 0, 1, 2, 4 or 8 hooks are safe, those with 3, 5, 6 or 7 are not. *)
Example C67_example :
  (forall c, c < go_grow c) /\
  (forall n, In n [0; 1; 2; 4; 8] -> cap_after go_grow n = n) /\ (forall n, In n [3; 5; 6; 7] -> cap_after go_grow n <> n) /\
  let h := [MkEngine 1 2 [OHook 1; OHook 2; OHook 3]; MkStage 0; Give 0 (OHook 10); Give 0 (ODryRun true); Give 0 (OLocker 7); Settle 0; MkStage 0; Settle 1] in
  wf h /\ undisturbed 0 h /\ settled 0 h /\ undisturbed 1 h /\
  map (hooks_called (run go_grow world0 h)) (w_stages (run go_grow world0 h)) = [[1; 2; 3; 10]; [1; 2; 3]] /\
  map (fun st => (p_locker (st_parts st), v_dry (o_vals (st_opts st)))) (w_stages (run go_grow world0 h)) = [(7, true); (1, false)].
Proof.
  split. { intros [|c]; cbn; lia. } split. { intros n [<-|[<-|[<-|[<-|[<-|[]]]]]]; reflexivity. } split. { intros n [<-|[<-|[<-|[<-|[]]]]]; discriminate. }
  intros h. split; [|split; [|split; [|split; [|split; reflexivity]]]].
  - intros h1 v h2 E. do 8 (destruct h1 as [|? h1]; [injection E as <- _; cbn; auto with arith|injection E as <- E]). destruct h1; discriminate.
  - intros h1 y h2 s' z E I _. do 8 (destruct h1 as [|? h1]; [first [discriminate|injection E as <- <-; cbn in I; intuition discriminate]|injection E as _ E]). destruct h1; discriminate.
  - intros h1 o h2 E. do 8 (destruct h1 as [|? h1]; [first [discriminate|injection E as <- <-; cbn; auto]|injection E as _ E]). destruct h1; discriminate.
  - intros h1 y h2 s' z E I _. do 8 (destruct h1 as [|? h1]; [first [discriminate|injection E as <- <-; cbn in I; intuition discriminate]|injection E as _ E]). destruct h1; discriminate.
Qed.

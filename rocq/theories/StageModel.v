(** Model of a Stage used as a value of its own (engine.go 466-483 NewStage, 754-763 Lock and Main,
    1288-1305 Save): several Saves of the same stage, with the caller's code between them.
    One Save is the run of EngineModel; what this file adds is what the stage keeps from one Save to
    the next: the container, the snapshots, the collected actions, the output, the context of the event
    bus, and the shared result (engine.go 601-603), whose Error field is set by a refused Commit (1269). *)
From Verif Require Export EngineModel.

(** engine.go 587-603: [g_left] the field Error of Stage.result, [g_posts] the number of post-save hooks among
    the stage's options, [g_st] everything else that a Save changes *)
Record stage := mkStage { g_st : st; g_left : option err; g_posts : nat }.
(** engine.go 470-483 (NewStage): [posts] hooks are the engine's own *)
Definition fresh_stage (h : heap) (posts : nat) : stage := mkStage (new_stage h) None posts.
(** engine.go 417-421 (PostSaveOption): the options with that many hooks *)
Definition set_posts (c : config) (n : nat) : config :=
  mkConfig (c_tx c) (c_recursive c) (c_dry c) (c_bus c) (c_persist c) n (c_conv c) (c_hooks c) (c_ord c) (c_evord c) (c_fuel c) (c_oracle c).

Section Stage.
  Variable cfg : config.
  (** engine.go 1203 (return e.result): [left] is the Error the shared result already has.  The other
      returns of do (1171-1200) make a new Result; they are the bad ones, see C103_engine_model_agrees. *)
  Definition with_left (left : option err) (r : result) : result :=
    if bad r then r else mkResult left (res_break r) (res_actions r) (res_output r).
  (** engine.go 1164-1204 (do) *)
  Definition stage_do (main : body (option err)) (left : option err) : M result :=
    r <- do_ cfg main ;; ret (with_left left r).
  (** engine.go 1288-1305 (Save); the errors belong to the Repository made by each do (1166), so they
      start empty.  Simplification: they are emptied when Save starts, not after the locks; nothing reads them between. *)
  Definition stage_save (keys : list string) (main : body (option err)) (left : option err) : M result :=
    upd (fun s => with_errs s []) ;;;
    let f := if c_tx cfg then in_tx cfg (stage_do main left) else stage_do main left in
    let f := match keys with [] => f | _ => on_lock cfg f keys end in
    r <- f ;;
    match res_err r with
    | None => post_hooks cfg (c_posts cfg) 0 ;;; ret r
    | Some _ => ret r
    end.
  (** engine.go 1268-1270: the error a refused Commit leaves in the shared result; [calls]: what this Save called *)
  Fixpoint left_after (calls : list (call * resp)) (left : option err) : option err :=
    match calls with
    | [] => left
    | (KCommit, r) :: t => left_after t (match r_ans r with AErr e => Some e | _ => left end)
    | _ :: t => left_after t left
    end.

End Stage.

  (** What the caller does with a stage: WithOption (605-624), Lock(keys), Main(f), Save (754-763, 1288), where [cfg] are the
      options and the environment of that Save; WithOption(PostSaveOption(h)) (606-608, 420); code of its own that changes entities.
      Stage.RunCommand (765-834) is OHook and OSave with the main function of the command, see [stage_command]. *)
  Inductive sop := OSave (cfg : config) (keys : list string) (main : body (option err)) | OHook | OCode (g : heap -> heap).
  (** engine.go 769-805 (runCommand) on a stage, when Init returned [keys] *)
  Definition stage_command (cfg : config) (keys : list string) (build : body (err + list ptr)) (act : list ptr -> body (option err)) : list sop :=
    [OHook; OSave cfg keys (command_main build act)].
  (** what a Save reported and the calls it made *)
  Definition saved := (out result * list (call * resp))%type.
  (** the calls made from [s] to [s'] (bookkeeping of the model, no Go counterpart) *)
  Definition calls_from (s s' : st) : list (call * resp) := skipn (length (s_trace s)) (s_trace s').
  (** engine.go 1288-1305 (Save) on a stage *)
  Definition do_save (cfg : config) (keys : list string) (main : body (option err)) (g : stage) : saved * stage :=
    let (o, s') := stage_save (set_posts cfg (g_posts g)) keys main (g_left g) (g_st g) in
    let calls := calls_from (g_st g) s' in
    ((o, calls), mkStage s' (left_after calls (g_left g)) (g_posts g)).
  (** The caller's program; a panicking Save may be recovered by the caller, the end of the process is the end. *)
  Fixpoint stage_run (ops : list sop) (g : stage) : list saved * stage :=
    match ops with
    | [] => ([], g)
    | OCode f :: t => stage_run t (mkStage (with_heap (g_st g) (f (s_heap (g_st g)))) (g_left g) (g_posts g))
    | OHook :: t => stage_run t (mkStage (g_st g) (g_left g) (S (g_posts g)))
    | OSave cfg keys main :: t =>
        let (x, g1) := do_save cfg keys main g in
        match fst x with
        | Crash => ([x], g1)
        | _ => let (l, g2) := stage_run t g1 in (x :: l, g2)
        end
    end.
  (** The shared result of a successful Save as the caller reads it later, through the pointer it was given
      (engine.go 1203, 1158, 1161, 1269). *)
  Definition result_now (g : stage) : result := mkResult (g_left g) false (s_actions (g_st g)) (s_output (g_st g)).

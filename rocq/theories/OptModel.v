(** Model of the run options: engine.go [Options], [Option.ApplyToOptions], [NewEngine], [Engine.NewStage],
    [Stage.WithOption].  Go slices are modelled with their backing arrays, because [PostSaveHooks] is a slice header copied
    from the engine into every stage. *)
From Coq Require Export List Arith Bool Lia.
Export ListNotations.

(** The options of engine.go 308-425.  Lockers, executors, buses, timers, loggers, id generators, persist functions and hooks
    are values from outside, represented by numbers. *)
Inductive opt :=
| OTransaction (b : bool)      (* engine.go 308-315 *)
| ORecursiveDelete (b : bool)  (* engine.go 317-323 *)
| ODryRun (b : bool)           (* engine.go 325-331 *)
| OLogger (x : nat)            (* engine.go 333-343 *)
| OLocker (x : nat)            (* engine.go 345-355 *)
| OExecutor (x : nat)          (* engine.go 357-367 *)
| OEventBus (x : nat)          (* engine.go 369-379 *)
| OTimer (x : nat)             (* engine.go 381-391 *)
| OPersist (x : nat)           (* engine.go 393-403 *)
| OIDGen (x : nat)             (* engine.go 405-415 *)
| OHook (x : nat).             (* engine.go 417-425, WithPostSave *)

(** A Go slice header: backing array (an index into the heap), length, capacity. *)
Record slice := { sl_arr : nat; sl_len : nat; sl_cap : nat }.

(** The fields of engine.go 291-303 other than the hooks. *)
Record vals := { v_tx : bool; v_rec : bool; v_dry : bool; v_locker : nat; v_exec : nat; v_persist : option nat;
                 v_log : nat; v_bus : nat; v_timer : nat; v_idgen : nat }.
(** engine.go 291-303: Options. *)
Record options := { o_vals : vals; o_hooks : slice }.

(** The copies of the components that Engine (427-435) and Stage (587-597) keep beside their options, and use. *)
Record parts := { p_locker : nat; p_exec : nat; p_bus : nat; p_timer : nat; p_idgen : nat; p_log : nat }.
(** engine.go 427-435: Engine, and 587-603: Stage (only what concerns options). *)
Record engine := { en_opts : options; en_parts : parts }.
(** engine.go 587-603 (Stage): what concerns options *)
Record stage := { st_engine : nat; st_opts : options; st_parts : parts }.

(** The heap holds the backing arrays of hook slices; [w_regs] the buses and timers our handlers are registered with. *)
Record world := { w_heap : list (list nat); w_engines : list engine; w_stages : list stage; w_bus_regs : list nat; w_timer_regs : list nat }.

(** assignment to the n-th element *)
Fixpoint set_nth {A} (n : nat) (x : A) (l : list A) : list A :=
  match l, n with [], _ => [] | _ :: t, O => x :: t | y :: t, S n => y :: set_nth n x t end.
(** the backing array of a slice *)
Definition array (h : list (list nat)) (a : nat) : list nat := nth a h [].
(** The elements a slice shows: what [for _, h := range s] visits (engine.go 1299-1303). *)
Definition elems (h : list (list nat)) (s : slice) : list nat := firstn (sl_len s) (array h (sl_arr s)).

Section WithGrowth.
  (** Capacity that Go's append chooses when the slice is full (runtime.growslice; doubles small slices). *)
  Variable grow : nat -> nat.

  (** Go's built-in append of one element: writes into the backing array when there is room, otherwise into a fresh copy of
      larger capacity (unused cells hold 0). *)
  Definition append (h : list (list nat)) (s : slice) (x : nat) : list (list nat) * slice :=
    if sl_len s <? sl_cap s then
      (set_nth (sl_arr s) (set_nth (sl_len s) x (array h (sl_arr s))) h, {| sl_arr := sl_arr s; sl_len := S (sl_len s); sl_cap := sl_cap s |})
    else
      let c := grow (sl_cap s) in
      (h ++ [elems h s ++ x :: repeat 0 (c - S (sl_len s))], {| sl_arr := length h; sl_len := S (sl_len s); sl_cap := c |}).

  (** ApplyToOptions for the plain fields: engine.go 308-415. *)
  Definition apply_val (v : vals) (o : opt) : vals :=
    match v with
    | {| v_tx := tx; v_rec := rc; v_dry := dr; v_locker := lk; v_exec := ex; v_persist := pe; v_log := lg; v_bus := bu; v_timer := ti; v_idgen := ig |} =>
      match o with
      | OTransaction b => Build_vals b rc dr lk ex pe lg bu ti ig
      | ORecursiveDelete b => Build_vals tx b dr lk ex pe lg bu ti ig
      | ODryRun b => Build_vals tx rc b lk ex pe lg bu ti ig
      | OLogger x => Build_vals tx rc dr lk ex pe x bu ti ig
      | OLocker x => Build_vals tx rc dr x ex pe lg bu ti ig
      | OExecutor x => Build_vals tx rc dr lk x pe lg bu ti ig
      | OEventBus x => Build_vals tx rc dr lk ex pe lg x ti ig
      | OTimer x => Build_vals tx rc dr lk ex pe lg bu x ig
      | OPersist x => Build_vals tx rc dr lk ex (Some x) lg bu ti ig
      | OIDGen x => Build_vals tx rc dr lk ex pe lg bu ti x
      | OHook _ => v
      end
    end.
  (** ApplyToOptions: engine.go 308-425. *)
  Definition apply_opt (h : list (list nat)) (p : options) (o : opt) : list (list nat) * options :=
    match o with
    | OHook x => let (h', s) := append h (o_hooks p) x in (h', {| o_vals := o_vals p; o_hooks := s |})
    | _ => (h, {| o_vals := apply_val (o_vals p) o; o_hooks := o_hooks p |})
    end.
  (** engine.go 449-451, 606-608: the loop over the options *)
  Fixpoint apply_opts (h : list (list nat)) (p : options) (os : list opt) : list (list nat) * options :=
    match os with [] => (h, p) | o :: os => let (h, p) := apply_opt h p o in apply_opts h p os end.

  (** engine.go 437-468 / 619-623: the components are taken from the options. *)
  Definition parts_of (v : vals) : parts :=
    {| p_locker := v_locker v; p_exec := v_exec v; p_bus := v_bus v; p_timer := v_timer v; p_idgen := v_idgen v; p_log := v_log v |}.

  (** engine.go 438-448: the options NewEngine starts from: default logger, id generator, bus (noEventBus) and timer (noTimer)
      are number 0. *)
  Definition default_vals (l e : nat) : vals := Build_vals true false false l e None 0 0 0 0.

  (** What a program does: make an engine; make a stage (one run); give one option to a stage (one iteration of the loop of
      WithOption, 605-608); finish a WithOption call (610-624). *)
  Inductive ev := MkEngine (l e : nat) (os : list opt) | MkStage (e : nat) | Give (s : nat) (o : opt) | Settle (s : nat).

  Definition step (w : world) (x : ev) : world :=
    match x with
    (* engine.go 437-468 NewEngine; the nil slice is a slice over an empty array *)
    | MkEngine l e os =>
      let h0 := w_heap w ++ [[]] in
      let (h, p) := apply_opts h0 {| o_vals := default_vals l e; o_hooks := {| sl_arr := length (w_heap w); sl_len := 0; sl_cap := 0 |} |} os in
      {| w_heap := h; w_engines := w_engines w ++ [{| en_opts := p; en_parts := parts_of (o_vals p) |}]; w_stages := w_stages w;
         w_bus_regs := v_bus (o_vals p) :: w_bus_regs w; w_timer_regs := v_timer (o_vals p) :: w_timer_regs w |}
    (* engine.go 470-483 NewStage: copies the slice header *)
    | MkStage e =>
      match nth_error (w_engines w) e with
      | Some en => {| w_heap := w_heap w; w_engines := w_engines w; w_stages := w_stages w ++ [{| st_engine := e; st_opts := en_opts en; st_parts := en_parts en |}];
                      w_bus_regs := w_bus_regs w; w_timer_regs := w_timer_regs w |}
      | None => w
      end
    (* engine.go 606-608 *)
    | Give s o =>
      match nth_error (w_stages w) s with
      | Some st => let (h, p) := apply_opt (w_heap w) (st_opts st) o in
        {| w_heap := h; w_engines := w_engines w; w_stages := set_nth s {| st_engine := st_engine st; st_opts := p; st_parts := st_parts st |} (w_stages w);
           w_bus_regs := w_bus_regs w; w_timer_regs := w_timer_regs w |}
      | None => w
      end
    (* engine.go 610-624 *)
    | Settle s =>
      match nth_error (w_stages w) s with
      | Some st => let v := o_vals (st_opts st) in
        {| w_heap := w_heap w; w_engines := w_engines w;
           w_stages := set_nth s {| st_engine := st_engine st; st_opts := st_opts st; st_parts := parts_of v |} (w_stages w);
           w_bus_regs := v_bus v :: w_bus_regs w; w_timer_regs := v_timer v :: w_timer_regs w |}
      | None => w
      end
    end.
  (** a history: the events one after the other *)
  Definition run (w : world) (h : list ev) : world := fold_left step h w.
  (** no engine yet *)
  Definition world0 : world := {| w_heap := []; w_engines := []; w_stages := []; w_bus_regs := []; w_timer_regs := [] |}.

  (** The hooks a stage calls at this moment: engine.go 1299-1303. *)
  Definition hooks_called (w : world) (st : stage) : list nat := elems (w_heap w) (o_hooks (st_opts st)).
End WithGrowth.

(** Go's growth for small slices of function values: 0, 1, 2, 4, 8, ... *)
Definition go_grow (c : nat) : nat := if c =? 0 then 1 else 2 * c.

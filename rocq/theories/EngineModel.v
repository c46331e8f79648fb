(** Model of one engine run: snapshots, persist, actions, hooks, ids, events, transaction, locks.
    Source: engine.go (line numbers below), executor.go, command.go.  All external calls (executor,
    locker, event bus, id generator, entity hooks, post-save hooks) go through [ecall]: they are
    recorded in a trace and answered by an arbitrary oracle. *)
From Verif Require Export GraphModel.

(* ---------------------------------------------------------------- errors *)
(** Go errors as far as errors.Is distinguishes them.  [EUser]: any other error value. *)
Inductive err :=
| EBreak | ENotFound | ERepeated | ENotRegister | ENoEventBus | ELocked      (* engine.go 34-38, executor.go 34, event.go *)
| EHasAdded                   (* engine.go 203, 222 "entity has added" *)
| EMustBeNew                  (* 236 *)
| EMustHaveID                 (* 643, 785 *)
| EKeyRepeated                (* 1213 *)
| EMove                       (* snapshot.go 298 *)
| EUser (n : nat)
| EWrap (e : err)             (* fmt.Errorf with %w *)
| EJoin (l : list err)        (* errors.Join *)
| EList (l : list err).       (* engine.go 122-130: ErrList has no Unwrap *)
(** errors.Is(e, ErrBreak) *)
Fixpoint is_break (e : err) : bool :=
  match e with
  | EBreak => true
  | EWrap e' => is_break e'
  | EJoin l => existsb is_break l
  | _ => false
  end.

(* ---------------------------------------------------------------- actions *)
(** executor.go 24-32 (OpType), 40-47 (Action; the Query fields are not used by writes). *)
Inductive op := OpInsert | OpUpdate | OpDelete | OpQuery.
(** executor.go 40-47 (Action, as far as writes use it) *)
Record action := mkAction { a_op : op; a_models : list model; a_prev : list (option model) }.
(** executor.go 24-32: equality of operations, as the map typeActions needs it (engine.go 927) *)
Definition op_eqb (a b : op) : bool :=
  match a, b with
  | OpInsert, OpInsert | OpUpdate, OpUpdate | OpDelete, OpDelete | OpQuery, OpQuery => true
  | _, _ => false
  end.
(** engine.go 627-637 (changeType2OP) *)
Definition change_op (t : change_type) : op :=
  match t with CNew => OpInsert | CDirty => OpUpdate | CDelete | CClear => OpDelete end.

(** Result of executor.Entity2Model.  [NotReg true]: an error that wraps ErrEntityNotRegister. *)
Inductive conv := CModel (m : model) | NotReg (wrapped : bool) | ConvErr (e : err).

(* ---------------------------------------------------------------- external calls *)
Inductive call :=
| KLock (k : string) | KUnLock (k : string)
| KBegin | KCommit | KRollback
| KExec (a : action)
| KBuild (root : ptr)                            (* BuildEntity: queries filling entities *)
| KHook (p : ptr) (t : change_type) (before : bool)
| KNewID
| KDispatch (evs : list event) | KDispatchBegin (evs : list event)
| KBusCommit | KBusRollback
| KPostSave (i : nat).
(** what an external call returns: nil, an error, or a panic (any interface of engine.go 278-330, executor.go 49-60) *)
Inductive answer := AOk | AErr (e : err) | APanic.
(** What the environment answers.  [r_heap]: effect on entities (hooks and queries only);
    [r_id]: the id of NewID; [r_ctx]: whether DispatchBegin's returned context is non-nil. *)
Record resp := mkResp { r_ans : answer; r_heap : heap -> heap; r_id : string; r_ctx : bool }.

(** engine.go 465-471, 1035-1060: no event bus, IEventBus only, ITransactionEventBus *)
Inductive bus_kind := BusNone | BusPlain | BusTx.

(** Options (engine.go 291-303), the executor's converter and the user's types. *)
Record config := mkConfig {
  c_tx : bool; c_recursive : bool; c_dry : bool;
  c_bus : bus_kind;
  c_persist : option (event -> err + model);         (* EventPersist *)
  c_posts : nat;                                     (* number of PostSaveHooks *)
  c_conv : heap -> ptr -> option ptr -> op -> conv;  (* Entity2Model *)
  c_hooks : nat -> change_type -> bool -> bool;      (* does the entity type implement the hook *)
  c_ord : nat -> map_order;                          (* map iteration order of the n-th walk *)
  c_evord : nat -> list event -> list event;         (* map iteration order of the event map *)
  c_fuel : nat;
  c_oracle : nat -> resp }.

(** engine.go 132-137 (Result) *)
Record result := mkResult { res_err : option err; res_break : bool; res_actions : list action; res_output : option string }.

(** engine.go 587-603 (Stage) and 185-188 (Repository.errs). *)
Record st := mkSt {
  s_heap : heap; s_cont : container; s_pool : pool; s_actions : list action; s_output : option string;
  s_evctx : bool; s_errs : list err; s_tick : nat; s_trace : list (call * resp) }.
(** assignment to one field of the state (here: fields of entities, e.g. engine.go 917, 875) *)
Definition with_heap s v := mkSt v (s_cont s) (s_pool s) (s_actions s) (s_output s) (s_evctx s) (s_errs s) (s_tick s) (s_trace s).
(** assignment to Stage.meta (engine.go 90-120, 601) *)
Definition with_cont s v := mkSt (s_heap s) v (s_pool s) (s_actions s) (s_output s) (s_evctx s) (s_errs s) (s_tick s) (s_trace s).
(** assignment to Stage.snapshot (engine.go 602, 845, 857) *)
Definition with_pool s v := mkSt (s_heap s) (s_cont s) v (s_actions s) (s_output s) (s_evctx s) (s_errs s) (s_tick s) (s_trace s).
(** assignment to Stage.result.Actions (engine.go 1158) *)
Definition with_actions s v := mkSt (s_heap s) (s_cont s) (s_pool s) v (s_output s) (s_evctx s) (s_errs s) (s_tick s) (s_trace s).
(** assignment to Stage.result.Output (engine.go 1163) *)
Definition with_output s v := mkSt (s_heap s) (s_cont s) (s_pool s) (s_actions s) v (s_evctx s) (s_errs s) (s_tick s) (s_trace s).
(** assignment to Stage.eventCtx (engine.go 604) *)
Definition with_evctx s v := mkSt (s_heap s) (s_cont s) (s_pool s) (s_actions s) (s_output s) v (s_errs s) (s_tick s) (s_trace s).
(** assignment to Repository.errs (engine.go 190-192) *)
Definition with_errs s v := mkSt (s_heap s) (s_cont s) (s_pool s) (s_actions s) (s_output s) (s_evctx s) v (s_tick s) (s_trace s).
(** counts the external calls (bookkeeping of the model, no Go counterpart) *)
Definition with_tick s v := mkSt (s_heap s) (s_cont s) (s_pool s) (s_actions s) (s_output s) (s_evctx s) (s_errs s) v (s_trace s).
(** records the external calls (bookkeeping of the model, no Go counterpart) *)
Definition with_trace s v := mkSt (s_heap s) (s_cont s) (s_pool s) (s_actions s) (s_output s) (s_evctx s) (s_errs s) (s_tick s) v.

(** Outcome of a piece of Go code: it returns, panics, or the process dies (stack overflow: no
    deferred function runs). *)
Inductive out (A : Type) := Done (a : A) | Panic | Crash.
Arguments Done {A}. Arguments Panic {A}. Arguments Crash {A}.
(** Go statements as state transformers (no Go counterpart) *)
Definition M (A : Type) := st -> out A * st.
(** return of a Go function *)
Definition ret {A} (a : A) : M A := fun s => (Done a, s).
(** Go statement sequence: a panic or the end of the process skips the rest *)
Definition bind {A B} (m : M A) (f : A -> M B) : M B := fun s =>
  match m s with
  | (Done a, s') => f a s'
  | (Panic, s') => (Panic, s')
  | (Crash, s') => (Crash, s')
  end.
(** read of the state by a Go expression *)
Definition get : M st := fun s => (Done s, s).
(** assignment *)
Definition upd (f : st -> st) : M unit := fun s => (Done tt, f s).
(** Go panic *)
Definition panic {A} : M A := fun s => (Panic, s).
(** the process ends (fatal error such as stack overflow: no deferred function runs) *)
Definition crash {A} : M A := fun s => (Crash, s).
Declare Scope m_scope.
Delimit Scope m_scope with m.
Notation "x <- c1 ;; c2" := (bind c1 (fun x => c2)) (at level 61, c1 at next level, right associativity) : m_scope.
Notation "c1 ;;; c2" := (bind c1 (fun _ => c2)) (at level 61, right associativity) : m_scope.
Open Scope m_scope.
(** [err := f(); if err != nil { return err }; g] for functions returning only an error. *)
Definition andthen (m n : M (option err)) : M (option err) :=
  e <- m ;; match e with Some x => ret (Some x) | None => n end.
(** A loop that stops at the first error. *)
Fixpoint each {A} (f : A -> M (option err)) (l : list A) : M (option err) :=
  match l with [] => ret None | x :: t => andthen (f x) (each f t) end.
(** defer: [fin] also runs when [m] panics; a panic in [fin] replaces the result. *)
Definition finally {A} (m : M A) (fin : M unit) : M A := fun s =>
  match m s with
  | (Done a, s') => match fin s' with (Done _, s'') => (Done a, s'') | (Panic, s'') => (Panic, s'') | (Crash, s'') => (Crash, s'') end
  | (Panic, s') => match fin s' with (Crash, s'') => (Crash, s'') | (_, s'') => (Panic, s'') end
  | (Crash, s') => (Crash, s')
  end.
(** defer func() { if r := recover(); r != nil { onp; panic(r) } } *)
Definition on_panic {A} (m : M A) (onp : M unit) : M A := fun s =>
  match m s with
  | (Done a, s') => (Done a, s')
  | (Panic, s') => match onp s' with (Crash, s'') => (Crash, s'') | (_, s'') => (Panic, s'') end
  | (Crash, s') => (Crash, s')
  end.

(** calls that get the entities themselves and may change them: entity hooks (engine.go 1106-1145), Model2Entity in BuildEntity (641-740) *)
Definition mutates (c : call) : bool := match c with KHook _ _ _ | KBuild _ => true | _ => false end.

Section Engine.
  Variable cfg : config.

  (** One external call: the [n]-th call of the run gets the [n]-th answer of the oracle. *)
  Definition ecall (c : call) : M resp := fun s =>
    let r := c_oracle cfg (length (s_trace s)) in
    let s1 := with_trace s (s_trace s ++ [(c, r)]) in
    let s2 := if mutates c then with_heap s1 (r_heap r (s_heap s1)) else s1 in
    match r_ans r with APanic => (Panic, s2) | _ => (Done r, s2) end.
  (** the error value of a returned call *)
  Definition err_of (r : resp) : option err := match r_ans r with AErr e => Some e | _ => None end.
  (** err := call() of any interface method *)
  Definition ecall_err (c : call) : M (option err) := r <- ecall c ;; ret (err_of r).

  (** snapshot.go 136-189 (findChildren) on the present heap *)
  Definition kids_now (s : st) : ptr -> list (key * list ptr) := findChildren (s_heap s) (ct_roots (s_cont s)).
  (** snapshot.go 191-206 used from the stage; each walk iterates its maps in its own order. *)
  Definition walk_from (p : ptr) : M (list (ptr * option ptr)) :=
    s <- get ;;
    upd (fun s => with_tick s (S (s_tick s))) ;;;
    match walk (c_ord cfg (s_tick s)) (kids_now s) (c_fuel cfg) p None with
    | None => crash
    | Some l => ret l
    end.

  (** engine.go 852-868 (updateSnapshot): the callback.  Line 859 calls errors.Is with swapped
      arguments, so only the unwrapped ErrEntityNotRegister is tolerated. *)
  Definition snap_entity (h : heap) (roots : list ptr) (pl : pool) (p : ptr) (parent : option ptr) : err + pool :=
    match pl p, Nat.eqb p meta with
    | Some _, false => inr pl                                                     (* 854-856 *)
    | _, _ =>
        let put po := inr (fun q => if Nat.eqb q p then Some (mkSnap po (findChildren h roots p)) else pl q) in
        match c_conv cfg h p parent OpQuery with
        | CModel m => put (Some m)
        | NotReg false => put None
        | NotReg true => inl (EWrap ENotRegister)
        | ConvErr e => inl e
        end
    end.
  (** engine.go 849-865: the closure applied along the walk, stopping at the first error *)
  Fixpoint snap_list (h : heap) (roots : list ptr) (pl : pool) (l : list (ptr * option ptr)) : option err * pool :=
    match l with
    | [] => (None, pl)
    | (p, par) :: t => match snap_entity h roots pl p par with
                       | inl e => (Some e, pl)
                       | inr pl' => snap_list h roots pl' t
                       end
    end.
  (** engine.go 849-866 (updateSnapshot) *)
  Definition updateSnapshot : M (option err) :=
    l <- walk_from meta ;;
    s <- get ;;
    let r := snap_list (s_heap s) (ct_roots (s_cont s)) (s_pool s) l in
    upd (fun s => with_pool s (snd r)) ;;; ret (fst r).

  (** 846-849 (flush) *)
  Definition flush : M (option err) := upd (fun s => with_pool s (fun _ => None)) ;;; updateSnapshot.

  (** 874-880 (unDirty) *)
  Definition undirty_all (h : heap) (ps : list ptr) : heap :=
    fun p => if memb p ps then set_dirty (h p) false else h p.
  (** engine.go 874-880 (unDirty) *)
  Definition unDirty : M unit :=
    l <- walk_from meta ;; upd (fun s => with_heap s (undirty_all (s_heap s) (map fst l))).

  (** 882-894 (getEntityChanged) *)
  Definition changed : M (err + list change) :=
    s <- get ;;
    upd (fun s => with_tick s (S (s_tick s))) ;;;
    match getEntityChanged (c_recursive cfg) (c_ord cfg (s_tick s)) (kids_now s)
            (fun p => e_dirty (s_heap s p)) (s_pool s) (c_fuel cfg) with
    | RFuel => crash
    | RErr => ret (inl EMove)
    | ROk chs => ret (inr chs)
    end.

  (** 896-904 (recycle) *)
  Definition recycle_list (c : container) (chs : list change) : container :=
    mkCont (ct_roots c) (ct_deleted c ++ flat_map (fun ch => match ch_type ch with CDelete => ch_kids ch | _ => [] end) chs).
  (** engine.go 896-904 (recycle) *)
  Definition recycle (chs : list change) : M unit := upd (fun s => with_cont s (recycle_list (s_cont s) chs)).

  (** 1106-1145 (execHook); all children of all changes in order (1072-1078, 1092-1098) *)
  Definition execHook (t : change_type) (before : bool) (p : ptr) : M (option err) :=
    s <- get ;;
    match t with
    | CClear => ret None
    | _ => if c_hooks cfg (e_type (s_heap s p)) t before then ecall_err (KHook p t before) else ret None
    end.
  (** engine.go 1072-1078, 1092-1098: execHook for all children of all changes in order *)
  Definition hooks (before : bool) (chs : list change) : M (option err) :=
    each (fun ch => each (execHook (ch_type ch) before) (ch_kids ch)) chs.

  (** 907-923 (putNewID) *)
  Definition putID (p : ptr) : M (option err) :=
    s <- get ;;
    if String.eqb (e_id (s_heap s p)) "" then
      r <- ecall KNewID ;;
      match r_ans r with
      | AErr e => ret (Some e)
      | _ => upd (fun s => with_heap s (hset (s_heap s) p (set_id (s_heap s p) (r_id r)))) ;;; ret None
      end
    else ret None.
  (** engine.go 907-923 (putNewID) *)
  Definition putNewID (chs : list change) : M (option err) :=
    each (fun ch => match ch_type ch with CNew => each putID (ch_kids ch) | _ => ret None end) chs.

  (** 925-969 (makeActions).  typeActions as a pair list keyed by operation and model type. *)
  Definition tkey := (op * nat)%type.
  (** engine.go 927: equality of map keys (operation, model type) *)
  Definition tkey_eqb (a b : tkey) : bool := op_eqb (fst a) (fst b) && Nat.eqb (snd a) (snd b).
  (** engine.go 943-951: read of typeActions *)
  Fixpoint ta_get (k : tkey) (l : list (tkey * action)) : option action :=
    match l with [] => None | (k', a) :: t => if tkey_eqb k k' then Some a else ta_get k t end.
  (** engine.go 943-955: write to typeActions *)
  Fixpoint ta_set (k : tkey) (a : action) (l : list (tkey * action)) : list (tkey * action) :=
    match l with [] => [(k, a)] | (k', a') :: t => if tkey_eqb k k' then (k, a) :: t else (k', a') :: ta_set k a t end.
  (** engine.go 965: delete from typeActions *)
  Fixpoint ta_del (k : tkey) (l : list (tkey * action)) : list (tkey * action) :=
    match l with [] => [] | (k', a) :: t => if tkey_eqb k k' then t else (k', a) :: ta_del k t end.
  (** What an entity's model becomes in the loop of lines 928-957.
      [MPanic]: line 955 dereferences the snapshot of an entity that has none. *)
  Inductive mres := MOk (ta : list (tkey * action)) (types : list nat) | MErr (e : err) | MPanic.
  Definition add_model (h : heap) (pl : pool) (o : op) (par : ptr) (p : ptr)
    (ta : list (tkey * action)) (types : list nat) : mres :=
    match c_conv cfg h p (Some par) o with
    | NotReg _ => MOk ta types                                                    (* 933-936 *)
    | ConvErr e => MErr e
    | CModel m =>
        let k := (o, m_type m) in
        let a := match ta_get k ta with
                 | Some a => mkAction o (a_models a ++ [m]) (a_prev a)
                 | None => mkAction o [m] []
                 end in
        match o with
        | OpUpdate => match pl p with
                      | None => MPanic
                      | Some sn => MOk (ta_set k (mkAction o (a_models a) (a_prev a ++ [s_po sn])) ta) (types ++ [m_type m])
                      end
        | _ => MOk (ta_set k a ta) (types ++ [m_type m])
        end
    end.
  (** engine.go 929-957: the loop over all entities of all changes, stopping at the first error or panic *)
  Fixpoint add_models (h : heap) (pl : pool) (l : list (op * ptr * ptr))
    (ta : list (tkey * action)) (types : list nat) : mres :=
    match l with
    | [] => MOk ta types
    | (o, par, p) :: t => match add_model h pl o par p ta types with
                          | MOk ta' types' => add_models h pl t ta' types'
                          | r => r
                          end
    end.
  (** 958-967: for each operation, for each type as it first occurred *)
  Fixpoint emit (o : op) (types : list nat) (ta : list (tkey * action)) : list action :=
    match types with
    | [] => []
    | t :: ts => match ta_get (o, t) ta with
                 | None => emit o ts ta
                 | Some a => a :: emit o ts (ta_del (o, t) ta)
                 end
    end.
  (** engine.go 929-931: the pairs (operation, entity) in the order of the two loops *)
  Definition change_items (chs : list change) : list (op * ptr * ptr) :=
    flat_map (fun ch => map (fun c => (change_op (ch_type ch), ch_parent ch, c)) (ch_kids ch)) chs.
  (** engine.go 925-969 (makeActions), without the state *)
  Definition make_actions (h : heap) (pl : pool) (chs : list change) : mres * list action :=
    match add_models h pl (change_items chs) [] [] with
    | MOk ta types => (MOk ta types, emit OpInsert types ta ++ emit OpUpdate types ta ++ emit OpDelete types ta)
    | r => (r, [])
    end.
  (** engine.go 925-969 (makeActions) *)
  Definition makeActions (chs : list change) : M (err + list action) :=
    s <- get ;;
    match make_actions (s_heap s) (s_pool s) chs with
    | (MOk _ _, l) => ret (inr l)
    | (MErr e, _) => ret (inl e)
    | (MPanic, _) => panic
    end.

  (** 1147-1158 (exec) *)
  Definition exec (acts : list action) : M (option err) :=
    if c_dry cfg then ret None
    else andthen (each (fun a => ecall_err (KExec a)) acts)
                 (upd (fun s => with_actions s (s_actions s ++ acts)) ;;; ret None).

  (** 1065-1104 (persist) *)
  Definition persist : M (option err) :=
    c <- changed ;;
    match c with
    | inl e => ret (Some e)
    | inr chs =>
        andthen (hooks true chs)
          (andthen (putNewID chs)
            (a <- makeActions chs ;;
             match a with
             | inl e => ret (Some e)
             | inr acts =>
                 andthen (exec acts)
                   (andthen (hooks false chs) (recycle chs ;;; ret None))
             end))
    end.

  (** 1053-1063 (commit) *)
  Definition commit : M (option err) := andthen persist (andthen flush (unDirty ;;; ret None)).

  (* ------------------------------------------------------------- repository *)
  Definition has_snapshot (s : st) (p : ptr) : bool := match s_pool s p with Some _ => true | None => false end.
  (** engine.go 190-192 (append to Repository.errs) *)
  Definition append_err (e : err) : M unit := upd (fun s => with_errs s (s_errs s ++ [e])).
  (** engine.go 90-115: EntityContainer.Add / Remove as called from the stage *)
  Definition meta_add (p : ptr) : M (option err) :=
    s <- get ;;
    match cont_add (s_cont s) p with None => ret (Some ERepeated) | Some c => upd (fun s => with_cont s c) ;;; ret None end.
  (** engine.go 105-115 (EntityContainer.Remove) as called from the stage *)
  Definition meta_remove (p : ptr) : M (option err) :=
    s <- get ;;
    match cont_remove (s_cont s) p with None => ret (Some ENotFound) | Some c => upd (fun s => with_cont s c) ;;; ret None end.

  (** 201-214 (Repository.Get); BuildEntity (641-683) is one call here, see BuildModel.v for its inside *)
  Definition repo_get (root : ptr) : M (option err) :=
    s <- get ;;
    if has_snapshot s root then ret (Some EHasAdded)
    else if String.eqb (e_id (s_heap s root)) "" then ret (Some EMustHaveID)
    else andthen (ecall_err (KBuild root)) (andthen (meta_add root) updateSnapshot).
  (** 217-230 (CustomGet); the getter's effect on entities is [f] *)
  Definition repo_custom_get (f : heap -> heap) (roots : list ptr) : M (option err) :=
    upd (fun s => with_heap s (f (s_heap s))) ;;;
    andthen (each (fun r => s <- get ;; if has_snapshot s r then ret (Some EHasAdded) else meta_add r) roots)
            updateSnapshot.
  (** 233-244 (Repository.Add) *)
  Definition repo_add (roots : list ptr) : M unit :=
    e <- each (fun r => s <- get ;; if has_snapshot s r then ret (Some EMustBeNew) else meta_add r) roots ;;
    match e with Some x => append_err x | None => ret tt end.
  (** 247-268 (Repository.Remove) *)
  Definition repo_remove (roots : list ptr) : M unit :=
    s <- get ;;
    let toCreate := filter (fun r => negb (cont_has (s_cont s) r)) roots in
    e <- match toCreate with
         | [] => ret None
         | _ => repo_add toCreate ;;; updateSnapshot
         end ;;
    match e with
    | Some x => append_err x
    | None => e' <- each meta_remove roots ;;
              match e' with Some x => append_err x | None => ret tt end
    end.
  (** 271-276 (Repository.Save); 194-196 (getError) *)
  Definition repo_error (s : st) : option err := match s_errs s with [] => None | l => Some (EJoin l) end.
  (** engine.go 271-276 (Repository.Save) *)
  Definition repo_save : M (option err) :=
    s <- get ;; match repo_error s with Some e => ret (Some e) | None => commit end.

  (** 165-182: RootContainer is passed to Act by value (command.go 35, engine.go 795), so errors appended to the
      callee's copy are lost; the command's Main therefore never sees them (798). *)
  Definition root_add (p : ptr) : M unit := meta_add p ;;; ret tt.
  (** engine.go 165-183 (RootContainer.Remove) *)
  Definition root_remove (p : ptr) : M unit := meta_remove p ;;; ret tt.

  (** 783-792: after Build, ids are required, roots replace the container's roots, flush *)
  Definition cmd_load (roots : list ptr) : M (option err) :=
    s <- get ;;
    if existsb (fun r => String.eqb (e_id (s_heap s r)) "") roots then ret (Some EMustHaveID)
    else upd (fun s => with_cont s (cont_set (s_cont s) roots)) ;;; flush.
  (** 160-162 (DomainBuilder.Build), 642-644 *)
  Definition cmd_build (root : ptr) : M (option err) :=
    s <- get ;;
    if String.eqb (e_id (s_heap s root)) "" then ret (Some EMustHaveID) else ecall_err (KBuild root).

  (* ------------------------------------------------------------- user code *)
  (** The command body: any program over the repository API and its own entities.  It may look at
      entities and at the errors returned to it.  Simplification: it does not recover panics raised
      inside repository calls and starts no goroutines. *)
  Inductive body (R : Type) : Type :=
  | BRet (r : R)
  | BPanic
  | BLook (k : heap -> body R)
  | BMut (f : heap -> heap) (k : body R)
  | BGet (root : ptr) (k : option err -> body R)
  | BCustomGet (f : heap -> heap) (roots : list ptr) (k : option err -> body R)
  | BAdd (roots : list ptr) (k : body R)
  | BRemove (roots : list ptr) (k : body R)
  | BSave (k : option err -> body R)
  | BOutput (d : string) (k : body R)
  | BBuild (root : ptr) (k : option err -> body R)       (* DomainBuilder *)
  | BLoad (roots : list ptr) (k : option err -> body R)  (* the engine's part between Build and Act *)
  | BRootAdd (p : ptr) (k : body R)
  | BRootRemove (p : ptr) (k : body R).
  Fixpoint run_body {R} (b : body R) : M R :=
    match b with
    | BRet _ r => ret r
    | BPanic _ => panic
    | BLook _ k => s <- get ;; run_body (k (s_heap s))
    | BMut _ f k => upd (fun s => with_heap s (f (s_heap s))) ;;; run_body k
    | BGet _ p k => e <- repo_get p ;; run_body (k e)
    | BCustomGet _ f ps k => e <- repo_custom_get f ps ;; run_body (k e)
    | BAdd _ ps k => repo_add ps ;;; run_body k
    | BRemove _ ps k => repo_remove ps ;;; run_body k
    | BSave _ k => e <- repo_save ;; run_body (k e)
    | BOutput _ d k => upd (fun s => with_output s (Some d)) ;;; run_body k          (* 1160-1162 *)
    | BBuild _ p k => e <- cmd_build p ;; run_body (k e)
    | BLoad _ ps k => e <- cmd_load ps ;; run_body (k e)
    | BRootAdd _ p k => root_add p ;;; run_body k
    | BRootRemove _ p k => root_remove p ;;; run_body k
    end.

  (* ------------------------------------------------------------- events *)
  (** 971-998 (collectEvents) *)
  Fixpoint ev_put (e : event) (l : list event) : list event :=
    match l with
    | [] => [e]
    | x :: t => if String.eqb (ev_id x) (ev_id e) then e :: t else x :: ev_put e t
    end.
  (** engine.go 992-995: the order of SliceStable in collectEvents (before or equal) *)
  Definition ev_leb (a b : event) : bool :=
    (ev_created a <? ev_created b)%Z || ((ev_created a =? ev_created b)%Z && str_leb (ev_id a) (ev_id b)).
  (** engine.go 974-976, 982-984: GetEvents of the entities visited *)
  Definition events_of (h : heap) (ps : list ptr) : list event := flat_map (fun p => e_events (h p)) ps.
  (** engine.go 980-987: the walks of all deleted entities *)
  Fixpoint walk_all (ps : list ptr) : M (list ptr) :=
    match ps with
    | [] => ret []
    | p :: t => l <- walk_from p ;; r <- walk_all t ;; ret (map fst l ++ r)
    end.
  (** The container itself (pointer 0) has no events. *)
  Definition collectEvents : M (list event) :=
    l <- walk_from meta ;;
    s <- get ;;
    d <- walk_all (ct_deleted (s_cont s)) ;;
    s <- get ;;
    let live := filter (fun p => negb (Nat.eqb p meta)) (map fst l) in
    let m := fold_left (fun acc e => ev_put e acc) (events_of (s_heap s) (live ++ d)) [] in
    upd (fun s => with_tick s (S (s_tick s))) ;;;
    ret (isort ev_leb (c_evord cfg (s_tick s) m)).

  (** 1000-1014 (makeEventPersistAction); EventPersist is modelled as a pure function *)
  Fixpoint persist_models (f : event -> err + model) (evs : list event) : err + list model :=
    match evs with
    | [] => inr []
    | e :: t => match f e with
                | inl x => inl x
                | inr m => match persist_models f t with inl x => inl x | inr l => inr (m :: l) end
                end
    end.

  (** 1016-1051 (dispatchEvents) *)
  Definition is_tx (e : event) : bool := match ev_send e with SendTx => true | _ => false end.
  Definition dispatchEvents (evs : list event) : M (option err) :=
    if c_dry cfg then ret None
    else if negb (c_tx cfg) then ecall_err (KDispatch evs)
    else match c_bus cfg with
         | BusTx =>
             let txe := filter is_tx evs in
             let normal := filter (fun e => negb (is_tx e)) evs in
             andthen (match txe with
                      | [] => ret None
                      | _ => r <- ecall (KDispatchBegin txe) ;;
                             upd (fun s => with_evctx s (r_ctx r)) ;;; ret (err_of r)
                      end)
                     (match normal with [] => ret None | _ => ecall_err (KDispatch normal) end)
         | _ => ecall_err (KDispatch evs)
         end.

  (* ------------------------------------------------------------- the run *)
  Definition fail (e : err) : result := mkResult (Some e) false [] None.               (* ResultError *)
  Definition fails (e : err) : result := fail (EList [e]).                             (* ResultErrors *)
  Definition fail_or_break (e : err) : result :=                                       (* ResultErrOrBreak *)
    if is_break e then mkResult None true [] None else fail e.
  (** engine.go 1203: return e.result *)
  Definition cur_result (s : st) : result := mkResult None false (s_actions s) (s_output s).

  (** 1164-1204 (do): 1182-1203 ([publish]) and the rest *)
  Definition publish (evs : list event) : M result :=
    match evs with
    | [] => s <- get ;; ret (cur_result s)
    | _ =>
        p <- match c_persist cfg with
             | None => ret None
             | Some f => match persist_models f evs with
                         | inl e => ret (Some (fails e))
                         | inr ms => e <- exec [mkAction OpInsert ms []] ;;
                                     ret (match e with Some x => Some (fail x) | None => None end)
                         end
             end ;;
        match p with
        | Some r => ret r
        | None =>
            match c_bus cfg with
            | BusNone => ret (fails ENoEventBus)
            | _ => e <- dispatchEvents evs ;;
                   match e with
                   | Some x => ret (fails x)
                   | None => s <- get ;; ret (cur_result s)
                   end
            end
        end
    end.
  (** engine.go 1166-1204 (do) *)
  Definition do_ (main : body (option err)) : M result :=
    e <- run_body main ;;
    match e with
    | Some x => ret (fail_or_break x)
    | None =>
        s <- get ;;
        match repo_error s with
        | Some x => ret (fail x)
        | None =>
            e <- persist ;;
            match e with
            | Some x => ret (fails x)
            | None => evs <- collectEvents ;; publish evs
            end
        end
    end.

  (** 1244-1286 (runWithTransaction) *)
  Definition ignore_err (c : call) : M unit := ecall c ;;; ret tt.
  (** engine.go 1261-1265, 1275-1279: Commit or Rollback of the event transaction, its error dropped *)
  Definition bus_call (c : call) : M unit :=
    s <- get ;;
    match c_bus cfg with
    | BusTx => if s_evctx s then ignore_err c else ret tt
    | _ => ret tt
    end.
  (** engine.go 1269: result.Error = err *)
  Definition set_error (r : result) (e : err) : result := mkResult (Some e) (res_break r) (res_actions r) (res_output r).
  (** engine.go 1256: result.Error != nil or result.Break *)
  Definition bad (r : result) : bool := match res_err r with Some _ => true | None => res_break r end.
  (** engine.go 1244-1286 (runWithTransaction) *)
  Definition in_tx (f : M result) : M result :=
    e <- ecall_err KBegin ;;
    match e with
    | Some x => ret (fails x)
    | None =>
        on_panic
          (r <- f ;;
           if bad r then ignore_err KRollback ;;; bus_call KBusRollback ;;; ret r
           else c <- ecall_err KCommit ;;
                match c with
                | Some x => ret (set_error r x)
                | None => bus_call KBusCommit ;;; ret r
                end)
          (ignore_err KRollback)
    end.

  (** 1208-1242 (runOnLock) *)
  Definition lock_name (k : string) : string := String.append "ddd_engine_" k.
  (** engine.go 1211-1215: two equal neighbours in the sorted keys *)
  Fixpoint adj_repeat (l : list string) : bool :=
    match l with
    | a :: ((b :: _) as t) => String.eqb a b || adj_repeat t
    | _ => false
    end.
  (** acquisition: the names taken and the error of the refused one *)
  Fixpoint acquire (ks : list string) (got : list string) : M (list string * option err) :=
    match ks with
    | [] => ret (got, None)
    | k :: t => e <- ecall_err (KLock (lock_name k)) ;;
                match e with
                | Some x => ret (got, Some (EWrap x))
                | None => acquire t (got ++ [lock_name k])
                end
    end.
  (** engine.go 1228-1234: the deferred UnLock calls *)
  Fixpoint release (ls : list string) : M unit :=
    match ls with [] => ret tt | l :: t => ignore_err (KUnLock l) ;;; release t end.
  (** engine.go 1208-1242 (runOnLock) *)
  Definition on_lock (f : M result) (keys : list string) : M result :=
    let ks := isort str_leb keys in
    if adj_repeat ks then ret (fails EKeyRepeated)
    else
      g <- acquire ks [] ;;
      finally (match snd g with Some e => ret (fails e) | None => f end) (release (fst g)).

  (** 1288-1305 (Save) *)
  Fixpoint post_hooks (n : nat) (i : nat) : M unit :=
    match n with O => ret tt | S n' => ignore_err (KPostSave i) ;;; post_hooks n' (S i) end.
  (** engine.go 1288-1305 (Save) *)
  Definition save (keys : list string) (main : body (option err)) : M result :=
    let f := if c_tx cfg then in_tx (do_ main) else do_ main in
    let f := match keys with [] => f | _ => on_lock f keys end in
    r <- f ;;
    match res_err r with
    | None => post_hooks (c_posts cfg) 0 ;;; ret r
    | Some _ => ret r
    end.

End Engine.
Arguments BRet {R}. Arguments BPanic {R}. Arguments BLook {R}. Arguments BMut {R}. Arguments BGet {R}.
Arguments BCustomGet {R}. Arguments BAdd {R}. Arguments BRemove {R}. Arguments BSave {R}. Arguments BOutput {R}.
Arguments BBuild {R}. Arguments BLoad {R}. Arguments BRootAdd {R}. Arguments BRootRemove {R}.

(** engine.go 470-483 (NewStage) *)
Definition new_stage (h : heap) : st := mkSt h (mkCont [] []) (fun _ => None) [] None false [] 0 [].

(** 769-803 (runCommand): Build, then the engine loads the roots, then Act. *)
Fixpoint body_bind {A B} (b : body A) (f : A -> body B) : body B :=
  match b with
  | BRet r => f r
  | BPanic => BPanic
  | BLook k => BLook (fun h => body_bind (k h) f)
  | BMut g k => BMut g (body_bind k f)
  | BGet p k => BGet p (fun e => body_bind (k e) f)
  | BCustomGet g ps k => BCustomGet g ps (fun e => body_bind (k e) f)
  | BAdd ps k => BAdd ps (body_bind k f)
  | BRemove ps k => BRemove ps (body_bind k f)
  | BSave k => BSave (fun e => body_bind (k e) f)
  | BOutput d k => BOutput d (body_bind k f)
  | BBuild p k => BBuild p (fun e => body_bind (k e) f)
  | BLoad ps k => BLoad ps (fun e => body_bind (k e) f)
  | BRootAdd p k => BRootAdd p (body_bind k f)
  | BRootRemove p k => BRootRemove p (body_bind k f)
  end.
(** engine.go 777-803: the Main of a classic command *)
Definition command_main (build : body (err + list ptr)) (act : list ptr -> body (option err)) : body (option err) :=
  body_bind build (fun r => match r with
    | inl e => BRet (Some e)
    | inr roots => BLoad roots (fun e => match e with Some x => BRet (Some x) | None => act roots end)
    end).

(** 769-834 (Run, runCommand): Init first; its error ends the run without Save.  The number of
    post-save hooks already includes the command's own PostSave. *)
Definition run_command (cfg : config) (init : err + list string) (main : body (option err)) : M result :=
  match init with
  | inl e => ret (fail_or_break e)
  | inr keys => save cfg keys main
  end.
(** 485-497 (Engine.Create, Engine.Delete) *)
Definition engine_create (cfg : config) (roots : list ptr) : M result := save cfg [] (BAdd roots (BRet None)).
(** engine.go 492-497 (Engine.Delete) *)
Definition engine_delete (cfg : config) (roots : list ptr) : M result := save cfg [] (BRemove roots (BRet None)).

(** Model of engine.go 513-584 (Engine.RegisterEventHandler, RegisterCronTask, RegisterCronTaskOfCommand), timer.go 17-65
    (noTimer, TimerEvent, onTimer): cron tasks and commands as event handlers, over the router and the timer table. *)
From Verif Require Export GoBase RouterModel TimerModel.

(** What reflection sees of the argument of Engine.RegisterEventHandler: not a function; another number of arguments or results
    than one; a function of one argument (engine.go 514-526). *)
Inductive kshape := KsNot | KsArity | KsFun (a : argty).
(** What the construct function gives back: a command (named by a number), a value Run does not accept, or it panics. *)
Inductive built := BCmd (c : nat) | BInvalid | BPanic.
(** What the run of a command ends with (Result.Error; a run stopped by ErrBreak has none), or a panic. *)
Inductive ranres := RunDone | RunError (n : nat) | RunPanic.

(** One registration at start-up; its number is its position in the program.
    [GCron key expr cmd now up]: RegisterCronTask (cmd = false) or RegisterCronTaskOfCommand (cmd = true) at time [now]; [up]: the
    database of the timer answers. *)
Inductive gop :=
| GHandler (t : string) (s : hshape)
| GEngine (t : string) (s : kshape)
| GCron (key expr : string) (cmd : bool) (now : nat) (up : bool).
(** engine.go 512-585, event.go 95-157: a registration returns or panics *)
Inductive gres := GOk | GPanic.

Section Cron.
  (** encoding/json on TimerEvent: the payload made from key and cron expression (RunCron is called with nil data, 561 and 581), what it
      is decoded to, and the two fields of that *)
  Variable marshal : string -> string -> nat.
  Variable unmarshal : nat -> option nat.
  Variable key_of cron_of : nat -> string.
  (** the cron library and the server mode (TimerModel) *)
  Variable parse : string -> option (nat -> nat).
  Variable zero_ok : bool.
  (** the timer of the engine: noTimer (timer.go 33-49), or a DBTimer for a service *)
  Variable timer : option string.

  (** engine.go 513-546: the handler put in the router takes a *DomainEvent *)
  Definition engine_register (t : string) (id : nat) (s : kshape) (r : router) : option router :=
    match s with
    | KsNot | KsArity => None
    | KsFun ANotPointer => None
    | KsFun _ => register_handler t id (VFun CtxContext ADomainEvent EtNilable) r
    end.
  (** timer.go 36-38, and d_timer/sql/timer.go RunCron *)
  Definition run_cron (key expr : string) (now : nat) (up : bool) (d : tdb) : bool * tdb :=
    match timer with
    | None => (false, d)
    | Some svc => if up then match timer_run parse zero_ok svc key (ReqCron expr) 0 now d with (RNil, d') => (true, d') | (_, d') => (false, d') end
                  else (false, d)
    end.
  (** engine.go 549-584: the nil check of the timer never holds (the default is noTimer); the handler is registered first, the timer
      started afterwards *)
  Definition cron_register (key expr : string) (id : nat) (cmd : bool) (now : nat) (up : bool) (r : router) (d : tdb) : gres * (router * tdb) :=
    if has_handler key r then (GPanic, (r, d))
    else match (if cmd then engine_register key id (KsFun (AEvent unmarshal)) r
                else register_handler key id (VFun CtxContext (AEvent unmarshal) EtNilable) r) with
         | None => (GPanic, (r, d))
         | Some r' => let '(ok, d') := run_cron key expr now up d in (if ok then GOk else GPanic, (r', d'))
         end.
  (** one registration: event.go 95-118, engine.go 512-548 (Engine.RegisterEventHandler), 551-585 (cron tasks) *)
  Definition gstep (id : nat) (o : gop) (r : router) (d : tdb) : gres * (router * tdb) :=
    match o with
    | GHandler t s => match register_handler t id s r with Some r' => (GOk, (r', d)) | None => (GPanic, (r, d)) end
    | GEngine t s => match engine_register t id s r with Some r' => (GOk, (r', d)) | None => (GPanic, (r, d)) end
    | GCron key expr cmd now up => cron_register key expr id cmd now up r d
    end.
  (** A whole program of registrations (a panic being recovered by the caller), from registration number [id] on *)
  Fixpoint gall (id : nat) (os : list gop) (r : router) (d : tdb) : list gres * (router * tdb) :=
    match os with
    | [] => ([], (r, d))
    | o :: t => let '(x, (r', d')) := gstep id o r d in let '(xs, z) := gall (S id) t r' d' in (x :: xs, z)
    end.

  (** The functions of the user; each may depend on all handler calls made before *)
  Variable user : list (nat * harg) -> nat -> harg -> hout.
  Variable task : list (nat * harg) -> nat -> string -> string -> bool (* false: it panics *).
  Variable make : list (nat * harg) -> nat -> string -> string -> built.
  Variable construct : list (nat * harg) -> nat -> harg -> built.
  Variable run : list (nat * harg) -> nat -> ranres.
  (** the error of json.Unmarshal *)
  Variable json_err : nat.

  (** engine.go 539-545 and engine.go 835: run the command made *)
  Definition run_built (past : list (nat * harg)) (b : built) : hout :=
    match b with
    | BCmd c => match run past c with RunDone => HNil | RunError n => HErr n | RunPanic => HPanic end
    | BInvalid | BPanic => HPanic
    end.
  (** The handlers put in the router by the registrations [os]: engine.go 528-546, 557-560, 577-579 *)
  Definition gbeh (os : list gop) (past : list (nat * harg)) (id : nat) (g : harg) : hout :=
    match nth_error os id with
    | Some (GHandler _ _) => user past id g
    | Some (GEngine _ (KsFun a)) =>
        match g with
        | GotEvent e => match biz_arg a e with None => HErr json_err | Some g' => run_built past (construct past id g') end
        | GotPayload _ => HPanic
        end
    | Some (GCron _ _ false _ _) =>
        match g with
        | GotPayload v => if task past id (key_of v) (cron_of v) then HNil else HPanic
        | GotEvent _ => HPanic
        end
    | Some (GCron _ _ true _ _) =>
        match g with
        | GotEvent e => match unmarshal (ev_payload e) with None => HErr json_err | Some v => run_built past (make past id (key_of v) (cron_of v)) end
        | GotPayload _ => HPanic
        end
    | _ => HPanic
    end.
  (** timer.go 63-65 onTimer: the event has the key as type *)
  Definition on_timer (os : list gop) (r : router) (key cron : string) (past : list (nat * harg)) : onres * list (nat * harg) :=
    on_event (gbeh os) r (mkE key (marshal key cron)) past.
End Cron.

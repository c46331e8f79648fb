(** Model of the background work of a bus process: NewEventBus registering its service (eventbus.go 217, 361-364), Start
    (745-777) with the ticker loop and the daily cleaner, and what its parts may return.  The loop of the timer
    (d_timer/sql/timer.go 155-168) is the case without event handler: a round is one call ([GTx] stands for handleJobs). *)
From Verif Require Export GoBase.

(** the errors handleEvents (603-633) can return: those of its queries (the search for the scan start, getScanEvents,
    384-437); nothing in the code makes an ErrServiceNotCreate (53) *)
Inductive herr := EQuery (first : bool) | EServiceNotCreate.
(** [start]: the search for the scan start failed, found nothing, or found an event; [scan]: getScanEvents succeeded *)
Inductive found := FErr | FNone | FSome.
Definition handle_events_err (start : found) (scan : bool) : option herr :=
  match start with
  | FErr => Some (EQuery true)
  | FNone => None                                     (* 616-618 *)
  | FSome => if scan then None else Some (EQuery false)
  end.
(** FirstOrCreate of the service row; [ok]: the statements succeed *)
Definition init_service (ok : bool) (svc : string) (l : list string) : list string := if ok then (if existsb (String.eqb svc) l then l else l ++ [svc]) else l.

(** what happens, in order: a round begins (a tick is received), handleTransactions returned, handleEvents returned, the
    round ends; a cleaning begins, ends; the process dies of a panic; somebody dispatches and makes delivery records for
    the services registered then *)
Inductive lev := GRound | GTx | GPoll | GEnd | GClean | GCleanEnd | GDie | GDispatch (svcs : list string).
(** eventbus.go 745-777: where the loop of Start is: waiting, in handleTransactions, in handleEvents *)
Inductive stage := Idle | InTx | InPoll.
Record lst := mkL {
  l_svcs : list string;        (* the service table *)
  l_handler : bool;            (* RegisterEventHandler was called: 357-359 *)
  l_started : bool;            (* once.Do: 765 *)
  l_cancelled : bool;          (* the context given to Start *)
  l_tick : bool;               (* the ticker's channel holds a tick (capacity 1; further ticks are dropped) *)
  l_stage : stage;
  l_cleaning : nat;            (* cleanings in progress: robfig/cron starts a goroutine per firing *)
  l_alive : bool;
  l_log : list lev }.
Inductive txres := TxOk | TxErr | TxPanic.             (* 650-667: a panic of the registered checker is not recovered *)
Inductive pollres := PollRet (start : found) (scan : bool) | PollPanic.  (* 605-610: recovered, nil is returned *)
Inductive lact :=
| LNew (svc : string) (ok : bool)       (* another process creates its bus *)
| LHandler | LStart | LCancel | LTick
| LTx (r : txres) | LPoll (r : pollres) (init_ok : bool)
| LCron | LCleanDone                    (* with or without error; robfig/cron v1 recovers panics of a job *)
| LDispatch.                            (* somebody dispatches *)
(** the loop is ready to receive: takes a waiting tick *)
Definition receive (st : lst) : lst :=
  match l_stage st with
  | Idle => if l_started st && l_tick st then mkL (l_svcs st) (l_handler st) (l_started st) (l_cancelled st) false InTx (l_cleaning st) (l_alive st) (l_log st ++ [GRound]) else st
  | _ => st
  end.
Definition lexec (me : string) (a : lact) (st : lst) : lst :=
  let '(mkL sv hd stt cn tk sg cl al lg) := st in
  match a with
  | LNew svc ok => mkL (init_service ok svc sv) hd stt cn tk sg cl al lg
  | LDispatch => mkL sv hd stt cn tk sg cl al (lg ++ [GDispatch sv])
  | _ =>
    if negb al then st else
    match a with
    | LHandler => mkL sv true stt cn tk sg cl al lg
    | LStart => mkL sv hd true cn tk sg cl al lg                                       (* 765: only the first call does something *)
    | LCancel => mkL sv hd stt true tk sg cl al lg
    | LTick => if stt then receive (mkL sv hd stt cn true sg cl al lg) else st        (* the ticker is made by the loop: 748 *)
    | LTx r =>
        match sg with
        | InTx => match r with
                  | TxPanic => mkL sv hd stt cn tk Idle cl false (lg ++ [GTx; GDie])
                  | _ => if hd then mkL sv hd stt cn tk InPoll cl al (lg ++ [GTx])     (* 750-754 *)
                         else receive (mkL sv hd stt cn tk Idle cl al (lg ++ [GTx; GEnd]))
                  end
        | _ => st
        end
    | LPoll r ok =>
        match sg with
        | InPoll =>
            let e := match r with PollRet s q => handle_events_err s q | PollPanic => None end in
            let sv' := match e with Some EServiceNotCreate => init_service ok me sv | _ => sv end in  (* 756-758 *)
            receive (mkL sv' hd stt cn tk Idle cl al (lg ++ [GPoll; GEnd]))
        | _ => st
        end
    | LCron => if stt then mkL sv hd stt cn tk sg (S cl) al (lg ++ [GClean]) else st  (* 767-774 *)
    | LCleanDone => match cl with 0 => st | S n => mkL sv hd stt cn tk sg n al (lg ++ [GCleanEnd]) end
    | _ => st
    end
  end.
(** a history: the actions one after the other *)
Fixpoint lrun (me : string) (acts : list lact) (st : lst) : lst := match acts with [] => st | a :: t => lrun me t (lexec me a st) end.
(** NewEventBus (217): the error of initService is thrown away *)
Definition lnew (me : string) (svcs : list string) (ok : bool) : lst := mkL (init_service ok me svcs) false false false false Idle 0 true [].

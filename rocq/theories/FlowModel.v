(** Model of a run of the engine together with the event transactions of the MySQL bus: engine.go 1016-1050 (dispatchEvents),
    1244-1286 (runWithTransaction), over InterModel (eventbus/mysql/eventbus.go 306-349, 635-667).  Any number of runs, timeout
    checkers and cleaners are at work at the same time; a process may die anywhere; the answer of the data database to COMMIT may be
    lost, and the commit may take effect later or not at all. *)
From Verif Require Export InterModel.

(** What a run does that matters to its event transaction: the data transaction is begun (or cannot be); DispatchBegin returns a
    context holding the row, or fails; executor.Commit returns nil or not (an error, a panic); executor.RollBack; Commit and Rollback
    of the bus with the context. *)
Inductive fcall := FcOpen (ok : bool) | FcBegin (ok : bool) | FcCommit (ok : bool) | FcRollback | FcBusCommit | FcBusRollback.
(** Where a run is: before its data transaction; inside it; inside it with an event transaction; after a commit that returned nil;
    after a commit that returned something else (the data may or may not be committed, now or later); after the rollback of the data
    (with an event transaction); it has no event transaction; it calls the bus no more. *)
Inductive phase := PhIdle | PhOpen | PhHave | PhCommitted | PhUnsure | PhFailed | PhNone | PhOver.
(** engine.go 1244-1286 with 1034-1040: which call may come next.  The deferred rollback (1250-1257) may follow any call that
    panics, also the two calls of the bus. *)
Definition next_phase (p : phase) (c : fcall) : option phase :=
  match p, c with
  | PhIdle, FcOpen ok => Some (if ok then PhOpen else PhNone)
  | PhOpen, FcBegin ok => Some (if ok then PhHave else PhOpen)
  | PhOpen, FcCommit _ => Some PhNone
  | PhOpen, FcRollback => Some PhNone
  | PhHave, FcCommit ok => Some (if ok then PhCommitted else PhUnsure)   (* 1271-1273: a failed commit calls the bus no more *)
  | PhHave, FcRollback => Some PhFailed                                  (* 1260-1262 *)
  | PhCommitted, FcBusCommit => Some PhOver                              (* 1277-1281 *)
  | PhFailed, FcRollback => Some PhFailed
  | PhFailed, FcBusRollback => Some PhOver                               (* 1264-1268 *)
  | PhUnsure, FcRollback => Some PhUnsure
  | PhNone, FcRollback => Some PhNone
  | PhNone, FcBusCommit | PhNone, FcBusRollback => Some PhNone            (* the context holds no row: eventbus.go 323-326, 344-347 *)
  | PhOver, FcRollback => Some PhOver
  | _, _ => None
  end.

(** the bus with its publishers; the run of each publisher: phase and row; the transactions whose data is committed; what was
    committed when each checker read its due rows *)
Record flow := mkF { f_bus : ist; f_runs : list (phase * trow); f_data : list nat; f_seen : list (list nat) }.

(** [FBegin]: the DispatchBegin of a run stores its row; [FRun i c]: run [i] makes its next call; [FSettle i done]: a commit without
    answer turns out; [FNext i]: the bus executes the next statement of the Commit or Rollback of run [i]; [FDie i]: the process of
    run [i] dies; checkers and the rest as in InterModel. *)
Inductive fmove :=
| FBegin (svc : string) (timeout : nat) (evs : list devent)
| FRun (i : nat) (c : fcall) | FSettle (i : nat) (done : bool) | FNext (i : nat) | FDie (i : nat)
| FReg (name : string) | FTick (n : nat) | FPlain (evs : list devent) (outs : list sres) | FRemove (ids : list nat)
| FCheck (svc : string) | FSnap (j : nat) | FCheckEnd (j : nat) (answers : list answer) | FCheckAbort (j : nat).

(** engine.go 1264-1268, 1277-1281: the call of the bus, if this call is one *)
Definition bus_of (i : nat) (p : phase) (c : fcall) : option iact :=
  match p, c with PhCommitted, FcBusCommit => Some (ICommit i) | PhFailed, FcBusRollback => Some (IRollback i) | _, _ => None end.
(** one step: engine.go 1016-1050, 1244-1286; eventbus.go 306-349, 635-667 *)
Definition fexec (a : fmove) (st : flow) : flow :=
  let '(mkF b rs data seen) := st in
  match a with
  | FBegin svc timeout evs =>
      match evs with
      | [] => st
      | _ => mkF (iexec (IBegin svc timeout evs) b) (rs ++ [(PhHave, fst (insert_tx svc evs (i_now b + timeout) (i_db b)))]) data seen
      end
  | FRun i c =>
      match nth_error rs i with
      | Some (p, t) =>
          match next_phase p c with
          | Some p' => mkF (match bus_of i p c with Some x => iexec x b | None => b end) (set_nth i (p', t) rs)
                           (match p' with PhCommitted => tr_id t :: data | _ => data end) seen
          | None => st
          end
      | None => st
      end
  | FSettle i done =>
      match nth_error rs i with
      | Some (PhUnsure, t) => mkF b (set_nth i (PhOver, t) rs) (if done then tr_id t :: data else data) seen
      | _ => st
      end
  | FNext i => mkF (iexec (INext i) b) rs data seen
  | FDie i =>
      match nth_error rs i with
      | Some (p, t) => mkF (iexec (IStop i) b) (set_nth i (match p with PhUnsure => PhUnsure | _ => PhOver end, t) rs) data seen
      | None => st
      end
  | FReg name => mkF (iexec (IReg name) b) rs data seen
  | FTick n => mkF (iexec (ITick n) b) rs data seen
  | FPlain evs outs => mkF (iexec (IPlain evs outs) b) rs data seen
  | FRemove ids => mkF (iexec (IRemove ids) b) rs data seen
  | FCheck svc => let b' := iexec (ICheck svc) b in mkF b' rs data (if length (i_chk b) <? length (i_chk b') then seen ++ [data] else seen)
  | FSnap j => mkF (iexec (ISnap j) b) rs data seen
  | FCheckEnd j answers => mkF (iexec (ICheckEnd j answers) b) rs data seen
  | FCheckAbort j => mkF (iexec (IAbort j) b) rs data seen
  end.
(** a history *)
Fixpoint frun (acts : list fmove) (st : flow) : flow := match acts with [] => st | a :: t => frun t (fexec a st) end.
(** the beginning: empty tables, no runs *)
Definition fstart : flow := mkF istart [] [] [].

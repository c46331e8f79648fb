(** Model of eventbus/mysql/eventbus.go and po.go: the event bus over MySQL tables. *)
From Verif Require Export GoBase.

(** * Tables (po.go) *)
(** domain.go DomainEvent: the fields the bus reads; the payload is opaque. *)
Inductive sendtype := STNormal | STFIFO | STLaxFIFO | STTransaction.
(** domain.go (DomainEvent): the fields the bus reads *)
Record devent := mkDev { d_id : string; d_sender : string; d_type : sendtype; d_payload : nat; d_created : nat }.
(** po.go 61-69 EventPO; po.go 135-142 eventPersist copies ID, Sender, CreatedAt of the event into columns, so a row is
    its numeric id, the event and the transaction id (0 = none).  created_at, which is never read, is left out. *)
Record erow := mkE { er_id : nat; er_ev : devent; er_trans : nat }.
(** po.go 61-70: event_created_at, copied from the event (eventPersist, 135-160) *)
Definition er_created (r : erow) : nat := d_created (er_ev r).
(** po.go 164-174 ServiceEventPO; failed_message and run_at, which are never read, are left out. *)
Inductive sstatus := SInit | SSuccess | SFailed | SPrecedingFailed | SExpired.
(** po.go 164-174 (ServiceEventPO) *)
Record srow := mkS { sr_id : nat; sr_service : string; sr_event : nat; sr_retry : nat; sr_status : sstatus; sr_created : nat; sr_next : nat }.
(** po.go 87-93 Transaction *)
Record trow := mkT { tr_id : nat; tr_service : string; tr_events : list devent; tr_due : nat }.
(** The database: the four tables and the next auto-increment value of each (ids start at 1). *)
Record bdb := mkDB { b_ev : list erow; b_sv : list srow; b_svc : list string; b_tx : list trow; b_ne : nat; b_ns : nat; b_nt : nat }.

(** * SQL statements that may fail *)
(** How a statement ends: normally; with an error and without effect; with an error after taking effect (lost answer);
    the process dies instead of executing it. *)
Inductive sres := QOk | QErr | QLost | QCrash.
(** a returned value, a returned error, the end of the process *)
Inductive outcome (A : Type) := Val (a : A) | Err | Crash.
Arguments Val {A} a. Arguments Err {A}. Arguments Crash {A}.
(** a program: consumes the outcomes of its statements (none left = all succeed) and transforms the database *)
Definition M (A : Type) : Type := list sres -> bdb -> outcome A * list sres * bdb.
(** return of a Go function *)
Definition ret {A} (a : A) : M A := fun s d => (Val a, s, d).
(** return of an error *)
Definition fail {A} : M A := fun s d => (Err, s, d).
(** one SQL statement: executed; refused; executed but its answer lost; the process ends before it *)
Definition stmt {A} (f : bdb -> A * bdb) : M A := fun s d =>
  match s with
  | [] => let '(a, d') := f d in (Val a, [], d')
  | QOk :: s' => let '(a, d') := f d in (Val a, s', d')
  | QErr :: s' => (Err, s', d)
  | QLost :: s' => let '(a, d') := f d in (Err, s', d')
  | QCrash :: s' => (Crash, s', d)
  end.
(** Go statement sequence with return on error *)
Definition bindM {A B} (m : M A) (f : A -> M B) : M B := fun s d =>
  match m s d with (Val a, s', d') => f a s' d' | (Err, s', d') => (Err, s', d') | (Crash, s', d') => (Crash, s', d') end.
(** an error of [m] is logged and forgotten; a crash is not survived *)
Definition swallow (m : M unit) : M unit := fun s d => match m s d with (Err, s', d') => (Val tt, s', d') | x => x end.
(** gorm's Transaction(fn): BEGIN, fn, COMMIT; on an error or a crash everything is rolled back. *)
Definition transaction {A} (m : M A) : M A := fun s d =>
  match stmt (fun d => (tt, d)) s d with
  | (Err, s', d') => (Err, s', d') | (Crash, s', d') => (Crash, s', d')
  | (Val _, s1, d1) =>
    match m s1 d1 with
    | (Val a, s2, d2) =>
      match s2 with
      | [] => (Val a, [], d2)
      | QOk :: s3 => (Val a, s3, d2)
      | QErr :: s3 => (Err, s3, d1)
      | QLost :: s3 => (Err, s3, d2)
      | QCrash :: s3 => (Crash, s3, d1)
      end
    | (Err, s2, _) => (Err, s2, d1)
    | (Crash, s2, _) => (Crash, s2, d1)
    end
  end.

(** * Dispatching *)
(** gorm Create of a slice: one INSERT with consecutive ids (eventbus.go 256-276). *)
Fixpoint new_events (n : nat) (trans : nat) (evs : list devent) : list erow :=
  match evs with [] => [] | e :: t => mkE n e trans :: new_events (S n) trans t end.
(** eventbus.go 276: Create(pos) *)
Definition insert_events (trans : nat) (evs : list devent) (d : bdb) : list erow * bdb :=
  let rows := new_events (b_ne d) trans evs in
  (rows, mkDB (b_ev d ++ rows) (b_sv d) (b_svc d) (b_tx d) (b_ne d + length evs) (b_ns d) (b_nt d)).
(** eventbus.go 281-297: the delivery records of one service, one INSERT *)
Fixpoint new_deliveries (n : nat) (svc : string) (rows : list erow) : list srow :=
  match rows with [] => [] | r :: t => mkS n svc (er_id r) 0 SInit (er_created r) (er_created r) :: new_deliveries (S n) svc t end.
(** eventbus.go 284-297: Create(spos) for one service *)
Definition insert_deliveries (svc : string) (rows : list erow) (d : bdb) : unit * bdb :=
  (tt, mkDB (b_ev d) (b_sv d ++ new_deliveries (b_ns d) svc rows) (b_svc d) (b_tx d) (b_ne d) (b_ns d + length rows) (b_nt d)).
(** eventbus.go 366-376 listService *)
Definition list_service : M (list string) := stmt (fun d => (b_svc d, d)).
(** eventbus.go 284-299: the loop over the services *)
Fixpoint deliver_all (svcs : list string) (rows : list erow) : M unit :=
  match svcs with [] => ret tt | s :: t => bindM (stmt (insert_deliveries s rows)) (fun _ => deliver_all t rows) end.
(** eventbus.go 256-299 Dispatch; [trans] is the id of the event transaction in the context (0 = none).  The INSERTs go
    through e.getDB(ctx), not through the transaction opened by e.db.Transaction: that one contains no statement, its
    BEGIN and COMMIT are the first and last statement here.  gorm refuses to create an empty slice. *)
Definition noop : M unit := stmt (fun d => (tt, d)).
(** eventbus.go 256-299 (Dispatch) *)
Definition dispatch (trans : nat) (evs : list devent) : M unit :=
  bindM noop (fun _ =>
  match evs with
  | [] => fail
  | _ => bindM (stmt (insert_events trans evs)) (fun rows =>
         bindM list_service (fun svcs =>
         bindM (deliver_all svcs rows) (fun _ => noop)))
  end).

(** eventbus.go 361-364 initService: FirstOrCreate *)
Definition init_service (name : string) (d : bdb) : bdb :=
  if existsb (String.eqb name) (b_svc d) then d else mkDB (b_ev d) (b_sv d) (b_svc d ++ [name]) (b_tx d) (b_ne d) (b_ns d) (b_nt d).

(** * Event transactions *)
(** eventbus.go 306-319 DispatchBegin; the result is the row put into the context *)
Definition insert_tx (svc : string) (evs : list devent) (due : nat) (d : bdb) : trow * bdb :=
  let t := mkT (b_nt d) svc evs due in
  (t, mkDB (b_ev d) (b_sv d) (b_svc d) (b_tx d ++ [t]) (b_ne d) (b_ns d) (S (b_nt d))).
(** eventbus.go 306-319 (DispatchBegin) *)
Definition dispatch_begin (svc : string) (timeout now : nat) (evs : list devent) : M trow :=
  match evs with [] => fail | _ => stmt (insert_tx svc evs (now + timeout)) end.
(** eventbus.go 340, 348: Delete(tx) *)
Definition delete_tx (t : trow) (d : bdb) : unit * bdb :=
  (tt, mkDB (b_ev d) (b_sv d) (b_svc d) (filter (fun x => negb (Nat.eqb (tr_id x) (tr_id t))) (b_tx d)) (b_ne d) (b_ns d) (b_nt d)).
(** eventbus.go 328: First(&EventPO{}) by trans_id *)
Definition find_trans (id : nat) (d : bdb) : bool * bdb := (existsb (fun r => Nat.eqb (er_trans r) id) (b_ev d), d).
(** eventbus.go 322-340 Commit: if an event with this transaction id exists it returns nil right away *)
Definition bus_commit (t : trow) : M unit :=
  bindM (stmt (find_trans (tr_id t))) (fun found : bool =>
    if found then ret tt else bindM (dispatch (tr_id t) (tr_events t)) (fun _ => stmt (delete_tx t))).
(** eventbus.go 343-349 Rollback *)
Definition bus_rollback (t : trow) : M unit := stmt (delete_tx t).
(** eventbus.go 635-648 checkTX; [checker] is the registered transaction checker.  Errors of Commit and Rollback are only
    logged.  DispatchBegin never stores an empty event list, so Events[0] exists. *)
Inductive txstatus := TXCommit | TXRollBack | TXOther.
(** eventbus.go 635-648 (checkTX) *)
Definition check_tx (checker : devent -> txstatus) (t : trow) : M unit :=
  match tr_events t with
  | [] => fun s d => (Crash, s, d)
  | e :: _ => match checker e with
              | TXCommit => swallow (bus_commit t)
              | TXRollBack => swallow (bus_rollback t)
              | TXOther => ret tt
              end
  end.
(** eventbus.go 650-667: the loop of handleTransactions *)
Fixpoint check_all (checker : devent -> txstatus) (l : list trow) : M unit :=
  match l with [] => ret tt | t :: r => bindM (check_tx checker t) (fun _ => check_all checker r) end.
(** eventbus.go 650-666 handleTransactions *)
Definition handle_transactions (svc : string) (checker : devent -> txstatus) (now : nat) : M unit :=
  transaction (bindM (stmt (fun d => (filter (fun t => String.eqb (tr_service t) svc && (tr_due t <? now)) (b_tx d), d))) (check_all checker)).

(** * Polling *)
(** eventbus.go 62-130 the retry strategies (Next: 71-80, 91-104, 114-127): from the retry count so far and the time, the next count and run time.  [now]
    is read again inside Next for the first retry and passed in by doRetryStrategy (448) for the others: one reading here.  Negative intervals are left out. *)
Inductive strategy :=
| LimitRetry (limit : nat)
| IntervalRetry (interval limit : nat)
| CustomRetry (intervals : list nat)
| UserRetry (f : nat -> nat -> option (nat * nat)).
(** eventbus.go 67-130: Next of the shipped strategies, and a user's own *)
Definition strat_next (st : strategy) (count now : nat) : option (nat * nat) :=
  match st with
  | LimitRetry l => if l <? count then None else Some (S count, now)
  | IntervalRetry i l => if l <? count then None else Some (S count, now + i)
  | CustomRetry is => match nth_error is count with None => None | Some i => Some (S count, now + i) end
  | UserRetry f => f count now
  end.
(** eventbus.go 194-203 NewEventBus: which strategy the options select; default 5 retries every 3 seconds (times in ms) *)
Definition choose_strategy (user : option strategy) (interval limit : nat) (custom : list nat) : strategy :=
  match user with
  | Some s => s
  | None => if 0 <? interval then IntervalRetry interval limit
            else match custom with [] => IntervalRetry 3000 5 | _ => CustomRetry custom end
  end.
(** eventbus.go 132-149 (Options), 154-172 (EventBus): what handling and cleaning read *)
Record buscfg := mkBus { c_service : string; c_strategy : strategy; c_limit : nat; c_window : nat; c_retention : nat }.

Section Poll.
  Variable cfg : buscfg.
  (** gorm's Order(...): rows by ascending key *)
  Definition order_by {A} (f : A -> nat) (l : list A) : list A := isort (fun a b => f a <=? f b) l.
  (** eventbus.go 612-620: the first event (by id) created inside the scan window; its id is the scan start *)
  Definition scan_start (now : nat) (d : bdb) : option nat :=
    match order_by er_id (filter (fun r => now <=? er_created r + c_window cfg) (b_ev d)) with [] => None | r :: _ => Some (er_id r) end.
  (** eventbus.go 559: status == ServiceEventStatusInit *)
  Definition is_init (s : sstatus) : bool := match s with SInit => true | _ => false end.
  (** eventbus.go 386-396: the earliest pending delivery from the scan start on *)
  Definition earliest (start : nat) (d : bdb) : option srow :=
    match order_by sr_event (filter (fun s => String.eqb (sr_service s) (c_service cfg) && is_init (sr_status s) && (start <=? sr_event s)) (b_sv d)) with
    | [] => None | s :: _ => Some s end.
  (** eventbus.go 397-401: the offset (it compares the offset with the primary key of the delivery record) *)
  Definition offset (start : nat) (s : srow) : nat := if (0 <? sr_id s) && (start <? sr_id s) then sr_event s else start.
  (** eventbus.go 408-419 *)
  Definition due (now off : nat) (d : bdb) : list srow :=
    firstn (c_limit cfg) (order_by sr_event (filter (fun s => String.eqb (sr_service s) (c_service cfg) && is_init (sr_status s) && (off <=? sr_event s) && (sr_next s <=? now)) (b_sv d))).
  (** eventbus.go 424-436: event rows by id, paired with the delivery records by position *)
  Fixpoint pair_up (evs : list erow) (svs : list srow) : list (erow * srow) :=
    match evs, svs with e :: te, s :: ts => (e, s) :: pair_up te ts | _, _ => [] end.
  (** eventbus.go 384-437 (getScanEvents) *)
  Definition scan_events (now start : nat) (d : bdb) : list (erow * srow) :=
    match earliest start d with
    | None => []
    | Some s0 =>
        let svs := due now (offset start s0) d in
        pair_up (order_by er_id (filter (fun r => memb (er_id r) (map sr_event svs)) (b_ev d))) svs
    end.

  (** eventbus.go 439-459 doRetryStrategy *)
  Definition do_retry (now : nat) (s : srow) : srow :=
    match strat_next (c_strategy cfg) (sr_retry s) now with
    | Some (n, t) => mkS (sr_id s) (sr_service s) (sr_event s) n (sr_status s) (sr_created s) t
    | None => mkS (sr_id s) (sr_service s) (sr_event s) (sr_retry s) SFailed (sr_created s) (sr_next s)
    end.
  (** eventbus.go 439-459, 596: assignment to the status of the delivery record in memory *)
  Definition set_status (s : srow) (x : sstatus) : srow := mkS (sr_id s) (sr_service s) (sr_event s) (sr_retry s) x (sr_created s) (sr_next s).

  (** eventbus.go 495-505: the preceding event: same sender, not created later, smaller id; latest created first, then the
      largest event_id *string*.  Simplification: rows equal in both are taken in table order. *)
  Definition later_first (a b : erow) : bool :=
    (er_created b <? er_created a) || ((er_created b =? er_created a) && str_leb (d_id (er_ev b)) (d_id (er_ev a))).
  (** eventbus.go 495-505: the predecessor query of checkPrecedingEvent *)
  Definition preceding (e : erow) (d : bdb) : option erow :=
    match isort later_first (filter (fun r => String.eqb (d_sender (er_ev r)) (d_sender (er_ev e)) && (er_created r <=? er_created e) && (er_id r <? er_id e)) (b_ev d)) with
    | [] => None | r :: _ => Some r end.
  (** eventbus.go 487-545 checkPrecedingEvent; [qok]: its queries succeed.  true = may run *)
  Definition check_preceding (qok : bool) (e : erow) (start : nat) (d : bdb) : bool :=
    if String.eqb (d_sender (er_ev e)) "" then false else
    if negb qok then false else
    match preceding e d with
    | None => true
    | Some p =>
        if er_id p <? start then true else
        match find (fun s => String.eqb (sr_service s) (c_service cfg) && (sr_event s =? er_id p)) (b_sv d) with
        | None => true
        | Some s => match d_type (er_ev e) with
                    | STFIFO => match sr_status s with SSuccess | SExpired => true | _ => false end
                    | STLaxFIFO => match sr_status s with SInit => false | _ => true end
                    | _ => true
                    end
        end
    end.

  (** What the environment does during the handling of one event: the row lock is obtained; the queries for the preceding
      event work; what the handler does; Save and commit of the delivery record work. *)
  Inductive hres := HOk | HErr | HPanic.
  (** eventbus.go 549-600: what the surroundings of one handleEvent do *)
  Record henv := mkHE { he_lock : bool; he_query : bool; he_res : hres; he_save : bool }.
  (** eventbus.go 576: Save(spo) *)
  Definition save_row (s : srow) (d : bdb) : bdb :=
    mkDB (b_ev d) (map (fun x => if sr_id x =? sr_id s then s else x) (b_sv d)) (b_svc d) (b_tx d) (b_ne d) (b_ns d) (b_nt d).
  (** eventbus.go 583: the two ordered send types *)
  Definition is_fifo (t : sendtype) : bool := match t with STFIFO | STLaxFIFO => true | _ => false end.
  (** eventbus.go 549-601 handleEvent, up to the call of the handler: skip (row lock not obtained, record gone or no longer
      pending as read by the scan), blocked by a preceding event, or call.  [s] is the record as read by the scan: its
      status (559) and its other columns are those of the scan, not those of the locked row. *)
  Inductive verdict := VSkip | VBlocked | VCall.
  (** eventbus.go 549-588 (handleEvent up to the handler call) *)
  Definition begin_event (lock qok : bool) (start : nat) (e : erow) (s : srow) (d : bdb) : verdict :=
    if negb (lock && existsb (fun x => sr_id x =? sr_id s) (b_sv d)) then VSkip
    else if negb (is_init (sr_status s)) then VSkip
    else if is_fifo (d_type (er_ev e)) && negb (check_preceding qok e start d) then VBlocked else VCall.
  (** eventbus.go 562-597: the delivery record after the handler ended; a panic is treated like an error *)
  Definition end_event (now : nat) (r : hres) (s : srow) : srow := match r with HOk => set_status s SSuccess | _ => do_retry now s end.
  (** handleEvent as a whole; the second component says whether the handler was called.  The deferred Save replaces the
      error of the preceding check, so the transaction is committed in that case too (576). *)
  Definition handle_event (now start : nat) (env : henv) (e : erow) (s : srow) (d : bdb) : bdb * bool :=
    let save s' := if he_save env then save_row s' d else d in
    match begin_event (he_lock env) (he_query env) start e s d with
    | VSkip => (d, false)
    | VBlocked => (save s, false)
    | VCall => (save (end_event now (he_res env) s), true)
    end.
  (** eventbus.go 461-485 dispatchEvents with ConsumeConcurrent = 1: one event after the other; the result also lists the
      handler calls *)
  Fixpoint handle_batch (now start : nat) (envs : nat -> henv) (l : list (erow * srow)) (d : bdb) : bdb * list (erow * srow) :=
    match l with
    | [] => (d, [])
    | (e, s) :: t =>
        let '(d1, called) := handle_event now start (envs 0) e s d in
        let '(d2, cs) := handle_batch now start (fun i => envs (S i)) t d1 in
        (d2, if called then (e, s) :: cs else cs)
    end.
  (** eventbus.go 603-633 handleEvents, alone and with working scan queries; [envs i] is the environment of the i-th event
      of the batch.  Simplification: one clock reading for the whole poll. *)
  Definition handle_events (now : nat) (envs : nat -> henv) (d : bdb) : bdb * list (erow * srow) :=
    match scan_start now d with
    | None => (d, [])
    | Some start => handle_batch now start envs (scan_events now start d) d
    end.

  (** * Cleaning *)
  (** eventbus.go 690-719 deleteServiceEvents *)
  Definition delete_batch (ids : list nat) (d : bdb) : bdb :=
    let sv := filter (fun s => negb (String.eqb (sr_service s) (c_service cfg) && memb (sr_event s) ids)) (b_sv d) in
    let gone := filter (fun i => negb (existsb (fun s => sr_event s =? i) sv)) ids in
    mkDB (filter (fun r => negb (memb (er_id r) gone)) (b_ev d)) sv (b_svc d) (b_tx d) (b_ne d) (b_ns d) (b_nt d).
  (** eventbus.go 720-741: batches of ten *)
  Fixpoint clean_loop (acc ids : list nat) (d : bdb) : bdb :=
    match ids with
    | [] => match acc with [] => d | _ => delete_batch acc d end
    | i :: t => let acc' := acc ++ [i] in
                if 10 <=? length acc' then clean_loop [] t (delete_batch acc' d) else clean_loop acc' t d
    end.
  (** eventbus.go 669-743 cleanEvents, undisturbed.  [now - retention] may lie before the beginning of time. *)
  Definition clean_events (now : nat) (d : bdb) : bdb :=
    clean_loop [] (map sr_event (filter (fun s => String.eqb (sr_service s) (c_service cfg) && match sr_status s with SSuccess => true | _ => false end && (sr_created s + c_retention cfg <? now)) (b_sv d))) d.
End Poll.

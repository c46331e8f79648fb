(** Model of d_timer/sql/timer.go and model.go: the timer over a MySQL table. *)
From Verif Require Export GoBase.

(** timer.go 23-27 TimerStatus *)
Inductive tstatus := TToRun | TFinished | TFailed.
(** model.go 14-24 TimerJob; msg and created_at, which are never read, are left out; time.Time is a number, 0 the zero time.
    Simplification: the rounding of times to seconds by the column type datetime is not modelled. *)
Record tjob := mkJ { j_id : nat; j_service : string; j_key : string; j_cron : string; j_next : nat; j_status : tstatus; j_payload : nat }.
(** the table and its next auto-increment value (ids start at 1) *)
Record tdb := mkTD { t_rows : list tjob; t_nid : nat }.

(** What RunCron and RunOnce return. *)
Inductive runres := RNil | ROverdue (* ErrTimerOverdue *) | RCron (* error of cron.Parse *) | RSql (* error of the database *).

Section Timer.
  (** github.com/robfig/cron, not modelled: Parse and the Next of its result; 0 is the zero time, "no activation" *)
  Variable parse : string -> option (nat -> nat).
  (** the MySQL server accepts the zero date (sql_mode) *)
  Variable zero_ok : bool.

  (** model.go 53-60 Close; errors other than ErrTimerOverdue, which no caller passes *)
  Definition job_close (failed : bool) (j : tjob) : tjob :=
    mkJ (j_id j) (j_service j) (j_key j) (j_cron j) (j_next j) (if failed then TFailed else TFinished) (j_payload j).
  (** model.go 39-51 Reset; None: an error is returned *)
  Definition job_reset (now : nat) (j : tjob) : option tjob :=
    if String.eqb (j_cron j) "" then Some j
    else match parse (j_cron j) with
         | None => None
         | Some next => Some (mkJ (j_id j) (j_service j) (j_key j) (j_cron j) (next now) TToRun (j_payload j))
         end.
  (** model.go 30-37 Next, and its use in timer.go 133-135: a failing Next closes the job *)
  Definition job_after (now : nat) (j : tjob) : tjob :=
    if String.eqb (j_cron j) "" then job_close false j
    else match job_reset now j with Some j' => j' | None => job_close true j end.

  (** timer.go 100-103, the SELECT of FirstOrCreate: gorm ignores empty fields of the condition struct *)
  Definition job_found (svc key : string) (d : tdb) : bool :=
    existsb (fun j => String.eqb (j_service j) svc && (String.eqb key "" || String.eqb (j_key j) key)) (t_rows d).
  (** its INSERT: the column key is unique (model.go 17) - for all services together *)
  Definition job_insert (j : tjob) (d : tdb) : option tdb :=
    if existsb (fun x => String.eqb (j_key x) (j_key j)) (t_rows d) then None
    else if (j_next j =? 0) && negb zero_ok then None
    else Some (mkTD (t_rows d ++ [mkJ (t_nid d) (j_service j) (j_key j) (j_cron j) (j_next j) (j_status j) (j_payload j)]) (S (t_nid d))).
  (** timer.go 66-75 RunCron and 77-90 RunOnce up to the SELECT: refused, or the job to register *)
  Inductive request := ReqCron (expr : string) | ReqOnce (time : nat).
  (** d_timer/sql/timer.go 66-90: the job RunCron or RunOnce registers, or the refusal *)
  Definition new_job (svc key : string) (q : request) (payload now : nat) : runres + tjob :=
    match q with
    | ReqCron e => match job_reset now (mkJ 0 svc key e 0 TToRun payload) with Some j => inr j | None => inl RCron end
    | ReqOnce t => if t <? now then inl ROverdue else inr (mkJ 0 svc key "" t TToRun payload)
    end.
  (** timer.go 96-104 run and its callers, undisturbed *)
  Definition timer_run (svc key : string) (q : request) (payload now : nat) (d : tdb) : runres * tdb :=
    match new_job svc key q payload now with
    | inl e => (e, d)
    | inr j => if job_found svc key d then (RNil, d)
               else match job_insert j d with Some d' => (RNil, d') | None => (RSql, d) end
    end.
  (** timer.go 92-94 Cancel: by key only; gorm refuses a DELETE without condition *)
  Definition timer_cancel (key : string) (d : tdb) : tdb :=
    if String.eqb key "" then d else mkTD (filter (fun j => negb (String.eqb (j_key j) key)) (t_rows d)) (t_nid d).

  (** timer.go 110-118: the jobs to run *)
  Definition is_due (svc : string) (now : nat) (j : tjob) : bool :=
    String.eqb (j_service j) svc && (j_next j <=? now) && match j_status j with TToRun => true | _ => false end.
  (** d_timer/sql/timer.go 110-118: the SELECT of handleJobs *)
  Definition due_jobs (svc : string) (now : nat) (d : tdb) : list tjob := filter (is_due svc now) (t_rows d).
  (** timer.go 122-128: the row is read again, with a lock *)
  Definition job_lock (svc : string) (now id : nat) (d : tdb) : option tjob := find (fun j => is_due svc now j && (j_id j =? id)) (t_rows d).
  (** timer.go 138 tx.Save(job) *)
  Definition job_save (j : tjob) (d : tdb) : option tdb :=
    if (j_next j =? 0) && negb zero_ok then None
    else Some (mkTD (map (fun x => if j_id x =? j_id j then j else x) (t_rows d)) (t_nid d)).

  (** * Many instances on one table, statement by statement *)
  (** handleJobs of one instance: not running; jobs still to do and the one whose handler runs (its row is locked) *)
  Inductive tpoll := TPIdle | TPRun (todo : list tjob) (running : option tjob).
  (** What an observer sees, newest first: the handler of instance [p] is called for a job; that call has ended and the job
      was saved as the second one; a call ended without being saved; a registration ended *)
  Inductive thev :=
  | TCall (now p : nat) (j : tjob)
  | TSaved (now p : nat) (j j' : tjob)
  | TLost (p : nat) (j : tjob)
  | TReg (svc key : string) (q : request) (r : runres).
  (** job table, clock, pollers, row locks, registrations, history (bookkeeping of the interleaving) *)
  Record tworld := mkTW { tw_db : tdb; tw_now : nat; tw_poll : nat -> tpoll; tw_locks : list nat; tw_reg : nat -> option (request * tjob); tw_hist : list thev }.
  (** a process goes on *)
  Definition updf {A} (f : nat -> A) (k : nat) (v : A) : nat -> A := fun x => if Nat.eqb x k then v else f x.
  (** time passes; d_timer/sql/timer.go 66-104 (registration, its INSERT), 92-94 (Cancel), 110-153 (SELECT; row lock; end of the job transaction); death *)
  Inductive tact :=
  | ATick (n : nat)
  | ARun (r : nat) (svc key : string) (q : request) (payload : nat)
  | AInsert (r : nat) (ok : bool)
  | ACancel (key : string)
  | AFind (p : nat)
  | ALock (p : nat) (ok : bool)
  | AEnd (p : nat) (err ok : bool)
  | ADie (p : nat).
  (** the service of each instance *)
  Variable svcs : nat -> string.
  (** One step; None: not possible now. *)
  Definition texec (a : tact) (w : tworld) : option tworld :=
    let '(mkTW d now po lk rg h) := w in
    match a with
    | ATick n => Some (mkTW d (now + n) po lk rg h)
    (* timer.go 66-90, 97, 100-103: up to the SELECT *)
    | ARun r svc key q payload =>
        match rg r with Some _ => None | None =>
        match new_job svc key q payload now with
        | inl e => Some (mkTW d now po lk rg (TReg svc key q e :: h))
        | inr j => if job_found svc key d then Some (mkTW d now po lk rg (TReg svc key q RNil :: h))
                   else Some (mkTW d now po lk (updf rg r (Some (q, j))) h)
        end end
    (* the INSERT; [ok]: the statement is executed *)
    | AInsert r ok =>
        match rg r with
        | None => None
        | Some (q, j) =>
            match (if ok then job_insert j d else None) with
            | Some d' => Some (mkTW d' now po lk (updf rg r None) (TReg (j_service j) (j_key j) q RNil :: h))
            | None => Some (mkTW d now po lk (updf rg r None) (TReg (j_service j) (j_key j) q RSql :: h))
            end
        end
    (* timer.go 92-94; it waits for row locks *)
    | ACancel key =>
        if existsb (fun j => String.eqb (j_key j) key && memb (j_id j) lk) (t_rows d) then None
        else Some (mkTW (timer_cancel key d) now po lk rg h)
    (* timer.go 110-118 *)
    | AFind p => match po p with TPIdle => Some (mkTW d now (updf po p (TPRun (due_jobs (svcs p) now d) None)) lk rg h) | _ => None end
    (* timer.go 120-131: NOWAIT; [ok]: the statement works *)
    | ALock p ok =>
        match po p with
        | TPRun (j :: todo) None =>
            if negb ok || memb (j_id j) lk then Some (mkTW d now (updf po p (TPRun todo None)) lk rg h)
            else match job_lock (svcs p) now (j_id j) d with
                 | None => Some (mkTW d now (updf po p (TPRun todo None)) lk rg h)
                 | Some x => Some (mkTW d now (updf po p (TPRun todo (Some x))) (j_id x :: lk) rg (TCall now p x :: h))
                 end
        | TPRun [] None => Some (mkTW d now (updf po p TPIdle) lk rg h)
        | _ => None
        end
    (* timer.go 130-149: the handler ends, with an error or without (which makes no difference), Next, Save, COMMIT;
       [ok]: Save and COMMIT work *)
    | AEnd p err ok =>
        match po p with
        | TPRun todo (Some j) =>
            let lk' := filter (fun i => negb (i =? j_id j)) lk in
            match (if ok then job_save (job_after now j) d else None) with
            | Some d' => Some (mkTW d' now (updf po p (TPRun todo None)) lk' rg (TSaved now p j (job_after now j) :: h))
            | None => Some (mkTW d now (updf po p (TPRun todo None)) lk' rg (TLost p j :: h))
            end
        | _ => None
        end
    (* the process dies (also if the handler panics, nothing recovers): its transaction is rolled back *)
    | ADie p =>
        match po p with
        | TPRun _ (Some j) => Some (mkTW d now (updf po p TPIdle) (filter (fun i => negb (i =? j_id j)) lk) rg (TLost p j :: h))
        | _ => Some (mkTW d now (updf po p TPIdle) lk rg h)
        end
    end.
  (** the beginning: an empty job table *)
  Definition tworld0 : tworld := mkTW (mkTD [] 1) 0 (fun _ => TPIdle) [] (fun _ => None) [].
  (** the states all histories lead to *)
  Inductive treach : tworld -> Prop :=
  | tr_start : treach tworld0
  | tr_step w a w' : treach w -> texec a w = Some w' -> treach w'.
  (** a history: the actions one after the other, if each is possible *)
  Fixpoint trun (l : list tact) (w : tworld) : option tworld :=
    match l with [] => Some w | a :: t => match texec a w with Some w' => trun t w' | None => None end end.

  (** handleJobs alone and without faults: the calls it makes (handler errors make no difference) *)
  Fixpoint handle_jobs (now : nat) (svc : string) (todo : list tjob) (d : tdb) : tdb * list tjob :=
    match todo with
    | [] => (d, [])
    | j :: t =>
        match job_lock svc now (j_id j) d with
        | None => handle_jobs now svc t d
        | Some x => let d1 := match job_save (job_after now x) d with Some d1 => d1 | None => d end in
                    let '(d2, cs) := handle_jobs now svc t d1 in (d2, x :: cs)
        end
    end.
  (** d_timer/sql/timer.go 110-153 (handleJobs), undisturbed *)
  Definition poll_jobs (now : nat) (svc : string) (d : tdb) : tdb * list tjob := handle_jobs now svc (due_jobs svc now d) d.
End Timer.

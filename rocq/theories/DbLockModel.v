(** Model of lock/db/sql.go (DBLock) over the table resource_lock (lock/db/po.go). *)
From Verif Require Export GoBase.

(** lock/db/po.go 24-32 ResourceLock.  The column [resource] is unique, so the table is a partial map from resource to
    row.  Simplifications: the numeric primary key and created_at, which no code reads, are left out; string comparison
    in SQL is equality of the Go strings; a locker id is a number, xid.New (sql.go 93) gives a new one each time. *)
Record lrow := mkRow { lr_id : nat; lr_upd : nat }.
(** lock/db/po.go 21-36: the lock table by resource (its unique key) *)
Definition ltable := string -> option lrow.
(** insert, update or delete of the row of one resource *)
Definition tset (t : ltable) (k : string) (v : option lrow) : ltable := fun k' => if String.eqb k' k then v else t k'.

(** The SQL statements of sql.go 95-96, 104, 119-121/148-151 (also the renewal) and 136. *)
Inductive sqlq :=
| QSelect (key : string)
| QInsert (key : string) (id ts : nat)
| QUpdate (key : string) (wid : nat) (id ts : nat)   (* UPDATE ... SET locker_id=id, updated_at=ts WHERE resource=key AND locker_id=wid *)
| QDelete (key : string) (wid : nat).
(** What gorm reports back: an error, record not found, the row, duplicate key, or the number of affected rows. *)
Inductive reply := RErr | RNone | RRow (r : lrow) | RDup | RCount (n : nat).
(** What a statement does: all of them are single autocommitted statements, hence atomic. *)
Definition sql_effect (q : sqlq) (t : ltable) : ltable :=
  match q with
  | QSelect _ => t
  | QInsert k id ts => match t k with None => tset t k (Some (mkRow id ts)) | Some _ => t end
  | QUpdate k wid id ts => match t k with Some r => if Nat.eqb (lr_id r) wid then tset t k (Some (mkRow id ts)) else t | None => t end
  | QDelete k wid => match t k with Some r => if Nat.eqb (lr_id r) wid then tset t k None else t | None => t end
  end.
(** lock/db/sql.go 70-144: what a statement returns: row, no row, rows affected, duplicate key *)
Definition sql_reply (q : sqlq) (t : ltable) : reply :=
  match q with
  | QSelect k => match t k with None => RNone | Some r => RRow r end
  | QInsert k id ts => match t k with None => RCount 1 | Some _ => RDup end
  | QUpdate k wid id ts => match t k with Some r => if Nat.eqb (lr_id r) wid then RCount 1 else RCount 0 | None => RCount 0 end
  | QDelete k wid => match t k with Some r => if Nat.eqb (lr_id r) wid then RCount 1 else RCount 0 | None => RCount 0 end
  end.

(** A Go function as a program over its external operations: a new xid, a clock reading, a SQL statement. *)
Inductive prog (R : Type) :=
| Ret (r : R)
| NewID (f : nat -> prog R)
| Now (f : nat -> prog R)
| Stmt (q : sqlq) (f : reply -> prog R).
Arguments Ret {R} r. Arguments NewID {R} f. Arguments Now {R} f. Arguments Stmt {R} q f.

(** Results.  A handle is the returned *ResourceLock; only its LockerID and Resource are used (sql.go 134-159). *)
Record handle := mkH { h_key : string; h_id : nat }.
Inductive lockres := LOk (h : handle) | LLocked (* dddfirework.ErrEntityLocked *) | LErr (* any other error *).

Section Code.
  Variable ttl : nat.

  (** sql.go 92-132 DBLock.lock, in continuation-passing style: [K] gets its result.  gorm fills created_at/updated_at of
      the new row with the time at which Create is called. *)
  Definition lock1 (key : string) (K : lockres -> prog lockres) : prog lockres :=
    NewID (fun id =>
    Stmt (QSelect key) (fun r =>
      match r with
      | RNone => Now (fun ts => Stmt (QInsert key id ts) (fun r =>
                   match r with RCount _ => K (LOk (mkH key id)) | RDup => K LLocked | _ => K LErr end))
      | RRow row => Now (fun t =>
                   if t - lr_upd row <? ttl then K LLocked
                   else Now (fun ts => Stmt (QUpdate key (lr_id row) id ts) (fun r =>
                     match r with RCount 0 => K LLocked | RCount (S _) => K (LOk (mkH key id)) | _ => K LErr end)))
      | _ => K LErr
      end)).

  (** avast/retry-go v3.0.0 retry.Do with Attempts(n+1), RetryIf(err == ErrEntityLocked), LastErrorOnly (sql.go 76-88):
      [n] is the number of attempts left after the current one.  Simplification: the 100 ms delay is not an operation
      of its own; between two operations of a program any time may pass. *)
  Fixpoint retry_do (n : nat) (key : string) : prog lockres :=
    lock1 key (fun r => match n with
                        | 0 => Ret r
                        | S n' => match r with LLocked => retry_do n' key | _ => Ret r end
                        end).

  (** sql.go 70-90 DBLock.Lock; [retry] is opt.Retry, Attempts(5) *)
  Definition Lock (retry : bool) (key : string) : prog lockres := if retry then retry_do 4 key else lock1 key (fun r => Ret r).

  (** sql.go 134-144 DBLock.UnLock: true = nil error *)
  Definition UnLock (h : handle) : prog bool :=
    Stmt (QDelete (h_key h) (h_id h)) (fun r => match r with RCount (S _) => Ret true | _ => Ret false end).

  (** sql.go 146-159 DBLock.update, the renewal of Run: true = nil error *)
  Definition update (h : handle) : prog bool :=
    Now (fun ts => Stmt (QUpdate (h_key h) (h_id h) (h_id h) ts) (fun r => match r with RCount (S _) => Ret true | _ => Ret false end)).
End Code.

(** * Any number of clients on one database *)

(** One client = one acquisition: it calls Lock once and, if it got the lock, may call UnLock later (the engine does,
    engine.go 1216-1240).  Inside DBLock.Run (sql.go 161-189) a second goroutine calls [update] at each tick; the call in
    flight is [c_ren].  It is not waited for, so it may still be executed after UnLock. *)
Inductive phase := PIdle | PLock (p : prog lockres) | PHeld (h : handle) | PFailed (r : lockres) | PUnlock (h : handle) (p : prog bool) | PDone (ok : bool) | PDead.
(** lock/db/sql.go: one user of DBLock and the renewal goroutine of Run (161-189) *)
Record client := mkC { c_ph : phase; c_ren : option (prog bool) }.
(** Each execution of a statement is recorded: who, which statement, what came back, whether it took effect, and when. *)
Record levent := mkEv { e_who : nat; e_stmt : sqlq; e_reply : reply; e_done : bool; e_time : nat }.
(** the lock table, the clock, the ids already given out, all clients, the history (bookkeeping of the interleaving) *)
Record world := mkW { w_tab : ltable; w_now : nat; w_next : nat; w_cl : nat -> client; w_hist : list levent }.
(** How a statement ends: normally; with an error before it took effect; with an error (lost answer, expired context)
    after it took effect. *)
Inductive outc := OOk | OFail | OLost.

(** a client goes on *)
Definition upd_cl (w : world) (c : nat) (x : client) : world :=
  mkW (w_tab w) (w_now w) (w_next w) (fun c' => if Nat.eqb c' c then x else w_cl w c') (w_hist w).
(** executes the first operation of a program *)
Definition op {R} (c : nat) (o : outc) (p : prog R) (w : world) : prog R * world :=
  match p with
  | Ret r => (Ret r, w)
  | NewID f => (f (w_next w), mkW (w_tab w) (w_now w) (S (w_next w)) (w_cl w) (w_hist w))
  | Now f => (f (w_now w), w)
  | Stmt q f =>
      let rep := match o with OOk => sql_reply q (w_tab w) | _ => RErr end in
      let done := match o with OFail => false | _ => true end in
      (f rep, mkW (if done then sql_effect q (w_tab w) else w_tab w) (w_now w) (w_next w) (w_cl w) (w_hist w ++ [mkEv c q rep done (w_now w)]))
  end.
(** lock/db/sql.go 92-131: Lock has returned, or goes on *)
Definition settle_lock (p : prog lockres) : phase :=
  match p with Ret (LOk h) => PHeld h | Ret r => PFailed r | _ => PLock p end.
(** lock/db/sql.go 134-144: UnLock has returned, or goes on *)
Definition settle_unlock (h : handle) (p : prog bool) : phase :=
  match p with Ret b => PDone b | _ => PUnlock h p end.
(** lock/db/sql.go 170-186: the renewal has ended, or goes on *)
Definition settle_ren (p : prog bool) : option (prog bool) := match p with Ret _ => None | _ => Some p end.

Section Machine.
  Variables (ttl : nat) (retry : bool).
  (** The steps of the system: [runs] says whether clients renew (DBLock.Run) or not. *)
  Inductive step (runs : bool) : world -> world -> Prop :=
  | s_tick w d : step runs w (mkW (w_tab w) (w_now w + d) (w_next w) (w_cl w) (w_hist w))
  | s_call w c key : c_ph (w_cl w c) = PIdle -> step runs w (upd_cl w c (mkC (PLock (Lock ttl retry key)) None))
  | s_lock w c p o p' w' : c_ph (w_cl w c) = PLock p -> op c o p w = (p', w') ->
      step runs w (upd_cl w' c (mkC (settle_lock p') (c_ren (w_cl w c))))
  | s_unlock_call w c h : c_ph (w_cl w c) = PHeld h -> step runs w (upd_cl w c (mkC (PUnlock h (UnLock h)) (c_ren (w_cl w c))))
  | s_unlock w c h p o p' w' : c_ph (w_cl w c) = PUnlock h p -> op c o p w = (p', w') ->
      step runs w (upd_cl w' c (mkC (settle_unlock h p') (c_ren (w_cl w c))))
  | s_ren_call w c h : runs = true -> c_ph (w_cl w c) = PHeld h -> c_ren (w_cl w c) = None ->
      step runs w (upd_cl w c (mkC (PHeld h) (Some (update h))))
  | s_ren w c p o p' w' : c_ren (w_cl w c) = Some p -> op c o p w = (p', w') ->
      step runs w (upd_cl w' c (mkC (c_ph (w_cl w c)) (settle_ren p')))
  | s_crash w c : step runs w (upd_cl w c (mkC PDead None)).
  (** every database content to begin with (rows with ids already given out, not from the future) *)
  Definition initial (w : world) : Prop :=
    (forall c, w_cl w c = mkC PIdle None) /\ w_hist w = [] /\ forall k r, w_tab w k = Some r -> lr_id r < w_next w /\ lr_upd r <= w_now w.
  (** a history: any number of steps *)
  Inductive steps (runs : bool) : world -> world -> Prop :=
  | steps_nil w : steps runs w w
  | steps_cons w1 w2 w3 : steps runs w1 w2 -> step runs w2 w3 -> steps runs w1 w3.
  (** the states all histories lead to *)
  Definition reachable (runs : bool) (w : world) : Prop := exists w0, initial w0 /\ steps runs w0 w.
End Machine.

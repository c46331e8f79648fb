(** Model of the event transactions of the MySQL bus (eventbus/mysql/eventbus.go 306-349 and 635-666), statement by
    statement, with any number of publishers and timeout checkers at work at the same time, any of which may stop
    anywhere.  (BusModel and BusTx run one operation after the other.) *)
From Verif Require Export BusModel.

(** What the log records: a DispatchBegin that stored its row, and the services registered at that moment; a call of
    Commit or Rollback, by the publisher or by the timeout checker; an INSERT of the events of a transaction; an INSERT of
    the delivery records of one service for the event rows [ids]; a Commit or Rollback of the publisher that returned nil. *)
Inductive hev :=
| HBegun (t : trow) (svcs : list string)
| HAsked (id : nat) | HRollback (id : nat)
| HStored (id : nat) (evs : list devent)
| HDelivered (id : nat) (svc : string) (ids : list nat)
| HCommitOk (id : nat) | HRollbackOk (id : nat).

(** A publisher: DispatchBegin has returned (the context holds the row); inside Commit (322-340): before the query for
    stored events, before the INSERT of the events (263), before reading the services (268), before the INSERT for the
    next service (286), before the DELETE of the row (339); inside Rollback (343-349): before the DELETE; over. *)
Inductive pproc :=
| PHave (t : trow) | PFind (t : trow) | PIns (t : trow) | PList (t : trow) (rows : list erow)
| PTo (t : trow) (rows : list erow) (svcs : list string) | PDel (t : trow) | PRoll (t : trow) | PEnd.
(** A timeout checker (650-666), a database transaction: [KHold trs]: the due rows are read and locked (FOR UPDATE);
    [KSnap trs snap]: its consistent reads see the events with the transaction ids [snap]; over. *)
Inductive kproc := KHold (trs : list trow) | KSnap (trs : list trow) (snap : list nat) | KEnd.
(** database, clock, publishers, checkers, log (bookkeeping of the interleaving) *)
Record ist := mkI { i_db : bdb; i_now : nat; i_pub : list pproc; i_chk : list kproc; i_log : list hev }.

(** eventbus.go 650-667: the transaction rows locked by a checker (SELECT FOR UPDATE) *)
Definition held (k : kproc) : list trow := match k with KHold l | KSnap l _ => l | KEnd => [] end.
(** a row lock of any checker *)
Definition locked (ks : list kproc) (t : trow) : bool := existsb (fun k => existsb (fun x => tr_id x =? tr_id t) (held k)) ks.
(** assignment to the i-th process *)
Fixpoint set_nth {A} (i : nat) (x : A) (l : list A) : list A :=
  match l, i with [], _ => [] | _ :: t, 0 => x :: t | y :: t, S j => y :: set_nth j x t end.

(** the next statement of a publisher; the DELETE of the row waits while a checker holds it *)
Definition pub_step (ks : list kproc) (p : pproc) (d : bdb) : pproc * bdb * list hev :=
  match p with
  | PFind t => if fst (find_trans (tr_id t) d) then (PEnd, d, [HCommitOk (tr_id t)]) else (PIns t, d, [])
  | PIns t => (PList t (fst (insert_events (tr_id t) (tr_events t) d)), snd (insert_events (tr_id t) (tr_events t) d), [HStored (tr_id t) (tr_events t)])
  | PList t rows => (PTo t rows (b_svc d), d, [])
  | PTo t rows (v :: r) => (PTo t rows r, snd (insert_deliveries v rows d), [HDelivered (tr_id t) v (map er_id rows)])
  | PTo t rows [] => (PDel t, d, [])
  | PDel t => if locked ks t then (p, d, []) else (PEnd, snd (delete_tx t d), [HCommitOk (tr_id t)])
  | PRoll t => if locked ks t then (p, d, []) else (PEnd, snd (delete_tx t d), [HRollbackOk (tr_id t)])
  | PHave t => (p, d, [])
  | PEnd => (PEnd, d, [])
  end.

(** What becomes of one due row in a checker (635-648; errors are only logged): the registered checker gives no decision;
    it says rollback and the DELETE succeeds or fails; it says commit and Commit fails before the INSERT of the events
    ([None]), or executes it and [n] of the INSERTs of delivery records, and, if these were all, the DELETE or not. *)
Inductive answer := AOther | ARoll (del : bool) | ACommit (n : option nat) (del : bool).
(** eventbus.go 284-299: the delivery records of a list of services *)
Fixpoint deliver_to (id : nat) (svcs : list string) (rows : list erow) (d : bdb) : bdb * list hev :=
  match svcs with
  | [] => (d, [])
  | v :: r => let '(d', l) := deliver_to id r rows (snd (insert_deliveries v rows d)) in (d', HDelivered id v (map er_id rows) :: l)
  end.
Definition check_one (snap : list nat) (t : trow) (a : answer) (d : bdb) : bdb * list hev :=
  match a with
  | AOther => (d, [])
  | ARoll del => ((if del then snd (delete_tx t d) else d), [HRollback (tr_id t)])
  | ACommit n del =>
      if memb (tr_id t) snap then (d, [HAsked (tr_id t)])                      (* Commit: an event with this trans_id is found *)
      else match n with
           | None => (d, [HAsked (tr_id t)])
           | Some k =>
               let svcs := firstn k (b_svc d) in
               let rows := fst (insert_events (tr_id t) (tr_events t) d) in
               let '(d1, l) := deliver_to (tr_id t) svcs rows (snd (insert_events (tr_id t) (tr_events t) d)) in
               ((if (length (b_svc d) <=? k) && del then snd (delete_tx t d1) else d1), HAsked (tr_id t) :: HStored (tr_id t) (tr_events t) :: l)
           end
  end.
(** a row without answer (list too short): the checker gives no decision *)
Fixpoint check_list (snap : list nat) (trs : list trow) (as_ : list answer) (d : bdb) : bdb * list hev :=
  match trs, as_ with
  | t :: r, a :: ar => let '(d1, l1) := check_one snap t a d in let '(d2, l2) := check_list snap r ar d1 in (d2, l1 ++ l2)
  | _, _ => (d, [])
  end.

Inductive iact :=
| IReg (name : string) | ITick (n : nat)
| IPlain (evs : list devent) (outs : list sres)   (* an ordinary Dispatch of somebody *)
| IRemove (ids : list nat)                       (* cleaners: any event rows with their delivery records *)
| IBegin (svc : string) (timeout : nat) (evs : list devent) (* DispatchBegin: eventbus.go 306-319 *)
| ICommit (i : nat) | IRollback (i : nat)        (* publisher i calls Commit or Rollback *)
| INext (i : nat)                                (* publisher i executes its next statement *)
| IStop (i : nat)                                (* publisher i never gets on: error or process death *)
| ICheck (svc : string)                          (* a checker locks the due rows; NOWAIT: fails if one is locked *)
| ISnap (j : nat) | ICheckEnd (j : nat) (answers : list answer)
| IAbort (j : nat).                              (* the checker's transaction is rolled back *)
Definition due_rows (svc : string) (now : nat) (d : bdb) : list trow := filter (fun t => String.eqb (tr_service t) svc && (tr_due t <? now)) (b_tx d).
(** one statement of a publisher (eventbus.go 306-349), of a checker (635-667), or of the surroundings *)
Definition iexec (a : iact) (st : ist) : ist :=
  let '(mkI d now ps ks h) := st in
  match a with
  | IReg name => mkI (init_service name d) now ps ks h
  | ITick n => mkI d (now + n) ps ks h
  | IPlain evs outs => mkI (snd (dispatch 0 evs outs d)) now ps ks h
  | IRemove ids => mkI (mkDB (filter (fun r => negb (memb (er_id r) ids)) (b_ev d)) (filter (fun s => negb (memb (sr_event s) ids)) (b_sv d)) (b_svc d) (b_tx d) (b_ne d) (b_ns d) (b_nt d)) now ps ks h
  | IBegin svc timeout evs =>
      match evs with
      | [] => st
      | _ => let '(t, d') := insert_tx svc evs (now + timeout) d in mkI d' now (ps ++ [PHave t]) ks (h ++ [HBegun t (b_svc d)])
      end
  | ICommit i => match nth_error ps i with Some (PHave t) => mkI d now (set_nth i (PFind t) ps) ks (h ++ [HAsked (tr_id t)]) | _ => st end
  | IRollback i => match nth_error ps i with Some (PHave t) => mkI d now (set_nth i (PRoll t) ps) ks (h ++ [HRollback (tr_id t)]) | _ => st end
  | INext i => match nth_error ps i with Some p => let '(p', d', l) := pub_step ks p d in mkI d' now (set_nth i p' ps) ks (h ++ l) | None => st end
  | IStop i => mkI d now (set_nth i PEnd ps) ks h
  | ICheck svc => if existsb (locked ks) (due_rows svc now d) then st else mkI d now ps (ks ++ [KHold (due_rows svc now d)]) h
  | ISnap j => match nth_error ks j with Some (KHold trs) => mkI d now ps (set_nth j (KSnap trs (map er_trans (b_ev d))) ks) h | _ => st end
  | ICheckEnd j answers =>
      match nth_error ks j with
      | Some (KSnap trs snap) => let '(d', l) := check_list snap trs answers d in mkI d' now ps (set_nth j KEnd ks) (h ++ l)
      | _ => st
      end
  | IAbort j => mkI d now ps (set_nth j KEnd ks) h
  end.
(** a history: the actions one after the other *)
Fixpoint irun (acts : list iact) (st : ist) : ist := match acts with [] => st | a :: t => irun t (iexec a st) end.
(** the beginning: empty tables *)
Definition istart : ist := mkI (mkDB [] [] [] [] 1 1 1) 0 [] [] [].

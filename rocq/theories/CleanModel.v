(** Model of cleanEvents (eventbus/mysql/eventbus.go 669-743) statement by statement, in a world where any number of
    cleaners (several services, several instances of one service), publishers and handlers work at the same time and any
    of them may stop anywhere.  [clean_events] of BusModel is one run of this, undisturbed. *)
From Verif Require Export BusModel.

(** Dispatch (eventbus.go 256-299) when its INSERTs are statements of their own: the event rows are in, the services not
    yet read (274-279); the services left to INSERT delivery records for (281-297); over. *)
Inductive dproc := DNew (rows : list erow) | DTo (rows : list erow) (svcs : list string) | DEnd.
(** cleanEvents: [cfg] is the bus (service, retention), [todo] the event ids of the scanned rows not yet worked on.
    [CNext]: before the next batch; [CCount]: the delivery records of the batch [ids] are deleted (692), the others not
    yet counted (697); [CDel]: [gone] are the events about to be deleted (715); [CEnd]: over. *)
Inductive cproc := CNext (cfg : buscfg) (todo : list nat) | CCount (cfg : buscfg) (ids todo : list nat) | CDel (cfg : buscfg) (gone todo : list nat) | CEnd.
(** database, clock, the dispatchers and the cleaners of all processes (bookkeeping of the interleaving) *)
Record kst := mkK { k_db : bdb; k_now : nat; k_ds : list dproc; k_cs : list cproc }.

(** eventbus.go 672-681: the scan of the finished rows.  Simplification: the whole cursor is read at once (an unbuffered
    cursor returns the rows as of its start too). *)
Definition scan_finished (cfg : buscfg) (now : nat) (d : bdb) : list nat :=
  map sr_event (filter (fun s => String.eqb (sr_service s) (c_service cfg) && match sr_status s with SSuccess => true | _ => false end && (sr_created s + c_retention cfg <? now)) (b_sv d)).
(** eventbus.go 692-694: DELETE by service and event ids; the status is not looked at *)
Definition del_deliveries (svc : string) (ids : list nat) (d : bdb) : bdb :=
  mkDB (b_ev d) (filter (fun s => negb (String.eqb (sr_service s) svc && memb (sr_event s) ids)) (b_sv d)) (b_svc d) (b_tx d) (b_ne d) (b_ns d) (b_nt d).
(** eventbus.go 696-711: the ids of the batch no delivery record refers to *)
Definition unreferenced (ids : list nat) (d : bdb) : list nat := filter (fun i => negb (existsb (fun s => sr_event s =? i) (b_sv d))) ids.
(** eventbus.go 715-717 *)
Definition del_events (gone : list nat) (d : bdb) : bdb :=
  mkDB (filter (fun r => negb (memb (er_id r) gone)) (b_ev d)) (b_sv d) (b_svc d) (b_tx d) (b_ne d) (b_ns d) (b_nt d).
(** eventbus.go 690-741: the next statement of a cleaner; batches of ten *)
Definition clean_step (c : cproc) (d : bdb) : cproc * bdb :=
  match c with
  | CNext cfg [] => (CEnd, d)
  | CNext cfg todo => (CCount cfg (firstn 10 todo) (skipn 10 todo), del_deliveries (c_service cfg) (firstn 10 todo) d)
  | CCount cfg ids todo => (match unreferenced ids d with [] => CNext cfg todo | gone => CDel cfg gone todo end, d)
  | CDel cfg gone todo => (CNext cfg todo, del_events gone d)
  | CEnd => (CEnd, d)
  end.
(** eventbus.go 274-297: the next statement of a publisher *)
Definition dispatch_step (p : dproc) (d : bdb) : dproc * bdb :=
  match p with
  | DNew rows => (DTo rows (b_svc d), d)
  | DTo rows (s :: t) => (DTo rows t, snd (insert_deliveries s rows d))
  | DTo rows [] => (DEnd, d)
  | DEnd => (DEnd, d)
  end.
(** the delivery record [id], if [p] holds of its status, gets a new retry count, status and time (the Save of a handler,
    eventbus.go 576) *)
Definition save_status (p : sstatus -> bool) (id retry : nat) (st : sstatus) (next : nat) (d : bdb) : bdb :=
  mkDB (b_ev d) (map (fun x => if (sr_id x =? id) && p (sr_status x) then mkS (sr_id x) (sr_service x) (sr_event x) retry st (sr_created x) next else x) (b_sv d))
       (b_svc d) (b_tx d) (b_ne d) (b_ns d) (b_nt d).
(** assignment to the i-th process *)
Fixpoint set_nth {A} (i : nat) (x : A) (l : list A) : list A :=
  match l, i with [], _ => [] | _ :: t, 0 => x :: t | y :: t, S j => y :: set_nth j x t end.

(** What can happen next, anywhere in the system. *)
Inductive kact :=
| KReg (name : string)                                      (* a bus is created: eventbus.go 361-364 *)
| KTick (t : nat)                                           (* time passes *)
| KPub (trans : nat) (evs : list devent) (outs : list sres) (* a Dispatch inside a database transaction: all or nothing *)
| KIns (trans : nat) (evs : list devent)                    (* a Dispatch on its own: the event rows are inserted ... *)
| KDeliver (i : nat)                                        (* ... and publisher i executes its next statement ... *)
| KDie (i : nat)                                            (* ... or never gets on: error or process death *)
| KSave (id retry : nat) (st : sstatus) (next : nat)        (* a handler saves the record it works on, which is pending *)
| KStale (id retry : nat) (st : sstatus) (next : nat)       (* a handler saves a record whatever has become of it since its scan *)
| KScan (cfg : buscfg)                                      (* a cleaner starts *)
| KClean (j : nat)                                          (* cleaner j executes its next statement *)
| KStop (j : nat).                                          (* cleaner j never gets on *)
Definition kexec (a : kact) (st : kst) : kst :=
  let '(mkK d now ds cs) := st in
  match a with
  | KReg name => mkK (init_service name d) now ds cs
  | KTick t => mkK d (now + t) ds cs
  | KPub trans evs outs => mkK (snd (transaction (dispatch trans evs) outs d)) now ds cs
  | KIns trans evs => mkK (snd (insert_events trans evs d)) now (ds ++ [DNew (fst (insert_events trans evs d))]) cs
  | KDeliver i => match nth_error ds i with Some p => let '(p', d') := dispatch_step p d in mkK d' now (set_nth i p' ds) cs | None => st end
  | KDie i => mkK d now (set_nth i DEnd ds) cs
  | KSave id retry s next => mkK (save_status is_init id retry s next d) now ds cs
  | KStale id retry s next => mkK (save_status (fun _ => true) id retry s next d) now ds cs
  | KScan cfg => mkK d now ds (cs ++ [CNext cfg (scan_finished cfg now d)])
  | KClean j => match nth_error cs j with Some c => let '(c', d') := clean_step c d in mkK d' now ds (set_nth j c' cs) | None => st end
  | KStop j => mkK d now ds (set_nth j CEnd cs)
  end.
(** a history: the actions one after the other *)
Fixpoint krun (acts : list kact) (st : kst) : kst := match acts with [] => st | a :: t => krun t (kexec a st) end.
(** the beginning: no process is active *)
Definition kstart (d : bdb) (now : nat) : kst := mkK d now [] [].

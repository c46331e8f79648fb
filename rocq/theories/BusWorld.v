(** Any number of pollers, dispatchers, cleaning runs and an operator working on the same tables, statement by statement.
    A poller is one execution slot of handleEvents: the ticker loop of some process (eventbus.go 746-763) or a goroutine
    started by onPostSave (351-355). *)
From Verif Require Export BusModel.

(** eventbus.go 603-633, 384-437: how far a poll is: scan start read; offset read; delivery records read; running, with the
    pairs not yet taken from the channel and those being handled. *)
Inductive poll :=
| PIdle
| PStart (start : nat)
| POff (start off : nat)
| PDue (start : nat) (svs : list srow)
| PRun (start : nat) (todo running : list (erow * srow)).
(** eventbus.go 273-298: a Dispatch that has inserted its events; then has read the services and still has to insert for [svcs] *)
Inductive job := JInserted (rows : list erow) | JDeliver (rows : list erow) (svcs : list string).

(** What an observer sees, newest first. *)
Inductive hev :=
| HDisp (rows : list erow) (svcs : list string)        (* a complete Dispatch *)
| HCall (now : nat) (svc : string) (e : erow) (s : srow) (* the handler of [svc] is called with [e] because of record [s] *)
| HRec (svc : string) (e : erow) (s : srow) (r : hres) (s' : srow) (* that call ended with [r] and the record was saved as [s'] *)
| HOper (svc : string) (ev : nat) (x : sstatus).       (* the operator set the status *)

(** database, clock, pollers, row locks of handleEvent, dispatching jobs, history (bookkeeping of the interleaving) *)
Record world := mkW { w_db : bdb; w_now : nat; w_poll : nat -> poll; w_locks : list nat; w_jobs : nat -> option job; w_hist : list hev }.
(** a process goes on *)
Definition upd {A} (f : nat -> A) (k : nat) (v : A) : nat -> A := fun x => if Nat.eqb x k then v else f x.

(** time; NewEventBus (eventbus.go 361-364); Dispatch as a whole or by statement (256-299); handleEvents by statement (603-633, 384-437); handleEvent up to the handler and its end (549-600); death; cleanEvents (669-743); an operator's UPDATE *)
Inductive act :=
| ATick (n : nat)
| ARegister (name : string)
| ADispatch (evs : list devent)
| AInsert (j : nat) (evs : list devent)
| AList (j : nat)
| ADeliver (j : nat)
| APStart (p : nat)
| APOff (p : nat)
| APDue (p : nat)
| APEvents (p : nat)
| ABegin (p : nat) (lock qok : bool)
| AEnd (p i : nat) (r : hres) (saved : bool)
| ADie (p : nat)
| AClean (p : nat)
| AOper (svc : string) (ev : nat) (x : sstatus).

(** one of the running handlers ends *)
Fixpoint remove_nth {A} (i : nat) (l : list A) : list A :=
  match l, i with [], _ => [] | _ :: t, 0 => t | x :: t, S i => x :: remove_nth i t end.

Section World.
  (** the configuration of each poller *)
  Variable cfgs : nat -> buscfg.

  (** all statements of one Dispatch in a row, none failing *)
  Definition dispatch_now (evs : list devent) (d : bdb) : list erow * bdb :=
    let '(rows, d1) := insert_events 0 evs d in
    (rows, fold_left (fun d s => snd (insert_deliveries s rows d)) (b_svc d1) d1).
  (** eventbus.go 554: the row is locked by another transaction (NOWAIT fails) *)
  Definition locked (w : world) (id : nat) : bool := memb id (w_locks w).
  (** eventbus.go 672-675: the finished records cleanEvents selects *)
  Definition cleanable (c : buscfg) (now : nat) (s : srow) : bool :=
    String.eqb (sr_service s) (c_service c) && match sr_status s with SSuccess => true | _ => false end && (sr_created s + c_retention c <? now).

  (** One step; [None]: not possible now. *)
  Definition exec (a : act) (w : world) : option world :=
    let '(mkW d now po lk js h) := w in
    match a with
    | ATick n => Some (mkW d (now + n) po lk js h)
    | ARegister name => Some (mkW (init_service name d) now po lk js h)
    | ADispatch [] => None
    | ADispatch evs => let '(rows, d') := dispatch_now evs d in Some (mkW d' now po lk js (HDisp rows (b_svc d) :: h))
    | AInsert j [] => None
    | AInsert j evs =>
        match js j with Some _ => None | None =>
        let '(rows, d') := insert_events 0 evs d in Some (mkW d' now po lk (upd js j (Some (JInserted rows))) h) end
    | AList j =>
        match js j with Some (JInserted rows) => Some (mkW d now po lk (upd js j (Some (JDeliver rows (b_svc d)))) h) | _ => None end
    | ADeliver j =>
        match js j with
        | Some (JDeliver rows (s :: t)) => Some (mkW (snd (insert_deliveries s rows d)) now po lk (upd js j (Some (JDeliver rows t))) h)
        | _ => None
        end
    (* eventbus.go 611-620 *)
    | APStart p =>
        match po p with
        | PIdle => Some (mkW d now (match scan_start (cfgs p) now d with Some st => upd po p (PStart st) | None => po end) lk js h)
        | _ => None
        end
    (* eventbus.go 386-401 *)
    | APOff p =>
        match po p with
        | PStart st => Some (mkW d now (upd po p (match earliest (cfgs p) st d with Some s => POff st (offset st s) | None => PIdle end)) lk js h)
        | _ => None
        end
    (* eventbus.go 408-419 *)
    | APDue p =>
        match po p with POff st off => Some (mkW d now (upd po p (PDue st (due (cfgs p) now off d))) lk js h) | _ => None end
    (* eventbus.go 420-436 *)
    | APEvents p =>
        match po p with
        | PDue st svs => Some (mkW d now (upd po p (PRun st (pair_up (order_by er_id (filter (fun r => memb (er_id r) (map sr_event svs)) (b_ev d))) svs) [])) lk js h)
        | _ => None
        end
    (* eventbus.go 549-584: up to the call of the handler; the row lock is not waited for *)
    | ABegin p lock qok =>
        match po p with
        | PRun st ((e, s) :: todo) run =>
            match begin_event (cfgs p) (lock && negb (locked w (sr_id s))) qok st e s d with
            | VSkip => Some (mkW d now (upd po p (PRun st todo run)) lk js h)
            | VBlocked => Some (mkW (save_row s d) now (upd po p (PRun st todo run)) lk js h)
            | VCall => Some (mkW d now (upd po p (PRun st todo (run ++ [(e, s)]))) (sr_id s :: lk) js (HCall now (c_service (cfgs p)) e s :: h))
            end
        | PRun st [] [] => Some (mkW d now (upd po p PIdle) lk js h)
        | _ => None
        end
    (* eventbus.go 562-600: after the handler; [saved]: Save and the commit worked *)
    | AEnd p i r saved =>
        match po p with
        | PRun st todo run =>
            match nth_error run i with
            | Some (e, s) =>
                Some (mkW (if saved then save_row (end_event (cfgs p) now r s) d else d) now (upd po p (PRun st todo (remove_nth i run)))
                          (filter (fun x => negb (x =? sr_id s)) lk) js (if saved then HRec (c_service (cfgs p)) e s r (end_event (cfgs p) now r s) :: h else h))
            | None => None
            end
        | _ => None
        end
    (* the process dies: its transactions are rolled back, its row locks released *)
    | ADie p =>
        Some (mkW d now (upd po p PIdle) (filter (fun x => negb (memb x (match po p with PRun _ _ run => map (fun t => sr_id (snd t)) run | _ => [] end))) lk) js h)
    (* eventbus.go 669-743, simplified to one step; it waits for row locks *)
    | AClean p =>
        if existsb (fun s => cleanable (cfgs p) now s && locked w (sr_id s)) (b_sv d) then None
        else Some (mkW (clean_events (cfgs p) now d) now po lk js h)
    (* po.go 37-41: failed events are set to "expired" by hand *)
    | AOper svc ev x =>
        if existsb (fun s => String.eqb (sr_service s) svc && (sr_event s =? ev) && locked w (sr_id s)) (b_sv d) then None
        else Some (mkW (mkDB (b_ev d) (map (fun s => if String.eqb (sr_service s) svc && (sr_event s =? ev) then set_status s x else s) (b_sv d)) (b_svc d) (b_tx d) (b_ne d) (b_ns d) (b_nt d))
                       now po lk js (HOper svc ev x :: h))
    end.

  (** Which interleavings are considered. *)
  Record mode : Set := mkMode { m_split : bool; m_cleanrace : bool; m_overlap : bool; m_loss : bool }.
  (** a poll is between its two queries (eventbus.go 405-436) *)
  Definition busy (w : world) : Prop := (exists p st svs, w_poll w p = PDue st svs).
  (** no other poller of the same service is active *)
  Definition others_idle (w : world) (p : nat) : Prop := forall q, q <> p -> c_service (cfgs q) = c_service (cfgs p) -> w_poll w q = PIdle.
  (** no poller of the service is active *)
  Definition service_idle (w : world) (svc : string) : Prop := forall q, c_service (cfgs q) = svc -> w_poll w q = PIdle.
  (** which actions a class of histories may contain *)
  Definition allowed (m : mode) (w : world) (a : act) : Prop :=
    match a with
    | AInsert _ _ => m_split m = true
    | AClean _ => m_cleanrace m = true \/ ~ busy w
    | APStart p => m_overlap m = true \/ others_idle w p
    | AOper svc _ x => (x = SExpired \/ x = SPrecedingFailed) /\ (m_overlap m = true \/ service_idle w svc)
    | AEnd _ _ _ saved => m_loss m = true \/ saved = true
    | ADie _ => m_loss m = true
    | _ => True
    end.
  (** one allowed action *)
  Definition step (m : mode) (w w' : world) : Prop := exists a, allowed m w a /\ exec a w = Some w'.
  (** a history: any number of allowed actions *)
  Inductive steps (m : mode) : world -> world -> Prop :=
  | steps_nil w : steps m w w
  | steps_cons w1 w2 w3 : steps m w1 w2 -> step m w2 w3 -> steps m w1 w3.
  (** empty tables *)
  Definition db0 : bdb := mkDB [] [] [] [] 1 1 1.
  (** the beginning: empty tables, nobody active *)
  Definition world0 : world := mkW db0 0 (fun _ => PIdle) [] (fun _ => None) [].
  (** the states all histories of a class lead to *)
  Definition reachable (m : mode) (w : world) : Prop := steps m world0 w.
  (** a history: the actions one after the other, if each is possible *)
  Fixpoint run (l : list act) (w : world) : option world :=
    match l with [] => Some w | a :: t => match exec a w with Some w' => run t w' | None => None end end.
End World.
(** everything goes / dispatches are atomic and cleaning does not run inside a scan / in addition, the polls of a service
    do not overlap / in addition, nobody dies and every result is saved *)
Definition free_mode : mode := mkMode true true true true.
(** dispatch in one piece, no cleaning inside a poll *)
Definition calm_mode : mode := mkMode false false true true.
(** in addition, polls of a service do not overlap *)
Definition single_mode : mode := mkMode false false false true.
(** in addition, nobody dies and every result is saved *)
Definition reliable_mode : mode := mkMode false false false false.

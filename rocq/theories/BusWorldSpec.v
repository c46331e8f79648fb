(** What the history of a bus tells, for the properties about all schedules. *)
From Verif Require Import BusModel BusWorld.

(** The event was dispatched / dispatched to the service. *)
Definition was_dispatched (h : list hev) (r : erow) : Prop := exists rows svcs, In (HDisp rows svcs) h /\ In r rows.
Definition dispatched_to (h : list hev) (svc : string) (r : erow) : Prop := exists rows svcs, In (HDisp rows svcs) h /\ In r rows /\ In svc svcs.
(** The handler of the service returned without error for the event, and this was recorded. *)
Definition processed (h : list hev) (svc : string) (r : erow) : Prop := exists s s', In (HRec svc r s HOk s') h.
(** A call was recorded that ended the processing of the event: it succeeded, or the retries are used up. *)
Definition settled (h : list hev) (svc : string) (r : erow) : Prop := exists s x s', In (HRec svc r s x s') h /\ sr_status s' <> SInit.
(** The operator gave the delivery the status. *)
Definition set_by_hand (h : list hev) (svc : string) (r : erow) (x : sstatus) : Prop := In (HOper svc (er_id r) x) h.

Definition sender (r : erow) : string := d_sender (er_ev r).
Definition type (r : erow) : sendtype := d_type (er_ev r).
(** The events of a sender were dispatched in the order of their creation times, ties broken by the event id string. *)
Definition in_creation_order (h : list hev) (snd : string) : Prop :=
  forall a b, was_dispatched h a -> was_dispatched h b -> sender a = snd -> sender b = snd -> er_id a < er_id b ->
  er_created a < er_created b \/ (er_created a = er_created b /\ str_ltb (d_id (er_ev a)) (d_id (er_ev b)) = true).
(** Nobody touched the deliveries of the sender's events between [a] and [e] by hand. *)
Definition untouched_between (h : list hev) (svc : string) (a e : erow) : Prop :=
  forall c, was_dispatched h c -> sender c = sender e -> er_id a < er_id c < er_id e -> forall x, ~ set_by_hand h svc c x.

(** number of calls / of recorded calls for the event *)
Definition is_call (svc : string) (id : nat) (x : hev) : bool := match x with HCall _ v e _ => String.eqb v svc && (er_id e =? id) | _ => false end.
Definition is_rec (svc : string) (id : nat) (x : hev) : bool := match x with HRec v e _ _ _ => String.eqb v svc && (er_id e =? id) | _ => false end.
Definition calls (h : list hev) (svc : string) (id : nat) : nat := length (filter (is_call svc id) h).
Definition recs (h : list hev) (svc : string) (id : nat) : nat := length (filter (is_rec svc id) h).
(** How many retries a strategy grants: it answers with count+1 for the first [n] counts and refuses from then on. *)
Definition grants (st : strategy) (n : nat) : Prop :=
  forall count now, (count < n -> exists t, strat_next st count now = Some (S count, t)) /\ (n <= count -> strat_next st count now = None).
(** A call for the event is in progress in the service. *)
Definition in_progress (cfgs : nat -> buscfg) (w : world) (svc : string) (id : nat) : Prop :=
  exists p st todo run e s, c_service (cfgs p) = svc /\ w_poll w p = PRun st todo run /\ In (e, s) run /\ er_id e = id.
(** The delivery record of the event in the service. *)
Definition record_of (w : world) (svc : string) (id : nat) (s : srow) : Prop := In s (b_sv (w_db w)) /\ sr_service s = svc /\ sr_event s = id.
(** [a] comes right before [e] among the events of the sender: smaller id, not created later, and every other such event was
    created before [a] (or at the same time, with a smaller event id string). *)
Definition right_before (h : list hev) (a e : erow) : Prop :=
  was_dispatched h a /\ sender a = sender e /\ er_created a <= er_created e /\ er_id a < er_id e /\
  forall r, was_dispatched h r -> sender r = sender e -> er_created r <= er_created e -> er_id r < er_id e ->
    r = a \/ er_created r < er_created a \/ (er_created r = er_created a /\ str_ltb (d_id (er_ev r)) (d_id (er_ev a)) = true).
(** Poller [p] is executing a handler call, its [i]-th at the moment: event [e], because of record [s]. *)
Definition calling (w : world) (p i : nat) (e : erow) (s : srow) : Prop := exists st todo run, w_poll w p = PRun st todo run /\ nth_error run i = Some (e, s).
(** The next thing poller [p] takes from its channel. *)
Definition takes_next (w : world) (p : nat) (e : erow) (s : srow) : Prop := exists st todo run, w_poll w p = PRun st ((e, s) :: todo) run.
(** [older] is the part of the history before the last recorded call for the event. *)
Definition before_last_record (h : list hev) (svc : string) (id : nat) (older : list hev) : Prop :=
  exists newer e s r s', h = newer ++ HRec svc e s r s' :: older /\ er_id e = id /\ recs newer svc id = 0.
(** How long a strategy waits before retry number [count + 1]. *)
Definition pauses (st : strategy) (pause : nat -> nat) : Prop :=
  forall count now n t, strat_next st count now = Some (n, t) -> t = now + pause count.

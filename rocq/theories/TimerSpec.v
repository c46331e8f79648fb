(** Vocabulary for the properties of the timer. *)
From Verif Require Import TimerModel.

(** The schedule of a valid cron expression always has a next activation, after the given time (the documented behaviour of
    cron.Schedule.Next for expressions that ever activate). *)
Definition always_later (parse : string -> option (nat -> nat)) : Prop := forall e f t, parse e = Some f -> t < f t.
(** How often the handler was called for, and how many calls were lost (process died, Save or COMMIT failed) for, jobs
    satisfying [K]. *)
Definition called (K : tjob -> bool) (h : list thev) : nat := length (filter (fun x => match x with TCall _ _ j => K j | _ => false end) h).
Definition lost (K : tjob -> bool) (h : list thev) : nat := length (filter (fun x => match x with TLost _ j => K j | _ => false end) h).
(** job [id], scheduled for time [n] *)
Definition at_time (id n : nat) (j : tjob) : bool := (j_id j =? id) && (j_next j =? n).
(** the one-shot job [id] *)
Definition one_shot (id : nat) (j : tjob) : bool := (j_id j =? id) && String.eqb (j_cron j) "".

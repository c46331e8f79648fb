(** Words for the progress of LaxFIFO events. *)
From Verif Require Import BusModel BusWorldSpec BusLiveSpec.

(** the pauses of the strategy are at most [D] long *)
Definition pauses_within (D : nat) (st : strategy) : Prop := forall count now c t, strat_next st count now = Some (c, t) -> t <= now + D.
(** the polls of the service happen at times not before [T], each at least [D] after the one before it *)
Fixpoint apart (D T : nat) (l : list busop) : Prop :=
  match l with [] => True | BPoll now _ :: t => T <= now /\ apart D (now + D) t | _ :: t => apart D T t end.

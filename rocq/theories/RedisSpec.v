(** Vocabulary for the properties of the Redis lock. *)
From Verif Require Import RedisModel.

(** Process [c] was given the lock on [key] at time [since] and has not given it back. *)
Definition holds (w : rworld) (c : nat) (key : string) (since : nat) : Prop := exists tok, rw_cl w c = CHolding key tok since.
(** Process [c] is inside a call of Lock for [key], and its next attempt is due. *)
Definition tries (w : rworld) (c : nat) (key : string) : Prop := exists tok start lf at_, rw_cl w c = CTrying key tok start lf at_ /\ at_ <= rw_now w.
(** Somebody's key for [key] was set on the server at [t] by [c] - seen by [c] or not. *)
Definition was_set (h : list rev) (t c : nat) (key : string) : Prop := (exists start, In (ELock start t c key LGot) h) \/ In (ESet t c key) h.

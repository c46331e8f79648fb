(** Runs that end before the keys they were given run out. *)
From Verif Require Import LeaseModel.

(** Run [i] is about to end its transaction (Commit, or RollBack after an error). *)
Definition ending (st : lst) (i : nat) : Prop := exists x held snap buf ok out, nth_error (l_ph st) i = Some (PRun x held snap buf (Ret ok out)).
(** In this history every transaction that ends, does so less than the ttl after each of its keys was given to it. *)
Definition in_time (ttl : nat) (rs : list runp) (acts : list lact) (st : lst) : Prop :=
  forall a i b, acts = a ++ LStep i :: b -> ending (lrun ttl rs a st) i ->
  forall k t, In (i, k, t) (l_got (lrun ttl rs a st)) -> l_now (lrun ttl rs a st) < t + ttl.
(** Two runs are inside their transactions, and both were given key [k]. *)
Definition overlap (st : lst) (k : string) : Prop :=
  exists i j x1 h1 s1 b1 p1 x2 h2 s2 b2 p2, i <> j /\ nth_error (l_ph st) i = Some (PRun x1 h1 s1 b1 p1) /\ In k h1 /\ nth_error (l_ph st) j = Some (PRun x2 h2 s2 b2 p2) /\ In k h2.

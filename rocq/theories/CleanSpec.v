(** Conditions on what happens in a run of the cleaning model. *)
From Verif Require Import CleanModel.

(** No handler saves a record that is no longer pending (what C41_overlap_refuted shows to be possible). *)
Definition no_stale (a : kact) : Prop := match a with KStale _ _ _ _ => False | _ => True end.
(** Every publication happens inside a database transaction (as with the engine's EventSaveDB handler). *)
Definition no_split (a : kact) : Prop := match a with KIns _ _ => False | _ => True end.
(** No cleaner stops in the middle (no error, no process death). *)
Definition no_stop (a : kact) : Prop := match a with KStop _ => False | _ => True end.
(** No cleaner is under way. *)
Definition all_over (st : kst) : Prop := Forall (fun c => c = CEnd) (k_cs st).

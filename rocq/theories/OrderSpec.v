(** Vocabulary for the order of the insert statements of one save. *)
From Verif Require Export ActionSpec.

(** The models handed to the executor for insertion, in the order in which it receives them. *)
Definition inserted_models (acts : list action) : list model :=
  flat_map (fun a => match a_op a with OpInsert => a_models a | _ => [] end) acts.
Definition deleted_models (acts : list action) : list model :=
  flat_map (fun a => match a_op a with OpDelete => a_models a | _ => [] end) acts.
(** The save has to create [p] (below [par]). *)
Definition created_under (cfg : config) (s : st) (par p : ptr) : Prop := exists k, must_save cfg s CNew par k p.
Definition created (cfg : config) (s : st) (p : ptr) : Prop := exists par, created_under cfg s par p.
(** [x] comes before [y]. *)
Definition comes_before {A} (l : list A) (x y : A) : Prop := exists l1 l2 l3, l = l1 ++ x :: l2 ++ y :: l3.
(** Every entity can be stored, and its type alone decides in which table. *)
Definition stored_by_type (cfg : config) (table : nat -> nat) : Prop :=
  forall h p par, exists m, c_conv cfg h p (Some par) OpInsert = CModel m /\ m_type m = table (e_type (h p)).

(** Vocabulary for the MySQL executor, independent of how it works. *)
From Verif Require Export ExecModel DbSpec.

(** Model [m] denotes row [r] of table [k]. *)
Definition denotes (m : model) (k : nat) (r : xrow) : Prop := m_type m = k /\ m_id m = fst r.
(** All models belong to one table. *)
Definition one_table (ms : list model) : Prop := forall m m', In m ms -> In m' ms -> m_type m = m_type m'.
(** [l] is [l0] with some rows taken out, the order kept. *)
Inductive thinned : list xrow -> list xrow -> Prop :=
| th_nil : thinned [] []
| th_keep r l l0 : thinned l l0 -> thinned (r :: l) (r :: l0)
| th_drop r l l0 : thinned l l0 -> thinned l (r :: l0).
(** The database seen by somebody looking up rows by key. *)
Definition rows_of (t : tables) : db := fun k => option_map snd (find (fun r => String.eqb (fst r) (snd k)) (t (fst k))).
(** Primary keys are unique. *)
Definition unique_keys (t : tables) : Prop := forall k, NoDup (map fst (t k)).
(** All rows and models of table [k] have [w k] columns. *)
Definition widths (w : nat -> nat) (t : tables) : Prop := forall k r, In r (t k) -> length (snd r) = w k.
Definition model_width (w : nat -> nat) (m : model) : Prop := length (m_cols m) = w (m_type m).
(** An update action as the engine makes it: one previous model per model. *)
Definition full_prevs (ms : list model) (ps : list (option model)) : Prop :=
  Forall2 (fun m p => exists q, p = Some q /\ length (m_cols q) = length (m_cols m)) ms ps.

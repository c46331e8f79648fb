(** Database and aggregates in step: vocabulary for the central property of the engine. *)
From Verif Require Export ActionSpec.

(** The row entity [p] has below parent [par] (its registered converter applied to the objects as they are in [h]). *)
Definition row (cfg : config) (h : heap) (p par : ptr) : option model :=
  match c_conv cfg h p (Some par) OpQuery with CModel m => Some m | _ => None end.
(** [p] is a child of [par], and [par] is in an aggregate. *)
Definition live_at (s : st) (p par : ptr) (k : key) : Prop := reach (kids_now s) meta par /\ now_child (kids_now s) par k p.
(** [p] is of interest to a save: in an aggregate, or to be written. *)
Definition relevant (cfg : config) (s : st) (p par : ptr) : Prop :=
  exists k, live_at s p par k \/ exists t, must_save cfg s t par k p.

(** The After hooks change nothing a converter reads (they may raise events, for instance). *)
Definition after_unread (cfg : config) (tr : list (call * resp)) : Prop :=
  forall p t x, In (KHook p t false, x) tr -> forall g q par o, c_conv cfg (r_heap x g) q par o = c_conv cfg g q par o.
(** No hook attaches or detaches children. *)
Definition hooks_keep_children (tr : list (call * resp)) : Prop :=
  forall p t b x, In (KHook p t b, x) tr -> forall g roots q, findChildren (r_heap x g) roots q = findChildren g roots q.

(** The situation before a save: [d] is the database, [h] the objects when their models are built. *)
Record ready (cfg : config) (s : st) (h : heap) (d : db) : Prop := mkReady {
  (** the converter does not look at the operation *)
  rd_conv : forall p par o, c_conv cfg h p (Some par) o = c_conv cfg h p (Some par) OpQuery;
  (** aggregates are trees, and what is deleted is not in one of them any more *)
  rd_tree : one_place (kids_now s) meta;
  rd_gone : forall par k p, must_save cfg s CDelete par k p -> ~ reach (kids_now s) meta p;
  (** every loaded entity has its row *)
  rd_loaded : forall p sn m, s_pool s p = Some sn -> s_po sn = Some m -> d (row_key m) = Some (m_cols m);
  (** an entity that stayed and is not marked dirty has not been modified *)
  rd_clean : forall p par k m, live_at s p par k -> was_child (s_pool s) par k p -> e_dirty (s_heap s p) = false ->
      row cfg h p par = Some m -> exists sn, s_pool s p = Some sn /\ s_po sn = Some m;
  (** an updated (or moved) entity was loaded and keeps its table and id *)
  rd_same : forall p par k m, must_save cfg s CDirty par k p -> row cfg h p par = Some m ->
      exists sn m0, s_pool s p = Some sn /\ s_po sn = Some m0 /\ row_key m0 = row_key m /\ length (m_cols m0) = length (m_cols m);
  (** different entities have different rows *)
  rd_keys : forall p par q parq mp mq, relevant cfg s p par -> relevant cfg s q parq ->
      row cfg h p par = Some mp -> row cfg h q parq = Some mq -> row_key mp = row_key mq -> p = q }.

(** The database [d'] after the save. *)
Record in_step (cfg : config) (s : st) (h : heap) (d d' : db) : Prop := mkInStep {
  (** every entity in the aggregates has its current row *)
  is_live : forall p par k m, live_at s p par k -> row cfg h p par = Some m -> d' (row_key m) = Some (m_cols m);
  (** the rows of the entities taken out are gone *)
  is_gone : forall p par k m, must_save cfg s CDelete par k p -> row cfg h p par = Some m -> d' (row_key m) = None;
  (** nothing else changed *)
  is_other : forall key, (forall t par k p m, must_save cfg s t par k p -> row cfg h p par = Some m -> row_key m <> key) -> d' key = d key }.

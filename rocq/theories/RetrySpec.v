(** What a user expects of repeating a creation that failed, in terms of objects, ids and executed statements. *)
From Verif Require Import EngineModel ActionSpec EventSpec.
Local Open Scope string_scope. Local Open Scope list_scope. Local Open Scope nat_scope.

(** Hooks may change the data of entities and raise events, but leave the child lists, the types and given ids alone. *)
Definition kept (h h' : heap) : Prop := forall p, e_type (h' p) = e_type (h p) /\ e_custom (h' p) = e_custom (h p) /\ e_fields (h' p) = e_fields (h p) /\
  (e_id (h p) <> "" -> e_id (h' p) = e_id (h p)).
Definition hooks_keep (cfg : config) : Prop := forall n h, kept h (r_heap (c_oracle cfg n) h).

(** The run: a command that adds these aggregates (Engine.Create, with any lock keys). *)
Definition creation (cfg : config) (keys : list string) (roots : list ptr) (h : heap) : out result * st :=
  save cfg keys (BAdd roots (BRet None)) (new_stage h).
(** Entity [p] belongs, below [par], to the aggregates of [roots] as they were built in [h]; the parent of a root is the engine's
    container ([meta]). *)
Definition part_of (h : heap) (roots : list ptr) (par p : ptr) : Prop :=
  exists k, reach (findChildren h roots) meta par /\ now_child (findChildren h roots) par k p.
(** The calls that can change an object: the user's hooks, loading, and the id generator (whose id is stored in the object). *)
Definition touches (c : call) : bool := match c with KHook _ _ _ | KBuild _ | KNewID => true | _ => false end.
(** Event [e] was raised by a hook of this run. *)
Definition raised_by_hook (tr : list (call * resp)) (e : event) : Prop :=
  exists p t b x g q, In (KHook p t b, x) tr /\ In e (e_events (r_heap x g q)) /\ ~ In e (e_events (g q)).

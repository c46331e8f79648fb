(** Specification vocabulary for change detection, independent of the algorithm. *)
From Verif Require Export GraphModel.

(** [c] is now in child list [k] of [p]. *)
Definition now_child (kids : ptr -> list (key * list ptr)) (p : ptr) (k : key) (c : ptr) : Prop :=
  exists l, In (k, l) (kids p) /\ In c l.
(** [c] was in child list [k] of [p] when the snapshot was taken. *)
Definition was_child (pl : pool) (p : ptr) (k : key) (c : ptr) : Prop :=
  exists s l, pl p = Some s /\ In (k, l) (s_kids s) /\ In c l.
(** [p] has a child list named [k] now. *)
Definition has_key (kids : ptr -> list (key * list ptr)) (p : ptr) (k : key) : Prop :=
  exists l, In (k, l) (kids p).

(** Reachability through child lists. *)
Inductive reach (kids : ptr -> list (key * list ptr)) : ptr -> ptr -> Prop :=
| reach_refl p : reach kids p p
| reach_step p k c q : now_child kids p k c -> reach kids c q -> reach kids p q.

(** No chain of child links leads from a reachable entity back to itself. *)
Definition acyclic_from (kids : ptr -> list (key * list ptr)) (p : ptr) : Prop :=
  exists rank : ptr -> nat, forall q k c, reach kids p q -> now_child kids q k c -> rank c < rank q.
Definition on_cycle (kids : ptr -> list (key * list ptr)) (q : ptr) : Prop :=
  exists k c, now_child kids q k c /\ reach kids c q.

(** Child maps have unique keys (they are Go maps). *)
Definition maps_ok (kids : ptr -> list (key * list ptr)) (pl : pool) : Prop :=
  (forall p, NoDup (map fst (kids p))) /\
  (forall p s, pl p = Some s -> NoDup (map fst (s_kids s))).

(** A change list mentions entity [c] as a change of type [t] below [p].[k]. *)
Definition reported (chs : list change) (t : change_type) (p : ptr) (k : key) (c : ptr) : Prop :=
  exists ch, In ch chs /\ ch_type ch = t /\ ch_parent ch = p /\ ch_key ch = k /\ In c (ch_kids ch).

(** What a reader of the documentation expects of change detection. *)
Definition expected_change (kids : ptr -> list (key * list ptr)) (dirty : ptr -> bool) (pl : pool)
  (root : ptr) (t : change_type) (p : ptr) (k : key) (c : ptr) : Prop :=
  reach kids root p /\
  match t with
  | CNew => now_child kids p k c /\ ~ was_child pl p k c
  | CDirty => now_child kids p k c /\ was_child pl p k c /\ dirty c = true
  | CDelete => has_key kids p k /\ was_child pl p k c /\ ~ now_child kids p k c
  | CClear => False
  end.

(** All single changes of a change list, with multiplicity. *)
Definition single_changes (chs : list change) : list (change_type * ptr * key * ptr) :=
  flat_map (fun ch => map (fun c => (ch_type ch, ch_parent ch, ch_key ch, c)) (ch_kids ch)) chs.

(** Every map order is a reordering of the map. *)
Definition order_ok (ord : map_order) : Prop := forall p m, Permutation (ord p m) m.

(** Each entity below [root] sits in one place only (it may be listed repeatedly there). *)
Definition one_place (kids : ptr -> list (key * list ptr)) (root : ptr) : Prop :=
  forall p k p' k' c, reach kids root p -> reach kids root p' ->
    now_child kids p k c -> now_child kids p' k' c -> p = p' /\ k = k'.
(** The same for the loaded state. *)
Definition one_place_before (pl : pool) : Prop :=
  forall p k p' k' c, was_child pl p k c -> was_child pl p' k' c -> p = p' /\ k = k'.

(** A struct field that a reader of the documentation would call a child field, and the entities it holds:
    exported, and an entity other than the embedded base, a slice of entities or a map of entities. *)
Definition entity_field (f : field) (l : list ptr) : Prop :=
  f_exported f = true /\
  match f_kind f with
  | FEntity v => f_isbase f = false /\ l = match v with Some c => [c] | None => [] end
  | FSlice cs => l = cs
  | FMap cs => l = cs
  | FOther => False
  end.

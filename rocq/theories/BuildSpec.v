(** Vocabulary for loading. *)
From Verif Require Export BuildModel.

Section Spec.
  Variable zero : nat -> bval.
  Variable e2m : bval -> option bval -> err + model.
  Variable query : model -> err + list model.
  Variable m2e : model -> bval -> bval * option err.

  (** [ms] are the rows found for entity [v] below [par]. *)
  Definition found (v : bval) (par : option bval) (ms : list model) : Prop := exists q, e2m v par = inr q /\ query q = inr ms.
  (** The objects a child argument refers to before loading. *)
  Definition targets (s : bst) (a : child_arg) : list ptr :=
    match a with ArgEnt p => [p] | ArgPtr x _ => match b_ptrs s x with Some p => [p] | None => [] end | _ => [] end.
  Definition slice_of (a : child_arg) : list slot := match a with ArgSlice x _ => [x] | _ => [] end.
  Definition field_of (a : child_arg) : list slot := match a with ArgPtr x _ => [x] | _ => [] end.
  (** The arguments do not overlap: different fields, different objects, none of them the parent, all existing. *)
  Definition separate (s : bst) (parent : ptr) (l : list child_arg) : Prop :=
    NoDup (parent :: flat_map (targets s) l) /\ (forall p, In p (parent :: flat_map (targets s) l) -> p < b_next s) /\
    NoDup (flat_map slice_of l) /\ NoDup (flat_map field_of l).
  (** Child argument [a] of parent value [par] has been filled: [s] before, [s'] after. *)
  Definition child_loaded (s s' : bst) (par : bval) (a : child_arg) : Prop :=
    match a with
    | ArgSlice x ty => exists ms l, found (zero ty) (Some par) ms /\ b_slices s' x = b_slices s x ++ l /\
        Forall2 (fun m p => m2e m (zero ty) = (b_heap s' p, None)) ms l /\ NoDup l /\ (forall p, In p l -> b_next s <= p < b_next s')
    | ArgPtr x ty => exists ms, let old := match b_ptrs s x with Some p => b_heap s p | None => zero ty end in
        found old (Some par) ms /\
        match ms with
        | [] => b_ptrs s' x = None
        | m :: _ => exists p, b_ptrs s' x = Some p /\ (b_ptrs s x = Some p \/ b_ptrs s x = None /\ b_next s <= p < b_next s') /\ m2e m old = (b_heap s' p, None)
        end
    | ArgEnt p => exists ms, found (b_heap s p) (Some par) ms /\
        match ms with [] => b_heap s' p = b_heap s p | m :: _ => m2e m (b_heap s p) = (b_heap s' p, None) end
    | ArgSliceBad | ArgBad => False
    end.
  (** Nothing else has been touched. *)
  Definition others_kept (s s' : bst) (touched : list ptr) (l : list child_arg) : Prop :=
    (forall q, q < b_next s -> ~ In q touched -> b_heap s' q = b_heap s q) /\
    (forall x, ~ In x (flat_map slice_of l) -> b_slices s' x = b_slices s x) /\
    (forall x, ~ In x (flat_map field_of l) -> b_ptrs s' x = b_ptrs s x) /\ b_next s <= b_next s'.
  (** Converters and executor do not themselves return ErrEntityNotFound. *)
  Definition honest : Prop :=
    (forall v par e, e2m v par = inl e -> is_notfound e = false) /\ (forall q e, query q = inl e -> is_notfound e = false) /\
    (forall m v v' e, m2e m v = (v', Some e) -> is_notfound e = false).
End Spec.

(** Only column [i] of [cols] is set, to [v]. *)
Definition only_col (cols : list string) (i : nat) (v : string) : Prop :=
  nth_error cols i = Some v /\ forall j c, j <> i -> nth_error cols j = Some c -> c = EmptyString.
(** Children of type [ty] live in table [k]; column [i] holds the id of their parent, and this is all the converter asks for when it is
    given a new child. *)
Definition keyed_by_parent (zero : nat -> bval) (e2m : bval -> option bval -> err + model) (ty k i : nat) : Prop :=
  forall par, exists cols, e2m (zero ty) (Some par) = inr (mkModel k EmptyString cols) /\ only_col cols i (b_id par).

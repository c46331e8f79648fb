(** Model of loading: engine.go 639-757 (BuildEntity, buildEntity, buildEntitySliceByParent), over any executor and converters.
    Queries do not change the database. *)
From Verif Require Export ExecModel.

(** An entity as the converters see it: Go type, id, other fields. *)
Record bval := mkB { b_type : nat; b_id : string; b_data : list string }.
(** the address of a child field given to BuildEntity (engine.go 641) *)
Definition slot := nat.
(** The objects of the process and the child fields handed to BuildEntity: slices and pointer fields. *)
Record bst := mkBst { b_heap : ptr -> bval; b_slices : slot -> list ptr; b_ptrs : slot -> option ptr; b_next : ptr }.
(** Model2Entity fills the fields of an entity (engine.go 702, 745) *)
Definition set_heap (s : bst) (p : ptr) (v : bval) : bst := mkBst (fun q => if q =? p then v else b_heap s q) (b_slices s) (b_ptrs s) (b_next s).
(** engine.go 750: assignment to the slice field *)
Definition set_slice (s : bst) (x : slot) (l : list ptr) : bst := mkBst (b_heap s) (fun y => if y =? x then l else b_slices s y) (b_ptrs s) (b_next s).
(** engine.go 664, 669: assignment to the pointer field *)
Definition set_ptr (s : bst) (x : slot) (o : option ptr) : bst := mkBst (b_heap s) (b_slices s) (fun y => if y =? x then o else b_ptrs s y) (b_next s).
(** reflect.New *)
Definition alloc (s : bst) (v : bval) : ptr * bst :=
  (b_next s, mkBst (fun q => if q =? b_next s then v else b_heap s q) (b_slices s) (b_ptrs s) (S (b_next s))).

(** What a child argument is (649-679): a pointer to a slice of entities of a type, to a slice of something else (709), to a pointer
    field of an entity type, an entity itself, or anything else (651, 677). *)
Inductive child_arg := ArgSlice (x : slot) (ty : nat) | ArgSliceBad | ArgPtr (x : slot) (ty : nat) | ArgEnt (p : ptr) | ArgBad.

(** errors.Is(err, ErrEntityNotFound) *)
Fixpoint is_notfound (e : err) : bool :=
  match e with ENotFound => true | EWrap e' => is_notfound e' | EJoin l => existsb is_notfound l | _ => false end.

Section Build.
  (** new(T) *)
  Variable zero : nat -> bval.
  (** executor.Entity2Model(entity, parent, OpQuery), executor.Exec of a query, executor.Model2Entity (which may have changed the
      entity when it fails) *)
  Variable e2m : bval -> option bval -> err + model.
  Variable query : model -> err + list model.
  Variable m2e : model -> bval -> bval * option err.

  (** 686-708 (buildEntity) *)
  Definition build_entity (p : ptr) (parent : option ptr) (s : bst) : option err * bst :=
    match e2m (b_heap s p) (option_map (b_heap s) parent) with
    | inl e => (Some e, s)
    | inr q =>
      match query q with
      | inl e => (Some e, s)
      | inr [] => (Some ENotFound, s)
      | inr (m :: _) => let (v, e) := m2e m (b_heap s p) in (e, set_heap s p v)
      end
    end.
  (** 747-753: one new object per row; the loop stops at an error *)
  Fixpoint build_rows (ty : nat) (ms : list model) (acc : list ptr) (s : bst) : (err + list ptr) * bst :=
    match ms with
    | [] => (inr acc, s)
    | m :: t =>
      let (p, s1) := alloc s (zero ty) in
      let (v, e) := m2e m (b_heap s1 p) in
      let s2 := set_heap s1 p v in
      match e with Some e' => (inl e', s2) | None => build_rows ty t (acc ++ [p]) s2 end
    end.
  (** 710-756 (buildEntitySliceByParent); the slice is only assigned at the end (755) *)
  Definition build_slice (parent : ptr) (x : slot) (ty : nat) (s : bst) : option err * bst :=
    match e2m (zero ty) (Some (b_heap s parent)) with
    | inl e => (Some e, s)
    | inr q =>
      match query q with
      | inl e => (Some e, s)
      | inr [] => (None, s)
      | inr ms => match build_rows ty ms (b_slices s x) s with
                  | (inl e, s') => (Some e, s')
                  | (inr l, s') => (None, set_slice s' x l)
                  end
      end
    end.
  (** 649-679, one child argument *)
  Definition build_child (parent : ptr) (a : child_arg) (s : bst) : option err * bst :=
    match a with
    | ArgBad | ArgSliceBad => (Some (EUser 0), s)
    | ArgSlice x ty => build_slice parent x ty s
    | ArgPtr x ty =>
      let (p, s1) := match b_ptrs s x with Some p => (p, s) | None => let (p, s1) := alloc s (zero ty) in (p, set_ptr s1 x (Some p)) end in
      match build_entity p (Some parent) s1 with
      | (Some e, s2) => if is_notfound e then (None, set_ptr s2 x None) else (Some e, s2)
      | (None, s2) => (None, s2)
      end
    | ArgEnt p =>
      match build_entity p (Some parent) s with
      | (Some e, s1) => if is_notfound e then (None, s1) else (Some e, s1)
      | (None, s1) => (None, s1)
      end
    end.
  (** engine.go 649-680: the loop over the child arguments *)
  Fixpoint build_children (parent : ptr) (l : list child_arg) (s : bst) : option err * bst :=
    match l with
    | [] => (None, s)
    | a :: t => match build_child parent a s with (None, s1) => build_children parent t s1 | r => r end
    end.
  (** 641-683 (BuildEntity) *)
  Definition build (parent : ptr) (l : list child_arg) (s : bst) : option err * bst :=
    if String.eqb (b_id (b_heap s parent)) "" then (Some EMustHaveID, s)
    else match build_entity parent None s with (None, s1) => build_children parent l s1 | r => r end.
End Build.

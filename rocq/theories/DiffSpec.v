(** What the diff properties say: the columns gorm makes of a model, and which models are covered. *)
From Verif Require Export DiffModel.

(** gorm flattens a struct field (or a pointer to a struct) into the columns of that struct if it has the tag "embedded", or is
    anonymous and not of a type stored in a single column. *)
Definition f_flat (f : finfo) (v : gval) : bool :=
  (f_embtag f || (f_anon f && negb (f_single f))) && match v with GStruct _ | GNil => true | GPtr _ w => is_struct w | _ => false end.
Fixpoint field (n : string) (fs : list (finfo * gval)) : option (finfo * gval) :=
  match fs with [] => None | (f, v) :: t => if String.eqb n (f_name f) then Some (f, v) else field n t end.
(** The value a model has in the column reached by a path of field names. Unexported fields have no column. None: no such column,
    or inside an embedded nil pointer (a NULL). *)
Fixpoint column (path : list string) (fs : list (finfo * gval)) : option gval :=
  match path with
  | [] => None
  | n :: rest =>
    match field n fs with
    | None => None
    | Some (f, v) =>
      if negb (f_exported f) then None
      else match rest with
           | [] => if f_flat f v then None else Some v
           | _ => if f_flat f v then match v with GStruct inner | GPtr _ (GStruct inner) => column rest inner | _ => None end else None
           end
    end
  end.
(** The name by which DiffModel reports a column, and gorm is asked to write it. *)
Definition column_name (path : list string) : string := last path ""%string.

(** The content of a value: what it says, apart from the addresses of pointers and the names of fields. *)
Inductive cval := CB (n : nat) | CNil | CRef (v : cval) | CRec (l : list cval) | CSliceNil | CSlice (l : list cval).
Fixpoint content (v : gval) : cval :=
  match v with
  | GB n => CB n
  | GNil => CNil
  | GPtr _ w => CRef (content w)
  | GStruct fs => CRec (map (fun x => let '(_, w) := x in content w) fs)
  | GSliceNil => CSliceNil
  | GSlice l => CSlice (map content l)
  end.

(** Two values of the same Go type. *)
Fixpoint same_type (a b : gval) {struct a} : Prop :=
  match a, b with
  | GB _, GB _ => True
  | (GSliceNil | GSlice _), (GSliceNil | GSlice _) => True
  | GNil, (GNil | GPtr _ _) | GPtr _ _, GNil => True
  | GPtr _ v, GPtr _ w => same_type v w
  | GStruct fs, GStruct gs =>
    (fix go fs gs := match fs, gs with
                     | [], [] => True
                     | (f, v) :: fs, (g, w) :: gs => f = g /\ same_type v w /\ go fs gs
                     | _, _ => False
                     end) fs gs
  | _, _ => False
  end.
(** The models covered.  [shape_ok]: no anonymous or embedded field is a pointer, and no anonymous field is of a type that gorm
    stores in one column (at any depth, outside slices). *)
Definition field_ok (f : finfo) (v : gval) : bool :=
  match v with GNil | GPtr _ _ => negb (f_inline f) | GStruct _ => f_embtag f || negb (f_anon f && f_single f) | _ => true end.
Fixpoint shape_ok (v : gval) : bool :=
  match v with
  | GStruct fs => forallb (fun x => let '(f, w) := x in field_ok f w && shape_ok w) fs
  | GPtr _ w => shape_ok w
  | _ => true
  end.
(** [visible]: no non-nil slice or map in or below an unexported field, no pointer to a pointer. [st] [em]: see diff_core. *)
Fixpoint visible (st em : bool) (v : gval) : bool :=
  match v with
  | GSlice _ => negb (st || em)
  | GStruct fs => forallb (fun x => let '(f, w) := x in visible (st || (negb (f_exported f) && negb (f_anon f))) (negb (f_exported f) && f_anon f) w) fs
  | GPtr _ w => match w with GPtr _ _ => false | _ => visible st em w end
  | _ => true
  end.
(** What is at an address is the same wherever the address occurs. *)
Fixpoint in_memory (mem : nat -> gval) (v : gval) : Prop :=
  match v with
  | GStruct fs => (fix go fs := match fs with [] => True | (_, w) :: fs => in_memory mem w /\ go fs end) fs
  | GPtr p w => mem p = w /\ in_memory mem w
  | _ => True
  end.
(** The names DiffModel may report. *)
Fixpoint leaf_names (v : gval) : list string :=
  match v with
  | GStruct fs => flat_map (fun x => let '(f, w) := x in if is_struct w && f_inline f then leaf_names w else [f_name f]) fs
  | _ => []
  end.

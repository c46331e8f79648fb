(** Model of executor/mysql/diff.go: which fields of a model changed. *)
From Verif Require Export GoBase.

(** What reflection and gorm see of a struct field: its name, exported or not, anonymous or not, a gorm tag with the attribute
    "embedded" (diff.go 26-34 hasValue), and whether gorm stores values of its type in a single column (time.Time, types with their
    own Value method, serialised fields). *)
Record finfo := mkF { f_name : string; f_exported : bool; f_anon : bool; f_embtag : bool; f_single : bool }.
(** Go values as reflect shows them. Numbers, booleans, strings and all other comparable non-struct kinds: [GB], zero value 0.
    Pointers: nil, or an address and what is there. Structs. Slices (and maps): nil or a list.
    Simplification: NaN, interfaces and functions are not modelled. *)
Inductive gval :=
| GB (n : nat)
| GNil
| GPtr (addr : nat) (v : gval)
| GStruct (fs : list (finfo * gval))
| GSliceNil
| GSlice (l : list gval).

(** reflect.Value.IsZero *)
Fixpoint is_zero (v : gval) : bool :=
  match v with
  | GB n => n =? 0
  | GNil | GSliceNil => true
  | GPtr _ _ | GSlice _ => false
  | GStruct fs => forallb (fun x => let '(_, w) := x in is_zero w) fs
  end.
(** reflect.DeepEqual, for values of the same type *)
Fixpoint deep_eq (a b : gval) {struct a} : bool :=
  match a, b with
  | GB n, GB m => n =? m
  | GNil, GNil | GSliceNil, GSliceNil => true
  | GPtr _ v, GPtr _ w => deep_eq v w
  | GStruct fs, GStruct gs =>
    (fix go fs gs := match fs, gs with
                     | [], [] => true
                     | (_, v) :: fs, (_, w) :: gs => deep_eq v w && go fs gs
                     | _, _ => false
                     end) fs gs
  | GSlice l, GSlice m =>
    (fix go l m := match l, m with [], [] => true | v :: l, w :: m => deep_eq v w && go l m | _, _ => false end) l m
  | _, _ => false
  end.

(** diff.go 87: field.Anonymous || hasValue(fieldTag, "embedded") *)
Definition f_inline (f : finfo) : bool := f_anon f || f_embtag f.
(** reflect.Indirect(v).Kind() == reflect.Struct (executor/mysql/diff.go 88) *)
Definition is_struct (v : gval) : bool := match v with GStruct _ => true | _ => false end.
(** reflect.Indirect(v).Kind() == reflect.Struct *)
Definition ind_struct (v : gval) : bool := match v with GPtr _ w => is_struct w | _ => is_struct v end.
(** len(l) > 0 *)
Definition nonempty {A} (l : list A) : bool := match l with [] => false | _ => true end.

(** diff.go 37-47, the treatment of pointers in diffValue; [core] is the rest of the function, after reflect.Indirect. The branch
    48-57 for one invalid value cannot be reached: both values have the same type, and nil against non-nil returned before. *)
Definition diff_value (core : gval -> gval -> list string * bool) (a b : gval) : list string * bool :=
  match a, b with
  | GNil, GNil => ([], false)
  | GNil, GPtr _ _ | GPtr _ _, GNil => ([], true)
  | GPtr _ x, GPtr _ y => core x y
  | _, _ => core a b
  end.
(** diff.go 58-73, the rest of diffValue, with diffStruct (76-100) inside. [st], [em]: the value was reached through an unexported
    field (reflect's flagStickyRO and flagEmbedRO), so CanInterface is false. A pointer met here is a pointer to a pointer and
    compared by address (66-67). *)
Fixpoint diff_core (st em : bool) (a b : gval) {struct a} : list string * bool :=
  if is_zero a && is_zero b then ([], false)
  else match a, b with
       | GStruct fs, GStruct gs =>
         let r := (fix go fs gs := match fs, gs with
                   | (f, v) :: fs, (_, w) :: gs =>
                     let '(sd, d) := diff_value (diff_core (st || (negb (f_exported f) && negb (f_anon f))) (negb (f_exported f) && f_anon f)) v w in
                     (if d then if ind_struct v && f_inline f then sd else [f_name f] else []) ++ go fs gs
                   | _, _ => []
                   end) fs gs in
         (r, nonempty r)
       | GB n, GB m => ([], negb (n =? m))
       | GPtr p _, GPtr q _ => ([], negb (p =? q))
       | GNil, GPtr _ _ | GPtr _ _, GNil => ([], true)
       | _, _ => ([], if st || em then true else negb (deep_eq a b))
       end.
(** diff.go 76-100 diffStruct *)
Fixpoint diff_struct (st : bool) (fs gs : list (finfo * gval)) : list string :=
  match fs, gs with
  | (f, v) :: fs, (_, w) :: gs =>
    let '(sd, d) := diff_value (diff_core (st || (negb (f_exported f) && negb (f_anon f))) (negb (f_exported f) && f_anon f)) v w in
    (if d then if ind_struct v && f_inline f then sd else [f_name f] else []) ++ diff_struct st fs gs
  | _, _ => []
  end.
(** diff.go 104-110 DiffModel *)
Definition diff_model (curr prev : gval) : list string :=
  match (match curr with GPtr _ v => v | _ => curr end), (match prev with GPtr _ v => v | _ => prev end) with
  | GStruct fs, GStruct gs => diff_struct false fs gs
  | _, _ => []
  end.

(** Specification vocabulary for moves (snapshot.go 270-303), independent of the loop. *)
From Verif Require Export GraphSpec.

Definition ct_eqb (a b : change_type) : bool := Nat.eqb (ct_rank a) (ct_rank b).

(** All entities mentioned in changes of type [t], in order, with multiplicity. *)
Definition kids_of (t : change_type) (chs : list change) : list ptr :=
  flat_map ch_kids (filter (fun ch => ct_eqb (ch_type ch) t) chs).

(** Position from the end: [e] has at most one successor in [l]. *)
Definition near_end (e : ptr) (l : list ptr) : Prop :=
  forall l1 l2, l = l1 ++ e :: l2 -> length l2 <= 1.

(** Exactly when move handling succeeds. *)
Record move_ok (chs : list change) : Prop := mkMoveOk {
  mo_attach : NoDup (kids_of CNew chs ++ kids_of CDirty chs);
  mo_detach : NoDup (kids_of CDelete chs);
  mo_stay : forall e, In e (kids_of CDirty chs) -> ~ In e (kids_of CDelete chs);
  (** the defect of the code: only the last two of a removed list may have been moved *)
  mo_tail : forall ch e, In ch chs -> ch_type ch = CDelete -> In e (ch_kids ch) ->
                         In e (kids_of CNew chs) -> near_end e (ch_kids ch) }.

(** The intended meaning of move handling. *)
Definition moved_change (chs : list change) (t : change_type) (p : ptr) (k : key) (e : ptr) : Prop :=
  match t with
  | CNew => reported chs CNew p k e /\ ~ In e (kids_of CDelete chs)
  | CDelete => reported chs CDelete p k e /\ ~ In e (kids_of CNew chs)
  | CDirty => reported chs CDirty p k e \/ (reported chs CNew p k e /\ In e (kids_of CDelete chs))
  | CClear => reported chs CClear p k e
  end.

(** What a save must do to entity [c] (documentation of entityDiff + move handling): created, updated
    (stayed and dirty, or moved here from elsewhere) or deleted. *)
Definition expected_final (kids : ptr -> list (key * list ptr)) (dirty : ptr -> bool) (pl : pool)
  (root : ptr) (t : change_type) (p : ptr) (k : key) (c : ptr) : Prop :=
  let exp := expected_change kids dirty pl root in
  match t with
  | CNew => exp CNew p k c /\ (forall p' k', ~ exp CDelete p' k' c)
  | CDirty => exp CDirty p k c \/ (exp CNew p k c /\ exists p' k', exp CDelete p' k' c)
  | CDelete => exp CDelete p k c /\ (forall p' k', ~ exp CNew p' k' c)
  | CClear => False
  end.

(** The removed children of [p].[k], in their loaded order, none of which with two or more successors has
    been attached elsewhere. *)
Definition moved_only_at_tail (kids : ptr -> list (key * list ptr)) (dirty : ptr -> bool) (pl : pool) (root : ptr) : Prop :=
  forall p k e p' k', reach kids root p -> has_key kids p k ->
    In e (deleted_of kids pl p k) -> expected_change kids dirty pl root CNew p' k' e ->
    near_end e (deleted_of kids pl p k).

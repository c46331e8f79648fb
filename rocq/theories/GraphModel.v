(** Model of the object graph, its snapshot and the change detection.
    Source: snapshot.go, domain.go, engine.go (EntityContainer). *)
From Verif Require Export GoBase.

(** A Go pointer to an entity.  Identity of entities in Go is pointer identity
    (map[IEntity], [item != root]).  Pointer [0] is the stage's EntityContainer
    (engine.go 477, [meta]); user entities have pointers > 0. *)
Definition ptr := nat.
(** engine.go 477: the container entity of the stage *)
Definition meta : ptr := 0.
(** snapshot.go 35: the name of a child field *)
Definition key := string.

(** event.go 33-42 *)
Inductive send_type := SendNormal | SendFIFO | SendLaxFIFO | SendTx | SendDelay.

(** event.go 222-229 (DomainEvent).  Simplification: Payload is opaque, CreatedAt is an integer time. *)
Record event := mkEvent {
  ev_id : string; ev_type : string; ev_send : send_type;
  ev_sender : string; ev_payload : string; ev_created : Z }.

(** One struct field as reflection sees it (snapshot.go 152-187).
    [FEntity]: the field type implements IEntity (nil or a pointer); [FSlice]/[FMap]: slice or map whose element type
    implements IEntity; [FOther]: anything else.  Simplification: the content of a map field is listed in
    the order in which MapKeys delivers it (arbitrary, fixed for a given heap). *)
Inductive field_kind :=
| FEntity (v : option ptr)
| FSlice (l : list ptr)
| FMap (l : list ptr)
| FOther.
Record field := mkField {
  f_name : key; f_exported : bool;
  f_isbase : bool;               (* fieldType == baseEntityType, i.e. *BaseEntity *)
  f_kind : field_kind }.

(** domain.go 69-73 (BaseEntity) plus the user's struct.
    [e_type] is reflect.TypeOf(entity); [e_custom] is what a user-defined GetChildren returns
    ([None]: BaseEntity's GetChildren, domain.go 102-104, which returns nil);
    [e_data] stands for all other (user) data. *)
Record ent := mkEnt {
  e_id : string; e_dirty : bool; e_type : nat;
  e_custom : option (list (key * list ptr));
  e_fields : list field;
  e_events : list event;
  e_data : list string }.

(** the objects of the Go heap, by pointer *)
Definition heap := ptr -> ent.

(** assignment to the fields of an entity (e.g. domain.go 82-96) *)
Definition hset (h : heap) (p : ptr) (e : ent) : heap := fun q => if Nat.eqb q p then e else h q.

(** domain.go 82-84 (SetID), 94-96 (UnDirty), 90-92 (Dirty) *)
Definition set_id (e : ent) (i : string) : ent :=
  mkEnt i (e_dirty e) (e_type e) (e_custom e) (e_fields e) (e_events e) (e_data e).
(** domain.go 90-96 (Dirty, UnDirty) *)
Definition set_dirty (e : ent) (b : bool) : ent :=
  mkEnt (e_id e) b (e_type e) (e_custom e) (e_fields e) (e_events e) (e_data e).

(** snapshot.go 136-189 (findChildren).  The loop over fields with the "continue if the name is
    already there" test of line 154. *)
Definition field_children (f : field) : option (list ptr) :=
  if negb (f_exported f) then None                    (* 160-163 *)
  else match f_kind f with
       | FEntity v => if f_isbase f then None         (* 164 *)
                      else Some (match v with None => [] | Some c => [c] end)
       | FSlice l => Some l                           (* 170-177; an empty slice gives []  *)
       | FMap l => Some l                             (* 178-186 *)
       | FOther => None
       end.
Fixpoint fields_children (fs : list field) (acc : list (key * list ptr)) : list (key * list ptr) :=
  match fs with
  | [] => acc
  | f :: t =>
      match assoc (f_name f) acc with
      | Some _ => fields_children t acc               (* 154-156 *)
      | None => match field_children f with
                | None => fields_children t acc
                | Some l => fields_children t (acc ++ [(f_name f, l)])
                end
      end
  end.
Definition findChildren_ent (e : ent) : list (key * list ptr) :=
  match e_custom e with
  | Some m => m                                       (* 137-140 *)
  | None => fields_children (e_fields e) []
  end.

(** engine.go 67-69 (EntityContainer.GetChildren) for the meta entity, snapshot.go 136-189 otherwise. *)
Definition meta_key : key := "meta"%string.
(** snapshot.go 136-189 (findChildren); engine.go 67-69 for the container *)
Definition findChildren (h : heap) (roots : list ptr) (p : ptr) : list (key * list ptr) :=
  if Nat.eqb p meta then [(meta_key, roots)] else findChildren_ent (h p).

(** Go iterates over a map in an arbitrary order: [ord p m] is the order used for entity [p]. *)
Definition map_order := ptr -> list (key * list ptr) -> list (key * list ptr).

(** snapshot.go 191-206 (walk): depth first, the callback before the children.
    Modelled as the list of (entity, parent) pairs in callback order; no callback in this code
    base changes the children, and stopping at an error is a prefix of the list.
    [None]: out of fuel (Go: unbounded recursion, stack overflow). *)
Section Walk.
  Variables (ord : map_order) (kids : ptr -> list (key * list ptr)).
  (** snapshot.go 192-206 (walk) *)
  Fixpoint walk (fuel : nat) (entity : ptr) (parent : option ptr) : option (list (ptr * option ptr)) :=
    match fuel with
    | O => None
    | S n =>
        match mconcat (fun kc => mconcat (fun c => walk n c (Some entity)) (snd kc))
                      (ord entity (kids entity)) with
        | None => None
        | Some l => Some ((entity, parent) :: l)
        end
    end.
End Walk.

(* ---------------------------------------------------------------- simpleSet *)
(** snapshot.go 63-119: map from entity to (last) index. *)
Definition simple_set := list (ptr * nat).
(** snapshot.go 68, 77, 88: membership in the map *)
Fixpoint set_has (s : simple_set) (e : ptr) : bool :=
  match s with [] => false | (x, _) :: t => Nat.eqb e x || set_has t e end.
(** snapshot.go 116: assignment to the map *)
Fixpoint set_put (s : simple_set) (e : ptr) (i : nat) : simple_set :=
  match s with
  | [] => [(e, i)]
  | (x, j) :: t => if Nat.eqb e x then (x, i) :: t else (x, j) :: set_put t e i
  end.
(** 113-119 *)
Fixpoint make_set_from (i : nat) (nodes : list ptr) (s : simple_set) : simple_set :=
  match nodes with [] => s | n :: t => make_set_from (S i) t (set_put s n i) end.
(** snapshot.go 113-119 (makeEntitySet) *)
Definition makeEntitySet (nodes : list ptr) : simple_set := make_set_from 0 nodes [].
(** 65-73 *)
Definition set_diff (s s2 : simple_set) : simple_set := filter (fun x => negb (set_has s2 (fst x))) s.
(** 85-94 *)
Definition set_inter (s s2 : simple_set) : simple_set := filter (fun x => set_has s2 (fst x)) s.
(** 96-107 *)
Definition idx_leb (a b : ptr * nat) : bool := negb (Nat.ltb (snd b) (snd a)).
Definition toSlice (s : simple_set) : list ptr := map fst (isort idx_leb s).

(* ---------------------------------------------------------------- changes *)
(** snapshot.go 24-31 *)
Inductive change_type := CNew | CDirty | CDelete | CClear.
(** snapshot.go 25-30: the numbers of the constants *)
Definition ct_rank (c : change_type) : nat :=
  match c with CNew => 0 | CDirty => 1 | CDelete => 2 | CClear => 3 end.
(** snapshot.go 41-46 *)
Record change := mkChange {
  ch_type : change_type; ch_parent : ptr; ch_key : key; ch_kids : list ptr }.

(** Persistent models.  executor.go 35-37 (IModel); type = reflect.TypeOf(po), id = GetID(). *)
Record model := mkModel { m_type : nat; m_id : string; m_cols : list string }.

(** snapshot.go 33-38.  The pool: nil where the entity has no snapshot.
    [s_po = None]: the nil model stored when the entity is not registered (engine.go 858-862). *)
Record snap := mkSnap { s_po : option model; s_kids : list (key * list ptr) }.
(** snapshot.go 38 (entitySnapshotPool) *)
Definition pool := ptr -> option snap.

(** [pool[parent].children[key]], nil where absent (snapshot.go 221-223) *)
Definition snap_kids (pl : pool) (p : ptr) (k : key) : list ptr :=
  match pl p with
  | None => []
  | Some s => match assoc k (s_kids s) with None => [] | Some l => l end
  end.
(** read of a children map, nil where absent *)
Definition kids_at (m : list (key * list ptr)) (k : key) : list ptr :=
  match assoc k m with None => [] | Some l => l end.

(** snapshot.go 208-268 (entityDiff) *)
Section Diff.
  Variables (kids : ptr -> list (key * list ptr)) (dirty : ptr -> bool) (pl : pool).

  (** snapshot.go 224: s1.Diff(s2).ToSlice() *)
  Definition created_of (p : ptr) (k : key) : list ptr :=
    toSlice (set_diff (makeEntitySet (kids_at (kids p) k)) (makeEntitySet (snap_kids pl p k))).
  (** snapshot.go 224: s1.Inter(s2).ToSlice() *)
  Definition remain_of (p : ptr) (k : key) : list ptr :=
    toSlice (set_inter (makeEntitySet (kids_at (kids p) k)) (makeEntitySet (snap_kids pl p k))).
  (** snapshot.go 224: s2.Diff(s1).ToSlice() *)
  Definition deleted_of (p : ptr) (k : key) : list ptr :=
    toSlice (set_diff (makeEntitySet (snap_kids pl p k)) (makeEntitySet (kids_at (kids p) k))).
  (** snapshot.go 225-231, 244-251, 257-264: an entityChanged only if there are children *)
  Definition one_change (t : change_type) (p : ptr) (k : key) (l : list ptr) : list change :=
    match l with [] => [] | _ => [mkChange t p k l] end.

  Fixpoint entityDiff (fuel : nat) (p : ptr) : option (list change) :=
    match fuel with
    | O => None
    | S n =>
        mconcat (fun k =>
          match mconcat (entityDiff n) (created_of p k) with
          | None => None
          | Some sub_created =>
              match mconcat (entityDiff n) (remain_of p k) with
              | None => None
              | Some sub_remain =>
                  Some (one_change CNew p k (created_of p k) ++ sub_created        (* 225-235 *)
                        ++ one_change CDirty p k (filter dirty (remain_of p k))    (* 238-251 *)
                        ++ sub_remain                                              (* 252-254 *)
                        ++ one_change CDelete p k (deleted_of p k))                (* 257-264 *)
              end
          end) (isort str_leb (map fst (kids p)))                                  (* 212-217 *)
    end.
End Diff.

(* ---------------------------------------------------------------- moves *)
(** An entityChanged object whose [children] slice is compacted in place (snapshot.go 48-61):
    backing array and current length. *)
Record cell := mkCell {
  cl_type : change_type; cl_parent : ptr; cl_key : key; cl_arr : list ptr; cl_len : nat }.
(** snapshot.go 41-46: an entityChanged with its slice as array and length *)
Definition cell_of (c : change) : cell :=
  mkCell (ch_type c) (ch_parent c) (ch_key c) (ch_kids c) (length (ch_kids c)).
(** snapshot.go 41-46: the visible part of the slice *)
Definition change_of (c : cell) : change :=
  mkChange (cl_type c) (cl_parent c) (cl_key c) (firstn (cl_len c) (cl_arr c)).
(** snapshot.go 48-61: the kept elements are written to the front of the same array. *)
Definition cell_remove (e : ptr) (c : cell) : cell :=
  let kept := filter (fun x => negb (Nat.eqb x e)) (firstn (cl_len c) (cl_arr c)) in
  mkCell (cl_type c) (cl_parent c) (cl_key c)
         (kept ++ skipn (length kept) (cl_arr c)) (length kept).

(** assignment through the pointer to the n-th entityChanged *)
Fixpoint upd_nth {A} (n : nat) (f : A -> A) (l : list A) : list A :=
  match n, l with
  | _, [] => []
  | O, x :: t => f x :: t
  | S m, x :: t => x :: upd_nth m f t
  end.
(** default value of nth, never read (indices are in range) *)
Definition dummy_cell : cell := mkCell CClear 0 ""%string [] 0.
(** read through the pointer to the n-th entityChanged *)
Definition cell_at (cs : list cell) (i : nat) : cell := nth i cs dummy_cell.

(** State of the loop of handleEntityMove: the changed items, the appended items (299), and the map
    [entities] from entity to (index of) changed item. *)
Record mstate := mkM { ms_cells : list cell; ms_extra : list change; ms_seen : list (ptr * nat) }.
(** snapshot.go 279: read of the map entities *)
Fixpoint seen_at (s : list (ptr * nat)) (e : ptr) : option nat :=
  match s with [] => None | (x, i) :: t => if Nat.eqb e x then Some i else seen_at t e end.

(** One iteration of the inner loop (snapshot.go 278-300): item [i], position [j] of the slice as it
    was when the range started; the element is read from the (possibly compacted) array.
    [None]: the "repeated" error of line 298. *)
Definition move_step (i : nat) (s : mstate) (j : nat) : option mstate :=
  let item := cell_at (ms_cells s) i in
  let e := nth j (cl_arr item) 0 in
  match seen_at (ms_seen s) e with
  | None => Some (mkM (ms_cells s) (ms_extra s) ((e, i) :: ms_seen s))            (* 279-283 *)
  | Some pi =>
      let prev := cell_at (ms_cells s) pi in
      match cl_type prev, cl_type item with
      | CNew, CDelete =>                                                          (* 285-295 *)
          let cells1 := upd_nth i (cell_remove e) (ms_cells s) in
          let cells2 := upd_nth pi (cell_remove e) cells1 in
          Some (mkM cells2
                    (ms_extra s ++ [mkChange CDirty (cl_parent prev) (cl_key prev) [e]])
                    ((e, i) :: ms_seen s))
      | _, _ => None                                                              (* 296-299 *)
      end
  end.
(** a range loop with an error return *)
Fixpoint fold_opt {A B} (f : A -> B -> option A) (l : list B) (a : A) : option A :=
  match l with [] => Some a | x :: t => match f a x with None => None | Some a' => fold_opt f t a' end end.
(** snapshot.go 278: range over the children slice as it was when the loop began *)
Definition move_item (s : mstate) (i : nat) : option mstate :=
  fold_opt (move_step i) (seq 0 (cl_len (cell_at (ms_cells s) i))) s.

(** snapshot.go 272-274: the order of SliceStable (not less the other way round) *)
Definition ct_leb (a b : change) : bool := negb (Nat.ltb (ct_rank (ch_type b)) (ct_rank (ch_type a))).

(** snapshot.go 270-303 (handleEntityMove); [None]: error *)
Definition handleEntityMove (chs : list change) : option (list change) :=
  let sorted := isort ct_leb chs in                                               (* 272-274 *)
  match fold_opt move_item (seq 0 (length sorted)) (mkM (map cell_of sorted) [] []) with
  | None => None
  | Some s => Some (map change_of (ms_cells s) ++ ms_extra s)
  end.

(** snapshot.go 305-327 (recursiveDelete); outer [None]: out of fuel *)
Definition is_delete (c : change) : bool := match ch_type c with CDelete => true | _ => false end.
(** snapshot.go 305-327 (recursiveDelete) *)
Definition recursiveDelete (ord : map_order) (kids : ptr -> list (key * list ptr)) (fuel : nat)
  (chs : list change) : option (list change) :=
  match mconcat (fun item =>
          if is_delete item then
            mconcat (fun c =>
              match walk ord kids fuel c (Some (ch_parent item)) with
              | None => None
              | Some visited =>
                  Some (flat_map (fun ep =>
                          map (fun kc => mkChange CDelete (fst ep) (fst kc) (snd kc))
                              (ord (fst ep) (kids (fst ep)))) visited)
              end) (ch_kids item)
          else Some []) chs with
  | None => None
  | Some extra => Some (chs ++ extra)
  end.

(** Outcome of getEntityChanged *)
Inductive res (A : Type) := ROk (a : A) | RErr | RFuel.
Arguments ROk {A}. Arguments RErr {A}. Arguments RFuel {A}.

(** engine.go 882-894 (getEntityChanged) *)
Definition getEntityChanged (recursive : bool) (ord : map_order)
  (kids : ptr -> list (key * list ptr)) (dirty : ptr -> bool) (pl : pool) (fuel : nat)
  : res (list change) :=
  match entityDiff kids dirty pl fuel meta with
  | None => RFuel
  | Some chs =>
      match handleEntityMove chs with
      | None => RErr
      | Some moved =>
          if recursive then
            match recursiveDelete ord kids fuel moved with
            | None => RFuel
            | Some r => ROk r
            end
          else ROk moved
      end
  end.

(* ---------------------------------------------------------------- EntityContainer *)
(** engine.go 60-120.  State: roots, deleted. *)
Record container := mkCont { ct_roots : list ptr; ct_deleted : list ptr }.
(** 71-78 *)
Definition cont_has (c : container) (r : ptr) : bool := memb r (ct_roots c).
(** 90-99; [None]: ErrEntityRepeated *)
Definition cont_add (c : container) (r : ptr) : option container :=
  if memb r (ct_roots c) then None else Some (mkCont (ct_roots c ++ [r]) (ct_deleted c)).
(** 101-115; [None]: ErrEntityNotFound.  The slice is compacted in place; no other reader of the
    array exists at that time (SetChildren 84-88 and childrenSnapshot 836-844 copy). *)
Definition cont_remove (c : container) (r : ptr) : option container :=
  let kept := filter (fun x => negb (Nat.eqb x r)) (ct_roots c) in
  if Nat.eqb (length kept) (length (ct_roots c)) then None
  else Some (mkCont kept (ct_deleted c ++ [r])).
(** 84-88 *)
Definition cont_set (c : container) (rs : list ptr) : container := mkCont rs (ct_deleted c).
(** 118-120 *)
Definition cont_recycle (c : container) (r : ptr) : container := mkCont (ct_roots c) (ct_deleted c ++ [r]).

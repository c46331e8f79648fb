(** Model of executor/mysql/executor.go: the statements issued for an action, over MySQL tables.  Models, actions and operations are
    those of EngineModel: a model has a Go type (hence a table), an id and columns. *)
From Verif Require Export EngineModel.

(** A row: primary key and the other columns.  A table is a list of rows in the order a SELECT without ORDER BY returns them. *)
Definition xrow := (string * list string)%type.
(** the tables of the database by model type *)
Definition tables := nat -> list xrow.
(** the new content of one table *)
Definition tset (t : tables) (k : nat) (rows : list xrow) : tables := fun k' => if k' =? k then rows else t k'.
(** gorm's mapping of a model to a row *)
Definition to_row (m : model) : xrow := (m_id m, m_cols m).
(** SQL IN over a list of keys *)
Definition str_in (x : string) (l : list string) : bool := existsb (String.eqb x) l.
(** no two equal *)
Fixpoint str_nodup (l : list string) : bool := match l with [] => true | x :: t => negb (str_in x t) && str_nodup t end.

(** What Exec does: succeeds, returns an error, panics. *)
Inductive xres := XOk (t : tables) | XErr (t : tables) | XPanic (t : tables).

(** executor.go 78-86: one INSERT for all models, which fails as a whole on a duplicate key; reflect.Append panics if a model has
    another type than the first, [a.Models[0]] if there is none. *)
Definition x_insert (ms : list model) (t : tables) : xres :=
  match ms with
  | [] => XPanic t
  | m0 :: _ =>
    if negb (forallb (fun m => m_type m =? m_type m0) ms) then XPanic t
    else if str_nodup (map m_id ms) && forallb (fun m => negb (str_in (m_id m) (map fst (t (m_type m0))))) ms
         then XOk (tset t (m_type m0) (t (m_type m0) ++ map to_row ms))
         else XErr t
  end.
(** The columns of a row after [Select(fields).Updates(m)]: the changed ones are written (DiffModel.v: which ones are selected).
    Here all columns are strings of different names. *)
Fixpoint x_overlay (new prev old : list string) : list string :=
  match new, prev, old with
  | n :: ns, p :: ps, o :: os => (if String.eqb n p then o else n) :: x_overlay ns ps os
  | _, _, _ => old
  end.
(** executor/mysql/executor.go 87-104 with diff.go 104-110: whether any column differs *)
Definition x_diff (m p : model) : bool :=
  negb (String.eqb (m_id m) (m_id p)) || existsb (fun x => negb (String.eqb (fst x) (snd x))) (combine (m_cols m) (m_cols p)).
(** executor.go 87-104: models one by one. With a previous model (89-96): nothing to do if nothing changed, else UPDATE of the
    changed columns; gorm refuses an UPDATE without key. A nil previous model: DiffModel returns nil (diff.go 106-108), nothing is
    written. Without previous model (97-100): gorm's Save, an UPDATE of all columns followed by an upsert if no row was affected; an
    INSERT if the key is empty. *)
Definition x_save (m : model) (t : tables) : tables :=
  tset t (m_type m) (if str_in (m_id m) (map fst (t (m_type m)))
                     then map (fun r => if String.eqb (fst r) (m_id m) then to_row m else r) (t (m_type m))
                     else t (m_type m) ++ [to_row m]).
(** executor/mysql/executor.go 87-104 (OpUpdate) *)
Fixpoint x_update (ms : list model) (ps : list (option model)) (t : tables) : xres :=
  match ms with
  | [] => XOk t
  | m :: ms' =>
    match ps with
    | Some p :: ps' =>
      if x_diff m p then
        if String.eqb (m_id m) "" then XErr t
        else x_update ms' ps' (tset t (m_type m) (map (fun r => if String.eqb (fst r) (m_id m) then (fst r, x_overlay (m_cols m) (m_cols p) (snd r)) else r) (t (m_type m))))
      else x_update ms' ps' t
    | None :: ps' => x_update ms' ps' t
    | [] => x_update ms' [] (x_save m t)
    end
  end.
(** executor/mysql/executor.go 105-133: DELETE with the keys of the models *)
Definition x_remove (k : nat) (ids : list string) (t : tables) : tables := tset t k (filter (fun r => negb (str_in (fst r) ids)) (t k)).
(** executor.go 126-132: one by one, for tables with a composite key (here: a key made of one string); gorm refuses a DELETE whose key
    is empty *)
Fixpoint x_delete_each (ms : list model) (t : tables) : xres :=
  match ms with
  | [] => XOk t
  | m :: ms' => if String.eqb (m_id m) "" then XErr t else x_delete_each ms' (x_remove (m_type m) [m_id m] t)
  end.
Section Exec.
  (** the table of this Go type has a single primary key *)
  Variable single : nat -> bool.
  (** executor.go 105-133: a single primary key: one DELETE by key(s) *)
  Definition x_delete (ms : list model) (t : tables) : xres :=
    match ms with
    | [] => XPanic t
    | m0 :: _ => if single (m_type m0) then XOk (x_remove (m_type m0) (map m_id ms) t) else x_delete_each ms t
    end.
  (** executor.go 220-233 Exec for the writing operations. *)
  Definition x_exec (a : action) (t : tables) : xres :=
    match a_op a with
    | OpInsert => x_insert (a_models a) t
    | OpUpdate => x_update (a_models a) (a_prev a) t
    | OpDelete => x_delete (a_models a) t
    | OpQuery => XOk t
    end.
End Exec.
(** executor.go 134-137 OpQuery: db.Where(query): gorm turns the non-zero fields of the model into equalities. *)
Fixpoint x_cols_match (q r : list string) : bool :=
  match q, r with
  | [], _ => true
  | c :: q', [] => String.eqb c "" && x_cols_match q' []
  | c :: q', v :: r' => (String.eqb c "" || String.eqb c v) && x_cols_match q' r'
  end.
(** executor/mysql/executor.go 134-137: WHERE of the non-zero fields *)
Definition x_match (q : model) (r : xrow) : bool := (String.eqb (m_id q) "" || String.eqb (m_id q) (fst r)) && x_cols_match (m_cols q) (snd r).
(** executor/mysql/executor.go 134-137 (OpQuery) *)
Definition x_query (q : model) (t : tables) : list model := map (fun r => mkModel (m_type q) (fst r) (snd r)) (filter (x_match q) (t (m_type q))).

(** What a save must hand to the executor, in terms of the changed entities only. *)
From Verif Require Export MoveSpec GraphSpec DbSpec.

(** What one changed entity contributes: its operation, its model, and the model remembered when it was loaded. *)
Record contrib := mkContrib { cb_op : op; cb_model : model; cb_prev : option model }.
(** The contributions of all changed entities that the executor knows, in the order of the changes. *)
Definition contributions (cfg : config) (h : heap) (pl : pool) (chs : list change) : list contrib :=
  flat_map (fun ch => flat_map (fun c =>
      match c_conv cfg h c (Some (ch_parent ch)) (change_op (ch_type ch)) with
      | CModel m => [mkContrib (change_op (ch_type ch)) m (match pl c with Some sn => s_po sn | None => None end)]
      | _ => []
      end) (ch_kids ch)) chs.
Definition same_kind (o : op) (t : nat) (c : contrib) : bool := op_eqb (cb_op c) o && Nat.eqb (m_type (cb_model c)) t.

(** The type of the models of an action (they all have the same, see C16). *)
Definition action_type (a : action) : nat := match a_models a with m :: _ => m_type m | [] => 0 end.
Definition op_rank (o : op) : nat := match o with OpInsert => 0 | OpUpdate => 1 | OpDelete => 2 | OpQuery => 3 end.

(** Table [t] appears among the contributions before table [u] does (whatever the operation). *)
Definition appears_before (cs : list contrib) (t u : nat) : Prop :=
  exists c1 x c2, cs = c1 ++ x :: c2 /\ m_type (cb_model x) = t /\ forall y, In y (c1 ++ [x]) -> m_type (cb_model y) <> u.

(** [acts] is the right list of actions for the contributions [cs]. *)
Record actions_for (cs : list contrib) (acts : list action) : Prop := mkActionsFor {
  (** each action consists of exactly the contributions of its operation and type, in order; previous models line up *)
  af_exact : forall a, In a acts ->
    let mine := filter (same_kind (a_op a) (action_type a)) cs in
    mine <> [] /\ a_models a = map cb_model mine /\
    a_prev a = match a_op a with OpUpdate => map cb_prev mine | _ => [] end;
  (** no contribution is forgotten *)
  af_all : forall c, In c cs -> exists a, In a acts /\ a_op a = cb_op c /\ action_type a = m_type (cb_model c);
  (** one action per operation and type *)
  af_once : NoDup (map (fun a => (a_op a, action_type a)) acts);
  (** inserts, then updates, then deletes *)
  af_order : StronglySorted (fun a b => op_rank (a_op a) <= op_rank (a_op b)) acts;
  (** within an operation the tables come in the order in which they first appear among the changed entities *)
  af_tables : StronglySorted (fun a b => a_op a = a_op b -> appears_before cs (action_type a) (action_type b)) acts }.

(** What a save started in state [s] has to do with entity [p] below [par].[k]: create, update or delete it.  With
    recursive delete everything below a deleted entity is deleted too. *)
Definition must_save (cfg : config) (s : st) (t : change_type) (par : ptr) (k : key) (p : ptr) : Prop :=
  let kids := kids_now s in
  let exp := expected_final kids (fun q => e_dirty (s_heap s q)) (s_pool s) meta in
  exp t par k p \/
  (c_recursive cfg = true /\ t = CDelete /\ now_child kids par k p /\
   exists d p0 k0, exp CDelete p0 k0 d /\ reach kids d par).

(** Calls of user code and id generator within a save. *)
Definition is_hook (before : bool) (c : call) : bool := match c with KHook _ _ b => Bool.eqb b before | _ => false end.
Definition is_newid (c : call) : bool := match c with KNewID => true | _ => false end.

(** User hooks do not change the type of an entity (no Go program can) / do not touch ids. *)
Definition keeps_types (cfg : config) : Prop := forall n h p, e_type (r_heap (c_oracle cfg n) h p) = e_type (h p).
Definition keeps_ids (cfg : config) : Prop := forall n h p, e_id (r_heap (c_oracle cfg n) h p) = e_id (h p).
(** The id generator never returns the empty string. *)
Definition ids_nonempty (cfg : config) : Prop := forall n, r_id (c_oracle cfg n) <> ""%string.
Definition ans_ok (c : call * resp) : Prop := r_ans (snd c) = AOk.

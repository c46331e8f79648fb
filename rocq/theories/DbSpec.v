(** What an outside observer sees: the database and the event bus as functions of the sequence of
    external calls of a run.  Independent of how the engine produces the calls. *)
From Verif Require Export EngineModel.

(** A database: table (model type) and primary key to the columns of the row. *)
Definition db := (nat * string) -> option (list string).
Definition row_key (m : model) : nat * string := (m_type m, m_id m).
Definition key_eqb (a b : nat * string) : bool := Nat.eqb (fst a) (fst b) && String.eqb (snd a) (snd b).
Definition db_set (d : db) (k : nat * string) (v : option (list string)) : db := fun k' => if key_eqb k' k then v else d k'.

(** An update writes only the columns in which the model differs from the previous model. *)
Fixpoint overlay (new prev old : list string) : list string :=
  match new, prev, old with
  | n :: ns, p :: ps, o :: os => (if String.eqb n p then o else n) :: overlay ns ps os
  | _, _, _ => new
  end.
Definition apply_update (d : db) (m : model) (prev : option model) : db :=
  match d (row_key m) with
  | None => d
  | Some old => db_set d (row_key m) (Some (match prev with None => m_cols m | Some p => overlay (m_cols m) (m_cols p) old end))
  end.
Fixpoint apply_updates (d : db) (ms : list model) (ps : list (option model)) : db :=
  match ms with
  | [] => d
  | m :: t => apply_updates (apply_update d m (match ps with p :: _ => p | [] => None end)) t (match ps with _ :: q => q | [] => [] end)
  end.
Definition apply_action (d : db) (a : action) : db :=
  match a_op a with
  | OpInsert => fold_left (fun d m => db_set d (row_key m) (Some (m_cols m))) (a_models a) d
  | OpUpdate => apply_updates d (a_models a) (a_prev a)
  | OpDelete => fold_left (fun d m => db_set d (row_key m) None) (a_models a) d
  | OpQuery => d
  end.
Definition apply_actions (d : db) (l : list action) : db := fold_left apply_action l d.

(** Committed data and the data of the open transaction. *)
Record dbst := mkDb { committed : db; pending : option db }.
Definition answered_ok (r : resp) : bool := match r_ans r with AOk => true | _ => false end.
(** One call; [junk] is whatever a failed write may have done. *)
Definition db_step (junk : db -> db) (d : dbst) (c : call * resp) : dbst :=
  match fst c with
  | KBegin => if answered_ok (snd c) then mkDb (committed d) (Some (committed d)) else d
  | KExec a =>
      let f := if answered_ok (snd c) then fun x => apply_action x a else junk in
      match pending d with
      | Some x => mkDb (committed d) (Some (f x))
      | None => mkDb (f (committed d)) None
      end
  | KCommit => if answered_ok (snd c) then match pending d with Some x => mkDb x None | None => d end
               else mkDb (committed d) None
  | KRollback => mkDb (committed d) None
  | _ => d
  end.
(** The data visible to others after the calls [tr]; an open transaction is not visible, and is lost if the
    process dies. *)
Definition visible (junk : db -> db) (d0 : db) (tr : list (call * resp)) : db :=
  committed (fold_left (db_step junk) tr (mkDb d0 None)).

Definition commit_ok (tr : list (call * resp)) : Prop := exists r, In (KCommit, r) tr /\ r_ans r = AOk.
Definition exec_failed (tr : list (call * resp)) : Prop := exists a r, In (KExec a, r) tr /\ r_ans r <> AOk.

(** Which calls of the run are what. *)
Definition is_lock_call (c : call) : bool := match c with KLock _ | KUnLock _ => true | _ => false end.
Definition is_tx_call (c : call) : bool := match c with KBegin | KCommit | KRollback => true | _ => false end.
Definition is_post (c : call) : bool := match c with KPostSave _ => true | _ => false end.
Definition is_write (c : call) : bool := match c with KExec _ => true | _ => false end.
Definition is_publish (c : call) : bool := match c with KDispatch _ | KDispatchBegin _ | KBusCommit | KBusRollback => true | _ => false end.

(** Vocabulary for C97: what a registered checker may answer. *)
From Verif Require Import FlowModel InterSpec.

(** every step of the history satisfies [P] in the state it is taken in *)
Fixpoint always (P : fmove -> flow -> Prop) (acts : list fmove) (st : flow) : Prop :=
  match acts with [] => True | a :: t => P a st /\ always P t (fexec a st) end.
(** the rows checker [j] asks about, with the answers it gets *)
Definition asked_about (j : nat) (answers : list answer) (st : flow) : list (trow * answer) :=
  match nth_error (i_chk (f_bus st)) j with Some (KSnap trs _) => combine trs answers | _ => [] end.
Definition a_commit (a : answer) : Prop := match a with ACommit _ _ => True | _ => False end.
Definition a_rollback (a : answer) : Prop := match a with ARoll _ => True | _ => False end.
(** the data of the transaction with this row is committed *)
Definition committed (st : flow) (t : trow) : Prop := In (tr_id t) (f_data st).
(** the run is not over: its data may still become committed *)
Definition undecided (st : flow) (t : trow) : Prop := exists i p, nth_error (f_runs st) i = Some (p, t) /\ (p = PhHave \/ p = PhUnsure).
(** the checker says "commit" only for a run whose data is committed *)
Definition truthful (a : fmove) (st : flow) : Prop :=
  match a with FCheckEnd j answers => forall t x, In (t, x) (asked_about j answers st) -> a_commit x -> committed st t | _ => True end.
(** it says "rollback" only for a run that is over and whose data is not committed; in doubt it gives no decision *)
Definition patient (a : fmove) (st : flow) : Prop :=
  match a with FCheckEnd j answers => forall t x, In (t, x) (asked_about j answers st) -> a_rollback x -> ~ committed st t /\ ~ undecided st t | _ => True end.
(** it says "rollback" for every run whose data it does not find, looking at some time after the timeout check began *)
Definition looks_once (a : fmove) (st : flow) : Prop :=
  match a with FCheckEnd j answers => forall t x seen, In (t, x) (asked_about j answers st) -> a_rollback x -> nth_error (f_seen st) j = Some seen -> ~ In (tr_id t) seen | _ => True end.
(** a run that commits its data does so before the timeout of its event transaction *)
Definition in_time (a : fmove) (st : flow) : Prop :=
  match a with
  | FRun i (FcCommit true) | FSettle i true => forall p t, nth_error (f_runs st) i = Some (p, t) -> i_now (f_bus st) <= tr_due t
  | _ => True
  end.
Definition no_cleaning (a : fmove) (st : flow) : Prop := match a with FRemove _ => False | _ => True end.

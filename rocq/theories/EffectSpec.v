(** What the log of a service tells, for the property about the effects of event handlers. *)
From Verif Require Import BusWorld EffectModel.

(** The handlers called in call [c], oldest first, with what they came to. *)
Fixpoint runs_of (c : nat) (l : list lev) : list (nat * outcome) :=
  match l with
  | [] => []
  | LRun c' _ _ h o :: t => if c' =? c then runs_of c t ++ [(h, o)] else runs_of c t
  | _ :: t => runs_of c t
  end.
(** The effects on the data, oldest first: service, event, handler. *)
Fixpoint effects (l : list lev) : list (string * erow * nat) :=
  match l with
  | [] => []
  | LRun _ svc e h o :: t => if committed o then effects t ++ [(svc, e, h)] else effects t
  | _ :: t => effects t
  end.
(** How often the effect of handler [h] for the event with number [id] happened in the service. *)
Definition times (l : list lev) (svc : string) (id h : nat) : nat :=
  length (filter (fun x => let '(v, e, k) := x in String.eqb v svc && (er_id e =? id) && (k =? h)) (effects l)).
(** The data after a list of effects, the first one first. *)
Definition apply_all {A} (eff : string -> erow -> nat -> A -> A) (l : list (string * erow * nat)) (a : A) : A :=
  fold_left (fun a x => let '(v, e, h) := x in eff v e h a) l a.
(** It does not matter how often and in which order the effects happen. *)
Definition repeatable {A} (eff : string -> erow -> nat -> A -> A) : Prop :=
  (forall v e h a, eff v e h (eff v e h a) = eff v e h a) /\
  (forall v e h v' e' h' a, eff v e h (eff v' e' h' a) = eff v' e' h' (eff v e h a)).
(** A call of the handlers of the event was recorded as successful. *)
Definition recorded (l : list lev) (svc : string) (e : erow) : Prop := exists c, In (LRec c svc e HOk) l.
(** A call that failed left no effect. *)
Definition failures_leave_nothing (l : list lev) : Prop :=
  forall c v e h o v' e' h' o', In (LRun c v e h o) l -> answer o <> None -> In (LRun c v' e' h' o') l -> committed o' = false.
(** No handler broke off with ErrBreak. *)
Definition nothing_broken_off (l : list lev) : Prop := forall c v e h o, In (LRun c v e h o) l -> o <> OBreak.

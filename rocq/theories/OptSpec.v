(** Specification vocabulary for run options: only what was given to whom. *)
From Verif Require Export OptModel.

(** The last option of a kind decides; without any, the default. *)
Definition latest {A} (kind : opt -> option A) (os : list opt) (d : A) : A :=
  fold_left (fun a o => match kind o with Some x => x | None => a end) os d.
Definition tx_of (o : opt) := match o with OTransaction b => Some b | _ => None end.
Definition rec_of (o : opt) := match o with ORecursiveDelete b => Some b | _ => None end.
Definition dry_of (o : opt) := match o with ODryRun b => Some b | _ => None end.
Definition log_of (o : opt) := match o with OLogger x => Some x | _ => None end.
Definition locker_of (o : opt) := match o with OLocker x => Some x | _ => None end.
Definition exec_of (o : opt) := match o with OExecutor x => Some x | _ => None end.
Definition bus_of (o : opt) := match o with OEventBus x => Some x | _ => None end.
Definition timer_of (o : opt) := match o with OTimer x => Some x | _ => None end.
Definition persist_of (o : opt) := match o with OPersist x => Some (Some x) | _ => None end.
Definition idgen_of (o : opt) := match o with OIDGen x => Some x | _ => None end.
Definition hooks_in (os : list opt) : list nat := flat_map (fun o => match o with OHook x => [x] | _ => [] end) os.

(** The engines and stages made in a history, in order. *)
Definition engines_made (h : list ev) : list (nat * nat * list opt) := flat_map (fun x => match x with MkEngine l e os => [(l, e, os)] | _ => [] end) h.
Definition stages_made (h : list ev) : list nat := flat_map (fun x => match x with MkStage e => [e] | _ => [] end) h.
(** The options given to stage [s], in order. *)
Definition given (s : nat) (h : list ev) : list opt := flat_map (fun x => match x with Give s' o => if s' =? s then [o] else [] | _ => [] end) h.
(** Engines and stages are made before they are used. *)
Definition wf (h : list ev) : Prop := forall h1 x h2, h = h1 ++ x :: h2 ->
  match x with MkStage e => e < length (engines_made h1) | Give s _ | Settle s => s < length (stages_made h1) | MkEngine _ _ _ => True end.
(** Every WithOption call on stage [s] has returned. *)
Definition settled (s : nat) (h : list ev) : Prop := forall h1 o h2, h = h1 ++ Give s o :: h2 -> In (Settle s) h2.
(** Since stage [s] was given its first hook, no other stage of the same engine was given one. *)
Definition undisturbed (s : nat) (h : list ev) : Prop := forall h1 x h2 s' y,
  h = h1 ++ Give s (OHook x) :: h2 -> In (Give s' (OHook y)) h2 -> nth_error (stages_made h) s' = nth_error (stages_made h) s -> s' = s.
(** The capacity of a slice after [n] appends to nil. *)
Fixpoint cap_after (grow : nat -> nat) (n : nat) : nat :=
  match n with O => O | S n => let c := cap_after grow n in if n <? c then c else grow c end.

(** What the memory-bus properties say, in terms of what an observer sees (histories newest first). *)
From Verif Require Export MemBusModel.

(** Some schedule of the bus with this capacity leads here. *)
Definition mreach (cap : nat) (s : mstate) : Prop := exists ls, mrun cap ls minit = Some s.

(** All completed sends, oldest first, with their sender. *)
Fixpoint msent (h : list mhev) : list (msender * nat) :=
  match h with [] => [] | HSent s e :: t => msent t ++ [(s, e)] | _ :: t => msent t end.
(** All events handed to the handler, oldest first. *)
Fixpoint mhanded (h : list mhev) : list nat :=
  match h with [] => [] | HHand e _ :: t => mhanded t ++ [e] | _ :: t => mhanded t end.
(** All events goroutine p gave to its Dispatch calls, oldest first. *)
Fixpoint masked (p : nat) (h : list mhev) : list nat :=
  match h with [] => [] | HCall q evs :: t => if p =? q then masked p t ++ evs else masked p t | _ :: t => masked p t end.
(** All events handlers undertook to dispatch, oldest first. *)
Fixpoint mpubs (h : list mhev) : list nat :=
  match h with [] => [] | HHand _ pubs :: t => mpubs t ++ pubs | _ :: t => mpubs t end.
Definition mis (s : msender) (x : msender * nat) : bool :=
  match s, fst x with MExt p, MExt q => p =? q | MHandler, MHandler => true | _, _ => false end.
(** The events sent by one sender. *)
Definition mby (s : msender) (l : list (msender * nat)) : list nat := map snd (filter (mis s) l).
Definition mprefix {A} (a b : list A) : Prop := exists c, b = a ++ c.
(** Number of calls of the handler and number of those that returned. *)
Definition mcount (f : mhev -> bool) (h : list mhev) : nat := length (filter f h).
Definition is_hand (x : mhev) := match x with HHand _ _ => true | _ => false end.
Definition is_done (x : mhev) := match x with HDone _ => true | _ => false end.
Definition is_call (p : nat) (x : mhev) := match x with HCall q _ => p =? q | _ => false end.
Definition is_ret (p : nat) (x : mhev) := match x with HRet q => p =? q | _ => false end.
(** A handler call is under way. *)
Definition mbusy (h : list mhev) : Prop := mcount is_done h < mcount is_hand h.
(** A Dispatch call of p is under way. *)
Definition mblocked (p : nat) (h : list mhev) : Prop := mcount (is_ret p) h < mcount (is_call p) h.

(** Steps the bus and the goroutines already inside it can take on their own: no new call, no cancellation, no idle spin. *)
Definition minternal (l : mlabel) : bool :=
  match l with LSend _ | LHand _ _ | LRet _ | LTake _ | LHSend | LHEnd => true | _ => false end.
(** The handler calls begun in this schedule dispatch nothing. *)
Definition mquiet (l : mlabel) : bool :=
  match l with LHand _ (_ :: _) | LTake (_ :: _) => false | _ => true end.
(** Nothing more can happen on its own. *)
Definition mstuck (cap : nat) (s : mstate) : Prop := forall l, minternal l = true -> mstep cap l s = None.

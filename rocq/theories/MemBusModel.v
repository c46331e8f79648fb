(** Model of eventbus/mem/eventbus.go: the event bus over a Go channel, with any number of goroutines calling Dispatch. *)
From Verif Require Export GoBase.

(** Who sends: a goroutine calling Dispatch, or the handler itself (which runs in the bus goroutine). *)
Inductive msender := MExt (p : nat) | MHandler.

(** The bus goroutine: Start not called (61-63); at the select (52); inside e.cb for an event (54), still having events to
    dispatch. *)
Inductive mcons := MNotStarted | MAtSelect | MInHandler (e : nat) (todo : list nat).

(** What an observer sees, newest first. Events are numbers. *)
Inductive mhev :=
| HCall (p : nat) (evs : list nat)      (* goroutine p calls Dispatch with these events *)
| HRet (p : nat)                        (* that call returned *)
| HSent (s : msender) (e : nat)         (* one send [e.ch <- evt] completed *)
| HHand (e : nat) (pubs : list nat)     (* the handler is called for e; during this call it will dispatch pubs *)
| HDone (e : nat)                       (* that handler call returned *)
| HCancel.                              (* the context given to Start is cancelled *)

(** eventbus.go 25-30: the channel's buffer, the goroutines inside Dispatch with what they still have to send, the consumer.
    The sender of each buffered event is remembered only so that properties can speak about it. *)
Record mstate := mkM { m_queue : list (msender * nat); m_disp : list (nat * list nat); m_cons : mcons; m_cancel : bool; m_hist : list mhev }.
(** 32-36 NewEventBus *)
Definition minit : mstate := mkM [] [] MNotStarted false [].

(** the events a dispatcher still has to send *)
Fixpoint mfind (p : nat) (l : list (nat * list nat)) : option (list nat) :=
  match l with [] => None | (q, evs) :: t => if p =? q then Some evs else mfind p t end.
(** a dispatcher goes on *)
Fixpoint mset (p : nat) (evs : list nat) (l : list (nat * list nat)) : list (nat * list nat) :=
  match l with [] => [] | (q, x) :: t => if p =? q then (p, evs) :: t else (q, x) :: mset p evs t end.
(** a dispatcher returns *)
Fixpoint mdel (p : nat) (l : list (nat * list nat)) : list (nat * list nat) :=
  match l with [] => [] | (q, x) :: t => if p =? q then t else (q, x) :: mdel p t end.

(** One atomic step, chosen by the scheduler and by the callers. *)
Inductive mlabel :=
| LStart                                (* Start is called *)
| LCall (p : nat) (evs : list nat)      (* goroutine p calls Dispatch *)
| LSend (p : nat)                       (* its next send goes into the buffer *)
| LHand (p : nat) (pubs : list nat)     (* its next send is received at once by the waiting bus goroutine *)
| LRet (p : nat)                        (* its loop is over: Dispatch returns *)
| LTake (pubs : list nat)               (* the bus goroutine receives from the buffer and calls the handler *)
| LHSend                                (* the running handler's next send goes into the buffer *)
| LHEnd                                 (* the running handler returns; its error is dropped *)
| LCancel                               (* the context is cancelled *)
| LSpin.                                (* the select sees ctx.Done() *)

(** None: the step is not possible in this state. *)
Definition mstep (cap : nat) (l : mlabel) (s : mstate) : option mstate :=
  let '(mkM q d c x h) := s in
  match l with
  | LStart => (* 49-64: once.Do *)
      match c with MNotStarted => Some (mkM q d MAtSelect x h) | _ => Some s end
  | LCall p evs => (* 38 *)
      match mfind p d with None => Some (mkM q ((p, evs) :: d) c x (HCall p evs :: h)) | Some _ => None end
  | LSend p => (* 40: a send on a channel with room *)
      match mfind p d with
      | Some (e :: t) => if length q <? cap then Some (mkM (q ++ [(MExt p, e)]) (mset p t d) c x (HSent (MExt p) e :: h)) else None
      | _ => None
      end
  | LHand p pubs => (* 40 meets 53: the buffer is empty and the receiver waits *)
      match mfind p d, q, c with
      | Some (e :: t), [], MAtSelect => Some (mkM [] (mset p t d) (MInHandler e pubs) x (HHand e pubs :: HSent (MExt p) e :: h))
      | _, _, _ => None
      end
  | LRet p => (* 42 *)
      match mfind p d with Some [] => Some (mkM q (mdel p d) c x (HRet p :: h)) | _ => None end
  | LTake pubs => (* 53-54 *)
      match q, c with
      | (_, e) :: t, MAtSelect => Some (mkM t d (MInHandler e pubs) x (HHand e pubs :: h))
      | _, _ => None
      end
  | LHSend => (* 40, called by the handler: nobody else receives *)
      match c with
      | MInHandler e (y :: t) => if length q <? cap then Some (mkM (q ++ [(MHandler, y)]) d (MInHandler e t) x (HSent MHandler y :: h)) else None
      | _ => None
      end
  | LHEnd => (* 54: [_ = e.cb(ctx, evt)], then the loop goes on *)
      match c with MInHandler e [] => Some (mkM q d MAtSelect x (HDone e :: h)) | _ => None end
  | LCancel => Some (mkM q d c true (HCancel :: h))
  | LSpin => (* 55-56: [break] leaves the select, not the loop *)
      match c with MAtSelect => if x then Some s else None | _ => None end
  end.

(** a history: the labels one after the other, if each is possible *)
Fixpoint mrun (cap : nat) (ls : list mlabel) (s : mstate) : option mstate :=
  match ls with
  | [] => Some s
  | l :: t => match mstep cap l s with Some s' => mrun cap t s' | None => None end
  end.

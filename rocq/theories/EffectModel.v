(** What the handlers of an event do to the data of their service: the MySQL bus (eventbus.go), the router (event.go) and the
    runs started by Engine.RegisterEventHandler (engine.go) together.  The bus is the one of BusWorld.v; this file adds what
    happens between "the handler is called" and "the handler has ended": one run of the engine after the other, each in its
    own transaction on the data. *)
From Verif Require Import BusWorld.

(** What one handler call comes to (event.go 173-188, engine.go 528-547): its run committed and it answers nil; the command
    broke off with ErrBreak (engine.go 1259-1269: rolled back, but no error), so it answers nil; it answers an error, or
    panics, and its transaction was rolled back (also: json.Unmarshal failed, 178-181); its transaction committed and it
    answers an error all the same (the answer to COMMIT was lost, engine.go 1271-1273) or panics (in a PostSave hook,
    engine.go 1299-1303). *)
Inductive outcome := ODone | OBreak | OFail | OPanic | OLate | OLatePanic.
(** event.go 184-187: what the bus gets to know; None: nil *)
Definition answer (o : outcome) : option hres :=
  match o with ODone | OBreak => None | OFail | OLate => Some HErr | OPanic | OLatePanic => Some HPanic end.
(** engine.go 1271: the transaction of the run was committed *)
Definition committed (o : outcome) : bool := match o with ODone | OLate | OLatePanic => true | _ => false end.

(** eventbus.go 583: a call of onEvent in progress: its number, how many handlers were called, and the answer that ended it *)
Record prog := mkP { pg_no : nat; pg_count : nat; pg_res : option hres }.
(** What an observer sees, newest first: call [c] of onEvent begins; in call [c] handler [h] was called; call [c] ended and its
    result was saved in the delivery record. *)
Inductive lev :=
| LCall (c : nat) (svc : string) (e : erow)
| LRun (c : nat) (svc : string) (e : erow) (h : nat) (o : outcome)
| LRec (c : nat) (svc : string) (e : erow) (r : hres).

(** the calls in progress of a poller (bookkeeping of the interleaving) *)
Definition in_hand (w : world) (p : nat) : list (erow * srow) := match w_poll w p with PRun _ _ run => run | _ => [] end.
(** one of several calls goes on *)
Fixpoint set_nth {B} (i : nat) (x : B) (l : list B) : list B :=
  match l, i with [], _ => [] | _ :: t, 0 => x :: t | a :: t, S i => a :: set_nth i x t end.

(** the bus; the data the handlers work on; the calls in progress of each poller; number of the next call; log *)
Record xworld (A : Type) := mkX { x_w : world; x_app : A; x_prog : nat -> list prog; x_next : nat; x_log : list lev }.
Arguments mkX {A}. Arguments x_w {A}. Arguments x_app {A}. Arguments x_prog {A}. Arguments x_next {A}. Arguments x_log {A}.

(** a step of the bus (BusWorld.v) other than the end of a call; one handler of a call is called (event.go 172-188); a call ends (eventbus.go 562-600) *)
Inductive xact := XBus (a : act) | XHandler (p i : nat) (o : outcome) | XEnd (p i : nat) (saved : bool).

Section Effect.
  Context {A : Type}.
  (** the configuration of each poller *)
  Variable cfgs : nat -> buscfg.
  (** event.go 170: the handlers a service has registered for the type of an event, in registration order *)
  Variable hs : string -> erow -> list nat.
  (** what the run of a handler does to the data when it commits (engine.go 1271) *)
  Variable eff : string -> erow -> nat -> A -> A.

  (** event.go 167-191: how the call ended, if it has: the error or panic of a handler, or nil after the last one *)
  Definition result_of (svc : string) (e : erow) (g : prog) : option hres :=
    match pg_res g with
    | Some r => Some r
    | None => if pg_count g =? length (hs svc e) then Some HOk else None
    end.

  (** One step; [None]: not possible now. *)
  Definition xexec (a : xact) (x : xworld A) : option (xworld A) :=
    let '(mkX w app pg n lg) := x in
    match a with
    | XBus (AEnd _ _ _ _) => None
    (* the process dies: what its handlers committed stays *)
    | XBus (ADie p) => match exec cfgs (ADie p) w with Some w' => Some (mkX w' app (upd pg p []) n lg) | None => None end
    (* eventbus.go 549-583: if the row was locked and the order allows it, onEvent is called *)
    | XBus (ABegin p lock qok) =>
        match exec cfgs (ABegin p lock qok) w with
        | Some w' =>
            match nth_error (in_hand w' p) (length (in_hand w p)) with
            | Some (e, _) => Some (mkX w' app (upd pg p (pg p ++ [mkP n 0 None])) (S n) (LCall n (c_service (cfgs p)) e :: lg))
            | None => Some (mkX w' app pg n lg)
            end
        | None => None
        end
    | XBus b => match exec cfgs b w with Some w' => Some (mkX w' app pg n lg) | None => None end
    (* event.go 172-188: the next handler; a handler that fails ends the call *)
    | XHandler p i o =>
        match nth_error (in_hand w p) i, nth_error (pg p) i with
        | Some (e, _), Some (mkP c k None) =>
            match nth_error (hs (c_service (cfgs p)) e) k with
            | Some h =>
                Some (mkX w (if committed o then eff (c_service (cfgs p)) e h app else app) (upd pg p (set_nth i (mkP c (S k) (answer o)) (pg p))) n
                          (LRun c (c_service (cfgs p)) e h o :: lg))
            | None => None
            end
        | _, _ => None
        end
    (* eventbus.go 562-600: the record is saved and the transaction of the bus commits ([saved]), or not *)
    | XEnd p i saved =>
        match nth_error (in_hand w p) i, nth_error (pg p) i with
        | Some (e, _), Some g =>
            match result_of (c_service (cfgs p)) e g with
            | Some r =>
                match exec cfgs (AEnd p i r saved) w with
                | Some w' => Some (mkX w' app (upd pg p (remove_nth i (pg p))) n (if saved then LRec (pg_no g) (c_service (cfgs p)) e r :: lg else lg))
                | None => None
                end
            | None => None
            end
        | _, _ => None
        end
    end.

  (** which steps a class of histories may contain (BusWorld.v) *)
  Definition xallowed (m : mode) (x : xworld A) (a : xact) : Prop :=
    match a with
    | XBus b => allowed cfgs m (x_w x) b
    | XHandler _ _ _ => True
    | XEnd _ _ saved => m_loss m = true \/ saved = true
    end.
  (** the beginning: empty tables, nobody active, some data *)
  Definition xworld0 (app : A) : xworld A := mkX world0 app (fun _ => []) 0 [].
  (** the states all histories of a class lead to *)
  Inductive xreach (m : mode) (app : A) : xworld A -> Prop :=
  | xr_start : xreach m app (xworld0 app)
  | xr_step x a x' : xreach m app x -> xallowed m x a -> xexec a x = Some x' -> xreach m app x'.
End Effect.

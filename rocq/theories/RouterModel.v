(** Model of event.go: registration of event handlers and transaction checkers, and the two callbacks given to an event bus. *)
From Verif Require Export GoBase.

(** Payloads are numbers. What reflection sees of a handler's argument type: a pointer to DomainEvent, a pointer to some event
    type (with the behaviour of json.Unmarshal into it: None is an error), anything else. *)
Inductive argty := ADomainEvent | AEvent (unmarshal : nat -> option nat) | ANotPointer.
(** Its first argument type: context.Context itself, another type that implements it, a type that does not. *)
Inductive ctxty := CtxContext | CtxOther | CtxNo.
(** Its result type: implements error and can be nil (error, a pointer); implements error but cannot be nil; does not. *)
Inductive errty := EtNilable | EtValue | EtNo.
(** reflect.TypeOf(handler) for handlers; VNot: not a function or nil; VArity: wrong number of arguments or results *)
Inductive hshape := VNot | VArity | VFun (c : ctxty) (a : argty) (e : errty).
(** for checkers: the result type is TXStatus; convertible to it (any other numeric type); not convertible *)
Inductive txty := TxStatus | TxConvertible | TxNo.
(** event.go 129-150: what reflection finds out about a checker *)
Inductive cshape := KNot | KArity | KFun (a : argty) (t : txty).
(** event.go 57-63 *)
Inductive txstatus := TXUnknown | TXCommit | TXRollBack.

(** event.go 222-229 DomainEvent: type and payload; the other fields are not used here *)
Record devent := mkE { ev_type : string; ev_payload : nat }.
(** What a handler receives: the event itself or its decoded payload. *)
Inductive harg := GotEvent (e : devent) | GotPayload (v : nat).
(** event.go 84-87 eventHandler; [rh_id] names the callback *)
Record rhandler := mkH { rh_id : nat; rh_ctx : ctxty; rh_arg : argty; rh_err : errty }.
(** event.go 89-92: a registered checker *)
Record rchecker := mkC { rc_id : nat; rc_arg : argty; rc_tx : txty }.
(** event.go 81-82: the two global maps *)
Record router := mkR { r_handlers : list (string * list rhandler); r_checkers : list (string * rchecker) }.
(** event.go 81-82: empty maps *)
Definition rinit : router := mkR [] [].

(** event.go 114-117: append to the handlers of a type *)
Fixpoint rappend (t : string) (x : rhandler) (l : list (string * list rhandler)) : list (string * list rhandler) :=
  match l with
  | [] => [(t, [x])]
  | (k, v) :: u => if String.eqb t k then (k, v ++ [x]) :: u else (k, v) :: rappend t x u
  end.
(** event.go 168: the handlers of a type *)
Definition rhandlers (t : string) (r : router) : list rhandler := match assoc t (r_handlers r) with Some l => l | None => [] end.

(** event.go 95-118 RegisterEventHandler; None: panic *)
Definition register_handler (t : string) (id : nat) (s : hshape) (r : router) : option router :=
  match s with
  | VNot | VArity => None
  | VFun CtxNo _ _ => None
  | VFun _ _ EtNo => None
  | VFun _ ANotPointer _ => None
  | VFun c a e => Some (mkR (rappend t (mkH id c a e) (r_handlers r)) (r_checkers r))
  end.
(** event.go 120-126 hasEventHandler *)
Definition has_handler (t : string) (r : router) : bool := match assoc t (r_handlers r) with Some _ => true | None => false end.
(** event.go 129-156 RegisterEventTXChecker; None: panic *)
Definition register_checker (t : string) (id : nat) (s : cshape) (r : router) : option router :=
  match assoc t (r_checkers r) with
  | Some _ => None
  | None => match s with
            | KNot | KArity => None
            | KFun _ TxNo => None
            | KFun ANotPointer _ => None
            | KFun a x => Some (mkR (r_handlers r) ((t, mkC id a x) :: r_checkers r))
            end
  end.

(** What a handler does when called: returns nil, returns an error, panics. *)
Inductive hout := HNil | HErr (err : nat) | HPanic.
(** What onEvent does: returns nil; returns the error of json.Unmarshal; returns a handler's error; panics. *)
Inductive onres := OnNil | OnDecode | OnErr (err : nat) | OnPanic.

(** The argument built for a handler (event.go 174-182); None: json.Unmarshal fails. *)
Definition biz_arg (a : argty) (e : devent) : option harg :=
  match a with
  | ADomainEvent => Some (GotEvent e)
  | AEvent f => option_map GotPayload (f (ev_payload e))
  | ANotPointer => None
  end.
(** event.go 173-188, the loop. [beh past h arg] is what the callback [h] does when called with [arg] after the calls [past]
    (newest first): any behaviour, also one that depends on everything that happened before. The calls made are returned,
    newest first.
    184: reflect's Call panics if the declared context type is not context.Context; 185: IsNil panics on a value type *)
Fixpoint call_handlers (beh : list (nat * harg) -> nat -> harg -> hout) (e : devent) (hs : list rhandler) (past : list (nat * harg))
  : onres * list (nat * harg) :=
  match hs with
  | [] => (OnNil, past)
  | h :: t =>
    match biz_arg (rh_arg h) e with
    | None => (OnDecode, past)
    | Some g =>
      match rh_ctx h with
      | CtxContext =>
        let past' := (rh_id h, g) :: past in
        match beh past (rh_id h) g with
        | HPanic => (OnPanic, past')
        | HErr n => match rh_err h with EtNilable => (OnErr n, past') | _ => (OnPanic, past') end
        | HNil => match rh_err h with EtNilable => call_handlers beh e t past' | _ => (OnPanic, past') end
        end
      | _ => (OnPanic, past)
      end
    end
  end.
(** event.go 167-191 onEvent: the list is read once, under the mutex *)
Definition on_event (beh : list (nat * harg) -> nat -> harg -> hout) (r : router) (e : devent) (past : list (nat * harg)) : onres * list (nat * harg) :=
  call_handlers beh e (rhandlers (ev_type e) r) past.

(** event.go 193-215 onTXChecker; [says id arg]: what the checker returns (None: it panics); the result None is a panic.
    214: the type assertion fails unless the result type is TXStatus itself *)
Definition on_tx_checker (says : nat -> harg -> option txstatus) (r : router) (e : devent) : option txstatus :=
  match assoc (ev_type e) (r_checkers r) with
  | None => Some TXRollBack
  | Some c =>
    match biz_arg (rc_arg c) e with
    | None => Some TXRollBack
    | Some g => match says (rc_id c) g, rc_tx c with
                | Some x, TxStatus => Some x
                | _, _ => None
                end
    end
  end.

(** A history of registrations (a panicking one leaves the maps unchanged: the checks precede the writes). *)
Inductive regop := RegHandler (t : string) (id : nat) (s : hshape) | RegChecker (t : string) (id : nat) (s : cshape).
(** event.go 95-118 (RegisterEventHandler), 129-157 (RegisterEventTXChecker) *)
Definition reg_step (o : regop) (r : router) : option router :=
  match o with RegHandler t id s => register_handler t id s r | RegChecker t id s => register_checker t id s r end.
(** a history of registrations *)
Fixpoint reg_all (os : list regop) (r : router) : router :=
  match os with [] => r | o :: t => reg_all t (match reg_step o r with Some r' => r' | None => r end) end.

(** The shipped program started on an empty database: example/main.go 38-70.  Which tables it creates, which tables a request
    uses, and what a missing table does to the request.  The requests themselves are HttpModel's. *)
From Coq Require Import List Bool String.
From Verif Require Import SaleModel HttpModel.
Import ListNotations.
Local Open Scope list_scope.

(** eventbus/mysql/po.go 71, 95, 131, 176; lock/db/po.go 34; example/biz/sale/infrastructure/po *)
Inductive table := TEvent | TTransaction | TService | TServiceEvent | TLock | TOrder | TItem | TCoupon.
(** equality of tables *)
Definition table_eqb (a b : table) : bool :=
  match a, b with
  | TEvent, TEvent | TTransaction, TTransaction | TService, TService | TServiceEvent, TServiceEvent
  | TLock, TLock | TOrder, TOrder | TItem, TItem | TCoupon, TCoupon => true
  | _, _ => false
  end.
(** main.go 38-47 (initPO).  NewDBLock (lock/db/sql.go 53-66) and NewEventBus (eventbus.go 168-214) create no tables. *)
Definition migrated : list table := [TEvent; TTransaction; TService; TOrder; TCoupon; TItem].

(** The statements of a request, by what their failure does: taking the lock, the first SELECT, or a statement of the save (the
    event rows included: engine.go 1194-1201 dispatches inside the run).
    Simplification: statements on the same table are listed once; a list that would be empty for a request without items or
    coupons is listed all the same ([TItem], [TCoupon] always exist in the shipped program). *)
Inductive phase := PLock | PRead | PWrite.
(** eventbus.go 256-299: the event rows, the list of services, one record per service; the program registered its own service at
    start (eventbus.go 212, 361-364), so there is at least one *)
Definition dispatch_stmts : list (phase * table) := [(PWrite, TEvent); (PWrite, TService); (PWrite, TServiceEvent)].
(** command/*.go: Init of UpdateOrder, AddSaleItem and AddCoupon gives the order id as lock key, CreateOrder and DeleteOrder have
    no Init; events: domain/order.go 80-88, sale_item.go 37-40, coupon.go 35-38; query/order.go 39-68 *)
Definition stmts (a : action) : list (phase * table) :=
  match a with
  | ACreateOrder => [(PWrite, TOrder); (PWrite, TItem); (PWrite, TCoupon)] ++ dispatch_stmts
  | AUpdateOrder => [(PLock, TLock); (PRead, TOrder); (PWrite, TOrder)]
  | ADeleteOrder => (PWrite, TOrder) :: dispatch_stmts
  | AGetOrder => [(PRead, TOrder); (PRead, TItem); (PRead, TCoupon)]
  | AGetOrderList => [(PRead, TOrder)]
  | AAddSaleItem => [(PLock, TLock); (PRead, TOrder); (PWrite, TItem); (PWrite, TOrder)] ++ dispatch_stmts
  | AAddCoupon => [(PLock, TLock); (PRead, TOrder); (PWrite, TCoupon); (PWrite, TOrder)] ++ dispatch_stmts
  end.
(** a table main.go did not create (example/main.go 38-70) *)
Definition missing (have : list table) (t : table) : bool := negb (existsb (table_eqb t) have).
(** the first statement of a request that meets a missing table *)
Definition first_missing (have : list table) (a : action) : option phase :=
  match find (fun s => missing have (snd s)) (stmts a) with Some s => Some (fst s) | None => None end.
(** whether the first statement of a request is a SELECT (example/biz/sale/command, query) *)
Definition starts_with_read (a : action) : bool := match a with ACreateOrder | ADeleteOrder => false | _ => true end.
(** [w]: what else the surroundings do; the earlier failure counts *)
Definition weather_on (have : list table) (a : action) (w : weather) : weather :=
  match first_missing have a with
  | None => w
  | Some PLock => WDown
  | Some PRead => match w with WDown => WDown | _ => WReadFails end
  | Some PWrite => match w with WDown => WDown | WReadFails => if starts_with_read a then WReadFails else WWriteFails | _ => WWriteFails end
  end.
(** a request to the shipped program: what fails because of missing tables is part of its surroundings *)
Definition request_on (have : list table) (q : http_request) : http_request :=
  match method_by_name (h_action q) with
  | None => q
  | Some a => mkHttp (h_action q) (h_body q) (h_order_id q) (h_item_id q) (h_coupon_id q) (weather_on have a (h_weather q))
  end.
(** main.go 49-70: the program serving requests with these tables *)
Definition serve_on (have : list table) valid decode scan (s : store) (l : list http_request) : store * list HttpModel.answer :=
  serve_all valid decode scan s (map (request_on have) l).

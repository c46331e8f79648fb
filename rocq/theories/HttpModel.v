(** The HTTP front of the example: example/handler/util/http.go, example/handler/order.go, example/handler/request.go and
    example/main.go 66-69, on top of the commands and queries of SaleModel. *)
From Coq Require Import List Bool Arith ZArith String Lia.
From Verif Require Import SaleModel.
Import ListNotations.
Local Open Scope string_scope.
Local Open Scope list_scope.
Local Open Scope nat_scope.

(** handler/order.go 38-119: the exported methods of SaleServiceImpl, which is what MethodByName (http.go 33-38) can find *)
Inductive action := ACreateOrder | AUpdateOrder | ADeleteOrder | AGetOrder | AGetOrderList | AAddSaleItem | AAddCoupon.
(** example/handler/util/http.go 33-38: MethodByName on the service *)
Definition method_by_name (n : string) : option action :=
  if String.eqb n "CreateOrder" then Some ACreateOrder
  else if String.eqb n "UpdateOrder" then Some AUpdateOrder
  else if String.eqb n "DeleteOrder" then Some ADeleteOrder
  else if String.eqb n "GetOrder" then Some AGetOrder
  else if String.eqb n "GetOrderList" then Some AGetOrderList
  else if String.eqb n "AddSaleItem" then Some AAddSaleItem
  else if String.eqb n "AddCoupon" then Some AAddCoupon
  else None.

(** handler/request.go: what a body decodes to.  One record for all request types; a type uses the fields it has.  Elements of a
    list of pointers and pointers themselves can be null.  The page is given as offset and limit together (negative or lone values
    are not modelled). *)
Record payload := mkPayload {
  p_User : string; p_Items : list (option item_view); p_Coupons : list (option coupon_view);      (* CreateOrderRequest *)
  p_ID : string; p_Remark : option string;                                                        (* Update, Delete, GetOrderRequest *)
  p_OrderID : string; p_Item : option item_view; p_Coupon : option coupon_view;                   (* AddSaleItem, AddCouponRequest *)
  p_UserID : option string; p_Begin : option Z; p_End : option Z; p_page : option (nat * nat) }.  (* GetOrderListRequest *)

(** What the surroundings do during the request: nothing special; no connection or no lock (engine.go 1219-1236, 1245-1248); the
    first SELECT fails; a statement of the save fails, or COMMIT fails and nothing is stored; COMMIT is carried out but its
    answer is lost (engine.go 1272-1274) *)
Inductive weather := WFine | WDown | WReadFails | WWriteFails | WCommitLost.

(** One HTTP request: the Action parameter, the body (None: reading it fails), the ids the engine's generator will hand out
    (engine.go 935-945), and the surroundings *)
Record http_request := mkHttp { h_action : string; h_body : option string;
  h_order_id : string; h_item_id : nat -> string; h_coupon_id : nat -> string; h_weather : weather }.

(** The answer: status 404, 400, 500, 200 with a document, or none (the handler panicked, net/http closes the connection) *)
Inductive document := DCreated (oid : string) | DEmpty | DOrder (v : order_view) | DList (l : list simple_view).
(** example/handler/util/http.go 28-64: what is written to the ResponseWriter *)
Inductive answer := A404 | A400 | A500 | A200 (d : document) | ANone.

(** domain/order.go 62-76: the loops of NewOrder take every pointer of the lists *)
Fixpoint non_null {A} (l : list (option A)) : option (list A) :=
  match l with [] => Some [] | None :: _ => None | Some x :: t => match non_null t with Some r => Some (x :: r) | None => None end end.
(** domain/order.go 62-76: the elements before the nil pointer at which the loop panics *)
Fixpoint before_null {A} (l : list (option A)) : list A := match l with Some x :: t => x :: before_null t | _ => [] end.
(** domain/order.go 133-144, 155-170 with the id it will get *)
Definition item_of (id : string) (v : item_view) : item := mkItem id (iv_code v) (iv_name v) (iv_price v) (iv_count v).
(** domain/order.go 133-144: the coupon of a request *)
Definition coupon_of (id : string) (v : coupon_view) : coupon := mkCoupon id (cv_id v) (cv_rule v) (cv_discount v).
(** engine.go 907-923: the ids of new entities in order *)
Fixpoint numbered {A B} (mk : string -> A -> B) (ids : nat -> string) (n : nat) (l : list A) : list B :=
  match l with [] => [] | x :: t => mk (ids n) x :: numbered mk ids (S n) t end.

Section Http.
  Variable valid : order -> string -> bool.
  (** json.Unmarshal into the request type of the method (http.go 39-53): any function *)
  Variable decode : action -> string -> option payload.
  (** order of an unordered SELECT *)
  Variable scan : list order_row -> list order_row.

  (** one engine run of a command that does not panic; [reads]: its Main starts with repo.Get *)
  Definition run_command (w : weather) (reads : bool) (s : store) (q : request) (d : document) : store * answer :=
    match w with
    | WDown => (s, A500)
    | WReadFails => if reads then (s, A500) else match handle valid s q with (s1, true) => (s1, A200 d) | (_, false) => (s, A500) end
    | WWriteFails => (s, A500)
    | WCommitLost => match handle valid s q with (s1, true) => (s1, A500) | (_, false) => (s, A500) end
    | WFine => match handle valid s q with (s1, true) => (s1, A200 d) | (_, false) => (s, A500) end
    end.
  (** a Main that loads the order and then dereferences a null pointer (add_saleitem.go 39-45, add_coupon.go 42-47): the engine
      rolls back, gives back the lock and panics on (engine.go 1249-1256) *)
  Definition run_null (w : weather) (s : store) (oid : string) : store * answer :=
    match w with
    | WDown | WReadFails => (s, A500)
    | _ => if String.eqb oid "" then (s, A500) else match find_order s oid with None => (s, A500) | Some _ => (s, ANone) end
    end.
  (** handler/order.go 70-100: a query request: 500 on error, else the document *)
  Definition run_query {A} (w : weather) (s : store) (r : option A) (d : A -> document) : store * answer :=
    match w with
    | WDown | WReadFails => (s, A500)
    | _ => match r with Some v => (s, A200 (d v)) | None => (s, A500) end
    end.

  (** the method called (handler/order.go 38-119) *)
  Definition call (s : store) (q : http_request) (a : action) (p : payload) : store * answer :=
    let w := h_weather q in
    match a with
    | ACreateOrder =>
        match non_null (p_Items p), non_null (p_Coupons p) with
        | Some is, Some cs =>
            run_command w false s (RCreate (h_order_id q) (p_User p) (numbered item_of (h_item_id q) 0 is) (numbered coupon_of (h_coupon_id q) 0 cs))
                        (DCreated (h_order_id q))
        | Some is, None =>
            match w with
            | WDown => (s, A500)
            | _ => match newOrder valid (p_User p) (numbered item_of (h_item_id q) 0 is) (numbered coupon_of (h_coupon_id q) 0 (before_null (p_Coupons p))) with
                   | None => (s, A500)                                 (* a coupon before the null one is refused *)
                   | Some _ => (s, ANone)
                   end
            end
        | None, _ => match w with WDown => (s, A500) | _ => (s, ANone) end
        end
    | AUpdateOrder => run_command w true s (RUpdate (p_ID p) (p_Remark p)) DEmpty
    | ADeleteOrder => run_command w false s (RDelete (p_ID p)) DEmpty
    | AGetOrder => run_query w s (getOrder s (p_ID p)) DOrder
    | AGetOrderList => run_query w s (getOrderList scan s (mkSearch (p_UserID p) (p_Begin p) (p_End p) (p_page p))) DList
    | AAddSaleItem => match p_Item p with
                      | Some i => run_command w true s (RAddItem (p_OrderID p) (item_of (h_item_id q 0) i)) DEmpty
                      | None => run_null w s (p_OrderID p)
                      end
    | AAddCoupon => match p_Coupon p with
                    | Some c => run_command w true s (RAddCoupon (p_OrderID p) (coupon_of (h_coupon_id q 0) c)) DEmpty
                    | None => run_null w s (p_OrderID p)
                    end
    end.

  (** http.go 29-64 *)
  Definition serve (s : store) (q : http_request) : store * answer :=
    match method_by_name (h_action q) with
    | None => (s, A404)
    | Some a => match h_body q with
                | None => (s, A400)
                | Some b => match decode a b with
                            | None => (s, A400)
                            | Some p => call s q a p
                            end
                end
    end.
  (** one request after the other *)
  Fixpoint serve_all (s : store) (l : list http_request) : store * list answer :=
    match l with
    | [] => (s, [])
    | q :: t => let (s1, r) := serve s q in let (s2, rs) := serve_all s1 t in (s2, r :: rs)
    end.
End Http.

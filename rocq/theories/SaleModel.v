(** Model of the example application (example/biz/sale): the order aggregate, its commands, its queries, its events.
    The commands are stated over the three tables; SaleEngine.v and SaleCreate.v derive that from
    the engine model. *)
From Verif Require Export GoBase.

(** int64 arithmetic wraps around *)
Definition wrap64 (z : Z) : Z := ((z + 2 ^ 63) mod 2 ^ 64 - 2 ^ 63)%Z.

(** example/biz/sale/domain/sale_item.go 24-34, coupon.go 24-32, order.go 45-54.  The back pointer [order] of items and coupons is
    only used by AfterCreate (see [created_events]). *)
Record item := mkItem { i_id : string; i_code : string; i_name : string; i_price : Z; i_count : Z }.
(** example/biz/sale/domain/coupon.go 22-33 *)
Record coupon := mkCoupon { k_id : string; k_coupon : string; k_rule : string; k_discount : Z }.
(** example/biz/sale/domain/order.go 42-54 *)
Record order := mkOrder { o_id : string; o_user : string; o_total : Z; o_remark : string; o_items : list item; o_coupons : list coupon; o_dirty : bool }.
(** assignment to Items *)
Definition with_items (o : order) (l : list item) : order := mkOrder (o_id o) (o_user o) (o_total o) (o_remark o) l (o_coupons o) (o_dirty o).
(** assignment to Coupons *)
Definition with_coupons (o : order) (l : list coupon) : order := mkOrder (o_id o) (o_user o) (o_total o) (o_remark o) (o_items o) l (o_dirty o).
(** assignment to TotalAmount with Dirty() (order.go 121-124) *)
Definition with_total (o : order) (z : Z) : order := mkOrder (o_id o) (o_user o) z (o_remark o) (o_items o) (o_coupons o) true.
(** assignment to Remark with Dirty() (order.go 90-97) *)
Definition with_remark (o : order) (r : string) : order := mkOrder (o_id o) (o_user o) (o_total o) r (o_items o) (o_coupons o) true.

Section Domain.
  (** order.go 27-39: the rule engine; the one in the source accepts everything ([accept_all]) *)
  Variable valid : order -> string -> bool.

  (** order.go 99-110: splits the coupons; the rules are checked on the order as it was *)
  Definition fixCoupons (o : order) : list coupon * order :=
    (filter (fun c => negb (valid o (k_rule c))) (o_coupons o), with_coupons o (filter (fun c => valid o (k_rule c)) (o_coupons o))).
  (** order.go 113-126 *)
  Definition sum_items (l : list item) (z : Z) : Z := fold_left (fun z i => wrap64 (z + wrap64 (i_price i * i_count i))) l z.
  (** domain/order.go 118-120: the loop over the coupons *)
  Definition sum_coupons (l : list coupon) (z : Z) : Z := fold_left (fun z c => wrap64 (z - k_discount c)) l z.
  (** domain/order.go 113-126 (calPrice) *)
  Definition calPrice (o : order) : order :=
    let total := sum_coupons (o_coupons o) (sum_items (o_items o) 0%Z) in
    if (o_total o =? total)%Z then o else with_total o total.
  (** order.go 128-138 *)
  Definition addSaleItem (o : order) (i : item) : order := calPrice (snd (fixCoupons (with_items o (o_items o ++ [i])))).
  (** order.go 140-151 *)
  Definition deleteSaleItem (o : order) (id : string) : order :=
    calPrice (snd (fixCoupons (with_items o (filter (fun i => negb (String.eqb (i_id i) id)) (o_items o))))).
  (** order.go 153-166, 168-182: true: no error *)
  Definition checked (o : order) : order * bool :=
    match fixCoupons o with
    | ([], o1) => (calPrice o1, true)
    | (_ :: _, o1) => (o1, false)
    end.
  (** domain/order.go 153-166 (AddCoupon) *)
  Definition addCoupon (o : order) (c : coupon) : order * bool := checked (with_coupons o (o_coupons o ++ [c])).
  (** domain/order.go 168-182 (DeleteCoupon) *)
  Definition deleteCoupon (o : order) (id : string) : order * bool :=
    checked (with_coupons o (filter (fun c => negb (String.eqb (k_id c) id)) (o_coupons o))).
  (** order.go 90-96 *)
  Definition updateOrder (o : order) (remark : option string) : order :=
    with_remark o (match remark with Some r => r | None => o_remark o end).
  (** order.go 56-70; None: an error *)
  Fixpoint add_items (o : order) (l : list item) : order := match l with [] => o | i :: t => add_items (addSaleItem o i) t end.
  (** domain/order.go 63-67: the loop of NewOrder *)
  Fixpoint add_coupons (o : order) (l : list coupon) : option order :=
    match l with
    | [] => Some o
    | c :: t => match addCoupon o c with (o1, true) => add_coupons o1 t | (_, false) => None end
    end.
  (** domain/order.go 56-70 (NewOrder) *)
  Definition newOrder (user : string) (items : list item) (coupons : list coupon) : option order :=
    add_coupons (add_items (mkOrder "" user 0 "" [] [] false) items) coupons.

  (** The operations of the aggregate. *)
  Inductive order_op := OAddItem (i : item) | ODeleteItem (id : string) | OAddCoupon (c : coupon) | ODeleteCoupon (id : string) | OUpdate (r : option string).
  (** one call of an operation of the aggregate *)
  Definition do_op (o : order) (x : order_op) : order * bool :=
    match x with
    | OAddItem i => (addSaleItem o i, true)
    | ODeleteItem id => (deleteSaleItem o id, true)
    | OAddCoupon c => addCoupon o c
    | ODeleteCoupon id => deleteCoupon o id
    | OUpdate r => (updateOrder o r, true)
    end.
End Domain.
(** order.go 36-39 *)
Definition accept_all : order -> string -> bool := fun _ _ => true.

(** The tables: infrastructure/po/order.go 23-31, saleitem.go 21-31, coupon.go 21-30.  The time columns are left out: no conversion
    reads or sets them.  DeletedAt is a plain *time.Time, so deletion is a DELETE. *)
Record order_row := mkORow { or_id : string; or_user : string; or_total : Z; or_remark : string }.
(** infrastructure/po/saleitem.go *)
Record item_row := mkIRow { ir_id : string; ir_order : string; ir_code : string; ir_name : string; ir_price : Z; ir_count : Z }.
(** infrastructure/po/coupon.go *)
Record coupon_row := mkCRow { cr_id : string; cr_order : string; cr_coupon : string; cr_rule : string; cr_discount : Z }.
(** the three tables *)
Record store := mkStore { t_orders : list order_row; t_items : list item_row; t_coupons : list coupon_row }.

(** infrastructure/init.go 27-42 (insert), 50-65, 74-87 *)
Definition order_insert_row (o : order) : order_row :=
  mkORow (o_id o) (o_user o) (o_total o) (if String.eqb (o_remark o) "" then "-"%string else o_remark o).
(** infrastructure/init.go 27-42: order to row *)
Definition order_row_of (o : order) : order_row := mkORow (o_id o) (o_user o) (o_total o) (o_remark o).
(** infrastructure/init.go 50-65: item to row *)
Definition item_row_of (oid : string) (i : item) : item_row := mkIRow (i_id i) oid (i_code i) (i_name i) (i_price i) (i_count i).
(** infrastructure/init.go 74-87: coupon to row *)
Definition coupon_row_of (oid : string) (c : coupon) : coupon_row := mkCRow (k_id c) oid (k_coupon c) (k_rule c) (k_discount c).
(** infrastructure/init.go 43-49 after repo.Get(ctx, &Order{ID: id}), which is given no children: items and coupons stay empty *)
Definition load_root (r : order_row) : order := mkOrder (or_id r) (or_user r) (or_total r) (or_remark r) [] [] false.

(** Requests with the ids the engine will give to the new entities (engine.go 935-945, one new xid each; items and coupons of
    the request carry none). *)
Inductive request :=
| RCreate (oid user : string) (items : list item) (coupons : list coupon)
| RAddItem (oid : string) (i : item)
| RAddCoupon (oid : string) (c : coupon)
| RUpdate (oid : string) (r : option string)
| RDelete (oid : string).

(** primary keys: an INSERT of a present or repeated key fails and the run with it *)
Fixpoint keys_ok (old new : list string) : bool :=
  match new with [] => true | x :: t => negb (existsb (String.eqb x) old) && keys_ok (x :: old) t end.
(** UPDATE of the changed columns of the row (executor/mysql/executor.go 89-96, diff.go) *)
Definition write_changed (r1 r0 r : order_row) : order_row :=
  mkORow (or_id r)
         (if String.eqb (or_user r1) (or_user r0) then or_user r else or_user r1)
         (if (or_total r1 =? or_total r0)%Z then or_total r else or_total r1)
         (if String.eqb (or_remark r1) (or_remark r0) then or_remark r else or_remark r1).
(** executor/mysql/executor.go 87-104: UPDATE of an order row, if the order is dirty *)
Definition update_order_rows (o o0 : order) (l : list order_row) : list order_row :=
  if o_dirty o then map (fun r => if String.eqb (or_id r) (o_id o) then write_changed (order_row_of o) (order_row_of o0) r else r) l else l.
(** dal/order.go 35-41; engine.go 686-708: SELECT by key *)
Definition find_order (s : store) (id : string) : option order_row := find (fun r => String.eqb (or_id r) id) (t_orders s).

(** What saving an order loaded as [o0] and now [o] does: new items and coupons are inserted, the root is updated if it is dirty. *)
Definition save_loaded (s : store) (o0 o : order) : store * bool :=
  if keys_ok (map ir_id (t_items s)) (map i_id (o_items o)) && keys_ok (map cr_id (t_coupons s)) (map k_id (o_coupons o))
  then (mkStore (update_order_rows o o0 (t_orders s))
                (t_items s ++ map (item_row_of (o_id o)) (o_items o))
                (t_coupons s ++ map (coupon_row_of (o_id o)) (o_coupons o)), true)
  else (s, false).

Section Commands.
  Variable valid : order -> string -> bool.
  Definition with_loaded (s : store) (oid : string) (f : order -> order * bool) : store * bool :=
    if String.eqb oid "" then (s, false)                              (* engine.go 201-214, 642-644 *)
    else match find_order s oid with
         | None => (s, false)                                         (* ErrEntityNotFound *)
         | Some r => match f (load_root r) with
                     | (o, true) => save_loaded s (load_root r) o
                     | (_, false) => (s, false)
                     end
         end.
  (** command/create_order.go 46-60, add_saleitem.go 39-46, add_coupon.go 42-51, update_order.go 45-52, remove_order.go 35-38.
      Each runs in one transaction: nothing is stored when it fails. *)
  Definition handle (s : store) (q : request) : store * bool :=
    match q with
    | RCreate oid user items coupons =>
        match newOrder valid user items coupons with
        | None => (s, false)
        | Some o =>
            let o := mkOrder oid (o_user o) (o_total o) (o_remark o) (o_items o) (o_coupons o) (o_dirty o) in
            if keys_ok (map or_id (t_orders s)) [oid]
               && keys_ok (map ir_id (t_items s)) (map i_id (o_items o))
               && keys_ok (map cr_id (t_coupons s)) (map k_id (o_coupons o))
            then (mkStore (t_orders s ++ [order_insert_row o])
                          (t_items s ++ map (item_row_of oid) (o_items o))
                          (t_coupons s ++ map (coupon_row_of oid) (o_coupons o)), true)
            else (s, false)
        end
    | RAddItem oid i => with_loaded s oid (fun o => (addSaleItem valid o i, true))
    | RAddCoupon oid c => with_loaded s oid (fun o => addCoupon valid o c)
    | RUpdate oid r => with_loaded s oid (fun o => (updateOrder o r, true))
    | RDelete oid =>
        (* repo.Remove of an order that was not loaded: one DELETE by key, nothing is looked up *)
        (mkStore (filter (fun r => negb (String.eqb (or_id r) oid)) (t_orders s)) (t_items s) (t_coupons s), true)
    end.
  (** a history: the store, and which requests succeeded *)
  Fixpoint history (s : store) (l : list request) : store * list (request * bool) :=
    match l with
    | [] => (s, [])
    | q :: t => let (s1, b) := handle s q in let (s2, h) := history s1 t in (s2, (q, b) :: h)
    end.
End Commands.
(** the beginning: empty tables *)
Definition empty_store : store := mkStore [] [] [].

(** The read side: common/dto/sale *)
Record item_view := mkIView { iv_code : string; iv_name : string; iv_price : Z; iv_count : Z }.
(** common/dto/sale/coupon.go *)
Record coupon_view := mkCView { cv_id : string; cv_rule : string; cv_discount : Z }.
(** common/dto/sale/order.go *)
Record order_view := mkOView { ov_id : string; ov_user : string; ov_total : Z; ov_items : list item_view; ov_coupons : list coupon_view }.
(** query/pack/saleitem.go 23-54 *)
Definition view_item (r : item_row) : item_view := mkIView (ir_code r) (ir_name r) (ir_price r) (ir_count r).
(** query/pack/saleitem.go 40-54: coupon row to DTO *)
Definition view_coupon (r : coupon_row) : coupon_view := mkCView (cr_id r) (cr_rule r) (cr_discount r).
(** dal/order.go 43-49: "id = ?"; 51-57 *)
Definition getOrderSaleItems (s : store) (oid : string) : list item_row := filter (fun r => String.eqb (ir_id r) oid) (t_items s).
(** dal/order.go 51-57 (GetOrderCoupons) *)
Definition getOrderCoupons (s : store) (oid : string) : list coupon_row := filter (fun r => String.eqb (cr_order r) oid) (t_coupons s).
(** query/order.go 39-60, dal/order.go 35-41; None: an error *)
Definition getOrder (s : store) (oid : string) : option order_view :=
  match find_order s oid with
  | None => None
  | Some r => Some (mkOView (or_id r) (or_user r) (or_total r) (map view_item (getOrderSaleItems s oid)) (map view_coupon (getOrderCoupons s oid)))
  end.
(** dal/order.go 59-89, query/order.go 62-68, pack/order.go 23-37: the listing.  A time bound makes MySQL refuse the statement (there is no
    column create_time).  No ORDER BY: [scan] is the order in which the server happens to return the rows.  Offset only together
    with Limit. *)
Record simple_view := mkSView { sv_id : string; sv_user : string; sv_total : Z }.
(** query/pack/order.go 23-29 (MakeSimpleOrder) *)
Definition view_simple (r : order_row) : simple_view := mkSView (or_id r) (or_user r) (or_total r).
(** dal/order.go 59-65 (SearchOrderOpt) *)
Record search := mkSearch { q_user : option string; q_after : option Z; q_before : option Z; q_page : option (nat * nat) }.
(** dal/order.go 67-89 (GetOrderList) *)
Definition getOrderList (scan : list order_row -> list order_row) (s : store) (q : search) : option (list simple_view) :=
  match q_after q, q_before q with
  | None, None =>
      let rows := scan (filter (fun r => match q_user q with Some u => String.eqb (or_user r) u | None => true end) (t_orders s)) in
      Some (map view_simple (match q_page q with Some (off, lim) => firstn lim (skipn off rows) | None => rows end))
  | _, _ => None
  end.

(** common/domain_event/sale/order.go: events, their types and senders *)
Inductive sale_event :=
| OrderCreated (oid : string)
| OrderDeleted (oid : string)
| SaleItemAdded (oid iid : string)
| CouponAdded (oid cid : string).
Definition sale_type (e : sale_event) : string :=
  match e with
  | OrderCreated _ => "order_created"
  | OrderDeleted _ => "order_deleted"
  | SaleItemAdded _ _ => "order_sale_item_added"
  | CouponAdded _ _ => "order_sale_item_added"            (* 91-93 *)
  end%string.
(** common/domain_event/sale/order.go 39, 55, 75, 95 (GetSender) *)
Definition sale_sender (e : sale_event) : string :=
  match e with OrderCreated o | OrderDeleted o | SaleItemAdded o _ | CouponAdded o _ => o end.
(** domain/order.go 80-88, sale_item.go 36-40, coupon.go 34-38: events raised by the hooks of the run, by request *)
Definition raised (q : request) : list sale_event :=
  match q with
  | RCreate oid _ items coupons =>
      OrderCreated oid :: map (fun i => SaleItemAdded oid (i_id i)) items ++ map (fun c => CouponAdded oid (k_coupon c)) coupons
  | RAddItem oid i => [SaleItemAdded oid (i_id i)]
  | RAddCoupon oid c => [CouponAdded oid (k_coupon c)]
  | RUpdate _ _ => []
  | RDelete oid => [OrderDeleted oid]
  end.
(** event_handler/init.go 24-27: the handlers, by event type; the event is decoded into the handler's own struct (fields it lacks
    stay empty) *)
Inductive handled := HOrderCreated (oid : string) | HSaleItemAdded (oid iid : string).
(** example/event_handler/init.go 20-27: which handler gets an event *)
Definition on_event (e : sale_event) : list handled :=
  if String.eqb (sale_type e) "order_created"
  then [HOrderCreated (match e with OrderCreated o | OrderDeleted o | SaleItemAdded o _ | CouponAdded o _ => o end)]
  else if String.eqb (sale_type e) "order_sale_item_added"
  then [HSaleItemAdded (match e with OrderCreated o | OrderDeleted o | SaleItemAdded o _ | CouponAdded o _ => o end)
                       (match e with SaleItemAdded _ i => i | _ => "" end%string)]
  else [].

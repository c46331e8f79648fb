(** What a client of the HTTP front can expect, stated over the requests it sends and the rows in the three tables. *)
From Coq Require Import List Bool Arith ZArith String Lia.
From Verif Require Import SaleModel HttpModel SaleSpec SaleProps SaleCmdProps.
Import ListNotations.
Local Open Scope string_scope.
Local Open Scope list_scope.
Local Open Scope nat_scope.

(** the new item (coupon) carries what the client wrote *)
Definition same_item (v : option item_view) (i : item) : Prop := v = Some (mkIView (i_code i) (i_name i) (i_price i) (i_count i)).
Definition same_coupon (v : option coupon_view) (c : coupon) : Prop := v = Some (mkCView (k_coupon c) (k_rule c) (k_discount c)).

(** What a request that writes asks for, and the document it is to be answered with *)
Inductive asks (n : string) (p : payload) : request -> document -> Prop :=
| ask_create oid items coupons : n = "CreateOrder" -> Forall2 same_item (p_Items p) items -> Forall2 same_coupon (p_Coupons p) coupons ->
    asks n p (RCreate oid (p_User p) items coupons) (DCreated oid)
| ask_update : n = "UpdateOrder" -> asks n p (RUpdate (p_ID p) (p_Remark p)) DEmpty
| ask_delete : n = "DeleteOrder" -> asks n p (RDelete (p_ID p)) DEmpty
| ask_item i : n = "AddSaleItem" -> same_item (p_Item p) i -> asks n p (RAddItem (p_OrderID p) i) DEmpty
| ask_coupon c : n = "AddCoupon" -> same_coupon (p_Coupon p) c -> asks n p (RAddCoupon (p_OrderID p) c) DEmpty.

Definition known (n : string) : Prop :=
  In n ["CreateOrder"; "UpdateOrder"; "DeleteOrder"; "GetOrder"; "GetOrderList"; "AddSaleItem"; "AddCoupon"].
Definition reads (n : string) : Prop := n = "GetOrder" \/ n = "GetOrderList".
(** [body_is dec q p]: the body of the request is read and decodes to [p] *)
Definition body_is (decode : action -> string -> option payload) (q : http_request) (p : payload) : Prop :=
  exists a b, method_by_name (h_action q) = Some a /\ h_body q = Some b /\ decode a b = Some p.
(** no null where an item or a coupon is expected *)
Definition no_nulls (n : string) (p : payload) : Prop :=
  (n = "CreateOrder" -> ~ In None (p_Items p) /\ ~ In None (p_Coupons p)) /\
  (n = "AddSaleItem" -> p_Item p <> None) /\ (n = "AddCoupon" -> p_Coupon p <> None).

(** the request deletes order [oid] *)
Definition deletes decode (q : http_request) (oid : string) : Prop := h_action q = "DeleteOrder" /\ exists p, body_is decode q p /\ p_ID p = oid.
(** the request names order [oid], or is about to create it *)
Definition names decode (q : http_request) (oid : string) : Prop :=
  exists p, body_is decode q p /\
    ((h_action q = "CreateOrder" /\ h_order_id q = oid) \/
     ((h_action q = "UpdateOrder" \/ h_action q = "DeleteOrder") /\ p_ID p = oid) \/
     ((h_action q = "AddSaleItem" \/ h_action q = "AddCoupon") /\ p_OrderID p = oid)).
(** the rows of order [oid] in the three tables *)
Definition rows_of (s : store) (oid : string) : list order_row * list item_row * list coupon_row :=
  (filter (fun r => String.eqb (or_id r) oid) (t_orders s),
   filter (fun r => String.eqb (ir_order r) oid) (t_items s),
   filter (fun r => String.eqb (cr_order r) oid) (t_coupons s)).

(** What the example application promises, stated on items, coupons, rows and requests only. *)
From Verif Require Export SaleModel.
Open Scope Z_scope.

(** The amount of an order: prices times counts, less the discounts (unbounded integers). *)
Definition amount (items : list item) (coupons : list coupon) : Z :=
  fold_right (fun i z => i_price i * i_count i + z) 0 items - fold_right (fun c z => k_discount c + z) 0 coupons.
(** what an int64 can hold *)
Definition fits (z : Z) : Prop := - 2 ^ 63 <= z < 2 ^ 63.

(** The order after a list of operations, all of which reported success. *)
Inductive all_succeed (valid : order -> string -> bool) : order -> list order_op -> order -> Prop :=
| as_nil o : all_succeed valid o [] o
| as_cons o x o1 l o2 : do_op valid o x = (o1, true) -> all_succeed valid o1 l o2 -> all_succeed valid o (x :: l) o2.

(** What is in the order, said without the code: added things at the end, removed ones gone. *)
Definition items_after (l : list item) (x : order_op) : list item :=
  match x with OAddItem i => l ++ [i] | ODeleteItem id => filter (fun i => negb (String.eqb (i_id i) id)) l | _ => l end.
Definition coupons_after (l : list coupon) (x : order_op) : list coupon :=
  match x with OAddCoupon c => l ++ [c] | ODeleteCoupon id => filter (fun c => negb (String.eqb (k_id c) id)) l | _ => l end.

(** The amount of the rows of an order in the tables. *)
Definition item_of_row (r : item_row) : item := mkItem (ir_id r) (ir_code r) (ir_name r) (ir_price r) (ir_count r).
Definition coupon_of_row (r : coupon_row) : coupon := mkCoupon (cr_id r) (cr_coupon r) (cr_rule r) (cr_discount r).
Definition items_of (s : store) (oid : string) : list item := map item_of_row (filter (fun r => String.eqb (ir_order r) oid) (t_items s)).
Definition coupons_of (s : store) (oid : string) : list coupon := map coupon_of_row (filter (fun r => String.eqb (cr_order r) oid) (t_coupons s)).
Definition stored_amount (s : store) (oid : string) : Z := amount (items_of s oid) (coupons_of s oid).

(** What the latest successful creation or addition for the order brought. *)
Definition brought (oid : string) (q : request) : option Z :=
  match q with
  | RCreate o _ items coupons => if String.eqb o oid then Some (amount items coupons) else None
  | RAddItem o i => if String.eqb o oid then Some (amount [i] []) else None
  | RAddCoupon o c => if String.eqb o oid then Some (amount [] [c]) else None
  | _ => None
  end.
Fixpoint latest {A} (f : request -> option A) (h : list (request * bool)) : option A :=
  match h with
  | [] => None
  | (q, b) :: t => match latest f t with Some z => Some z | None => if b then f q else None end
  end.
(** what the order's remark was last set to; creation sets "-" *)
Definition remark_set (oid : string) (q : request) : option string :=
  match q with
  | RCreate o _ _ _ => if String.eqb o oid then Some "-"%string else None
  | RUpdate o (Some r) => if String.eqb o oid then Some r else None
  | _ => None
  end.
(** every generated id differs from every other *)
Definition new_ids (q : request) : list string :=
  match q with
  | RCreate oid _ items coupons => oid :: map i_id items ++ map k_id coupons
  | RAddItem _ i => [i_id i]
  | RAddCoupon _ c => [k_id c]
  | _ => []
  end.
Definition ids_distinct (l : list request) : Prop := NoDup (flat_map new_ids l).
(** the things requested for an order, by successful requests, in order *)
Definition requested_items (oid : string) (h : list (request * bool)) : list item :=
  flat_map (fun x => match x with
                     | (RCreate o _ items _, true) => if String.eqb o oid then items else []
                     | (RAddItem o i, true) => if String.eqb o oid then [i] else []
                     | _ => [] end) h.
Definition requested_coupons (oid : string) (h : list (request * bool)) : list coupon :=
  flat_map (fun x => match x with
                     | (RCreate o _ _ coupons, true) => if String.eqb o oid then coupons else []
                     | (RAddCoupon o c, true) => if String.eqb o oid then [c] else []
                     | _ => [] end) h.

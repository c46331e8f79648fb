(** The commands of the example application on the engine model and the MySQL executor: the table operations of SaleModel.v are what
    the engine does for them.  Simplifications: database, lock and event bus answer every call (failures are C01-C09); the iteration
    order of the map of child fields is fixed (at most one of them holds something new here). *)
From Verif Require Import GraphProof5 EngineProof1 ExecSpec ExecProps BuildModel SaleSpec SaleProps SaleCmdProps.
From Verif Require Import EngineProps EngineModel.
Local Open Scope string_scope. Local Open Scope list_scope. Local Open Scope nat_scope.

(** Numbers as column values; zero is the zero value gorm leaves out of conditions. *)
Fixpoint ps (p : positive) : string := match p with xH => "1" | xO q => String "0" (ps q) | xI q => String "1" (ps q) end.
(** a number as column value *)
Definition zs (z : Z) : string := match z with Z0 => "" | Zpos p => String "+" (ps p) | Zneg p => String "-" (ps p) end.
(** reading back a positive number *)
Fixpoint sp (s : string) : positive :=
  match s with
  | String c t => match t with EmptyString => xH | _ => if Ascii.eqb c "0" then xO (sp t) else xI (sp t) end
  | EmptyString => xH
  end.
(** reading back a number *)
Definition sz (s : string) : Z :=
  match s with EmptyString => 0%Z | String c t => if Ascii.eqb c "+" then Zpos (sp t) else Zneg (sp t) end.
Lemma sp_ps p : sp (ps p) = p.
Proof.
  induction p as [q IH|q IH|]; cbn [ps sp]; [| |reflexivity].
  - assert (N : ps q <> "") by (destruct q; discriminate). destruct (ps q) eqn:E; [contradiction|]. cbn [Ascii.eqb]. rewrite <- E in *. cbn. now rewrite IH.
  - assert (N : ps q <> "") by (destruct q; discriminate). destruct (ps q) eqn:E; [contradiction|]. rewrite <- E in *. cbn. now rewrite IH.
Qed.
Lemma sz_zs z : sz (zs z) = z.
Proof. destruct z; cbn; rewrite ?sp_ps; reflexivity. Qed.
Lemma zs_inj a b : zs a = zs b -> a = b.
Proof. intros H. rewrite <- (sz_zs a), H. apply sz_zs. Qed.

(* ------------------------------------------------------------ entities, converters, tables *)
(** domain/order.go 45-54, sale_item.go 24-34, coupon.go 24-32 as entities: types 1, 2, 3 *)
Definition order_ent (oid : string) (dirty : bool) (u t r : string) (its cs : list ptr) : ent :=
  mkEnt oid dirty 1 None [mkField "BaseEntity" true false FOther; mkField "ID" true false FOther; mkField "Items" true false (FSlice its); mkField "Coupons" true false (FSlice cs)] [] [u; t; r].
(** domain/sale_item.go 24-34 as an entity *)
Definition item_ent (i : item) : ent := mkEnt "" false 2 None [mkField "order" false false FOther] [] [i_code i; i_name i; zs (i_price i); zs (i_count i)].
(** domain/coupon.go 24-32 as an entity *)
Definition coupon_ent (c : coupon) : ent := mkEnt "" false 3 None [mkField "order" false false FOther] [] [k_coupon c; k_rule c; zs (k_discount c)].
(** infrastructure/init.go 26-42, 50-65, 74-87; the stage's container is not registered *)
Definition sale_conv (h : heap) (p : ptr) (par : option ptr) (o : op) : conv :=
  let parent := match par with Some q => if e_type (h q) =? 1 then e_id (h q) else "" | None => "" end in
  match e_type (h p) with
  | 1 => CModel (mkModel 1 (e_id (h p)) (match e_data (h p) with
                   | [u; t; r] => [u; t; match o with OpInsert => if String.eqb r "" then "-" else r | _ => r end]
                   | l => l end))
  | 2 | 3 => CModel (mkModel (e_type (h p)) (e_id (h p)) (parent :: e_data (h p)))
  | _ => NotReg false
  end.
(** The same for loading, and 43-49 *)
Definition sale_e2m (v : bval) (par : option bval) : err + model :=
  match b_type v with
  | 1 => inr (mkModel 1 (b_id v) (b_data v))
  | ty => inr (mkModel ty (b_id v) (match par with Some q => b_id q | None => "" end :: b_data v))
  end.
(** infrastructure/init.go 43-49, 66-73, 88-95: row to entity *)
Definition sale_m2e (m : model) (v : bval) : bval * option err :=
  match b_type v with 1 => (mkB 1 (b_id v) (m_cols m), None) | ty => (mkB ty (m_id m) (tl (m_cols m)), None) end.
(** reflect.New of the entity type (engine.go 722, 743) *)
Definition sale_zero (ty : nat) : bval := mkB ty "" [].

(** the columns of an order row (infrastructure/po/order.go) *)
Definition order_cols (r : order_row) : xrow := (or_id r, [or_user r; zs (or_total r); or_remark r]).
(** the columns of an item row (infrastructure/po/saleitem.go) *)
Definition item_cols (r : item_row) : xrow := (ir_id r, [ir_order r; ir_code r; ir_name r; zs (ir_price r); zs (ir_count r)]).
(** the columns of a coupon row (infrastructure/po/coupon.go) *)
Definition coupon_cols (r : coupon_row) : xrow := (cr_id r, [cr_order r; cr_coupon r; cr_rule r; zs (cr_discount r)]).
(** the tables of SaleModel as tables of ExecModel *)
Definition enc_store (s : store) : tables := fun k =>
  match k with 1 => map order_cols (t_orders s) | 2 => map item_cols (t_items s) | 3 => map coupon_cols (t_coupons s) | _ => [] end.

(** repo.Get(ctx, &Order{ID: oid}) on these tables: the answer of the queries *)
Definition get_bst (oid : string) : bst := mkBst (fun _ => mkB 1 oid [""; ""; ""]) (fun _ => []) (fun _ => None) 5.
(** engine.go 641-708 on these tables: what repo.Get answers and does to the order object *)
Definition build_resp (t : tables) (oid : string) : resp :=
  let x := build sale_zero sale_e2m (fun q => inr (x_query q t)) sale_m2e 1 [] (get_bst oid) in
  mkResp (match fst x with None => AOk | Some e => AErr e end)
         (fun h => hset h 1 (mkEnt (e_id (h 1)) (e_dirty (h 1)) (e_type (h 1)) (e_custom (h 1)) (e_fields (h 1)) (e_events (h 1)) (b_data (b_heap (snd x) 1)))) "" true.
Lemma get_row s oid : oid <> "" ->
  build sale_zero sale_e2m (fun q => inr (x_query q (enc_store s))) sale_m2e 1 [] (get_bst oid) =
  match find_order s oid with
  | Some r => (None, set_heap (get_bst oid) 1 (mkB 1 oid [or_user r; zs (or_total r); or_remark r]))
  | None => (Some ENotFound, get_bst oid)
  end.
Proof.
  intros N. unfold build. cbn [b_id b_heap get_bst]. destruct (String.eqb_spec oid ""); [contradiction|].
  unfold build_entity. cbn [sale_e2m b_heap get_bst b_type b_id b_data].
  assert (Q : x_query (mkModel 1 oid [""; ""; ""]) (enc_store s) =
    map (fun r => mkModel 1 (or_id r) [or_user r; zs (or_total r); or_remark r]) (filter (fun r => String.eqb (or_id r) oid) (t_orders s))).
  { unfold x_query. cbn [m_type enc_store]. induction (t_orders s) as [|r t IH]; cbn [map filter]; auto.
    assert (X : x_match (mkModel 1 oid [""; ""; ""]) (order_cols r) = String.eqb (or_id r) oid).
    { unfold x_match. cbn. destruct (String.eqb_spec oid ""); [contradiction|]. cbn. rewrite andb_true_r. apply String.eqb_sym. }
    rewrite X. destruct (String.eqb (or_id r) oid); cbn [map]; rewrite IH; reflexivity. }
  rewrite Q. clear Q. unfold find_order. induction (t_orders s) as [|r t IH]; cbn [filter map find]; auto.
  destruct (String.eqb (or_id r) oid); cbn [map]; [reflexivity|]. apply IH.
Qed.

(* ------------------------------------------------------------ the commands *)
Definition order_of_ent (e : ent) : order :=
  match e_data e with [u; t; r] => mkOrder (e_id e) u (sz t) r [] [] (e_dirty e) | _ => mkOrder (e_id e) "" 0 "" [] [] (e_dirty e) end.
(** the root entity after an operation of the aggregate; [its], [cs]: its new children *)
Definition put_order (h : heap) (o : order) (its cs : list ptr) : heap :=
  hset h 1 (order_ent (o_id o) (o_dirty o) (o_user o) (zs (o_total o)) (o_remark o) its cs).
(** command/add_saleitem.go 39-46; pointer 1: the order, 2: the new item *)
Definition add_item_body (valid : order -> string -> bool) (i : item) : body (option err) :=
  BGet 1 (fun e => match e with
    | Some x => BRet (Some x)
    | None => BLook (fun h => BMut (fun h' => put_order (hset h' 2 (item_ent i)) (addSaleItem valid (order_of_ent (h 1)) i) [2] []) (BRet None))
    end).
(** command/add_coupon.go 42-51 *)
Definition add_coupon_body (valid : order -> string -> bool) (c : coupon) : body (option err) :=
  BGet 1 (fun e => match e with
    | Some x => BRet (Some x)
    | None => BLook (fun h => match addCoupon valid (order_of_ent (h 1)) c with
        | (o, true) => BMut (fun h' => put_order (hset h' 2 (coupon_ent c)) o [] [2]) (BRet None)
        | (_, false) => BRet (Some (EUser 1))
        end)
    end).
(** command/update_order.go 45-52 *)
Definition update_body (m : option string) : body (option err) :=
  BGet 1 (fun e => match e with
    | Some x => BRet (Some x)
    | None => BLook (fun h => BMut (fun h' => put_order h' (updateOrder (order_of_ent (h 1)) m) [] []) (BRet None))
    end).
(** command/remove_order.go 35-38 *)
Definition delete_body : body (option err) := BRemove [1] (BRet None).

(** the objects of a command before it runs: command/add_saleitem.go 36, add_coupon.go 39, update_order.go 41, remove_order.go 35 *)
Definition start (oid : string) : heap := fun p => match p with 1 => order_ent oid false "" "" "" [] [] | _ => mkEnt "" false 0 None [] [] [] end.
(** the AfterCreate / AfterDelete hooks (domain/order.go 80-88, sale_item.go 36-40, coupon.go 34-38): types 1: order, 2: item, 3: coupon *)
Definition raise (p : ptr) (e : event) (h : heap) : heap :=
  hset h p (mkEnt (e_id (h p)) (e_dirty (h p)) (e_type (h p)) (e_custom (h p)) (e_fields (h p)) (e_events (h p) ++ [e]) (e_data (h p))).
(** domain/sale_item.go 36-40, coupon.go 34-38, order.go 85-88: what the hooks add *)
Definition hook_fx (evid : string) (now : Z) (h : heap) : heap :=
  match e_type (h 2) with
  | 2 => raise 2 (mkEvent evid (sale_type (SaleItemAdded "" "")) SendNormal (e_id (h 1)) (e_id (h 2)) now) h
  | 3 => raise 2 (mkEvent evid (sale_type (CouponAdded "" "")) SendNormal (e_id (h 1)) (hd "" (e_data (h 2))) now) h
  | _ => raise 1 (mkEvent evid (sale_type (OrderDeleted "")) SendNormal (e_id (h 1)) (e_id (h 1)) now) h
  end.
(** domain/order.go 80-88, sale_item.go 36-40, coupon.go 34-38: which types have which hooks *)
Definition has_hook (ty : nat) (t : change_type) (before : bool) : bool :=
  negb before && match ty, t with 1, (CNew | CDelete) | 2, CNew | 3, CNew => true | _, _ => false end.
(** main.go 53-66: transactions, the database event bus, no post-save hooks; the third call of a run that loads is the query *)
Definition sale_cfg (build : option resp) (newid evid : string) (now : Z) : config :=
  mkConfig true false false BusTx None 0 sale_conv has_hook (fun _ => ord_id) (fun _ l => l) 20
    (fun n => match build with
              | Some b => if n =? 2 then b else mkResp AOk (hook_fx evid now) newid true
              | None => mkResp AOk (hook_fx evid now) newid true end).

(* ------------------------------------------------------------ from the command's code to constants *)
Definition const_body (mut : heap -> heap) : body (option err) :=
  BGet 1 (fun e => match e with Some x => BRet (Some x) | None => BMut mut (BRet None) end).
(** the answer of repo.Get as constants (proof vocabulary) *)
Definition loaded (a : ascii) (w u t r : string) : resp :=
  mkResp AOk (fun h => hset h 1 (mkEnt (e_id (h 1)) (e_dirty (h 1)) (e_type (h 1)) (e_custom (h 1)) (e_fields (h 1)) (e_events (h 1)) [u; t; r])) "" true.

(** what is observed of a run: result, statements, dispatched events *)
Definition obs (x : out result * st) : option (option err * list action * list (list event)) :=
  match fst x with
  | Done r => Some (res_err r, execs (s_trace (snd x)), flat_map (fun c => match fst c with KDispatch l => [l] | _ => [] end) (s_trace (snd x)))
  | _ => None
  end.
Lemma obs_item a w u t r u' t' r' i newid evid now d :
  obs (save (sale_cfg (Some (loaded a w u t r)) newid evid now) [String a w]
        (const_body (fun h => hset (hset h 2 (item_ent i)) 1 (order_ent (String a w) d u' t' r' [2] []))) (new_stage (start (String a w))))
  = Some (None, mkAction OpInsert [mkModel 2 newid [String a w; i_code i; i_name i; zs (i_price i); zs (i_count i)]] []
           :: (if d then [mkAction OpUpdate [mkModel 1 (String a w) [u'; t'; r']] [Some (mkModel 1 (String a w) [u; t; r])]] else []),
          [[mkEvent evid "order_sale_item_added" SendNormal (String a w) newid now]]).
Proof. destruct d; vm_compute; reflexivity. Qed.
Lemma obs_coupon a w u t r u' t' r' c newid evid now d :
  obs (save (sale_cfg (Some (loaded a w u t r)) newid evid now) [String a w]
        (const_body (fun h => hset (hset h 2 (coupon_ent c)) 1 (order_ent (String a w) d u' t' r' [] [2]))) (new_stage (start (String a w))))
  = Some (None, mkAction OpInsert [mkModel 3 newid [String a w; k_coupon c; k_rule c; zs (k_discount c)]] []
           :: (if d then [mkAction OpUpdate [mkModel 1 (String a w) [u'; t'; r']] [Some (mkModel 1 (String a w) [u; t; r])]] else []),
          [[mkEvent evid "order_sale_item_added" SendNormal (String a w) (k_coupon c) now]]).
Proof. destruct d; vm_compute; reflexivity. Qed.
Lemma obs_update a w u t r u' t' r' newid evid now d :
  obs (save (sale_cfg (Some (loaded a w u t r)) newid evid now) [String a w]
        (const_body (fun h => hset h 1 (order_ent (String a w) d u' t' r' [] []))) (new_stage (start (String a w))))
  = Some (None, if d then [mkAction OpUpdate [mkModel 1 (String a w) [u'; t'; r']] [Some (mkModel 1 (String a w) [u; t; r])]] else [], []).
Proof. destruct d; vm_compute; reflexivity. Qed.
Lemma obs_delete oid newid now :
  obs (save (sale_cfg None newid "ev" now) [] delete_body (new_stage (start oid)))
  = Some (None, [mkAction OpDelete [mkModel 1 oid [""; ""; ""]] []], [[mkEvent "ev" "order_deleted" SendNormal oid oid now]]).
Proof. vm_compute. reflexivity. Qed.
Lemma obs_missing a w k fx newid evid now :
  obs (save (sale_cfg (Some (mkResp (AErr ENotFound) fx "" true)) newid evid now) [String a w]
        (BGet 1 (fun e => match e with Some x => BRet (Some x) | None => k end)) (new_stage (start (String a w)))) = Some (Some ENotFound, [], []).
Proof. vm_compute. reflexivity. Qed.
Lemma obs_no_id k newid evid now :
  obs (save (sale_cfg None newid evid now) [""]
        (BGet 1 (fun e => match e with Some x => BRet (Some x) | None => k end)) (new_stage (start ""))) = Some (Some EMustHaveID, [], []).
Proof. vm_compute. reflexivity. Qed.

(** the body is entered with the lock held and the transaction open *)
Lemma save_ext cfg k b1 b2 s : c_tx cfg = true ->
  (let s1 := with_trace s (s_trace s ++ [(KLock (lock_name k), c_oracle cfg (length (s_trace s)))]) in
   let s2 := with_trace s1 (s_trace s1 ++ [(KBegin, c_oracle cfg (length (s_trace s1)))]) in run_body cfg b1 s2 = run_body cfg b2 s2) ->
  save cfg [k] b1 s = save cfg [k] b2 s.
Proof.
  cbv zeta. intros Htx H. unfold save. rewrite Htx.
  assert (K : on_lock cfg (in_tx cfg (do_ cfg b1)) [k] s = on_lock cfg (in_tx cfg (do_ cfg b2)) [k] s).
  { unfold on_lock. cbn [isort insert_by adj_repeat acquire].
    unfold bind, ecall_err, ecall, ret, bind. cbn [mutates].
    set (s1 := with_trace s (s_trace s ++ [(KLock (lock_name k), c_oracle cfg (length (s_trace s)))])) in *.
    unfold bind, ret. destruct (r_ans (c_oracle cfg (length (s_trace s)))) eqn:E0; unfold err_of; rewrite ?E0; cbn [fst snd]; try reflexivity.
    unfold finally. assert (J : in_tx cfg (do_ cfg b1) s1 = in_tx cfg (do_ cfg b2) s1); [|now rewrite J].
    unfold in_tx, ecall_err, ecall, bind, ret. cbn [mutates].
    set (s2 := with_trace s1 (s_trace s1 ++ [(KBegin, c_oracle cfg (length (s_trace s1)))])) in *.
    destruct (r_ans (c_oracle cfg (length (s_trace s1)))) eqn:E1; unfold err_of; rewrite ?E1; try reflexivity.
    unfold on_panic. assert (D : do_ cfg b1 s2 = do_ cfg b2 s2); [|now rewrite D].
    unfold do_, bind. rewrite H. reflexivity. }
  unfold bind. rewrite K. reflexivity.
Qed.

Lemma look_const a w u t r newid evid now k mut :
  (forall h, h 1 = order_ent (String a w) false u t r [] [] -> k h = BMut mut (BRet None)) ->
  save (sale_cfg (Some (loaded a w u t r)) newid evid now) [String a w]
    (BGet 1 (fun e => match e with Some x => BRet (Some x) | None => BLook k end)) (new_stage (start (String a w))) =
  save (sale_cfg (Some (loaded a w u t r)) newid evid now) [String a w] (const_body mut) (new_stage (start (String a w))).
Proof.
  intros H. apply save_ext; [reflexivity|]. cbv zeta. set (cfg := sale_cfg _ _ _ _). set (s2 := with_trace _ _).
  assert (F : fst (repo_get cfg 1 s2) = Done None) by (vm_compute; reflexivity).
  assert (G : s_heap (snd (repo_get cfg 1 s2)) 1 = order_ent (String a w) false u t r [] []) by (vm_compute; reflexivity).
  clearbody s2. clearbody cfg. unfold const_body. cbn [run_body]. unfold bind.
  destruct (repo_get cfg 1 s2) as [o s3]. cbn in F, G. subst o. cbn [run_body]. unfold bind, get. rewrite (H (s_heap s3) G). reflexivity.
Qed.
Lemma look_const_err a w u t r newid evid now k e :
  (forall h, h 1 = order_ent (String a w) false u t r [] [] -> k h = BRet (Some e)) ->
  save (sale_cfg (Some (loaded a w u t r)) newid evid now) [String a w]
    (BGet 1 (fun e => match e with Some x => BRet (Some x) | None => BLook k end)) (new_stage (start (String a w))) =
  save (sale_cfg (Some (loaded a w u t r)) newid evid now) [String a w] (BGet 1 (fun _ => BRet (Some e))) (new_stage (start (String a w))).
Proof.
  intros H. apply save_ext; [reflexivity|]. cbv zeta. set (cfg := sale_cfg _ _ _ _). set (s2 := with_trace _ _).
  assert (F : fst (repo_get cfg 1 s2) = Done None) by (vm_compute; reflexivity).
  assert (G : s_heap (snd (repo_get cfg 1 s2)) 1 = order_ent (String a w) false u t r [] []) by (vm_compute; reflexivity).
  clearbody s2. clearbody cfg. cbn [run_body]. unfold bind.
  destruct (repo_get cfg 1 s2) as [o s3]. cbn in F, G. subst o. cbn [run_body]. unfold bind, get. rewrite (H (s_heap s3) G). reflexivity.
Qed.
Lemma obs_user_err a w u t r newid evid now :
  obs (save (sale_cfg (Some (loaded a w u t r)) newid evid now) [String a w] (BGet 1 (fun _ => BRet (Some (EUser 1)))) (new_stage (start (String a w))))
  = Some (Some (EUser 1), [], []).
Proof. vm_compute. reflexivity. Qed.

Lemma load_found s a w r : find_order s (String a w) = Some r -> build_resp (enc_store s) (String a w) = loaded a w (or_user r) (zs (or_total r)) (or_remark r).
Proof. intros F. unfold build_resp. cbv zeta. rewrite (get_row s (String a w)) by discriminate. rewrite F. reflexivity. Qed.
Lemma load_missing s a w : find_order s (String a w) = None -> exists fx, build_resp (enc_store s) (String a w) = mkResp (AErr ENotFound) fx "" true.
Proof. intros F. unfold build_resp. cbv zeta. rewrite (get_row s (String a w)) by discriminate. rewrite F. eexists. reflexivity. Qed.
Lemma loaded_order a w r : or_id r = String a w ->
  order_of_ent (order_ent (String a w) false (or_user r) (zs (or_total r)) (or_remark r) [] []) = load_root r.
Proof. intros E. unfold order_of_ent, load_root. cbn [order_ent e_data e_id e_dirty]. rewrite sz_zs, E. reflexivity. Qed.

(* ------------------------------------------------------------ MySQL's side *)
Definition same_tables (x : option tables) (t : tables) : Prop := exists t1, x = Some t1 /\ forall k, t1 k = t k.
Lemma zs_eqb a b : String.eqb (zs a) (zs b) = (a =? b)%Z.
Proof. destruct (String.eqb_spec (zs a) (zs b)) as [E|E], (Z.eqb_spec a b) as [F|F]; auto; [apply zs_inj in E; contradiction|subst; contradiction]. Qed.
Lemma overlay_row u1 t1 m1 u0 t0 m0 r : or_id r <> "" ->
  x_overlay [u1; zs t1; m1] [u0; zs t0; m0] (snd (order_cols r)) = snd (order_cols (write_changed (mkORow (or_id r) u1 t1 m1) (mkORow (or_id r) u0 t0 m0) r)).
Proof.
  intros _. cbn. rewrite zs_eqb. destruct (String.eqb u1 u0), (t1 =? t0)%Z, (String.eqb m1 m0); reflexivity.
Qed.
(** the UPDATE of the row of a loaded order *)
Lemma update_rows s o r : o_id o = or_id r -> or_id r <> "" -> forall t, (forall k, t k = enc_store s k) ->
  exists t1, x_exec (fun _ => true) (mkAction OpUpdate [mkModel 1 (or_id r) [o_user o; zs (o_total o); o_remark o]] [Some (mkModel 1 (or_id r) [or_user r; zs (or_total r); or_remark r])]) t = XOk t1 /\
    forall k, t1 k = enc_store (mkStore (map (fun x => if String.eqb (or_id x) (or_id r) then write_changed (order_row_of o) (order_row_of (load_root r)) x else x) (t_orders s)) (t_items s) (t_coupons s)) k.
Proof.
  intros E N t Ht. cbn [x_exec a_op a_models a_prev x_update m_id m_type m_cols].
  destruct (String.eqb_spec (or_id r) "") as [C|_]; [contradiction|].
  destruct (x_diff _ _) eqn:D.
  - eexists. split; [reflexivity|]. intros k. unfold tset. destruct (k =? 1) eqn:K.
    + apply Nat.eqb_eq in K. subst k. rewrite Ht. cbn [enc_store t_orders]. rewrite !map_map. apply map_ext. intros x. cbn [fst order_cols].
      destruct (String.eqb_spec (or_id x) (or_id r)) as [X|X]; [|reflexivity].
      unfold order_row_of, load_root. cbn [o_id o_user o_total o_remark]. rewrite E. cbn. rewrite zs_eqb. unfold order_cols, write_changed. cbn.
      destruct (String.eqb (o_user o) (or_user r)), (o_total o =? or_total r)%Z, (String.eqb (o_remark o) (or_remark r)); reflexivity.
    + rewrite Ht. apply Nat.eqb_neq in K. destruct k as [|[|k]]; [reflexivity|contradiction|reflexivity].
  - exists t. split; [reflexivity|]. intros k. rewrite Ht. unfold x_diff in D. cbn in D. rewrite String.eqb_refl, zs_eqb in D. cbn in D.
    destruct k as [|[|k]]; [reflexivity| |reflexivity]. cbn [enc_store t_orders]. rewrite map_map. apply map_ext. intros x.
    destruct (String.eqb (or_id x) (or_id r)); [|reflexivity]. unfold write_changed, order_row_of, load_root. cbn.
    destruct (String.eqb (o_user o) (or_user r)); [|discriminate]. destruct (o_total o =? or_total r)%Z; [|discriminate]. destruct (String.eqb (o_remark o) (or_remark r)); [|discriminate].
    now destruct x.
Qed.
Lemma insert_one t ty m : m_type m = ty -> x_exec (fun _ => true) (mkAction OpInsert [m] []) t =
  if negb (str_in (m_id m) (map fst (t ty))) then XOk (tset t ty (t ty ++ [to_row m])) else XErr t.
Proof.
  intros <-. cbn [x_exec a_op a_models x_insert forallb]. rewrite Nat.eqb_refl. cbn [negb andb map str_nodup str_in existsb forallb].
  destruct (str_in _ _); reflexivity.
Qed.
Lemma keys_one l x : keys_ok l [x] = negb (str_in x l).
Proof. cbn. rewrite andb_true_r. reflexivity. Qed.

(* ------------------------------------------------------------ the requests on the engine *)
(** engine.go 466-471 with the converter (43-49): without an id nothing is asked of the database *)
Definition answer (s : store) (oid : string) : option resp := if String.eqb oid "" then None else Some (build_resp (enc_store s) oid).
(** One request on the engine, all calls answered, on tables [enc_store s]; Init (add_saleitem.go 35-37, add_coupon.go 38-40,
    update_order.go 41-43) names the order's lock, remove_order.go has none.  RCreate: SaleCreate.v. *)
Definition run_request (valid : order -> string -> bool) (s : store) (now : Z) (q : request) : option (out result * st) :=
  match q with
  | RCreate _ _ _ _ => None
  | RAddItem oid i => Some (save (sale_cfg (answer s oid) (i_id i) "ev" now) [oid] (add_item_body valid i) (new_stage (start oid)))
  | RAddCoupon oid c => Some (save (sale_cfg (answer s oid) (k_id c) "ev" now) [oid] (add_coupon_body valid c) (new_stage (start oid)))
  | RUpdate oid m => Some (save (sale_cfg (answer s oid) "" "ev" now) [oid] (update_body m) (new_stage (start oid)))
  | RDelete oid => Some (save (sale_cfg None "" "ev" now) [] delete_body (new_stage (start oid)))
  end.
(** common/domain_event/sale/order.go: the id an event carries *)
Definition payload (e : sale_event) : string := match e with OrderCreated o | OrderDeleted o => o | SaleItemAdded _ i => i | CouponAdded _ c => c end.
(** event.go 239-270 (NewDomainEvent) for an event of the sale domain *)
Definition enc_event (now : Z) (e : sale_event) : event := mkEvent "ev" (sale_type e) SendNormal (sale_sender e) (payload e) now.

Lemma answer_cons s a w : answer s (String a w) = Some (build_resp (enc_store s) (String a w)).
Proof. reflexivity. Qed.

Lemma enc_ids s : map fst (enc_store s 2) = map ir_id (t_items s) /\ map fst (enc_store s 3) = map cr_id (t_coupons s).
Proof. cbn. rewrite !map_map. auto. Qed.
Lemma execs_one_insert s m ty l : m_type m = ty ->
  x_execs (fun _ => true) (mkAction OpInsert [m] [] :: l) (enc_store s) =
  if str_in (m_id m) (map fst (enc_store s ty)) then None else x_execs (fun _ => true) l (tset (enc_store s) ty (enc_store s ty ++ [to_row m])).
Proof. intros E. cbn [x_execs]. rewrite (insert_one _ ty) by assumption. destruct (str_in _ _); reflexivity. Qed.
Lemma find_id s oid r : find_order s oid = Some r -> or_id r = oid.
Proof. intros F. apply find_some in F. destruct F as [_ F]. now apply String.eqb_eq in F. Qed.

(** update after insert *)
Lemma update_part s its cs o r d : o_id o = or_id r -> or_id r <> "" -> o_dirty o = d ->
  forall t, (forall k, t k = enc_store (mkStore (t_orders s) its cs) k) ->
  same_tables (x_execs (fun _ => true) (if d then [mkAction OpUpdate [mkModel 1 (or_id r) [o_user o; zs (o_total o); o_remark o]] [Some (mkModel 1 (or_id r) [or_user r; zs (or_total r); or_remark r])]] else []) t)
    (enc_store (mkStore (update_order_rows o (load_root r) (t_orders s)) its cs)).
Proof.
  intros E N Hd t Ht. unfold update_order_rows. rewrite Hd. destruct d.
  - destruct (update_rows (mkStore (t_orders s) its cs) o r E N t Ht) as (t1 & X & Y). exists t1. split; [cbn [x_execs]; rewrite X; reflexivity|].
    intros k. rewrite Y. cbn [t_orders t_items t_coupons]. rewrite E. reflexivity.
  - exists t. split; [reflexivity|exact Ht].
Qed.

Lemma add_item_shape valid r i : let o := addSaleItem valid (load_root r) i in o_id o = or_id r /\ o_items o = [i] /\ o_coupons o = [].
Proof. unfold addSaleItem, calPrice. cbn. destruct (or_total r =? _)%Z; cbn; auto. Qed.
Lemma add_coupon_shape valid r c o : addCoupon valid (load_root r) c = (o, true) -> o_id o = or_id r /\ o_items o = [] /\ o_coupons o = [c].
Proof.
  unfold addCoupon, checked, fixCoupons. cbn. destruct (valid _ (k_rule c)); cbn; intros H; inversion H; subst.
  unfold calPrice. cbn. destruct (or_total r =? _)%Z; cbn; auto.
Qed.
Lemma put_order_ent h o its cs : put_order h o its cs = hset h 1 (order_ent (o_id o) (o_dirty o) (o_user o) (zs (o_total o)) (o_remark o) its cs).
Proof. reflexivity. Qed.

Lemma some_inj {A} (a b : A) : Some a = Some b -> b = a.
Proof. intros H. now injection H as ->. Qed.
(** What happens on the engine is what [handle] says: the same tables, the same events, success and failure. *)
Theorem C74_engine_does_this : forall valid s now q s' b x, handle valid s q = (s', b) -> run_request valid s now q = Some x ->
  exists e acts evs, obs x = Some (e, acts, evs) /\
  if b then e = None /\ same_tables (x_execs (fun _ => true) acts (enc_store s)) (enc_store s') /\ concat evs = map (enc_event now) (raised q)
  else s' = s /\ ((e <> None /\ acts = [] /\ evs = []) \/ x_execs (fun _ => true) acts (enc_store s) = None).
Proof.
  intros valid s now q s' b x H R. destruct q as [oid u its cs|oid i|oid c|oid m|oid]; [discriminate R| | | |]; apply some_inj in R; subst x.
  - destruct oid as [|a w].
    { cbn in H. inversion H; subst. do 3 eexists. split; [apply obs_no_id|]. split; auto. left. repeat split; auto. discriminate. }
    rewrite answer_cons. cbn [handle] in H. unfold with_loaded in H. cbn [String.eqb] in H.
    destruct (find_order s (String a w)) as [r|] eqn:F.
    + rewrite (load_found s a w r F). pose proof (find_id _ _ _ F) as Er. unfold add_item_body.
      set (o := addSaleItem valid (load_root r) i) in *. destruct (add_item_shape valid r i) as (S1 & S2 & S3). fold o in S1, S2, S3.
      rewrite (look_const a w _ _ _ _ _ _ _ (fun h => hset (hset h 2 (item_ent i)) 1 (order_ent (String a w) (o_dirty o) (o_user o) (zs (o_total o)) (o_remark o) [2] []))).
      2:{ intros h Hh. rewrite Hh, loaded_order by assumption. unfold put_order. fold o. rewrite S1, Er. reflexivity. }
      do 3 eexists. split; [apply obs_item|].
      unfold save_loaded in H. rewrite S2, S3 in H. cbn [map] in H. rewrite keys_one in H. cbn [keys_ok] in H. rewrite andb_true_r in H.
      rewrite (execs_one_insert s _ 2) by reflexivity. cbn [m_id]. rewrite (proj1 (enc_ids s)). change (existsb (String.eqb ?a) ?l) with (str_in a l) in H.
      destruct (str_in (i_id i) (map ir_id (t_items s))); cbn [negb] in H; inversion H; subst s' b; clear H.
      * split; auto.
      * split; auto. split; [|reflexivity]. rewrite <- Er. rewrite app_nil_r.
        apply (update_part s _ _ o r (o_dirty o)); [assumption|rewrite Er; discriminate|reflexivity|].
        intros k. unfold tset. destruct k as [|[|[|k]]]; try reflexivity. cbn [Nat.eqb enc_store t_items]. rewrite map_app. cbn [map]. unfold to_row, item_cols, item_row_of. cbn. rewrite S1. reflexivity.
    + destruct (load_missing s a w F) as (fx & ->). inversion H; subst. do 3 eexists. split; [apply obs_missing|]. split; auto. left. repeat split; auto. discriminate.
  - destruct oid as [|a w].
    { cbn in H. inversion H; subst. do 3 eexists. split; [apply obs_no_id|]. split; auto. left. repeat split; auto. discriminate. }
    rewrite answer_cons. cbn [handle] in H. unfold with_loaded in H. cbn [String.eqb] in H.
    destruct (find_order s (String a w)) as [r|] eqn:F.
    + rewrite (load_found s a w r F). pose proof (find_id _ _ _ F) as Er. unfold add_coupon_body.
      destruct (addCoupon valid (load_root r) c) as [o [|]] eqn:A.
      * destruct (add_coupon_shape valid r c o A) as (S1 & S2 & S3).
        rewrite (look_const a w _ _ _ _ _ _ _ (fun h => hset (hset h 2 (coupon_ent c)) 1 (order_ent (String a w) (o_dirty o) (o_user o) (zs (o_total o)) (o_remark o) [] [2]))).
        2:{ intros h Hh. rewrite Hh, loaded_order by assumption. rewrite A. unfold put_order. rewrite S1, Er. reflexivity. }
        do 3 eexists. split; [apply obs_coupon|].
        unfold save_loaded in H. rewrite S2, S3 in H. cbn [map] in H. rewrite keys_one in H. cbn [keys_ok andb] in H.
        rewrite (execs_one_insert s _ 3) by reflexivity. cbn [m_id]. rewrite (proj2 (enc_ids s)). change (existsb (String.eqb ?a) ?l) with (str_in a l) in H.
        destruct (str_in (k_id c) (map cr_id (t_coupons s))); cbn [negb] in H; inversion H; subst s' b; clear H.
        -- split; auto.
        -- split; auto. split; [|reflexivity]. rewrite <- Er. rewrite app_nil_r.
           apply (update_part s _ _ o r (o_dirty o)); [assumption|rewrite Er; discriminate|reflexivity|].
           intros k. unfold tset. destruct k as [|[|[|[|k]]]]; try reflexivity. cbn [Nat.eqb enc_store t_coupons]. rewrite map_app. cbn [map]. unfold to_row, coupon_cols, coupon_row_of. cbn. rewrite S1. reflexivity.
      * rewrite (look_const_err a w _ _ _ _ _ _ _ (EUser 1)).
        2:{ intros h Hh. rewrite Hh, loaded_order by assumption. rewrite A. reflexivity. }
        inversion H; subst. do 3 eexists. split; [apply obs_user_err|]. split; auto. left. repeat split; auto. discriminate.
    + destruct (load_missing s a w F) as (fx & ->). inversion H; subst. do 3 eexists. split; [apply obs_missing|]. split; auto. left. repeat split; auto. discriminate.
  - destruct oid as [|a w].
    { cbn in H. inversion H; subst. do 3 eexists. split; [apply obs_no_id|]. split; auto. left. repeat split; auto. discriminate. }
    rewrite answer_cons. cbn [handle] in H. unfold with_loaded in H. cbn [String.eqb] in H.
    destruct (find_order s (String a w)) as [r|] eqn:F.
    + rewrite (load_found s a w r F). pose proof (find_id _ _ _ F) as Er. unfold update_body.
      set (o := updateOrder (load_root r) m) in *.
      rewrite (look_const a w _ _ _ _ _ _ _ (fun h => hset h 1 (order_ent (String a w) (o_dirty o) (o_user o) (zs (o_total o)) (o_remark o) [] []))).
      2:{ intros h Hh. rewrite Hh, loaded_order by assumption. unfold put_order. fold o. unfold o at 1. cbn [updateOrder with_remark o_id load_root]. rewrite Er. reflexivity. }
      do 3 eexists. split; [apply obs_update|].
      cbn in H. inversion H; subst s' b; clear H. split; auto. split; [|reflexivity]. rewrite <- Er. rewrite !app_nil_r.
      change (mkStore (map _ (t_orders s)) (t_items s) (t_coupons s)) with (mkStore (update_order_rows o (load_root r) (t_orders s)) (t_items s) (t_coupons s)).
      apply (update_part s _ _ o r (o_dirty o)); [reflexivity|rewrite Er; discriminate|reflexivity|]. intros k. now destruct s.
    + destruct (load_missing s a w F) as (fx & ->). inversion H; subst. do 3 eexists. split; [apply obs_missing|]. split; auto. left. repeat split; auto. discriminate.
  - cbn in H. inversion H; subst; clear H. do 3 eexists. split; [apply obs_delete|]. split; auto. split; [|reflexivity].
    cbn [x_execs x_exec a_op a_models]. unfold x_delete. cbn [m_type map m_id]. eexists. split; [reflexivity|].
    intros k. unfold x_remove, tset. destruct k as [|[|k]]; try reflexivity. cbn [Nat.eqb enc_store t_orders].
    induction (t_orders s) as [|r t IH]; cbn [map filter]; auto. cbn [fst order_cols]. cbn [str_in existsb]. rewrite orb_false_r.
    destruct (String.eqb (or_id r) oid); cbn [negb map]; [exact IH|f_equal; exact IH].
Qed.
Print Assumptions C74_engine_does_this.

(** C93: the shipped example on an empty database. *)
From Coq Require Import List Bool String ZArith.
From Verif Require Import SaleModel SaleSpec HttpModel HttpSpec HttpProps DeployModel.
Import ListNotations.
Local Open Scope string_scope. Local Open Scope list_scope.

Lemma table_eqb_eq a b : table_eqb a b = true <-> a = b.
Proof. destruct a, b; split; intros H; try reflexivity; discriminate H. Qed.
Lemma missing_iff have t : missing have t = true <-> ~ In t have.
Proof.
  unfold missing. rewrite negb_true_iff. split.
  - intros H I. assert (X : existsb (table_eqb t) have = true) by (apply existsb_exists; exists t; split; auto; now apply table_eqb_eq). congruence.
  - intros H. destruct (existsb (table_eqb t) have) eqn:E; auto. apply existsb_exists in E. destruct E as (x & I & X). apply table_eqb_eq in X. subst x. contradiction.
Qed.
Lemma no_delivery_table have a : ~ In TServiceEvent have -> a = ACreateOrder -> first_missing have a = Some PWrite.
Proof.
  intros N ->. apply missing_iff in N. unfold first_missing. cbn [stmts dispatch_stmts app find snd fst].
  rewrite N. destruct (missing have TOrder), (missing have TItem), (missing have TCoupon), (missing have TEvent), (missing have TService); reflexivity.
Qed.
Lemma delete_fails have : ~ In TServiceEvent have -> first_missing have ADeleteOrder = Some PWrite.
Proof.
  intros N. apply missing_iff in N. unfold first_missing. cbn [stmts dispatch_stmts app find snd fst].
  rewrite N. destruct (missing have TOrder), (missing have TEvent), (missing have TService); reflexivity.
Qed.
(** what a missing table does to the request *)
Lemma shipped_weather a w : let v := weather_on migrated a w in
  match a with
  | ACreateOrder | ADeleteOrder => v = WDown \/ v = WWriteFails
  | AUpdateOrder | AAddSaleItem | AAddCoupon => v = WDown
  | AGetOrder | AGetOrderList => v = w
  end.
Proof. destruct a; cbn; auto; destruct w; auto. Qed.
Lemma shipped_step valid decode scan s q s' r : serve valid decode scan s (request_on migrated q) = (s', r) ->
  s' = s /\ (forall d, r = HttpModel.A200 d -> reads (h_action q)).
Proof.
  intros H. unfold request_on in H. destruct (method_by_name (h_action q)) as [a|] eqn:M.
  - unfold serve in H. cbn [h_action h_body] in H. rewrite M in H.
    destruct (h_body q) as [b|]; [|inversion H; split; auto; intros d X; discriminate X].
    destruct (decode a b) as [p|]; [|inversion H; split; auto; intros d X; discriminate X].
    pose proof (method_cases _ _ M) as N. pose proof (shipped_weather a (h_weather q)) as W. cbv zeta in W.
    destruct a; cbn [call h_weather h_order_id h_item_id h_coupon_id] in H.
    + set (v := weather_on _ _ _) in *. clearbody v.
      destruct (non_null (p_Items p)), (non_null (p_Coupons p)); unfold run_command in H; destruct W; subst v;
        try (destruct (newOrder _ _ _ _)); inversion H; split; auto; intros d X; discriminate X.
    + rewrite W in H. inversion H. split; auto. intros d X; discriminate X.
    + set (v := weather_on _ _ _) in *. clearbody v. destruct W; subst v; inversion H; split; auto; intros d X; discriminate X.
    + split; [|intros d _; unfold reads; rewrite N; auto]. unfold run_query in H. destruct (weather_on _ _ _), (getOrder s (p_ID p)); inversion H; auto.
    + split; [|intros d _; unfold reads; rewrite N; auto]. unfold run_query in H. match type of H with context [getOrderList ?a ?b ?c] => destruct (getOrderList a b c) end; destruct (weather_on _ _ _); inversion H; auto.
    + rewrite W in H. destruct (p_Item p); inversion H; split; auto; intros d X; discriminate X.
    + rewrite W in H. destruct (p_Coupon p); inversion H; split; auto; intros d X; discriminate X.
  - unfold serve in H. rewrite M in H. inversion H. split; auto. intros d X; discriminate X.
Qed.

(** Whatever requests arrive at the shipped program, whatever the order tables hold and whatever else goes wrong: no order, item or
    coupon is ever stored, changed or deleted, and no request but the two queries is answered with 200.  The table of the delivery
    records (ddd_domain_service_event) and the table of the locks are not created by main.go. *)
Theorem C93_shipped_program_refuted : forall valid decode scan s l s' rs, serve_on migrated valid decode scan s l = (s', rs) ->
  s' = s /\ Forall2 (fun q r => forall d, r = HttpModel.A200 d -> reads (h_action q)) l rs.
Proof.
  intros valid decode scan s l. unfold serve_on. revert s. induction l as [|q t IH]; intros s s' rs H; cbn [map serve_all] in H.
  - inversion H; subst. split; auto.
  - destruct (serve valid decode scan s (request_on migrated q)) as [s1 r] eqn:E. apply shipped_step in E. destruct E as [-> E].
    destruct (serve_all valid decode scan s (map (request_on migrated) t)) as [s2 rs2] eqn:F. apply IH in F. destruct F as [-> F].
    inversion H; subst. split; auto.
Qed.
Print Assumptions C93_shipped_program_refuted.
(** in particular a proper CreateOrder is answered with 500 *)
Theorem C93_create_order_refuted : forall valid decode scan s q p, h_action q = "CreateOrder" -> body_is decode q p -> no_nulls "CreateOrder" p ->
  serve_on migrated valid decode scan s [q] = (s, [HttpModel.A500]).
Proof.
  intros valid decode scan s q p A (a & b & M & B & D) (NN & _). destruct (NN eq_refl) as [Q1 Q2].
  unfold serve_on. cbn [map serve_all]. unfold request_on. rewrite M. unfold serve. cbn [h_action h_body]. rewrite M, B, D.
  rewrite A in M. inversion M; subst a. cbn [call h_weather h_order_id h_item_id h_coupon_id].
  destruct (non_null (p_Items p)) as [is|] eqn:E1; [|apply non_null_none in E1; contradiction].
  destruct (non_null (p_Coupons p)) as [cs|] eqn:E2; [|apply non_null_none in E2; contradiction].
  destruct (shipped_weather ACreateOrder (h_weather q)) as [-> | ->]; reflexivity.
Qed.
Print Assumptions C93_create_order_refuted.
(** The lack of the delivery table alone is enough on a database without orders: *)
Theorem C93_delivery_table_needed : forall have valid decode scan l s' rs, ~ In TServiceEvent have ->
  serve_on have valid decode scan empty_store l = (s', rs) -> s' = empty_store.
Proof.
  intros have valid decode scan l s' rs NT. unfold serve_on. revert rs. induction l as [|q t IH]; intros rs H; cbn [map serve_all] in H.
  - now inversion H.
  - destruct (serve valid decode scan empty_store (request_on have q)) as [s1 r] eqn:E.
    destruct (serve_all valid decode scan s1 (map (request_on have) t)) as [s2 rs2] eqn:F. inversion H; subst s2. clear H.
    assert (X : s1 = empty_store); [|subst s1; eauto].
    destruct (serve_cases valid decode scan empty_store _ s1 _ E) as [[X _]|(p & c & d & (a & b & M & B & D) & AS & HD & _)]; auto.
    unfold request_on in *. destruct (method_by_name (h_action q)) as [a'|] eqn:M'; [|rewrite M' in M; discriminate M].
    cbn [h_action h_body] in *. rewrite M' in M. inversion M; subst a'. unfold serve in E. cbn [h_action h_body] in E. rewrite M', B, D in E.
    destruct a; cbn [call h_weather h_order_id h_item_id h_coupon_id] in E.
    + unfold weather_on in E. rewrite (no_delivery_table have _ NT eq_refl) in E.
      destruct (non_null (p_Items p)), (non_null (p_Coupons p)), (h_weather q); cbn in E;
        try (destruct (newOrder _ _ _ _)); inversion E; auto.
    + destruct (weather_on _ _ _); cbn in E; unfold with_loaded in E; try match type of E with context [String.eqb ?x ""] => destruct (String.eqb x "") end; inversion E; auto.
    + unfold weather_on in E. rewrite (delete_fails have NT) in E. destruct (h_weather q); inversion E; auto.
    + unfold run_query in E. destruct (getOrder empty_store (p_ID p)); destruct (weather_on _ _ _); inversion E; auto.
    + unfold run_query in E. match type of E with context [getOrderList ?a ?b ?c] => destruct (getOrderList a b c) end; destruct (weather_on _ _ _); inversion E; auto.
    + destruct (p_Item p); destruct (weather_on _ _ _); cbn in E; unfold with_loaded in E; try match type of E with context [String.eqb ?x ""] => destruct (String.eqb x "") end; inversion E; auto.
    + destruct (p_Coupon p); destruct (weather_on _ _ _); cbn in E; unfold with_loaded in E; try match type of E with context [String.eqb ?x ""] => destruct (String.eqb x "") end; inversion E; auto.
Qed.
Print Assumptions C93_delivery_table_needed.

(** The order table is needed by every request: without it nothing is answered with 200 and nothing is stored. *)
Lemma no_order_table have a w : ~ In TOrder have -> let v := weather_on have a w in
  match a with
  | ACreateOrder | ADeleteOrder => v = WDown \/ v = WWriteFails
  | _ => v = WDown \/ v = WReadFails
  end.
Proof.
  intros N. apply missing_iff in N. unfold weather_on, first_missing.
  destruct a; cbn [stmts dispatch_stmts app find snd fst]; rewrite N; try destruct (missing have TLock); cbn [fst]; destruct w; cbn; auto.
Qed.
Theorem C93_order_table_needed : forall have valid decode scan s l s' rs, ~ In TOrder have ->
  serve_on have valid decode scan s l = (s', rs) -> s' = s /\ Forall (fun r => forall d, r <> HttpModel.A200 d) rs.
Proof.
  intros have valid decode scan s l s' rs N. unfold serve_on. revert s s' rs. induction l as [|q t IH]; intros s s' rs H; cbn [map serve_all] in H.
  - inversion H; subst. auto.
  - destruct (serve valid decode scan s (request_on have q)) as [s1 r] eqn:E.
    assert (X : s1 = s /\ forall d, r <> HttpModel.A200 d).
    { clear H. unfold request_on in E. destruct (method_by_name (h_action q)) as [a|] eqn:M; unfold serve in E; cbn [h_action h_body] in E; rewrite M in E; [|inversion E; split; auto; discriminate].
      destruct (h_body q) as [b|]; [|inversion E; split; auto; discriminate]. destruct (decode a b) as [p|]; [|inversion E; split; auto; discriminate].
      pose proof (no_order_table have a (h_weather q) N) as W. cbv zeta in W.
      destruct a; cbn [call h_weather h_order_id h_item_id h_coupon_id] in E; set (v := weather_on _ _ _) in *; clearbody v; destruct W; subst v; cbn in E;
        try (destruct (non_null (p_Items p)), (non_null (p_Coupons p))); try (destruct (newOrder _ _ _ _)); try (destruct (p_Item p)); try (destruct (p_Coupon p)); inversion E; split; auto; discriminate. }
    destruct X as [-> X]. destruct (serve_all valid decode scan s (map (request_on have) t)) as [s2 rs2] eqn:F. apply IH in F. destruct F as [-> F].
    inversion H; subst. auto.
Qed.
Print Assumptions C93_order_table_needed.

(** Missing tables do not hide a failing read: it is answered with 500 as in C91. *)
Theorem C93_failed_read : forall have valid decode scan s q p, h_weather q = WReadFails -> body_is decode q p ->
  In (h_action q) ["UpdateOrder"; "AddSaleItem"; "AddCoupon"; "GetOrder"; "GetOrderList"] -> serve_on have valid decode scan s [q] = (s, [HttpModel.A500]).
Proof.
  intros have valid decode scan s q p W (a & b & M & B & D) H. pose proof (method_cases _ _ M) as N.
  assert (V : weather_on have a (h_weather q) = WDown \/ weather_on have a (h_weather q) = WReadFails).
  { rewrite W. unfold weather_on. destruct (first_missing have a) as [[]|]; auto. destruct a; cbn in N; rewrite N in H; cbn [In] in H; auto; exfalso; clear -H; intuition discriminate. }
  unfold serve_on. cbn [map serve_all]. unfold request_on. rewrite M. unfold serve. cbn [h_action h_body]. rewrite M, B, D.
  destruct a; cbn in N; rewrite N in H; cbn [In] in H; try (exfalso; clear -H; intuition discriminate); cbn [call h_weather h_order_id h_item_id h_coupon_id];
    set (v := weather_on _ _ _) in *; clearbody v; destruct V; subst v; cbn; auto; destruct (p_Item p), (p_Coupon p); reflexivity.
Qed.
Print Assumptions C93_failed_read.

(** With all tables the program serves as C91 and C92 say. *)
Theorem C93_all_tables_partial : forall have valid decode scan s l, (forall t, In t have) ->
  serve_on have valid decode scan s l = serve_all valid decode scan s l.
Proof.
  intros have valid decode scan s l A. unfold serve_on. f_equal. rewrite <- (map_id l) at 2. apply map_ext. intros q.
  unfold request_on. destruct (method_by_name (h_action q)) as [a|]; auto.
  assert (X : first_missing have a = None).
  { unfold first_missing. destruct (find _ (stmts a)) as [x|] eqn:F; auto. apply find_some in F. destruct F as [_ F]. apply missing_iff in F. destruct (F (A _)). }
  unfold weather_on. rewrite X. now destruct q.
Qed.
Print Assumptions C93_all_tables_partial.
(** the two tables main.go leaves out are the only ones missing *)
Example C93_repair : forall t, In t (TServiceEvent :: TLock :: migrated).
Proof. intros []; cbn; auto 10. Qed.
Example C93_example : let serve_it have := serve_on have accept_all (fun _ _ => Some one_order) (fun l => l) empty_store [plain "CreateOrder" WFine "o1"; plain "GetOrderList" WFine ""] in
  snd (serve_it migrated) = [HttpModel.A500; HttpModel.A200 (DList [])] /\
  exists v, snd (serve_it (TServiceEvent :: TLock :: migrated)) = [HttpModel.A200 (DCreated "o1"); HttpModel.A200 (DList [v])].
Proof. split; [vm_compute; reflexivity|]. eexists. vm_compute. reflexivity. Qed.

(** Without the delivery table no request that sends events can be carried out, whatever is stored: nothing changes and the answer is never 200. *)
Theorem C93_delivery_table_needed_to_send : forall have valid decode scan s q s' rs, ~ In TServiceEvent have ->
  In (h_action q) ["CreateOrder"; "DeleteOrder"; "AddSaleItem"; "AddCoupon"] ->
  serve_on have valid decode scan s [q] = (s', rs) -> s' = s /\ Forall (fun r => forall d, r <> HttpModel.A200 d) rs.
Proof.
  intros have valid decode scan s q s' rs NT Ha H. unfold serve_on in H. cbn [map serve_all] in H. destruct (serve valid decode scan s (request_on have q)) as [s1 r] eqn:E. injection H as <- <-.
  assert (W : forall a w, In a [ACreateOrder; ADeleteOrder; AAddSaleItem; AAddCoupon] -> weather_on have a w = WDown \/ (weather_on have a w = WReadFails /\ starts_with_read a = true) \/ weather_on have a w = WWriteFails).
  { clear -NT. intros a w Ha. apply missing_iff in NT. assert (X : exists ph, first_missing have a = Some ph /\ (ph = PRead -> starts_with_read a = true)).
    { unfold first_missing. destruct (find (fun s => missing have (snd s)) (stmts a)) as [x|] eqn:F; [exists (fst x); split; [reflexivity|]; intros P; apply find_some in F; destruct F as [F _]; clear -F P Ha; destruct Ha as [<-|[<-|[<-|[<-|[]]]]]; cbn in F; repeat (destruct F as [F|F]; [subst x; cbn in *; first [reflexivity|discriminate P]|]); contradiction F|]. exfalso. assert (Y : In (PWrite, TServiceEvent) (stmts a)) by (destruct Ha as [<-|[<-|[<-|[<-|[]]]]]; cbn; tauto). pose proof (find_none _ _ F _ Y) as Z. cbn in Z. congruence. }
    destruct X as (ph & X & P). unfold weather_on. rewrite X. destruct ph; auto; destruct w; auto; destruct (starts_with_read a) eqn:SR; auto; discriminate (P eq_refl). }
  unfold request_on in E. destruct (method_by_name (h_action q)) as [a|] eqn:M; unfold serve in E; cbn [h_action h_body] in E; rewrite M in E; [|injection E as <- <-; split; auto; repeat constructor; discriminate].
  pose proof (method_cases _ _ M) as N.
  destruct (h_body q) as [b|]; [|injection E as <- <-; split; auto; repeat constructor; discriminate]. destruct (decode a b) as [p|]; [|injection E as <- <-; split; auto; repeat constructor; discriminate].
  assert (Z : s1 = s /\ forall d, r <> HttpModel.A200 d); [|destruct Z as [-> Z]; split; auto].
  assert (Ia : In a [ACreateOrder; ADeleteOrder; AAddSaleItem; AAddCoupon]) by (destruct a; cbn in N; rewrite N in Ha; cbn [In] in *; try tauto; exfalso; clear -Ha; intuition discriminate).
  specialize (W a (h_weather q) Ia). clear N M Ha.
  destruct Ia as [<-|[<-|[<-|[<-|[]]]]]; cbn [call h_weather h_order_id h_item_id h_coupon_id] in E; set (v := weather_on _ _ _) in *; clearbody v; destruct W as [-> | [[-> SR] | ->]]; try discriminate SR; cbn in E;
    try (destruct (non_null (p_Items p)), (non_null (p_Coupons p))); try (destruct (newOrder _ _ _ _)); try (destruct (p_Item p)); try (destruct (p_Coupon p)); try (unfold run_null in E; destruct (String.eqb _ _); try destruct (find_order _ _)); injection E as <- <-; split; auto; discriminate.
Qed.
Print Assumptions C93_delivery_table_needed_to_send.

(** C74 - C79: what the example application stores and shows, for every history of requests. *)
From Verif Require Import SaleSpec SaleProps.
Open Scope Z_scope.

Definition order_ids (s : store) : list string := map or_id (t_orders s).

(* ------------------------------------------------------------ what the commands compute *)
Lemma add_items_shape valid l o : o_coupons o = [] ->
  let o' := add_items valid o l in o_items o' = o_items o ++ l /\ o_coupons o' = [] /\ o_id o' = o_id o /\ o_user o' = o_user o /\ o_remark o' = o_remark o.
Proof.
  revert o. induction l as [|i t IH]; intros o E; cbn [add_items]; cbv zeta.
  - rewrite app_nil_r. auto.
  - assert (F : fixCoupons valid (with_items o (o_items o ++ [i])) = ([], with_items o (o_items o ++ [i]))).
    { unfold fixCoupons. cbn. rewrite E. cbn. unfold with_coupons, with_items. cbn. rewrite E. reflexivity. }
    specialize (IH (addSaleItem valid o i)). unfold addSaleItem in *. rewrite F in *. cbn [snd] in *.
    destruct (calPrice_spec (with_items o (o_items o ++ [i]))) as (_ & A & B & _ & _ & C & D & G).
    cbv zeta in IH. rewrite A, B, C, D, G in IH. cbn in IH. rewrite E in IH. destruct (IH eq_refl) as (H1 & H2 & H3 & H4 & H5).
    rewrite H1, H2, H3, H4, H5. rewrite <- app_assoc. auto.
Qed.
Lemma add_coupons_shape valid l o o' : add_coupons valid o l = Some o' ->
  o_items o' = o_items o /\ o_coupons o' = o_coupons o ++ l /\ o_id o' = o_id o /\ o_user o' = o_user o /\ o_remark o' = o_remark o.
Proof.
  revert o. induction l as [|c t IH]; intros o E; cbn [add_coupons] in E.
  - inversion E; subst. rewrite app_nil_r. auto.
  - destruct (addCoupon valid o c) as [o1 [|]] eqn:F; [|discriminate]. apply checked_ok in F.
    apply IH in E. destruct E as (H1 & H2 & H3 & H4 & H5). subst o1.
    match type of H1 with context [calPrice ?q] => destruct (calPrice_spec q) as (_ & A & B & _ & _ & C & D & G) end.
    rewrite H1, H2, H3, H4, H5, A, B, C, D, G. cbn. rewrite <- app_assoc. auto.
Qed.
Lemma newOrder_shape valid u items coupons o : newOrder valid u items coupons = Some o ->
  o_items o = items /\ o_coupons o = coupons /\ o_user o = u /\ o_remark o = ""%string.
Proof.
  intros E. apply add_coupons_shape in E. destruct E as (H1 & H2 & _ & H4 & H5).
  destruct (add_items_shape valid items (mkOrder "" u 0 "" [] [] false) eq_refl) as (G1 & G2 & _ & G4 & G5).
  rewrite H1, H2, H4, H5, G1, G2, G4, G5. auto.
Qed.
Lemma root_item valid r i : addSaleItem valid (load_root r) i = calPrice (with_items (load_root r) [i]).
Proof. reflexivity. Qed.
Lemma root_coupon valid r c o : addCoupon valid (load_root r) c = (o, true) -> o = calPrice (with_coupons (load_root r) [c]).
Proof. intros H. apply checked_ok in H. exact H. Qed.

(* ------------------------------------------------------------ one request *)
Lemma find_order_In s id r : find_order s id = Some r -> In r (t_orders s) /\ or_id r = id.
Proof. intros H. apply find_some in H. destruct H as [A B]. apply String.eqb_eq in B. auto. Qed.

Lemma update_rows_ids o o0 l : map or_id (update_order_rows o o0 l) = map or_id l.
Proof.
  unfold update_order_rows. destruct (o_dirty o); auto. rewrite map_map. apply map_ext. intros r.
  destruct (String.eqb (or_id r) (o_id o)); reflexivity.
Qed.
Lemma nodup_same_row s r r' : NoDup (order_ids s) -> In r (t_orders s) -> In r' (t_orders s) -> or_id r = or_id r' -> r = r'.
Proof.
  unfold order_ids. induction (t_orders s) as [|x t IH]; cbn; intros N A B E; [tauto|]. inversion N; subst.
  destruct A as [-> | A], B as [-> | B]; auto.
  - exfalso. apply H1. rewrite E. now apply in_map.
  - exfalso. apply H1. rewrite <- E. now apply in_map.
Qed.

(** The loaded order [load_root r] is saved as [o]: the row of the order then has the user, total and remark of [o] (when a change is
    marked), the others are as before. *)
Lemma save_loaded_rows s r o s' b : NoDup (order_ids s) -> In r (t_orders s) -> o_id o = or_id r ->
  (o_dirty o = true \/ order_row_of o = r) -> save_loaded s (load_root r) o = (s', b) ->
  (b = true /\ t_orders s' = map (fun x => if String.eqb (or_id x) (or_id r) then order_row_of o else x) (t_orders s)
     /\ t_items s' = t_items s ++ map (item_row_of (or_id r)) (o_items o) /\ t_coupons s' = t_coupons s ++ map (coupon_row_of (or_id r)) (o_coupons o))
  \/ (b = false /\ s' = s).
Proof.
  intros N I E D H. unfold save_loaded in H.
  destruct (keys_ok _ _ && keys_ok _ _); inversion H; subst; [left|right; auto]. cbn [t_orders t_items t_coupons]. rewrite E. split; [auto|]. split; [|auto].
  unfold update_order_rows. rewrite E.
  assert (Q : forall x, In x (t_orders s) -> or_id x = or_id r -> x = r) by (intros; eapply nodup_same_row; eauto).
  destruct (o_dirty o) eqn:EO.
  - apply map_ext_in. intros x Hx. destruct (String.eqb_spec (or_id x) (or_id r)) as [X|X]; auto.
    rewrite (Q x Hx X). unfold write_changed, order_row_of. cbn.
    destruct (String.eqb_spec (o_user o) (or_user r)), (Z.eqb_spec (o_total o) (or_total r)), (String.eqb_spec (o_remark o) (or_remark r)); congruence.
  - destruct D as [D|D]; [discriminate|]. rewrite D. symmetry. erewrite map_ext_in; [apply map_id|].
    intros x Hx. cbn. destruct (String.eqb_spec (or_id x) (or_id r)) as [X|X]; auto. symmetry. auto.
Qed.
Lemma calPrice_marked r o : o_dirty o = false -> order_row_of o = r -> o_dirty (calPrice o) = true \/ order_row_of (calPrice o) = r.
Proof.
  intros E H. destruct (calPrice_spec o) as (_ & _ & _ & [D|[D1 D2]] & _ & C & U & G); [auto|right].
  unfold order_row_of in *. rewrite D1, C, U, G. exact H.
Qed.
Lemma load_root_row r : order_row_of (load_root r) = r.
Proof. destruct r. reflexivity. Qed.

(** Every request either changes nothing and reports an error, or does this: *)
Inductive effect (s : store) : request -> store -> Prop :=
| ef_create oid u items coupons z : ~ In oid (order_ids s) -> z = wrap64 (amount items coupons) ->
    effect s (RCreate oid u items coupons) (mkStore (t_orders s ++ [mkORow oid u z "-"]) (t_items s ++ map (item_row_of oid) items) (t_coupons s ++ map (coupon_row_of oid) coupons))
| ef_item oid i r : In r (t_orders s) -> or_id r = oid ->
    effect s (RAddItem oid i)
      (mkStore (map (fun x => if String.eqb (or_id x) oid then mkORow oid (or_user r) (wrap64 (amount [i] [])) (or_remark r) else x) (t_orders s))
               (t_items s ++ [item_row_of oid i]) (t_coupons s))
| ef_coupon oid c r : In r (t_orders s) -> or_id r = oid ->
    effect s (RAddCoupon oid c)
      (mkStore (map (fun x => if String.eqb (or_id x) oid then mkORow oid (or_user r) (wrap64 (amount [] [c])) (or_remark r) else x) (t_orders s))
               (t_items s) (t_coupons s ++ [coupon_row_of oid c]))
| ef_update oid m r : In r (t_orders s) -> or_id r = oid ->
    effect s (RUpdate oid m)
      (mkStore (map (fun x => if String.eqb (or_id x) oid then mkORow oid (or_user r) (or_total r) (match m with Some m => m | None => or_remark r end) else x) (t_orders s))
               (t_items s) (t_coupons s))
| ef_delete oid : effect s (RDelete oid) (mkStore (filter (fun r => negb (String.eqb (or_id r) oid)) (t_orders s)) (t_items s) (t_coupons s)).

Lemma keys_ok_one l x : keys_ok l [x] = true -> ~ In x l.
Proof.
  cbn. rewrite andb_true_r, negb_true_iff. intros H I. assert (T : existsb (String.eqb x) l = true).
  { apply existsb_exists. exists x. split; auto. apply String.eqb_refl. } congruence.
Qed.
Lemma store_eta s a b c : t_orders s = a -> t_items s = b -> t_coupons s = c -> s = mkStore a b c.
Proof. destruct s; cbn; intros; subst; reflexivity. Qed.

Lemma handle_effect valid s q s' b : NoDup (order_ids s) -> handle valid s q = (s', b) -> (b = true /\ effect s q s') \/ (b = false /\ s' = s).
Proof.
  intros N H. destruct q as [oid u items coupons|oid i|oid c|oid m|oid]; cbn [handle] in H.
  - destruct (newOrder valid u items coupons) as [o|] eqn:E; [|inversion H; auto].
    destruct (newOrder_shape _ _ _ _ _ E) as (A & B & C & D). destruct (C73_new_order _ _ _ _ _ E) as [T _].
    cbn [o_items o_coupons o_user o_total o_remark o_id] in H.
    destruct (keys_ok (map or_id (t_orders s)) [oid]) eqn:K; cbn [andb] in H; [|inversion H; auto].
    destruct (_ && _); inversion H; subst; auto. left. split; auto.
    unfold order_insert_row. cbn. rewrite T, D. cbn. apply ef_create; auto. apply (keys_ok_one _ _ K).
  - unfold with_loaded in H. destruct (String.eqb oid ""); [inversion H; auto|].
    destruct (find_order s oid) as [r|] eqn:F; [|inversion H; auto]. apply find_order_In in F. destruct F as [I O].
    rewrite root_item in H. set (o := with_items (load_root r) [i]) in *.
    destruct (calPrice_spec o) as (P1 & P2 & P3 & P4 & P5 & P6 & P7 & P8).
    assert (D : o_dirty (calPrice o) = true \/ order_row_of (calPrice o) = r).
    { apply calPrice_marked; [reflexivity|]. destruct r; reflexivity. }
    destruct (save_loaded_rows s r (calPrice o) s' b N I P6 D H) as [(B & S1 & S2 & S3)|]; auto.
    left. split; auto. rewrite P2 in S2. rewrite P3 in S3. cbn in S2, S3. rewrite app_nil_r in S3.
    rewrite (store_eta _ _ _ _ S1 S2 S3). rewrite <- O. unfold order_row_of. rewrite P1, P6, P7, P8. cbn.
    apply (ef_item s (or_id r) i r I eq_refl).
  - unfold with_loaded in H. destruct (String.eqb oid ""); [inversion H; auto|].
    destruct (find_order s oid) as [r|] eqn:F; [|inversion H; auto]. apply find_order_In in F. destruct F as [I O].
    destruct (addCoupon valid (load_root r) c) as [o2 [|]] eqn:G; [|inversion H; auto]. apply root_coupon in G. subst o2.
    set (o := with_coupons (load_root r) [c]) in *.
    destruct (calPrice_spec o) as (P1 & P2 & P3 & P4 & P5 & P6 & P7 & P8).
    assert (D : o_dirty (calPrice o) = true \/ order_row_of (calPrice o) = r).
    { apply calPrice_marked; [reflexivity|]. destruct r; reflexivity. }
    destruct (save_loaded_rows s r (calPrice o) s' b N I P6 D H) as [(B & S1 & S2 & S3)|]; auto.
    left. split; auto. rewrite P2 in S2. rewrite P3 in S3. cbn in S2, S3. rewrite app_nil_r in S2.
    rewrite (store_eta _ _ _ _ S1 S2 S3). rewrite <- O. unfold order_row_of. rewrite P1, P6, P7, P8. cbn.
    apply (ef_coupon s (or_id r) c r I eq_refl).
  - unfold with_loaded in H. destruct (String.eqb oid ""); [inversion H; auto|].
    destruct (find_order s oid) as [r|] eqn:F; [|inversion H; auto]. apply find_order_In in F. destruct F as [I O].
    destruct (save_loaded_rows s r (updateOrder (load_root r) m) s' b N I eq_refl (or_introl eq_refl) H) as [(B & S1 & S2 & S3)|]; auto.
    left. split; auto. cbn in S2, S3. rewrite app_nil_r in S2, S3. rewrite (store_eta _ _ _ _ S1 S2 S3). rewrite <- O.
    apply (ef_update s (or_id r) m r I eq_refl).
  - inversion H; subst. left. split; auto. apply ef_delete.
Qed.

Lemma effect_nodup s q s' : NoDup (order_ids s) -> effect s q s' -> NoDup (order_ids s').
Proof.
  intros N E. destruct E as [oid u items coupons z F Z|oid i r I O|oid c r I O|oid m r I O|oid]; unfold order_ids in *; cbn [t_orders].
  - rewrite map_app. cbn. apply (Permutation_NoDup (l := oid :: map or_id (t_orders s))); [|now constructor].
    rewrite Permutation_app_comm. reflexivity.
  - rewrite map_map. erewrite map_ext; [exact N|]. intros x. cbn. destruct (String.eqb_spec (or_id x) oid); cbn; congruence.
  - rewrite map_map. erewrite map_ext; [exact N|]. intros x. cbn. destruct (String.eqb_spec (or_id x) oid); cbn; congruence.
  - rewrite map_map. erewrite map_ext; [exact N|]. intros x. cbn. destruct (String.eqb_spec (or_id x) oid); cbn; congruence.
  - clear -N. induction (t_orders s) as [|x t IH]; cbn in *; [constructor|]. inversion N; subst. destruct (String.eqb (or_id x) oid); cbn; auto.
    constructor; auto. intros K. apply H1. apply in_map_iff in K. destruct K as (y & A & B). apply filter_In in B. apply in_map_iff. exists y. tauto.
Qed.

(* ------------------------------------------------------------ histories *)
Section Histories.
  Context {A B : Type} (f : string -> request -> option A) (proj : order_row -> B) (val : A -> B).
  Definition keeps (s : store) (r' : order_row) : Prop := exists r, In r (t_orders s) /\ or_id r = or_id r' /\ proj r = proj r'.
  Hypothesis step : forall s q s', NoDup (order_ids s) -> effect s q s' -> forall r', In r' (t_orders s') ->
    (exists z, f (or_id r') q = Some z /\ proj r' = val z) \/ (f (or_id r') q = None /\ keeps s r').
  Lemma history_latest valid l s s' h : NoDup (order_ids s) -> history valid s l = (s', h) -> forall r', In r' (t_orders s') ->
    (exists z, latest (f (or_id r')) h = Some z /\ proj r' = val z) \/ (latest (f (or_id r')) h = None /\ keeps s r').
  Proof.
    revert s h. induction l as [|q t IH]; intros s h N H r' I; cbn in H.
    - inversion H; subst. right. split; auto. exists r'. auto.
    - destruct (handle valid s q) as [s1 b] eqn:E. destruct (history valid s1 t) as [s2 h2] eqn:G. inversion H; subst.
      destruct (handle_effect valid s q s1 b N E) as [[-> F]|[-> ->]].
      + destruct (IH s1 h2 (effect_nodup _ _ _ N F) G r' I) as [(z & Z1 & Z2)|(Z1 & r & R1 & R2 & R3)]; cbn; rewrite Z1.
        * left. eauto.
        * destruct (step s q s1 N F r R1) as [(z & Y1 & Y2)|(Y1 & K)]; rewrite R2 in Y1; rewrite Y1.
          -- left. exists z. split; auto. congruence.
          -- right. split; auto. destruct K as (x & X1 & X2 & X3). exists x. split; auto. split; congruence.
      + destruct (IH s h2 N G r' I) as [(z & Z1 & Z2)|(Z1 & K)]; cbn; rewrite Z1; eauto.
  Qed.
End Histories.

Ltac map_in I := apply in_map_iff in I; destruct I as (?x & ?X & ?Hx).
Lemma brought_step s q s' : NoDup (order_ids s) -> effect s q s' -> forall r', In r' (t_orders s') ->
  (exists z, brought (or_id r') q = Some z /\ or_total r' = wrap64 z) \/ (brought (or_id r') q = None /\ keeps or_total s r').
Proof.
  intros N E r' I. unfold keeps. destruct E as [oid u items coupons z F Z|oid i r Ir O|oid c r Ir O|oid m r Ir O|oid]; cbn [t_orders] in I; cbn [brought].
  - apply in_app_or in I. destruct I as [I|[<- |[]]].
    + right. split; [|eauto]. destruct (String.eqb_spec oid (or_id r')) as [X|X]; auto. exfalso. apply F. rewrite X. now apply in_map.
    + left. cbn. rewrite String.eqb_refl. eauto.
  - map_in I. destruct (String.eqb_spec (or_id x) oid) as [Y|Y]; subst r'; cbn.
    + left. rewrite String.eqb_refl. eauto.
    + right. destruct (String.eqb_spec oid (or_id x)); [congruence|]. eauto.
  - map_in I. destruct (String.eqb_spec (or_id x) oid) as [Y|Y]; subst r'; cbn.
    + left. rewrite String.eqb_refl. eauto.
    + right. destruct (String.eqb_spec oid (or_id x)); [congruence|]. eauto.
  - map_in I. right. split; auto. destruct (String.eqb_spec (or_id x) oid) as [Y|Y]; subst r'; cbn; [|eauto]. exists r. auto.
  - apply filter_In in I. right. split; auto. exists r'. tauto.
Qed.
(** C74. For every history of requests: the stored total of an order is the amount of what its latest successful creation or
    addition brought - and of nothing else. *)
Theorem C74_total_is_that_of_the_latest_addition : forall valid l s h, history valid empty_store l = (s, h) ->
  forall r, In r (t_orders s) -> exists z, latest (brought (or_id r)) h = Some z /\ or_total r = wrap64 z.
Proof.
  intros valid l s h H r I. destruct (history_latest brought or_total wrap64 brought_step valid l empty_store s h (NoDup_nil _) H r I) as [K|(_ & x & [] & _)]. exact K.
Qed.

(** C78. The stored remark is what it was last set to, "-" if it never was. *)
Lemma remark_step s q s' : NoDup (order_ids s) -> effect s q s' -> forall r', In r' (t_orders s') ->
  (exists z, remark_set (or_id r') q = Some z /\ or_remark r' = z) \/ (remark_set (or_id r') q = None /\ keeps or_remark s r').
Proof.
  intros N E r' I. unfold keeps. destruct E as [oid u items coupons z F Z|oid i r Ir O|oid c r Ir O|oid m r Ir O|oid]; cbn [t_orders] in I; cbn [remark_set].
  - apply in_app_or in I. destruct I as [I|[<- |[]]].
    + right. split; [|eauto]. destruct (String.eqb_spec oid (or_id r')) as [X|X]; auto. exfalso. apply F. rewrite X. now apply in_map.
    + left. cbn. rewrite String.eqb_refl. eauto.
  - map_in I. right. split; auto. destruct (String.eqb_spec (or_id x) oid) as [Y|Y]; subst r'; cbn; [|eauto]. exists r. auto.
  - map_in I. right. split; auto. destruct (String.eqb_spec (or_id x) oid) as [Y|Y]; subst r'; cbn; [|eauto]. exists r. auto.
  - map_in I. destruct (String.eqb_spec (or_id x) oid) as [Y|Y]; subst r'; cbn.
    + destruct m as [m|]; [left; rewrite String.eqb_refl; eauto|right]. split; auto. exists r. auto.
    + right. split; [|eauto]. destruct m; auto. destruct (String.eqb_spec oid (or_id x)); [congruence|]. auto.
  - apply filter_In in I. right. split; auto. exists r'. tauto.
Qed.
Theorem C78_remark : forall valid l s h, history valid empty_store l = (s, h) ->
  forall r, In r (t_orders s) -> latest (remark_set (or_id r)) h = Some (or_remark r).
Proof.
  intros valid l s h H r I.
  destruct (history_latest remark_set or_remark (fun z => z) remark_step valid l empty_store s h (NoDup_nil _) H r I) as [(z & A & B)|(_ & x & [] & _)]. congruence.
Qed.
(** ... and the user the one the order was created for. *)
Definition created_for (oid : string) (q : request) : option string := match q with RCreate o u _ _ => if String.eqb o oid then Some u else None | _ => None end.
Lemma user_step s q s' : NoDup (order_ids s) -> effect s q s' -> forall r', In r' (t_orders s') ->
  (exists z, created_for (or_id r') q = Some z /\ or_user r' = z) \/ (created_for (or_id r') q = None /\ keeps or_user s r').
Proof.
  intros N E r' I. unfold keeps. destruct E as [oid u items coupons z F Z|oid i r Ir O|oid c r Ir O|oid m r Ir O|oid]; cbn [t_orders] in I; cbn [created_for].
  - apply in_app_or in I. destruct I as [I|[<- |[]]].
    + right. split; [|eauto]. destruct (String.eqb_spec oid (or_id r')) as [X|X]; auto. exfalso. apply F. rewrite X. now apply in_map.
    + left. cbn. rewrite String.eqb_refl. eauto.
  - map_in I. right. split; auto. destruct (String.eqb_spec (or_id x) oid) as [Y|Y]; subst r'; cbn; [|eauto]. exists r. auto.
  - map_in I. right. split; auto. destruct (String.eqb_spec (or_id x) oid) as [Y|Y]; subst r'; cbn; [|eauto]. exists r. auto.
  - map_in I. right. split; auto. destruct (String.eqb_spec (or_id x) oid) as [Y|Y]; subst r'; cbn; [|eauto]. exists r. auto.
  - apply filter_In in I. right. split; auto. exists r'. tauto.
Qed.
Theorem C78_user : forall valid l s h, history valid empty_store l = (s, h) ->
  forall r, In r (t_orders s) -> latest (created_for (or_id r)) h = Some (or_user r).
Proof.
  intros valid l s h H r I.
  destruct (history_latest created_for or_user (fun z => z) user_step valid l empty_store s h (NoDup_nil _) H r I) as [(z & A & B)|(_ & x & [] & _)]. congruence.
Qed.

(* ------------------------------------------------------------ items and coupons *)
Lemma items_rows oid oid' l : map item_of_row (filter (fun r => String.eqb (ir_order r) oid) (map (item_row_of oid') l)) = if String.eqb oid' oid then l else [].
Proof.
  destruct (String.eqb_spec oid' oid) as [E|E]; [subst oid'|]; induction l as [|i t IH]; cbn; auto.
  - rewrite String.eqb_refl. cbn. destruct i. cbn. f_equal. exact IH.
  - destruct (String.eqb_spec oid' oid); [contradiction|auto].
Qed.
Lemma coupons_rows oid oid' l : map coupon_of_row (filter (fun r => String.eqb (cr_order r) oid) (map (coupon_row_of oid') l)) = if String.eqb oid' oid then l else [].
Proof.
  destruct (String.eqb_spec oid' oid) as [E|E]; [subst oid'|]; induction l as [|i t IH]; cbn; auto.
  - rewrite String.eqb_refl. cbn. destruct i. cbn. f_equal. exact IH.
  - destruct (String.eqb_spec oid' oid); [contradiction|auto].
Qed.
Lemma contents_step s q s' oid : effect s q s' ->
  items_of s' oid = items_of s oid ++ requested_items oid [(q, true)] /\ coupons_of s' oid = coupons_of s oid ++ requested_coupons oid [(q, true)].
Proof.
  intros E. unfold items_of, coupons_of, requested_items, requested_coupons.
  destruct E as [o u items coupons z F Z|o i r Ir O|o c r Ir O|o m r Ir O|o]; cbn [t_items t_coupons flat_map]; rewrite ?app_nil_r.
  - rewrite !filter_app, !map_app, items_rows, coupons_rows. auto.
  - rewrite !filter_app, !map_app. change [item_row_of o i] with (map (item_row_of o) [i]). rewrite items_rows. auto.
  - rewrite !filter_app, !map_app. change [coupon_row_of o c] with (map (coupon_row_of o) [c]). rewrite coupons_rows. auto.
  - auto.
  - auto.
Qed.
Lemma contents_history valid l s s' h oid : NoDup (order_ids s) -> history valid s l = (s', h) ->
  items_of s' oid = items_of s oid ++ requested_items oid h /\ coupons_of s' oid = coupons_of s oid ++ requested_coupons oid h.
Proof.
  revert s h. induction l as [|q t IH]; intros s h N H; cbn in H.
  - inversion H; subst. cbn. rewrite !app_nil_r. auto.
  - destruct (handle valid s q) as [s1 b] eqn:E. destruct (history valid s1 t) as [s2 h2] eqn:G. inversion H; subst.
    destruct (handle_effect valid s q s1 b N E) as [[-> F]|[-> ->]].
    + destruct (IH s1 h2 (effect_nodup _ _ _ N F) G) as [A B]. destruct (contents_step s q s1 oid F) as [C D]. rewrite A, B, C, D, <- !app_assoc.
      unfold requested_items, requested_coupons. cbn [flat_map]. rewrite !app_nil_r. auto.
    + destruct (IH s h2 N G) as [A B]. rewrite A, B. unfold requested_items, requested_coupons. cbn [flat_map].
      destruct q; auto.
Qed.
(** C75 (stored). For every history: the item rows of an order are exactly the items successfully requested for it, in order and with
    all their columns; so are the coupon rows. *)
Theorem C75_rows_are_the_requested : forall valid l s h oid, history valid empty_store l = (s, h) ->
  items_of s oid = requested_items oid h /\ coupons_of s oid = requested_coupons oid h.
Proof. intros. apply (contents_history valid l empty_store s h oid (NoDup_nil _) H). Qed.

(* ------------------------------------------------------------ C74: until something is added *)
Definition adds_to (oid : string) (x : request * bool) : bool :=
  match x with (RAddItem o _, true) | (RAddCoupon o _, true) => String.eqb o oid | _ => false end.
Lemma not_created oid h : existsb (adds_to oid) h = false -> ~ In oid (flat_map new_ids (map fst h)) ->
  requested_items oid h = [] /\ requested_coupons oid h = [] /\ latest (brought oid) h = None.
Proof.
  induction h as [|[q b] t IH]; cbn [existsb map flat_map fst]; intros A B; auto.
  apply orb_false_iff in A. destruct A as [A1 A2]. rewrite in_app_iff in B. destruct IH as (H1 & H2 & H3); [auto|tauto|].
  unfold requested_items, requested_coupons in *. cbn [flat_map latest]. rewrite H1, H2, H3, !app_nil_r.
  destruct q as [o u items coupons|o i|o c|o m|o], b; auto; cbn in A1, B |- *; rewrite ?A1; auto.
  destruct (String.eqb_spec o oid); auto. exfalso. apply B. left. auto.
Qed.
Lemma created_once oid h z : existsb (adds_to oid) h = false -> NoDup (flat_map new_ids (map fst h)) -> latest (brought oid) h = Some z ->
  z = amount (requested_items oid h) (requested_coupons oid h).
Proof.
  induction h as [|[q b] t IH]; cbn [existsb map flat_map fst]; intros A N L; [discriminate|].
  apply orb_false_iff in A. destruct A as [A1 A2].
  assert (N' : NoDup (flat_map new_ids (map fst t))) by (clear -N; induction (new_ids q); cbn in N; auto; inversion N; auto).
  destruct (latest (brought oid) t) as [z'|] eqn:E; cbn [latest] in L; rewrite E in L.
  - inversion L; subst. rewrite (IH A2 N' eq_refl) at 1. unfold requested_items, requested_coupons. cbn [flat_map].
    destruct q as [o u items coupons|o i|o c|o m|o], b; auto; cbn in A1; rewrite ?A1; auto.
    destruct (String.eqb_spec o oid) as [X|X]; auto. exfalso. subst o. cbn in N. inversion N as [|? ? N1 N2]; subst.
    destruct (not_created oid t A2) as (_ & _ & K); [|congruence]. intros I. apply N1. apply in_or_app. right. exact I.
  - destruct b; [|discriminate]. destruct q as [o u items coupons|o i|o c|o m|o]; cbn in L, A1; try rewrite A1 in L; try discriminate.
    destruct (String.eqb_spec o oid) as [X|X]; [|discriminate]. inversion L; subst.
    cbn in N. inversion N as [|? ? N1 N2]; subst.
    destruct (not_created oid t A2) as (K1 & K2 & _). { intros I. apply N1. apply in_or_app. right. exact I. }
    unfold requested_items, requested_coupons in *. cbn [flat_map]. rewrite String.eqb_refl, K1, K2, !app_nil_r. reflexivity.
Qed.
Lemma history_requests valid l s s' h : history valid s l = (s', h) -> map fst h = l.
Proof.
  revert s h. induction l as [|q t IH]; intros s h H; cbn in H.
  - inversion H; auto.
  - destruct (handle valid s q) as [s1 b]. destruct (history valid s1 t) as [s2 h2] eqn:G. inversion H; subst. cbn. f_equal. eauto.
Qed.
(** The stored total is the amount of the stored rows as long as nothing was added to the order after its creation. *)
Theorem C74_until_something_is_added_partial : forall valid l s h, history valid empty_store l = (s, h) -> ids_distinct l ->
  forall r, In r (t_orders s) -> existsb (adds_to (or_id r)) h = false -> or_total r = wrap64 (stored_amount s (or_id r)).
Proof.
  intros valid l s h H D r I A. destruct (C74_total_is_that_of_the_latest_addition valid l s h H r I) as (z & L & T).
  unfold stored_amount. destruct (C75_rows_are_the_requested valid l s h (or_id r) H) as [K1 K2]. rewrite K1, K2, T. f_equal.
  apply created_once; auto. rewrite (history_requests _ _ _ _ _ H). exact D.
Qed.
Definition ex_history : list request :=
  [RCreate "o1" "u1" [mkItem "i1" "A1" "pen" 250 4; mkItem "i2" "B2" "book" 3000 1] [mkCoupon "k1" "SPRING" "none" 500];
   RCreate "o2" "u2" [mkItem "i3" "A1" "pen" 250 1] [];
   RAddItem "nope" (mkItem "i4" "C3" "ink" 120 2);
   RUpdate "o2" (Some "gift"%string)].
(** Afterwards it is not: one more item, or one more coupon, and the stored total is theirs alone. *)
Theorem C74_stored_total_refuted :
  ~ (forall l s h, history accept_all empty_store l = (s, h) -> ids_distinct l ->
     forall r, In r (t_orders s) -> or_total r = wrap64 (stored_amount s (or_id r))).
Proof.
  intros H. pose (l := ex_history ++ [RAddCoupon "o1" (mkCoupon "k2" "SUMMER" "none" 300)]).
  specialize (H l (fst (history accept_all empty_store l)) (snd (history accept_all empty_store l)) (surjective_pairing _)).
  assert (D : ids_distinct l).
  { unfold ids_distinct. vm_compute. repeat (constructor; [cbn; intuition discriminate|]). constructor. }
  specialize (H D (mkORow "o1" "u1" (-300) "-")). assert (I : In (mkORow "o1" "u1" (-300) "-") (t_orders (fst (history accept_all empty_store l)))) by (vm_compute; auto).
  specialize (H I). vm_compute in H. discriminate H.
Qed.
Theorem C74_example : exists s h, history accept_all empty_store ex_history = (s, h) /\ ids_distinct ex_history /\ map snd h = [true; true; false; true]
  /\ t_orders s = [mkORow "o1" "u1" 3500 "-"; mkORow "o2" "u2" 250 "gift"] /\ stored_amount s "o1" = 3500 /\ existsb (adds_to "o1") h = false.
Proof.
  eexists. eexists. split; [vm_compute; reflexivity|]. split.
  - unfold ids_distinct. vm_compute. repeat (constructor; [cbn; intuition discriminate|]). constructor.
  - repeat split; reflexivity.
Qed.

(* ------------------------------------------------------------ C75: what GetOrder shows *)
Lemma history_nodup valid l s s' h : NoDup (order_ids s) -> history valid s l = (s', h) -> NoDup (order_ids s').
Proof.
  revert s h. induction l as [|q t IH]; intros s h N H; cbn in H.
  - inversion H; subst; auto.
  - destruct (handle valid s q) as [s1 b] eqn:E. destruct (history valid s1 t) as [s2 h2] eqn:G. inversion H; subst. eapply IH; [|exact G].
    destruct (handle_effect valid s q s1 b N E) as [[-> F]|[-> ->]]; auto. eapply effect_nodup; eauto.
Qed.
Lemma find_order_row s r : NoDup (order_ids s) -> In r (t_orders s) -> find_order s (or_id r) = Some r.
Proof.
  intros N I. destruct (find_order s (or_id r)) as [x|] eqn:F.
  - destruct (find_order_In _ _ _ F) as [A B]. f_equal. eapply nodup_same_row; eauto.
  - exfalso. apply (find_none _ _ F) in I. cbn in I. rewrite String.eqb_refl in I. discriminate.
Qed.
(** GetOrder shows the order's own user and total, and of the coupons exactly those requested for it, with their rules and
    discounts, in order. *)
Theorem C75_order_shown_partial : forall valid l s h r, history valid empty_store l = (s, h) -> In r (t_orders s) ->
  exists v, getOrder s (or_id r) = Some v /\ ov_id v = or_id r /\ ov_user v = or_user r /\ ov_total v = or_total r
    /\ ov_coupons v = map (fun c => mkCView (k_id c) (k_rule c) (k_discount c)) (requested_coupons (or_id r) h).
Proof.
  intros valid l s h r H I. pose proof (history_nodup valid l empty_store s h (NoDup_nil _) H) as N.
  unfold getOrder. rewrite (find_order_row s r N I). eexists. split; [reflexivity|]. cbn. repeat split.
  destruct (C75_rows_are_the_requested valid l s h (or_id r) H) as [_ K]. rewrite <- K. unfold coupons_of. rewrite map_map. apply map_ext. reflexivity.
Qed.
(** Whatever items a view shows, each is an item row, shown with its own code, name, price and count. *)
Theorem C75_shown_items_are_rows : forall s oid v i, getOrder s oid = Some v -> In i (ov_items v) ->
  exists x, In x (t_items s) /\ iv_code i = ir_code x /\ iv_name i = ir_name x /\ iv_price i = ir_price x /\ iv_count i = ir_count x.
Proof.
  intros s oid v i H Hi. unfold getOrder in H. destruct (find_order s oid) as [r|]; [|discriminate H]. injection H as <-. cbn [ov_items] in Hi.
  apply in_map_iff in Hi. destruct Hi as (x & <- & Hx). exists x. unfold getOrderSaleItems in Hx. apply filter_In in Hx. split; [apply Hx|]. cbn. auto.
Qed.
Lemma keys_ok_nodup new : forall old, NoDup old -> keys_ok old new = true -> NoDup (old ++ new).
Proof.
  induction new as [|x t IH]; intros old N K; cbn [keys_ok] in K; [now rewrite app_nil_r|]. apply andb_true_iff in K. destruct K as [K1 K2].
  assert (Nx : ~ In x old). { intros I. apply negb_true_iff in K1. assert (existsb (String.eqb x) old = true); [|congruence]. apply existsb_exists. exists x. split; auto. apply String.eqb_refl. }
  specialize (IH (x :: old) ltac:(constructor; auto) K2). cbn in IH. apply (Permutation_NoDup (l := x :: old ++ t)); auto. apply Permutation_middle.
Qed.
Definition row_ids (s : store) : list string * list string := (map ir_id (t_items s), map cr_id (t_coupons s)).
Lemma handle_row_ids valid s q s' b : NoDup (fst (row_ids s)) /\ NoDup (snd (row_ids s)) -> handle valid s q = (s', b) -> NoDup (fst (row_ids s')) /\ NoDup (snd (row_ids s')).
Proof.
  unfold row_ids. cbn [fst snd]. intros [N1 N2] H.
  assert (L : forall o0 o s1 c, save_loaded s o0 o = (s1, c) -> NoDup (map ir_id (t_items s1)) /\ NoDup (map cr_id (t_coupons s1))).
  { intros o0 o s1 c E. unfold save_loaded in E. destruct (keys_ok (map ir_id (t_items s)) (map i_id (o_items o))) eqn:K1; cbn [andb] in E; [|injection E as <- _; auto].
    destruct (keys_ok (map cr_id (t_coupons s)) (map k_id (o_coupons o))) eqn:K2; [|injection E as <- _; auto]. injection E as <- _. cbn [t_items t_coupons]. rewrite !map_app, !map_map. cbn [item_row_of coupon_row_of ir_id cr_id]. split; now apply keys_ok_nodup. }
  assert (W : forall oid f s1 c, with_loaded s oid f = (s1, c) -> NoDup (map ir_id (t_items s1)) /\ NoDup (map cr_id (t_coupons s1))).
  { intros oid f s1 c E. unfold with_loaded in E. destruct (String.eqb oid ""); [injection E as <- _; auto|]. destruct (find_order s oid) as [r|]; [|injection E as <- _; auto]. destruct (f (load_root r)) as [o []]; [eauto|injection E as <- _; auto]. }
  destruct q as [oid u items coupons|oid i|oid c|oid r|oid]; unfold handle in H; [|eapply W; exact H..|].
  - destruct (newOrder valid u items coupons) as [o|]; [|injection H as <- _; auto]. cbn zeta in H. cbn [o_items o_coupons] in H.
    destruct (keys_ok (map or_id (t_orders s)) [oid]); cbn [andb] in H; [|injection H as <- _; auto]. destruct (keys_ok (map ir_id (t_items s)) (map i_id (o_items o))) eqn:K1; cbn [andb] in H; [|injection H as <- _; auto].
    destruct (keys_ok (map cr_id (t_coupons s)) (map k_id (o_coupons o))) eqn:K2; [|injection H as <- _; auto]. injection H as <- _. cbn [t_items t_coupons]. rewrite !map_app, !map_map. cbn [item_row_of coupon_row_of ir_id cr_id]. split; now apply keys_ok_nodup.
  - injection H as <- _. cbn. auto.
Qed.
(** No order, item or coupon is ever stored twice, whatever ids requests bring. *)
Theorem C75_no_row_twice : forall valid l s h, history valid empty_store l = (s, h) ->
  NoDup (map or_id (t_orders s)) /\ NoDup (map ir_id (t_items s)) /\ NoDup (map cr_id (t_coupons s)).
Proof.
  intros valid l s h H. split; [exact (history_nodup valid l empty_store s h (NoDup_nil _) H)|].
  assert (G : forall l s s' h, NoDup (fst (row_ids s)) /\ NoDup (snd (row_ids s)) -> history valid s l = (s', h) -> NoDup (fst (row_ids s')) /\ NoDup (snd (row_ids s'))).
  { clear. induction l as [|q l IH]; intros s s' h N H; cbn [history] in H; [injection H as <- _; auto|]. destruct (handle valid s q) as [s1 b] eqn:E. destruct (history valid s1 l) as [s2 h2] eqn:E2. injection H as <- _. eapply IH; [|exact E2]. eapply handle_row_ids; eauto. }
  apply (G l empty_store s h); auto. cbn. split; constructor.
Qed.
(** An order that is not stored is not shown. *)
Theorem C75_missing_order : forall s oid, ~ In oid (order_ids s) -> getOrder s oid = None.
Proof.
  intros s oid N. unfold getOrder. destruct (find_order s oid) as [r|] eqn:F; auto. apply find_order_In in F. destruct F as [A B].
  exfalso. apply N. rewrite <- B. now apply in_map.
Qed.
Lemma order_created valid l s s' h : history valid s l = (s', h) -> forall oid, In oid (order_ids s') -> NoDup (order_ids s) ->
  In oid (order_ids s) \/ exists u items coupons, In (RCreate oid u items coupons) l.
Proof.
  revert s h. induction l as [|q t IH]; intros s h H oid I N; cbn in H.
  - inversion H; subst; auto.
  - destruct (handle valid s q) as [s1 b] eqn:E. destruct (history valid s1 t) as [s2 h2] eqn:G. inversion H; subst.
    destruct (handle_effect valid s q s1 b N E) as [[-> F]|[-> ->]].
    + destruct (IH s1 h2 G oid I (effect_nodup _ _ _ N F)) as [K|(u & it & c & K)]; [|right; exists u, it, c; now right].
      assert (M : In oid (order_ids s) \/ exists u items coupons, q = RCreate oid u items coupons).
      { unfold order_ids in *. destruct F as [o u items coupons z F Z|o i r Ir O|o c r Ir O|o m r Ir O|o]; cbn [t_orders] in K.
        - rewrite map_app, in_app_iff in K. destruct K as [K|[K|[]]]; auto. cbn in K. subst. right. eauto.
        - left. rewrite map_map in K. apply in_map_iff in K. destruct K as (x & X & Hx). apply in_map_iff. exists x. destruct (String.eqb_spec (or_id x) o); cbn in X; split; auto; congruence.
        - left. rewrite map_map in K. apply in_map_iff in K. destruct K as (x & X & Hx). apply in_map_iff. exists x. destruct (String.eqb_spec (or_id x) o); cbn in X; split; auto; congruence.
        - left. rewrite map_map in K. apply in_map_iff in K. destruct K as (x & X & Hx). apply in_map_iff. exists x. destruct (String.eqb_spec (or_id x) o); cbn in X; split; auto; congruence.
        - left. apply in_map_iff in K. destruct K as (x & X & Hx). apply filter_In in Hx. apply in_map_iff. exists x. tauto. }
      destruct M as [M|(u & it & c & ->)]; [auto|right; exists u, it, c; now left].
    + destruct (IH s h2 G oid I N) as [K|(u & it & c & K)]; [auto|right; exists u, it, c; now right].
Qed.
Lemma firstn_In_weak {A} n (l : list A) x : In x (firstn n l) -> In x l.
Proof. revert l. induction n as [|n IH]; intros [|y t]; cbn; try tauto. intros [H|H]; auto. Qed.
Lemma skipn_In_weak {A} n (l : list A) x : In x (skipn n l) -> In x l.
Proof. revert l. induction n as [|n IH]; intros [|y t]; cbn; try tauto. auto. Qed.
Definition brings_item (i : item) (q : request) : Prop :=
  match q with RCreate _ _ items _ => In i items | RAddItem _ j => j = i | _ => False end.
Lemma item_requested valid l s s' h : NoDup (order_ids s) -> history valid s l = (s', h) -> forall x, In x (t_items s') ->
  In x (t_items s) \/ exists q i, In q l /\ brings_item i q /\ i_id i = ir_id x.
Proof.
  revert s h. induction l as [|q t IH]; intros s h N H x I; cbn in H.
  - inversion H; subst; auto.
  - destruct (handle valid s q) as [s1 b] eqn:E. destruct (history valid s1 t) as [s2 h2] eqn:G. inversion H; subst.
    destruct (handle_effect valid s q s1 b N E) as [[-> F]|[-> ->]].
    + destruct (IH s1 h2 (effect_nodup _ _ _ N F) G x I) as [K|(q' & i & A & B & C)]; [|right; exists q', i; split; [now right|auto]].
      destruct F as [o u items coupons z F Z|o i r Ir O|o c r Ir O|o m r Ir O|o]; cbn [t_items] in K; auto.
      * apply in_app_or in K. destruct K as [K|K]; auto. apply in_map_iff in K. destruct K as (i & <- & Hi).
        right. exists (RCreate o u items coupons), i. split; [now left|]. auto.
      * apply in_app_or in K. destruct K as [K|[<- |[]]]; auto. right. exists (RAddItem o i), i. split; [now left|]. cbn. auto.
    + destruct (IH s h2 N G x I) as [K|(q' & i & A & B & C)]; [auto|right; exists q', i; split; [now right|auto]].
Qed.
Lemma in_two {A B} (g : A -> list B) l (q q' : A) x : NoDup (flat_map g l) -> In q l -> In q' l -> In x (g q) -> In x (g q') -> q = q'.
Proof.
  intros N I I' X Y. revert N I I'. induction l as [|a t IH]; cbn; intros N I I'; [tauto|].
  assert (Nt : NoDup (flat_map g t) /\ forall z, In z (g a) -> ~ In z (flat_map g t)).
  { clear -N. induction (g a) as [|z gt IHg]; cbn in N; [split; auto|]. inversion N; subst. destruct (IHg H2) as [A1 A2]. split; auto.
    intros w [<- |W]; auto. intros K. apply H1. apply in_or_app. now right. }
  destruct Nt as [N1 N2]. destruct I as [-> |I], I' as [-> |I']; auto.
  - exfalso. apply (N2 x X). apply in_flat_map. eauto.
  - exfalso. apply (N2 x Y). apply in_flat_map. eauto.
Qed.
Lemma nodup_part {A B} (g : A -> list B) l q : NoDup (flat_map g l) -> In q l -> NoDup (g q).
Proof.
  induction l as [|a t IH]; cbn; intros N I; [tauto|]. destruct I as [-> |I].
  - clear IH. induction (g q) as [|z gt IHg]; cbn in N; constructor; inversion N; subst; auto. intros K. apply H1. apply in_or_app. now left.
  - apply IH; auto. clear -N. induction (g a); cbn in N; auto. inversion N; auto.
Qed.
(** But no item of any order is ever shown: the query compares the items' own id with the order's. *)
Theorem C75_items_never_shown_refuted : forall valid l s h oid v, history valid empty_store l = (s, h) -> ids_distinct l ->
  getOrder s oid = Some v -> ov_items v = [].
Proof.
  intros valid l s h oid v H D G. unfold getOrder in G. destruct (find_order s oid) as [r|] eqn:F; [|discriminate]. inversion G; subst v. cbn. clear G.
  apply find_order_In in F. destruct F as [I O]. subst oid.
  assert (Q : getOrderSaleItems s (or_id r) = []); [|now rewrite Q].
  unfold getOrderSaleItems. destruct (filter (fun x => String.eqb (ir_id x) (or_id r)) (t_items s)) as [|x t] eqn:E; auto. exfalso.
  assert (X : In x (filter (fun x => String.eqb (ir_id x) (or_id r)) (t_items s))) by (rewrite E; now left).
  apply filter_In in X. destruct X as [X1 X2]. apply String.eqb_eq in X2.
  destruct (item_requested valid l empty_store s h (NoDup_nil _) H x X1) as [[]|(q & i & A & B & C)].
  destruct (order_created valid l empty_store s h H (or_id r) (in_map _ _ _ I) (NoDup_nil _)) as [[]|(u & its & cs & K)].
  unfold ids_distinct in D.
  assert (Y : In (ir_id x) (new_ids q)).
  { destruct q as [o u' items coupons|o j|o c|o m|o]; cbn in B |- *; try tauto.
    - right. apply in_or_app. left. rewrite <- C. now apply in_map.
    - left. congruence. }
  assert (W : In (ir_id x) (new_ids (RCreate (or_id r) u its cs))) by (cbn; auto).
  assert (EQ : q = RCreate (or_id r) u its cs) by (apply (in_two new_ids l q _ (ir_id x) D A K Y W)).
  subst q. pose proof (nodup_part new_ids l _ D K) as ND. cbn in ND, B. inversion ND; subst. apply H2. rewrite <- X2, <- C. apply in_or_app. left. now apply in_map.
Qed.
Lemma C75_example_view : exists s h v, history accept_all empty_store ex_history = (s, h) /\ ids_distinct ex_history /\ getOrder s "o1" = Some v /\
  ov_items v = [] /\ requested_items "o1" h = [mkItem "i1" "A1" "pen" 250 4; mkItem "i2" "B2" "book" 3000 1].
Proof.
  do 3 eexists. split; [vm_compute; reflexivity|]. split; [|split; [vm_compute; reflexivity|split; reflexivity]].
  unfold ids_distinct. vm_compute. repeat (constructor; [cbn; intuition discriminate|]). constructor.
Qed.
Theorem C75_shows_items_refuted :
  ~ (forall l s h oid v, history accept_all empty_store l = (s, h) -> ids_distinct l -> getOrder s oid = Some v ->
     ov_items v = map (fun i => mkIView (i_code i) (i_name i) (i_price i) (i_count i)) (requested_items oid h)).
Proof.
  intros H. destruct C75_example_view as (s & h & v & E & D & G & I & R). specialize (H ex_history s h "o1"%string v E D G). rewrite I, R in H. discriminate.
Qed.
(** The id shown for a coupon is that of the row, not the coupon's own. *)
Theorem C75_coupon_id_refuted :
  exists s h v, history accept_all empty_store ex_history = (s, h) /\ getOrder s "o1" = Some v /\
    map cv_id (ov_coupons v) = ["k1"%string] /\ map k_coupon (requested_coupons "o1" h) = ["SPRING"%string].
Proof. do 3 eexists. split; [vm_compute; reflexivity|]. split; [vm_compute; reflexivity|]. split; reflexivity. Qed.

(* ------------------------------------------------------------ C76: deletion *)
(** A deleted order is no longer shown, updated or added to; every other order is as before. *)
Theorem C76_order_gone_partial : forall valid s oid s' b, handle valid s (RDelete oid) = (s', b) ->
  b = true /\ getOrder s' oid = None
  /\ (forall i, handle valid s' (RAddItem oid i) = (s', false)) /\ (forall c, handle valid s' (RAddCoupon oid c) = (s', false))
  /\ (forall m, handle valid s' (RUpdate oid m) = (s', false))
  /\ (forall oid', oid' <> oid -> getOrder s' oid' = getOrder s oid').
Proof.
  intros valid s oid s' b H. cbn [handle] in H. inversion H; subst; clear H. set (s' := mkStore _ _ _).
  assert (F : find_order s' oid = None).
  { unfold find_order, s'. cbn. induction (t_orders s) as [|x t IH]; cbn; auto. destruct (String.eqb (or_id x) oid) eqn:E; cbn; auto. now rewrite E. }
  assert (L : forall f, with_loaded s' oid f = (s', false)). { intros f. unfold with_loaded. rewrite F. destruct (String.eqb oid ""); auto. }
  split; auto. split; [unfold getOrder; now rewrite F|]. split; [intros; apply L|]. split; [intros; apply L|]. split; [intros; apply L|].
  intros oid' D. unfold getOrder. assert (E : find_order s' oid' = find_order s oid').
  { unfold find_order, s'. cbn. clear -D. induction (t_orders s) as [|x t IH]; cbn; auto. destruct (String.eqb_spec (or_id x) oid) as [X|X]; cbn.
    - destruct (String.eqb_spec (or_id x) oid'); [congruence|exact IH].
    - destruct (String.eqb (or_id x) oid'); [reflexivity|exact IH]. }
  rewrite E. destruct (find_order s oid'); reflexivity.
Qed.
(** But all its items and coupons stay, whatever happens before or after. *)
Theorem C76_rows_remain_refuted : forall valid l1 oid l2 s h, history valid empty_store (l1 ++ RDelete oid :: l2) = (s, h) ->
  items_of s oid = requested_items oid h /\ coupons_of s oid = requested_coupons oid h.
Proof. intros. eapply C75_rows_are_the_requested; eauto. Qed.
Theorem C76_nothing_remains_refuted :
  ~ (forall l oid s h, history accept_all empty_store (l ++ [RDelete oid]) = (s, h) -> items_of s oid = []).
Proof.
  intros H. specialize (H ex_history "o1"%string _ _ (surjective_pairing _)). vm_compute in H. discriminate H.
Qed.
(** Deleting an order that does not exist reports success (and raises the event). *)
Theorem C76_missing_order_refuted : forall valid s oid, ~ In oid (order_ids s) -> snd (handle valid s (RDelete oid)) = true /\ raised (RDelete oid) = [OrderDeleted oid].
Proof. intros. split; reflexivity. Qed.

(* ------------------------------------------------------------ C77: events *)
Definition own_handler (e : sale_event) : list handled :=
  match e with OrderCreated o => [HOrderCreated o] | SaleItemAdded o i => [HSaleItemAdded o i] | _ => [] end.
(** An event reaches the handler registered for its kind, with its contents, and no other - unless it is a coupon event. *)
Theorem C77_own_handler_partial : forall e, (forall o c, e <> CouponAdded o c) -> on_event e = own_handler e.
Proof. intros [o|o|o i|o c] N; try reflexivity. now specialize (N o c). Qed.
(** Events of different kinds have different types - unless one of them is a coupon event. *)
Definition kind_of (e : sale_event) : nat := match e with OrderCreated _ => 0 | OrderDeleted _ => 1 | SaleItemAdded _ _ => 2 | CouponAdded _ _ => 3 end%nat.
Theorem C77_types_differ_partial : forall e e', kind_of e <> 3%nat -> kind_of e' <> 3%nat -> kind_of e <> kind_of e' -> sale_type e <> sale_type e'.
Proof. intros [o|o|o i|o c] [o'|o'|o' i'|o' c'] A B C; cbn in *; try congruence; discriminate. Qed.
(** Every coupon event is handled as the addition of an item without id. *)
Theorem C77_coupon_event_refuted : forall o c, on_event (CouponAdded o c) = [HSaleItemAdded o ""] /\ sale_type (CouponAdded o c) = sale_type (SaleItemAdded o c).
Proof. intros. split; reflexivity. Qed.
(** All events of an order have the order as sender: on an ordered bus they are handled in the order of dispatch. *)
Definition order_of (q : request) : string := match q with RCreate o _ _ _ | RAddItem o _ | RAddCoupon o _ | RUpdate o _ | RDelete o => o end.
Theorem C77_sender_is_the_order : forall q e, In e (raised q) -> sale_sender e = order_of q.
Proof.
  intros [o u items coupons|o i|o c|o m|o] e I; cbn in I.
  - destruct I as [<- |I]; auto. apply in_app_or in I. destruct I as [I|I]; apply in_map_iff in I; destruct I as (x & <- & _); reflexivity.
  - destruct I as [<- |[]]; auto.
  - destruct I as [<- |[]]; auto.
  - destruct I.
  - destruct I as [<- |[]]; auto.
Qed.
(** The item events raised by the successful requests of a history for an order name exactly its stored item rows, in order;
    the coupon events its coupon rows. *)
Definition named_items (oid : string) (l : list sale_event) : list string :=
  flat_map (fun e => match e with SaleItemAdded o i => if String.eqb o oid then [i] else [] | _ => [] end) l.
Definition named_coupons (oid : string) (l : list sale_event) : list string :=
  flat_map (fun e => match e with CouponAdded o c => if String.eqb o oid then [c] else [] | _ => [] end) l.
Definition all_raised (h : list (request * bool)) : list sale_event := flat_map (fun x : request * bool => if snd x then raised (fst x) else []) h.
Lemma named_app oid (a b : list sale_event) : named_items oid (a ++ b) = named_items oid a ++ named_items oid b /\ named_coupons oid (a ++ b) = named_coupons oid a ++ named_coupons oid b.
Proof. unfold named_items, named_coupons. now rewrite !flat_map_app. Qed.
Lemma named_maps oid o (items : list item) (coupons : list coupon) :
  named_items oid (map (fun i => SaleItemAdded o (i_id i)) items) = (if String.eqb o oid then map i_id items else []) /\
  named_items oid (map (fun c => CouponAdded o (k_coupon c)) coupons) = [] /\
  named_coupons oid (map (fun i => SaleItemAdded o (i_id i)) items) = [] /\
  named_coupons oid (map (fun c => CouponAdded o (k_coupon c)) coupons) = (if String.eqb o oid then map k_coupon coupons else []).
Proof.
  unfold named_items, named_coupons. destruct (String.eqb o oid) eqn:E; (split; [|split; [|split]]).
  all: try (induction items as [|x t IH]; cbn; rewrite ?E; cbn; congruence).
  all: induction coupons as [|x t IH]; cbn; rewrite ?E; cbn; congruence.
Qed.
Lemma named_requested oid h : named_items oid (all_raised h) = map i_id (requested_items oid h) /\ named_coupons oid (all_raised h) = map k_coupon (requested_coupons oid h).
Proof.
  induction h as [|[q b] t [IH1 IH2]]; [split; reflexivity|]. unfold all_raised, requested_items, requested_coupons in *. cbn [flat_map fst snd].
  rewrite (proj1 (named_app oid _ _)), (proj2 (named_app oid _ _)), !map_app, IH1, IH2.
  assert (K : named_items oid (if b then raised q else []) = map i_id (match (q, b) with (RCreate o _ items _, true) => if String.eqb o oid then items else [] | (RAddItem o i, true) => if String.eqb o oid then [i] else [] | _ => [] end)
           /\ named_coupons oid (if b then raised q else []) = map k_coupon (match (q, b) with (RCreate o _ _ coupons, true) => if String.eqb o oid then coupons else [] | (RAddCoupon o c, true) => if String.eqb o oid then [c] else [] | _ => [] end)).
  { destruct b; [|destruct q; split; reflexivity]. destruct q as [o u items coupons|o i|o c|o m|o]; try (split; reflexivity).
    - cbn [raised]. destruct (named_maps oid o items coupons) as (N1 & N2 & N3 & N4). unfold named_items, named_coupons in *. cbn [flat_map]. cbn [app]. rewrite !flat_map_app, N1, N2, N3, N4, app_nil_r. cbn [app].
      destruct (String.eqb o oid); split; reflexivity.
    - cbn. destruct (String.eqb o oid); split; reflexivity.
    - cbn. destruct (String.eqb o oid); split; reflexivity. }
  destruct K as [-> ->]. split; reflexivity.
Qed.
Theorem C77_events_name_the_rows : forall valid l s h oid, history valid empty_store l = (s, h) ->
  named_items oid (all_raised h) = map i_id (items_of s oid) /\ named_coupons oid (all_raised h) = map k_coupon (coupons_of s oid).
Proof. intros valid l s h oid H. destruct (C75_rows_are_the_requested valid l s h oid H) as [-> ->]. apply named_requested. Qed.
Theorem C77_example : flat_map on_event (raised (RCreate "o1" "u1" [mkItem "i1" "A1" "pen" 250 4] [mkCoupon "k1" "SPRING" "none" 500]))
  = [HOrderCreated "o1"; HSaleItemAdded "o1" "i1"; HSaleItemAdded "o1" ""].
Proof. reflexivity. Qed.

(* ------------------------------------------------------------ C79: listing *)
(** Without time bounds and paging, the list is exactly the user's orders (all orders if no user is given). *)
Theorem C79_list_partial : forall scan s u, (forall l, Permutation (scan l) l) ->
  exists v, getOrderList scan s (mkSearch u None None None) = Some v /\
    Permutation v (map (fun r => mkSView (or_id r) (or_user r) (or_total r)) (filter (fun r => match u with Some u => String.eqb (or_user r) u | None => true end) (t_orders s))).
Proof. intros scan s u P. eexists. split; [reflexivity|]. cbn. apply Permutation_map. apply P. Qed.
(** A page has at most the asked number of entries, all of them the user's orders. *)
Theorem C79_page_partial : forall scan s u off lim v, (forall l, Permutation (scan l) l) -> getOrderList scan s (mkSearch u None None (Some (off, lim))) = Some v ->
  (length v <= lim)%nat /\ forall x, In x v -> exists r, In r (t_orders s) /\ x = mkSView (or_id r) (or_user r) (or_total r) /\ forall w, u = Some w -> or_user r = w.
Proof.
  intros scan s u off lim v P H. cbn in H. inversion H; subst; clear H. split.
  - rewrite map_length, firstn_length. lia.
  - intros x I. apply in_map_iff in I. destruct I as (r & <- & I). exists r. apply firstn_In_weak in I. apply skipn_In_weak in I.
    apply (Permutation_in _ (P _)) in I. apply filter_In in I. destruct I as [A B]. split; auto. split; auto. intros w ->. now apply String.eqb_eq.
Qed.
(** A time bound always fails. *)
Theorem C79_time_bound_refuted : forall scan s u a b p, (a <> None \/ b <> None) -> getOrderList scan s (mkSearch u a b p) = None.
Proof. intros scan s u [a|] [b|] p [H|H]; try reflexivity; now destruct H. Qed.
(** The pages taken one after the other may miss an order and show another one twice: nothing fixes the order. *)
Theorem C79_pages_refuted : exists s scan1 scan2, (forall l, Permutation (scan1 l) l) /\ (forall l, Permutation (scan2 l) l) /\
  getOrderList scan1 s (mkSearch None None None (Some (0, 1)%nat)) = Some [mkSView "o1" "u1" 5] /\
  getOrderList scan2 s (mkSearch None None None (Some (1, 1)%nat)) = Some [mkSView "o1" "u1" 5] /\ length (t_orders s) = 2%nat.
Proof.
  exists (mkStore [mkORow "o1" "u1" 5 "-"; mkORow "o2" "u1" 7 "-"] [] []), (fun l => l), (fun l => rev l). split; [reflexivity|]. split.
  - intros l. symmetry. apply Permutation_rev.
  - repeat split; reflexivity.
Qed.
Theorem C78_example : exists s h, history accept_all empty_store (ex_history ++ [RUpdate "o1" (Some ""%string); RUpdate "o2" None]) = (s, h) /\
  map or_remark (t_orders s) = [""; "gift"]%string /\ latest (remark_set "o1") h = Some ""%string /\ latest (remark_set "o2") h = Some "gift"%string.
Proof. do 2 eexists. split; [vm_compute; reflexivity|]. repeat split; reflexivity. Qed.
Theorem C79_example : getOrderList (fun l => l) (fst (history accept_all empty_store ex_history)) (mkSearch (Some "u2"%string) None None (Some (0, 5)%nat)) = Some [mkSView "o2" "u2" 250].
Proof. vm_compute. reflexivity. Qed.
Print Assumptions C74_total_is_that_of_the_latest_addition.
Print Assumptions C75_items_never_shown_refuted.

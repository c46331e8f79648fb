(** C73: the total of an order aggregate. *)
From Verif Require Import SaleSpec.
Open Scope Z_scope.

Lemma wrap_mod z : wrap64 z mod 2 ^ 64 = z mod 2 ^ 64.
Proof.
  unfold wrap64. rewrite Zminus_mod, Z.mod_mod, <- Zminus_mod by lia. f_equal. lia.
Qed.
Lemma wrap_congr a b : a mod 2 ^ 64 = b mod 2 ^ 64 -> wrap64 a = wrap64 b.
Proof. intros H. unfold wrap64. f_equal. rewrite <- (Zplus_mod_idemp_l a), <- (Zplus_mod_idemp_l b). now rewrite H. Qed.
Lemma wrap_fits z : fits z -> wrap64 z = z.
Proof. unfold fits, wrap64. intros H. rewrite Z.mod_small; lia. Qed.
Lemma wrap_add_l a b : wrap64 (wrap64 a + b) = wrap64 (a + b).
Proof. apply wrap_congr. rewrite <- Zplus_mod_idemp_l, wrap_mod, Zplus_mod_idemp_l. reflexivity. Qed.
Lemma wrap_add_r a b : wrap64 (a + wrap64 b) = wrap64 (a + b).
Proof. rewrite Z.add_comm, wrap_add_l. f_equal. lia. Qed.
Lemma wrap_sub_l a b : wrap64 (wrap64 a - b) = wrap64 (a - b).
Proof. rewrite <- !Z.add_opp_r. apply wrap_add_l. Qed.

Lemma sum_items_eq l z : sum_items l (wrap64 z) = wrap64 (z + fold_right (fun i z => i_price i * i_count i + z) 0 l).
Proof.
  revert z. induction l as [|i t IH]; intros z; cbn [sum_items fold_left fold_right].
  - f_equal. lia.
  - unfold sum_items in IH. rewrite wrap_add_r, wrap_add_l, IH. f_equal. lia.
Qed.
Lemma sum_coupons_eq l z : sum_coupons l (wrap64 z) = wrap64 (z - fold_right (fun c z => k_discount c + z) 0 l).
Proof.
  revert z. induction l as [|i t IH]; intros z; cbn [sum_coupons fold_left fold_right].
  - f_equal. lia.
  - unfold sum_coupons in IH. rewrite wrap_sub_l, IH. f_equal. lia.
Qed.
Lemma calPrice_spec o : o_total (calPrice o) = wrap64 (amount (o_items o) (o_coupons o)) /\ o_items (calPrice o) = o_items o
  /\ o_coupons (calPrice o) = o_coupons o /\ (o_dirty (calPrice o) = true \/ o_total (calPrice o) = o_total o /\ o_dirty (calPrice o) = o_dirty o)
  /\ (o_dirty o = true -> o_dirty (calPrice o) = true)
  /\ o_id (calPrice o) = o_id o /\ o_user (calPrice o) = o_user o /\ o_remark (calPrice o) = o_remark o.
Proof.
  assert (S : sum_coupons (o_coupons o) (sum_items (o_items o) 0) = wrap64 (amount (o_items o) (o_coupons o))).
  { change 0 with (wrap64 0) at 1. rewrite sum_items_eq, sum_coupons_eq. unfold amount. now rewrite Z.add_0_l. }
  unfold calPrice. cbv zeta. rewrite S.
  destruct (Z.eqb_spec (o_total o) (wrap64 (amount (o_items o) (o_coupons o)))) as [E|E]; cbn [with_total o_total o_items o_coupons o_dirty o_id o_user o_remark];
    repeat split; auto.
Qed.

Section C73.
  Variable valid : order -> string -> bool.

  Lemma checked_ok o o' : checked valid o = (o', true) -> o' = calPrice (with_coupons o (o_coupons o)).
  Proof.
    unfold checked, fixCoupons. destruct (filter (fun c => negb (valid o (k_rule c))) (o_coupons o)) as [|x t] eqn:E; intros H; inversion H; subst.
    f_equal. f_equal. clear H. revert E. induction (o_coupons o) as [|c l IH]; cbn; auto.
    destruct (valid o (k_rule c)); cbn; intros E; [|discriminate]. now rewrite IH.
  Qed.

  (** After every operation that recomputes it and reports success, the total is the amount of the items and coupons then in the
      order (in int64 arithmetic). *)
  Theorem C73_total_after_operation : forall o x o', do_op valid o x = (o', true) -> (forall r, x <> OUpdate r) ->
    o_total o' = wrap64 (amount (o_items o') (o_coupons o')) /\ (fits (amount (o_items o') (o_coupons o')) -> o_total o' = amount (o_items o') (o_coupons o')).
  Proof.
    assert (K : forall o, o_total (calPrice o) = wrap64 (amount (o_items (calPrice o)) (o_coupons (calPrice o))) /\
      (fits (amount (o_items (calPrice o)) (o_coupons (calPrice o))) -> o_total (calPrice o) = amount (o_items (calPrice o)) (o_coupons (calPrice o)))).
    { intros o. destruct (calPrice_spec o) as (H1 & H2 & H3 & _). rewrite H1, H2, H3. split; auto. intros; now apply wrap_fits. }
    intros o x o' H N. destruct x as [i|id|c|id|r]; cbn in H.
    - inversion H. apply K.
    - inversion H. apply K.
    - apply checked_ok in H. subst. apply K.
    - apply checked_ok in H. subst. apply K.
    - now specialize (N r).
  Qed.

  Definition total_right (o : order) : Prop :=
    o_total o = wrap64 (amount (o_items o) (o_coupons o)) /\ (fits (amount (o_items o) (o_coupons o)) -> o_total o = amount (o_items o) (o_coupons o)).

  (** Whatever operations follow each other on an order whose total is right - each reporting success - it stays right. *)
  Theorem C73_total_stays_right : forall o l o', total_right o -> all_succeed valid o l o' -> total_right o'.
  Proof.
    intros o l o' H A. induction A as [|o x o1 l o2 E A IH]; auto. apply IH.
    destruct x as [i|id|c|id|r]; try (eapply C73_total_after_operation; [exact E|discriminate]).
    cbn in E. inversion E; subst. exact H.
  Qed.

  Lemma add_items_right o l : total_right o -> total_right (add_items valid o l).
  Proof.
    revert o. induction l as [|i t IH]; intros o H; cbn; auto. apply IH.
    apply (C73_total_after_operation o (OAddItem i)); [reflexivity|discriminate].
  Qed.
  Lemma add_coupons_right o l o' : total_right o -> add_coupons valid o l = Some o' -> total_right o'.
  Proof.
    revert o. induction l as [|c t IH]; intros o H E; cbn [add_coupons] in E.
    - inversion E; subst; exact H.
    - destruct (addCoupon valid o c) as [o1 [|]] eqn:F; [|discriminate]. apply (IH o1); auto.
      apply (C73_total_after_operation o (OAddCoupon c)); [exact F|discriminate].
  Qed.
  (** ... and a new order starts with the right total. *)
  Theorem C73_new_order : forall user items coupons o, newOrder valid user items coupons = Some o -> total_right o.
  Proof.
    intros user items coupons o E. eapply add_coupons_right; [|exact E]. apply add_items_right. split; intros; reflexivity.
  Qed.

  (** A changed total is always marked for storing, and a mark is never lost. *)
  Theorem C73_change_is_marked : forall o x o' b, do_op valid o x = (o', b) ->
    (o_total o' <> o_total o \/ o_remark o' <> o_remark o -> o_dirty o' = true) /\ (o_dirty o = true -> o_dirty o' = true).
  Proof.
    assert (K : forall o o1, o_total o1 = o_total o -> o_remark o1 = o_remark o -> o_dirty o1 = o_dirty o ->
      (o_total (calPrice o1) <> o_total o \/ o_remark (calPrice o1) <> o_remark o -> o_dirty (calPrice o1) = true) /\ (o_dirty o = true -> o_dirty (calPrice o1) = true)).
    { intros o o1 E1 E2 E3. destruct (calPrice_spec o1) as (_ & _ & _ & D & D' & _ & _ & R). rewrite R, E2. split.
      - intros [C|C]; [|congruence]. destruct D as [D|[D _]]; [exact D|congruence].
      - rewrite <- E3. exact D'. }
    assert (L : forall o o1, o_total o1 = o_total o -> o_remark o1 = o_remark o -> o_dirty o1 = o_dirty o -> forall o' b, checked valid o1 = (o', b) ->
      (o_total o' <> o_total o \/ o_remark o' <> o_remark o -> o_dirty o' = true) /\ (o_dirty o = true -> o_dirty o' = true)).
    { intros o o1 E1 E2 E3 o' b H. unfold checked, fixCoupons in H.
      destruct (filter (fun c => negb (valid o1 (k_rule c))) (o_coupons o1)); inversion H; subst.
      - apply K; assumption.
      - cbn. rewrite E1, E2, E3. split; auto. intros [C|C]; congruence. }
    intros o x o' b H. destruct x as [i|id|c|id|r]; cbn [do_op] in H.
    - inversion H; subst. apply K; reflexivity.
    - inversion H; subst. apply K; reflexivity.
    - eapply L; [| | |exact H]; reflexivity.
    - eapply L; [| | |exact H]; reflexivity.
    - inversion H; subst. cbn. auto.
  Qed.
End C73.

Lemma filter_all {A} (l : list A) : filter (fun _ => true) l = l.
Proof. induction l; cbn; congruence. Qed.
(** With the rule engine of the source the order holds exactly what was added and not removed. *)
Theorem C73_contents : forall o x o' b, do_op accept_all o x = (o', b) ->
  b = true /\ o_items o' = items_after (o_items o) x /\ o_coupons o' = coupons_after (o_coupons o) x.
Proof.
  assert (K : forall o1 o' b, checked accept_all o1 = (o', b) -> b = true /\ o_items o' = o_items o1 /\ o_coupons o' = o_coupons o1).
  { intros o1 o' b H. unfold checked, fixCoupons, accept_all in H.
    assert (N : forall l : list coupon, filter (fun _ => negb true) l = []) by (induction l; auto).
    rewrite N in H. inversion H; subst. destruct (calPrice_spec (with_coupons o1 (filter (fun _ => true) (o_coupons o1)))) as (_ & A & B & _).
    rewrite A, B. cbn. rewrite filter_all. auto. }
  intros o x o' b H. destruct x as [i|id|c|id|r]; cbn [do_op] in H.
  - inversion H; subst. unfold addSaleItem, fixCoupons, accept_all. cbn [snd].
    match goal with |- context [calPrice ?q] => destruct (calPrice_spec q) as (_ & A & B & _) end. rewrite A, B. cbn. rewrite filter_all. auto.
  - inversion H; subst. unfold deleteSaleItem, fixCoupons, accept_all. cbn [snd].
    match goal with |- context [calPrice ?q] => destruct (calPrice_spec q) as (_ & A & B & _) end. rewrite A, B. cbn. rewrite filter_all. auto.
  - apply K in H. exact H.
  - apply K in H. exact H.
  - inversion H; subst. cbn. auto.
Qed.

(** Witness: an order built and changed; and a rule engine that refuses one rule. *)
Definition ex_items : list item := [mkItem "" "A1" "pen" 250 4; mkItem "" "B2" "book" 3000 1].
Definition ex_coupon : coupon := mkCoupon "" "SPRING" "none" 500.
Definition no_summer : order -> string -> bool := fun _ r => negb (String.eqb r "summer").
Theorem C73_example :
  (exists o, newOrder accept_all "u1" ex_items [ex_coupon] = Some o /\ o_total o = 3500 /\
     exists o', all_succeed accept_all o [OAddItem (mkItem "" "C3" "ink" 120 2); OUpdate (Some "gift"%string); ODeleteCoupon ""] o' /\ o_total o' = 4240 /\ o_dirty o' = true)
  /\ newOrder no_summer "u1" ex_items [mkCoupon "" "S" "summer" 1] = None
  /\ o_total (addSaleItem accept_all (mkOrder "" "u1" 0 "" [] [] false) (mkItem "" "C" "gold" (2 ^ 62) 2)) = - 2 ^ 63.
Proof.
  split; [|split; vm_compute; reflexivity].
  eexists. split; [vm_compute; reflexivity|]. split; [reflexivity|]. eexists. split.
  - repeat (eapply as_cons; [vm_compute; reflexivity|]). apply as_nil.
  - split; reflexivity.
Qed.

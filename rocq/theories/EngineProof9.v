(** makeActions: the actions handed to the executor. *)
From Verif Require Export MoveSpec MoveProof GraphProof5 EngineProof8 ActionSpec.
From Verif Require Import EngineModel.

Lemma op_eqb_spec a b : op_eqb a b = true <-> a = b.
Proof. destruct a, b; cbn; split; congruence. Qed.
Lemma tkey_eqb_spec a b : tkey_eqb a b = true <-> a = b.
Proof.
  destruct a, b. unfold tkey_eqb. cbn. rewrite andb_true_iff, op_eqb_spec, Nat.eqb_eq. split; [intros [-> ->]; auto|intros [= -> ->]; auto].
Qed.
Lemma tkey_eqb_refl a : tkey_eqb a a = true. Proof. now apply tkey_eqb_spec. Qed.
Lemma tkey_eqb_sym a b : tkey_eqb a b = tkey_eqb b a.
Proof. destruct (tkey_eqb b a) eqn:E; [apply tkey_eqb_spec in E; subst; apply tkey_eqb_refl|].
  destruct (tkey_eqb a b) eqn:F; auto. apply tkey_eqb_spec in F. subst. rewrite tkey_eqb_refl in E. discriminate. Qed.

Lemma ta_get_set k a k' l : ta_get k' (ta_set k a l) = if tkey_eqb k' k then Some a else ta_get k' l.
Proof.
  induction l as [|[x b] t IH]; cbn; [reflexivity|].
  destruct (tkey_eqb k x) eqn:E.
  - apply tkey_eqb_spec in E. subst x. cbn. destruct (tkey_eqb k' k); reflexivity.
  - cbn. rewrite IH. destruct (tkey_eqb k' x) eqn:F; [|reflexivity].
    apply tkey_eqb_spec in F. subst x. rewrite tkey_eqb_sym, E. reflexivity.
Qed.
Lemma ta_keys_set k a l x : In x (map fst (ta_set k a l)) <-> x = k \/ In x (map fst l).
Proof.
  induction l as [|[y b] t IH]; cbn; [intuition|].
  destruct (tkey_eqb k y) eqn:E; cbn; [apply tkey_eqb_spec in E; subst; intuition|]. rewrite IH. intuition.
Qed.
Lemma ta_nodup_set k a l : NoDup (map fst l) -> NoDup (map fst (ta_set k a l)).
Proof.
  induction l as [|[y b] t IH]; cbn; intros H; [repeat constructor; auto|].
  inversion H as [|? ? H1 H2]; subst. destruct (tkey_eqb k y) eqn:E; cbn.
  - apply tkey_eqb_spec in E. subst. now constructor.
  - constructor; [|auto]. rewrite ta_keys_set. intros [->|Hx]; [rewrite tkey_eqb_refl in E; discriminate|tauto].
Qed.
Lemma ta_get_None k l : ~ In k (map fst l) -> ta_get k l = None.
Proof.
  induction l as [|[y b] t IH]; cbn; intros H; [reflexivity|]. destruct (tkey_eqb k y) eqn:E; [|auto].
  apply tkey_eqb_spec in E. subst. tauto.
Qed.
Lemma ta_get_del k k' l : NoDup (map fst l) -> ta_get k' (ta_del k l) = if tkey_eqb k' k then None else ta_get k' l.
Proof.
  induction l as [|[y b] t IH]; cbn; intros H; [now destruct (tkey_eqb k' k)|].
  inversion H as [|? ? H1 H2]; subst. destruct (tkey_eqb k y) eqn:E.
  - apply tkey_eqb_spec in E. subst y. destruct (tkey_eqb k' k) eqn:F; [|reflexivity].
    apply tkey_eqb_spec in F. subst. now apply ta_get_None.
  - cbn. rewrite IH by auto. destruct (tkey_eqb k' y) eqn:F; [|reflexivity].
    apply tkey_eqb_spec in F. subst y. rewrite tkey_eqb_sym, E. reflexivity.
Qed.
Lemma ta_nodup_del k l : NoDup (map fst l) -> NoDup (map fst (ta_del k l)).
Proof.
  induction l as [|[y b] t IH]; cbn; intros H; [auto|]. inversion H as [|? ? H1 H2]; subst.
  destruct (tkey_eqb k y); [auto|]. cbn. constructor; auto.
  intros Hx. apply H1. clear - Hx. induction t as [|[z c] u IHu]; cbn in *; [auto|].
  destruct (tkey_eqb k z); [now right|]. cbn in Hx. destruct Hx as [->|Hx]; auto.
Qed.

(* ---------------------------------------------------------------- emit *)
Lemma emit_In o types : forall ta a, NoDup (map fst ta) -> In a (emit o types ta) ->
  exists t, In t types /\ ta_get (o, t) ta = Some a.
Proof.
  induction types as [|t ts IH]; cbn; intros ta a Hn H; [destruct H|].
  destruct (ta_get (o, t) ta) as [b|] eqn:E.
  - destruct H as [<-|H]; [exists t; auto|]. apply IH in H; [|now apply ta_nodup_del]. destruct H as (t' & H1 & H2).
    rewrite ta_get_del in H2 by auto. destruct (tkey_eqb (o, t') (o, t)); [discriminate|]. eauto.
  - apply IH in H; auto. destruct H as (t' & H1 & H2). eauto.
Qed.
Lemma emit_complete o types : forall ta t a, NoDup (map fst ta) -> In t types -> ta_get (o, t) ta = Some a -> In a (emit o types ta).
Proof.
  induction types as [|t0 ts IH]; cbn; intros ta t a Hn Ht H; [destruct Ht|].
  destruct (Nat.eq_dec t0 t) as [->|Hne].
  - rewrite H. now left.
  - destruct Ht as [?|Ht]; [contradiction|]. destruct (ta_get (o, t0) ta) as [b|] eqn:E; [right|]; apply (IH _ t); auto.
    + now apply ta_nodup_del.
    + rewrite ta_get_del by auto. destruct (tkey_eqb (o, t) (o, t0)) eqn:F; auto. apply tkey_eqb_spec in F. congruence.
Qed.
Lemma emit_NoDup o types : forall ta, NoDup (map fst ta) -> (forall t a, ta_get (o, t) ta = Some a -> action_type a = t) ->
  NoDup (map action_type (emit o types ta)).
Proof.
  induction types as [|t0 ts IH]; cbn; intros ta Hn H; [constructor|].
  destruct (ta_get (o, t0) ta) as [b|] eqn:E; [|auto]. cbn.
  assert (Hd : forall t a, ta_get (o, t) (ta_del (o, t0) ta) = Some a -> t <> t0 /\ action_type a = t).
  { intros t a Ha. rewrite ta_get_del in Ha by auto. destruct (tkey_eqb (o, t) (o, t0)) eqn:F; [discriminate|].
    split; [|auto]. intros ->. now rewrite tkey_eqb_refl in F. }
  constructor.
  - intros Hx. apply in_map_iff in Hx. destruct Hx as (a & Ha & Hx). apply emit_In in Hx; [|now apply ta_nodup_del].
    destruct Hx as (t & _ & Hg). destruct (Hd _ _ Hg) as [A B]. rewrite (H _ _ E) in Ha. congruence.
  - apply IH; [now apply ta_nodup_del|]. intros t a Ha. now apply Hd.
Qed.

Definition ty_before (types : list nat) (t u : nat) : Prop := exists l1 l2, types = l1 ++ t :: l2 /\ ~ In u (l1 ++ [t]).
Lemma ty_before_cons x types t u : u <> x -> ty_before types t u -> ty_before (x :: types) t u.
Proof. intros Hn (l1 & l2 & -> & H). exists (x :: l1), l2. split; [reflexivity|]. intros [E|E]; [congruence|auto]. Qed.
Lemma emit_sorted o types : forall ta, NoDup (map fst ta) -> (forall t a, ta_get (o, t) ta = Some a -> action_type a = t) ->
  StronglySorted (fun a b => ty_before types (action_type a) (action_type b)) (emit o types ta).
Proof.
  induction types as [|t ts IH]; cbn; intros ta Hn H; [constructor|].
  assert (W : forall ta', NoDup (map fst ta') -> (forall t' a, ta_get (o, t') ta' = Some a -> t' <> t /\ action_type a = t') ->
    StronglySorted (fun a b => ty_before (t :: ts) (action_type a) (action_type b)) (emit o ts ta')).
  { intros ta' Hn' H'. assert (S := IH ta' Hn' (fun t' a Ha => proj2 (H' t' a Ha))).
    assert (Hin : forall a, In a (emit o ts ta') -> action_type a <> t).
    { intros a Ha. apply emit_In in Ha; auto. destruct Ha as (t' & _ & Ha). apply H' in Ha. destruct Ha. congruence. }
    clear - S Hin. induction S as [|a l S IHS F]; [constructor|]. constructor; [apply IHS; intros; apply Hin; now right|].
    rewrite Forall_forall in *. intros b Hb. apply ty_before_cons; [apply Hin; now right|auto]. }
  destruct (ta_get (o, t) ta) as [b|] eqn:E.
  - assert (Hd : forall t' a, ta_get (o, t') (ta_del (o, t) ta) = Some a -> t' <> t /\ action_type a = t').
    { intros t' a Ha. rewrite ta_get_del in Ha by auto. destruct (tkey_eqb (o, t') (o, t)) eqn:F; [discriminate|].
      split; [|auto]. intros ->. now rewrite tkey_eqb_refl in F. }
    constructor; [apply W; [now apply ta_nodup_del|exact Hd]|].
    apply Forall_forall. intros a Ha. apply emit_In in Ha; [|now apply ta_nodup_del]. destruct Ha as (t' & _ & Ha). apply Hd in Ha.
    destruct Ha as [Ha <-]. rewrite (H _ _ E). exists [], ts. split; [reflexivity|]. intros [X|[]]. congruence.
  - apply W; auto. intros t' a Ha. split; [|auto]. intros ->. congruence.
Qed.

(* ---------------------------------------------------------------- the loop *)
Section Loop.
  Variables (cfg : config) (h : heap) (pl : pool).
  Definition item_contrib (x : op * ptr * ptr) : list contrib :=
    let '(o, par, p) := x in
    match c_conv cfg h p (Some par) o with
    | CModel m => [mkContrib o m (match pl p with Some sn => s_po sn | None => None end)]
    | _ => []
    end.
  Lemma contributions_items chs : contributions cfg h pl chs = flat_map item_contrib (change_items chs).
  Proof.
    unfold contributions, change_items. induction chs as [|ch t IH]; cbn; [reflexivity|]. rewrite IH, flat_map_app. f_equal.
    induction (ch_kids ch) as [|c u IHu]; cbn; [reflexivity|]. now rewrite IHu.
  Qed.
  Definition act_of (o : op) (L : list contrib) : option action :=
    match L with
    | [] => None
    | _ => Some (mkAction o (map cb_model L) (match o with OpUpdate => map cb_prev L | _ => [] end))
    end.
  Record loop_inv (ta : list (tkey * action)) (types : list nat) (L : list contrib) : Prop := mkLoopInv {
    li_nodup : NoDup (map fst ta);
    li_get : forall o t, ta_get (o, t) ta = act_of o (filter (same_kind o t) L);
    li_types : types = map (fun c => m_type (cb_model c)) L }.

  Lemma act_of_snoc o L c : act_of o (L ++ [c]) =
    Some (match act_of o L with
          | Some a => mkAction o (a_models a ++ [cb_model c]) (match o with OpUpdate => a_prev a ++ [cb_prev c] | _ => [] end)
          | None => mkAction o [cb_model c] (match o with OpUpdate => [cb_prev c] | _ => [] end)
          end).
  Proof. destruct L as [|x u]; cbn; [reflexivity|]. rewrite !map_app. cbn. now destruct o. Qed.

  Lemma add_model_inv x ta types L ta' types' :
    loop_inv ta types L -> (let '(o, par, p) := x in add_model cfg h pl o par p ta types) = MOk ta' types' ->
    loop_inv ta' types' (L ++ item_contrib x).
  Proof.
    destruct x as [[o par] p]. intros [Hn Hg Ht] H. unfold add_model in H. unfold item_contrib.
    destruct (c_conv cfg h p (Some par) o) as [m| |]; [|injection H as <- <-; rewrite app_nil_r; now split|discriminate].
    set (pv := match pl p with Some sn => s_po sn | None => None end).
    assert (E : exists a, ta' = ta_set (o, m_type m) a ta /\ types' = types ++ [m_type m] /\
                 Some a = act_of o (filter (same_kind o (m_type m)) L ++ [mkContrib o m pv])).
    { rewrite act_of_snoc, <- Hg. subst pv. destruct o.
      1, 3, 4: injection H as <- <-; eexists; split; [reflexivity|split; [reflexivity|]];
        destruct (ta_get _ ta) as [a|] eqn:G; [|reflexivity]; rewrite Hg in G;
        destruct (filter _ L); cbn in G; [discriminate|injection G as <-; reflexivity].
      destruct (pl p) as [sn|]; [|discriminate]. injection H as <- <-. eexists. split; [reflexivity|split; [reflexivity|]].
      destruct (ta_get _ ta) as [a|]; reflexivity. }
    clear H. destruct E as (a & -> & -> & Ea). split.
    - now apply ta_nodup_set.
    - intros o' t'. rewrite ta_get_set, filter_app. cbn [filter]. unfold same_kind at 2. cbn [cb_op cb_model].
      destruct (tkey_eqb (o', t') (o, m_type m)) eqn:F.
      + apply tkey_eqb_spec in F. injection F as -> ->. rewrite (proj2 (op_eqb_spec o o) eq_refl), Nat.eqb_refl. cbn [andb]. exact Ea.
      + destruct (op_eqb o o' && Nat.eqb (m_type m) t') eqn:G; [|rewrite app_nil_r; apply Hg].
        apply andb_true_iff in G. destruct G as [G1 G2]. apply op_eqb_spec in G1. apply Nat.eqb_eq in G2. subst. now rewrite tkey_eqb_refl in F.
    - rewrite map_app, Ht. reflexivity.
  Qed.
  Lemma add_models_inv l : forall ta types L ta' types', loop_inv ta types L ->
    add_models cfg h pl l ta types = MOk ta' types' -> loop_inv ta' types' (L ++ flat_map item_contrib l).
  Proof.
    induction l as [|[[o par] p] t IH]; cbn; intros ta types L ta' types' Hi H; [injection H as <- <-; now rewrite app_nil_r|].
    destruct (add_model cfg h pl o par p ta types) as [ta1 ty1| |] eqn:E; [|discriminate..].
    rewrite app_assoc. apply (IH ta1 ty1); auto. apply (add_model_inv (o, par, p) ta types); auto.
  Qed.

  Lemma act_of_Some o L a : act_of o L = Some a -> L <> [] /\ a = mkAction o (map cb_model L) (match o with OpUpdate => map cb_prev L | _ => [] end).
  Proof. destruct L; cbn; [discriminate|]. intros [= <-]. split; [discriminate|reflexivity]. Qed.

  Lemma make_actions_spec chs ta types acts : make_actions cfg h pl chs = (MOk ta types, acts) ->
    actions_for (contributions cfg h pl chs) acts.
  Proof.
    unfold make_actions. destruct (add_models cfg h pl (change_items chs) [] []) as [ta1 ty1| |] eqn:E; [|discriminate..].
    intros [= _ _ <-]. assert (I : loop_inv ta1 ty1 ([] ++ flat_map item_contrib (change_items chs))).
    { apply (add_models_inv _ [] []); auto. split; [constructor| |reflexivity]. intros o t. reflexivity. }
    cbn in I. rewrite <- contributions_items in I. set (L := contributions cfg h pl chs) in *. destruct I as [Hn Hg Ht].
    assert (Hk : forall o t a, ta_get (o, t) ta1 = Some a -> a_op a = o /\ action_type a = t).
    { intros o t a Ha. rewrite Hg in Ha. apply act_of_Some in Ha. destruct Ha as [Hne ->]. split; [reflexivity|].
      unfold action_type. cbn [a_models]. destruct (filter (same_kind o t) L) as [|c u] eqn:F; [contradiction|]. cbn.
      assert (Hc : In c (filter (same_kind o t) L)) by (rewrite F; now left). apply filter_In in Hc. destruct Hc as [_ Hc].
      apply andb_true_iff in Hc. destruct Hc as [_ Hc]. now apply Nat.eqb_eq in Hc. }
    assert (Hin : forall a, In a (emit OpInsert ty1 ta1 ++ emit OpUpdate ty1 ta1 ++ emit OpDelete ty1 ta1) ->
              exists o t, ta_get (o, t) ta1 = Some a).
    { intros a Ha. rewrite !in_app_iff in Ha. destruct Ha as [Ha|[Ha|Ha]]; apply emit_In in Ha; auto; destruct Ha as (t & _ & Ha); eauto. }
    assert (Hop : forall o a, In a (emit o ty1 ta1) -> a_op a = o).
    { intros o a Ha. apply emit_In in Ha; auto. destruct Ha as (t & _ & Ha). now apply Hk in Ha. }
    split.
    - intros a Ha. destruct (Hin a Ha) as (o & t & Hx). destruct (Hk _ _ _ Hx) as [<- <-]. cbv zeta.
      rewrite Hg in Hx. apply act_of_Some in Hx. destruct Hx as [H1 H2]. split; [exact H1|]. split; [now rewrite H2 at 1|].
      rewrite H2 at 1. reflexivity.
    - intros c Hc. assert (Hops : cb_op c = OpInsert \/ cb_op c = OpUpdate \/ cb_op c = OpDelete).
      { subst L. unfold contributions in Hc. apply in_flat_map in Hc. destruct Hc as (ch & _ & Hc). apply in_flat_map in Hc.
        destruct Hc as (p & _ & Hc). destruct (c_conv _ _ _ _ _); [|destruct Hc..]. destruct Hc as [<-|[]]. cbn. destruct (ch_type ch); cbn; auto. }
      set (F := filter (same_kind (cb_op c) (m_type (cb_model c))) L) in *.
      assert (Hf : In c F).
      { apply filter_In. split; auto. unfold same_kind. rewrite (proj2 (op_eqb_spec _ _) eq_refl), Nat.eqb_refl. reflexivity. }
      assert (Hs : exists a, ta_get (cb_op c, m_type (cb_model c)) ta1 = Some a).
      { rewrite Hg. fold F. destruct F; [destruct Hf|]. cbn. eauto. }
      destruct Hs as (a & Ha). exists a. destruct (Hk _ _ _ Ha) as [Ho Hty]. split; [|auto].
      assert (In a (emit (cb_op c) ty1 ta1)).
      { apply (emit_complete _ _ _ (m_type (cb_model c))); auto. rewrite Ht. apply in_map_iff. eauto. }
      rewrite !in_app_iff. destruct Hops as [Ho'|[Ho'|Ho']]; rewrite Ho' in *; auto.
    - assert (Hp : forall o, NoDup (map (fun a => (a_op a, action_type a)) (emit o ty1 ta1))).
      { intros o. assert (N := emit_NoDup o ty1 ta1 Hn (fun t a Ha => proj2 (Hk o t a Ha))).
        clear - N. induction (emit o ty1 ta1) as [|a u IH]; cbn in *; [constructor|]. inversion N as [|? ? H1 H2]; subst.
        constructor; [|auto]. intros Hx. apply H1. apply in_map_iff in Hx. destruct Hx as (b & [= _ Hb] & Hx). rewrite <- Hb. now apply in_map. }
      rewrite !map_app. apply NoDup_app_iff. split; [apply Hp|]. split; [apply NoDup_app_iff; split; [apply Hp|split; [apply Hp|]]|].
      + intros k H1 H2. apply in_map_iff in H1. destruct H1 as (a & <- & H1). apply in_map_iff in H2. destruct H2 as (b & E2 & H2).
        apply Hop in H1. apply Hop in H2. injection E2 as E2 _. congruence.
      + intros k H1 H2. apply in_map_iff in H1. destruct H1 as (a & <- & H1). rewrite <- map_app in H2. apply in_map_iff in H2. destruct H2 as (b & E2 & H2).
        injection E2 as E2 _. apply Hop in H1. apply in_app_iff in H2. destruct H2 as [H2|H2]; apply Hop in H2; congruence.
    - assert (Hs : forall l1 l2 : list action, StronglySorted (fun a b => op_rank (a_op a) <= op_rank (a_op b)) l1 ->
          StronglySorted (fun a b => op_rank (a_op a) <= op_rank (a_op b)) l2 -> (forall a b, In a l1 -> In b l2 -> op_rank (a_op a) <= op_rank (a_op b)) ->
          StronglySorted (fun a b => op_rank (a_op a) <= op_rank (a_op b)) (l1 ++ l2)).
      { clear. induction l1 as [|a u IH]; cbn; intros l2 H1 H2 H3; [auto|]. inversion H1 as [|? ? A B]; subst. constructor.
        - apply IH; auto.
        - apply Forall_app. split; auto. apply Forall_forall. intros b Hb. apply H3; auto. }
      assert (Hsame : forall o, StronglySorted (fun a b => op_rank (a_op a) <= op_rank (a_op b)) (emit o ty1 ta1)).
      { intros o. assert (Ho := Hop o). induction (emit o ty1 ta1) as [|a u IH]; [constructor|]. constructor.
        - apply IH. intros b Hb. apply Ho. now right.
        - apply Forall_forall. intros b Hb. rewrite (Ho a), (Ho b); auto; [now right|now left]. }
      apply Hs; [apply Hsame|apply Hs; try apply Hsame|].
      + intros a b Ha Hb. apply Hop in Ha, Hb. rewrite Ha, Hb. cbn. lia.
      + intros a b Ha Hb. apply Hop in Ha. rewrite Ha. cbn. lia.
    - assert (Hs : forall (R : action -> action -> Prop) (l1 l2 : list action), StronglySorted R l1 -> StronglySorted R l2 ->
          (forall a b, In a l1 -> In b l2 -> R a b) -> StronglySorted R (l1 ++ l2)).
      { clear. induction l1 as [|a u IH]; cbn; intros l2 H1 H2 H3; [auto|]. inversion H1 as [|? ? A B]; subst. constructor.
        - apply IH; auto.
        - apply Forall_app. split; auto. apply Forall_forall. intros b Hb. apply H3; auto. }
      assert (Hb : forall t u, ty_before ty1 t u -> appears_before L t u).
      { intros t u (l1 & l2 & E1 & E2). rewrite Ht in E1. apply map_eq_app in E1. destruct E1 as (c1 & c2 & E1 & F1 & F2).
        destruct c2 as [|x c2]; [discriminate|]. injection F2 as F2 F3. exists c1, x, c2. split; [exact E1|]. split; [exact F2|].
        intros y Hy Eu. apply E2. rewrite <- F1, <- F2. apply in_app_iff in Hy. apply in_app_iff. destruct Hy as [Hy|[<-|[]]].
        - left. rewrite <- Eu. now apply (in_map (fun c => m_type (cb_model c))).
        - right. left. exact Eu. }
      assert (Hsame : forall o, StronglySorted (fun a b => a_op a = a_op b -> appears_before L (action_type a) (action_type b)) (emit o ty1 ta1)).
      { intros o. assert (S := emit_sorted o ty1 ta1 Hn (fun t a Ha => proj2 (Hk o t a Ha))).
        induction S as [|a l S IHS F]; [constructor|]. constructor; [exact IHS|]. rewrite Forall_forall in *. intros b Hx _. auto. }
      apply Hs; [apply Hsame|apply Hs; try apply Hsame|].
      + intros a b Ha Hx E0. apply Hop in Ha, Hx. congruence.
      + intros a b Ha Hx E0. apply Hop in Ha. apply in_app_iff in Hx. destruct Hx as [Hx|Hx]; apply Hop in Hx; congruence.
  Qed.
End Loop.

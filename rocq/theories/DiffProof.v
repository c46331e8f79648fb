(** Correctness of the model diff. *)
From Verif Require Import DiffSpec.

Fixpoint gsize (v : gval) : nat :=
  match v with
  | GStruct fs => S (list_sum (map (fun x => let '(_, w) := x in S (gsize w)) fs))
  | GSlice l => S (list_sum (map gsize l))
  | GPtr _ w => S (gsize w)
  | _ => 0
  end.
Lemma gsize_field f v fs : gsize v < gsize (GStruct ((f, v) :: fs)).
Proof. unfold list_sum. cbn. lia. Qed.
Lemma gsize_tail f v fs : gsize (GStruct fs) < gsize (GStruct ((f, v) :: fs)).
Proof. cbn [gsize map]. unfold list_sum. cbn [fold_right]. lia. Qed.

Definition fl_st (st : bool) (f : finfo) := st || (negb (f_exported f) && negb (f_anon f)).
Definition fl_em (f : finfo) := negb (f_exported f) && f_anon f.

Lemma diff_struct_cons st f v fs g w gs :
  diff_struct st ((f, v) :: fs) ((g, w) :: gs)
  = (let '(sd, d) := diff_value (diff_core (fl_st st f) (fl_em f)) v w in
     (if d then if ind_struct v && f_inline f then sd else [f_name f] else []) ++ diff_struct st fs gs).
Proof. reflexivity. Qed.
Lemma diff_core_struct st em fs gs :
  diff_core st em (GStruct fs) (GStruct gs)
  = if is_zero (GStruct fs) && is_zero (GStruct gs) then ([], false) else (diff_struct st fs gs, nonempty (diff_struct st fs gs)).
Proof.
  cbn [diff_core]. destruct (is_zero (GStruct fs) && is_zero (GStruct gs)); [reflexivity|].
  match goal with |- (?X, nonempty ?X) = _ => assert (E : X = diff_struct st fs gs) end; [|now rewrite E].
  revert gs. induction fs as [|[f v] fs IH]; intros [|[g w] gs]; cbn; try reflexivity.
  rewrite IH. reflexivity.
Qed.
Lemma same_type_struct f v fs g w gs : same_type (GStruct ((f, v) :: fs)) (GStruct ((g, w) :: gs)) <-> f = g /\ same_type v w /\ same_type (GStruct fs) (GStruct gs).
Proof. reflexivity. Qed.
Lemma deep_eq_struct f v fs g w gs : deep_eq (GStruct ((f, v) :: fs)) (GStruct ((g, w) :: gs)) = deep_eq v w && deep_eq (GStruct fs) (GStruct gs).
Proof. reflexivity. Qed.
Lemma in_memory_struct mem f v fs : in_memory mem (GStruct ((f, v) :: fs)) -> in_memory mem v /\ in_memory mem (GStruct fs).
Proof. exact (fun H => H). Qed.
Lemma shape_ok_struct f v fs : shape_ok (GStruct ((f, v) :: fs)) = field_ok f v && shape_ok v && shape_ok (GStruct fs).
Proof. reflexivity. Qed.
Lemma visible_struct st em f v fs : visible st em (GStruct ((f, v) :: fs)) = visible (fl_st st f) (fl_em f) v && visible st em (GStruct fs).
Proof. reflexivity. Qed.
Lemma is_zero_struct f v fs : is_zero (GStruct ((f, v) :: fs)) = is_zero v && is_zero (GStruct fs).
Proof. reflexivity. Qed.
Lemma leaf_names_struct f v fs : leaf_names (GStruct ((f, v) :: fs)) = (if is_struct v && f_inline f then leaf_names v else [f_name f]) ++ leaf_names (GStruct fs).
Proof. reflexivity. Qed.

(** Induction on the size. *)
Lemma gval_size_ind (P : gval -> Prop) : (forall v, (forall w, gsize w < gsize v -> P w) -> P v) -> forall v, P v.
Proof.
  intros H v. remember (gsize v) as n eqn:E. revert v E. induction n as [n IH] using lt_wf_ind. intros v ->.
  apply H. intros w L. exact (IH _ L w eq_refl).
Qed.

Lemma zero_equal : forall a b, same_type a b -> is_zero a = true -> is_zero b = true -> deep_eq a b = true.
Proof.
  induction a as [a IH] using gval_size_ind. intros b T Za Zb.
  destruct a as [n| | |fs| |l], b as [m| | |gs| |k]; try discriminate; try destruct T; try reflexivity.
  - cbn in *. apply Nat.eqb_eq in Za, Zb. subst. reflexivity.
  - revert gs T Za Zb IH. induction fs as [|[f v] fs IHf]; intros [|[g w] gs] T Za Zb IH; try destruct T; try reflexivity.
    rewrite is_zero_struct in Za, Zb. apply andb_true_iff in Za, Zb. destruct Za as (Za & Za'), Zb as (Zb & Zb').
    rewrite deep_eq_struct. destruct H0 as (T1 & T2). apply andb_true_iff. split.
    + apply IH; try assumption. apply gsize_field.
    + apply IHf; try assumption. intros x Hx. apply IH. eapply Nat.lt_trans; [exact Hx|apply gsize_tail].
Qed.
Lemma zero_core st em a b : is_zero a = true -> is_zero b = true -> diff_core st em a b = ([], false).
Proof. intros A B. destruct a; cbn -[is_zero]; rewrite A, B; reflexivity. Qed.
Lemma zero_struct st fs : forall gs, same_type (GStruct fs) (GStruct gs) -> is_zero (GStruct fs) = true -> is_zero (GStruct gs) = true -> diff_struct st fs gs = [].
Proof.
  induction fs as [|[f v] fs IH]; intros [|[g w] gs] T Za Zb; try reflexivity.
  rewrite is_zero_struct in Za, Zb. apply andb_true_iff in Za, Zb. destruct Za as (Za & Za'), Zb as (Zb & Zb').
  apply same_type_struct in T. destruct T as (-> & T1 & T2). rewrite diff_struct_cons.
  assert (E : diff_value (diff_core (fl_st st g) (fl_em g)) v w = ([], false)).
  { destruct v as [n| | |fs'| |l], w as [m| | |gs'| |k]; try discriminate; try destruct T1; cbn [diff_value]; try reflexivity; now apply zero_core. }
  rewrite E. cbn. now apply IH.
Qed.
(** Hence the zero test may be forgotten for structs. *)
Lemma core_struct st em fs gs : same_type (GStruct fs) (GStruct gs) ->
  diff_core st em (GStruct fs) (GStruct gs) = (diff_struct st fs gs, nonempty (diff_struct st fs gs)).
Proof.
  intros T. rewrite diff_core_struct. destruct (is_zero (GStruct fs)) eqn:A; [|reflexivity].
  destruct (is_zero (GStruct gs)) eqn:B; [|reflexivity]. now rewrite (zero_struct st fs gs T A B).
Qed.

(** Nothing reported: nothing changed. *)
Lemma diff_sound mem : forall a b st em, same_type a b -> shape_ok a = true -> shape_ok b = true -> in_memory mem a -> in_memory mem b ->
  (snd (diff_core st em a b) = false -> deep_eq a b = true)
  /\ (snd (diff_value (diff_core st em) a b) = false -> deep_eq a b = true).
Proof.
  induction a as [a IH] using gval_size_ind. intros b st em T Sa Sb Ma Mb.
  assert (C : snd (diff_core st em a b) = false -> deep_eq a b = true).
  { destruct a as [n| |p v|fs| |l], b as [m| |q w|gs| |k]; try destruct T; intros D.
    - cbn [diff_core] in D. destruct (is_zero (GB n) && is_zero (GB m)) eqn:Z.
      + apply andb_true_iff in Z. destruct Z. now apply zero_equal.
      + cbn in *. now apply negb_false_iff in D.
    - reflexivity.
    - discriminate.
    - discriminate.
    - cbn in D. apply negb_false_iff, Nat.eqb_eq in D. subst q. cbn in Ma, Mb. destruct Ma as (Ma & _), Mb as (Mb & _). rewrite Mb in Ma. subst w.
      cbn. clear. induction v as [v IH] using gval_size_ind. destruct v as [n| |p v|fs| |l]; try reflexivity.
      + cbn. apply Nat.eqb_refl.
      + cbn. apply IH. cbn. lia.
      + induction fs as [|[f v] fs IHf]; [reflexivity|]. rewrite deep_eq_struct. rewrite IH by apply gsize_field. cbn [andb]. apply IHf.
        intros x Hx. apply IH. eapply Nat.lt_trans; [exact Hx|apply gsize_tail].
      + induction l as [|v l IHl]; [reflexivity|]. change (deep_eq v v && deep_eq (GSlice l) (GSlice l) = true).
        rewrite IH, IHl; [reflexivity| |]; [intros x Hx; apply IH; cbn [gsize map] in *; unfold list_sum in *; cbn [fold_right] in *; lia|cbn [gsize map]; unfold list_sum; cbn [fold_right]; lia].
    - rewrite core_struct in D by assumption. cbn [snd] in D.
      assert (D' : diff_struct st fs gs = []) by (destruct (diff_struct st fs gs); [reflexivity|discriminate]). clear D.
      revert gs T Sa Sb Ma Mb IH D'. induction fs as [|[f v] fs IHf]; intros [|[g w] gs] T Sa Sb Ma Mb IH D; try destruct T; try reflexivity.
      subst g. destruct H0 as (T1 & T2). rewrite shape_ok_struct in Sa, Sb. apply andb_true_iff in Sa, Sb. destruct Sa as (Sa & Sa2), Sb as (Sb & Sb2).
      apply andb_true_iff in Sa, Sb. destruct Sa as (Sa0 & Sa1), Sb as (Sb0 & Sb1). apply in_memory_struct in Ma, Mb. destruct Ma as (Ma & Ma'), Mb as (Mb & Mb').
      rewrite diff_struct_cons in D. rewrite deep_eq_struct.
      destruct (diff_value (diff_core (fl_st st f) (fl_em f)) v w) as (sd, d) eqn:E. apply app_eq_nil in D. destruct D as (D1 & D2).
      apply andb_true_iff. split.
      2: { apply IHf; try assumption. intros x Hx. apply IH. eapply Nat.lt_trans; [exact Hx|apply gsize_tail]. }
      destruct (IH v (gsize_field f v fs) w (fl_st st f) (fl_em f) T1 Sa1 Sb1 Ma Mb) as (_ & H). apply H. rewrite E. cbn.
      destruct d; [|reflexivity]. exfalso. destruct (ind_struct v && f_inline f) eqn:I; [|discriminate]. subst sd.
      apply andb_true_iff in I. destruct I as (I1 & I2). destruct v as [n| |p v|fs'| |l]; try discriminate.
      + cbn in Sa0. rewrite I2 in Sa0. discriminate.
      + destruct w as [m| |q w|gs'| |k]; try destruct T1. cbn [diff_value] in E. rewrite core_struct in E by assumption.
        injection E as E1 E2. rewrite E1 in E2. discriminate.
    - reflexivity.
    - cbn in D. destruct (st || em); discriminate.
    - cbn in D. destruct (st || em); discriminate.
    - cbn -[deep_eq] in D. destruct (st || em); [discriminate|]. now apply negb_false_iff in D. }
  split; [exact C|]. intros D.
  destruct a as [n| |p v|fs| |l], b as [m| |q w|gs| |k]; try destruct T; cbn [diff_value] in D; try (now apply C); try reflexivity; try discriminate.
  cbn. cbn in Ma, Mb, Sa, Sb. destruct Ma as (_ & Ma), Mb as (_ & Mb).
  destruct (IH v ltac:(cbn; lia) w st em T Sa Sb Ma Mb) as (H & _). now apply H.
Qed.

(** Nothing changed: nothing reported. *)
Lemma diff_precise : forall a b st em, same_type a b -> visible st em a = true -> deep_eq a b = true ->
  (match a with GPtr _ _ => True | _ => diff_core st em a b = ([], false) end) /\ diff_value (diff_core st em) a b = ([], false).
Proof.
  induction a as [a IH] using gval_size_ind. intros b st em T V D.
  assert (C : match a with GPtr _ _ => True | _ => diff_core st em a b = ([], false) end).
  { destruct a as [n| |p v|fs| |l], b as [m| |q w|gs| |k]; try destruct T; try discriminate; auto.
    - cbn in D. apply Nat.eqb_eq in D. subst m. cbn. rewrite Nat.eqb_refl. now destruct ((n =? 0) && (n =? 0)).
    - rewrite core_struct by assumption. assert (E : diff_struct st fs gs = []); [|now rewrite E].
      revert gs T V D IH. induction fs as [|[f v] fs IHf]; intros [|[g w] gs] T V D IH; try destruct T; try reflexivity.
      subst g. destruct H0 as (T1 & T2). rewrite visible_struct in V. apply andb_true_iff in V. destruct V as (V1 & V2).
      rewrite deep_eq_struct in D. apply andb_true_iff in D. destruct D as (D1 & D2). rewrite diff_struct_cons.
      destruct (IH v (gsize_field f v fs) w _ _ T1 V1 D1) as (_ & ->). cbn. apply IHf; try assumption.
      intros x Hx. apply IH. eapply Nat.lt_trans; [exact Hx|apply gsize_tail].
    - cbn -[deep_eq]. rewrite D. cbn in V. apply negb_true_iff in V. now rewrite V. }
  split; [exact C|].
  destruct a as [n| |p v|fs| |l], b as [m| |q w|gs| |k]; try destruct T; try discriminate; cbn [diff_value]; try exact C; try reflexivity.
  cbn in D. cbn [visible] in V. cbn [same_type] in T. destruct v as [n| |p' v'|fs| |l]; try discriminate.
  all: match type of T with same_type ?x _ => destruct (IH x ltac:(cbn; lia) w st em T V D) as (H & _); exact H end.
Qed.

Lemma field_same n fs : forall gs f v, same_type (GStruct fs) (GStruct gs) -> field n fs = Some (f, v) ->
  exists w, field n gs = Some (f, w) /\ same_type v w.
Proof.
  induction fs as [|[f0 v0] fs IH]; intros [|[g w] gs] f v T F; try destruct T; try discriminate.
  subst g. destruct H0 as (T1 & T2). cbn in F |- *. destruct (String.eqb n (f_name f0)); [injection F as <- <-; eauto|]. eapply IH; eassumption.
Qed.

Lemma column_In mem : forall path fs gs st va vb,
  same_type (GStruct fs) (GStruct gs) -> shape_ok (GStruct fs) = true -> shape_ok (GStruct gs) = true ->
  in_memory mem (GStruct fs) -> in_memory mem (GStruct gs) ->
  column path fs = Some va -> column path gs = Some vb -> deep_eq va vb = false ->
  In (column_name path) (diff_struct st fs gs).
Proof.
  induction path as [|n rest IH]; intros fs gs st va vb T Sa Sb Ma Mb Ca Cb D; [discriminate|].
  cbn [column] in Ca, Cb.
  revert gs T Sa Sb Ma Mb Ca Cb. induction fs as [|[f v] fs IHf]; intros [|[g w] gs] T Sa Sb Ma Mb Ca Cb; try destruct T; try discriminate.
  subst g. destruct H0 as (T1 & T2).
  rewrite shape_ok_struct in Sa, Sb. apply andb_true_iff in Sa, Sb. destruct Sa as (Sa & Sa2), Sb as (Sb & Sb2).
  apply andb_true_iff in Sa, Sb. destruct Sa as (Sa0 & Sa1), Sb as (Sb0 & Sb1). apply in_memory_struct in Ma, Mb. destruct Ma as (Ma & Ma'), Mb as (Mb & Mb').
  rewrite diff_struct_cons. cbn [field] in Ca, Cb. destruct (String.eqb n (f_name f)) eqn:N.
  2: { assert (HI := IHf gs T2 Sa2 Sb2 Ma' Mb' Ca Cb). destruct (diff_value (diff_core (fl_st st f) (fl_em f)) v w). apply in_or_app. now right. }
  apply String.eqb_eq in N. subst n. clear IHf.
  destruct (negb (f_exported f)) eqn:X; [discriminate|].
  destruct rest as [|n2 rest].
  - destruct (f_flat f v) eqn:Fv; [discriminate|]. destruct (f_flat f w) eqn:Fw; [discriminate|]. injection Ca as ->. injection Cb as ->.
    destruct (diff_value (diff_core (fl_st st f) (fl_em f)) va vb) as (sd, d) eqn:E.
    destruct d.
    2: { destruct (diff_sound mem va vb (fl_st st f) (fl_em f) T1 Sa1 Sb1 Ma Mb) as (_ & H). rewrite E in H. rewrite H in D by reflexivity. discriminate. }
    apply in_or_app. left. destruct (ind_struct va && f_inline f) eqn:I; [|now left].
    exfalso. apply andb_true_iff in I. destruct I as (I1 & I2). unfold f_flat in Fv. unfold f_inline in I2.
    destruct va as [k| |p va|fs'| |l]; try discriminate.
    + cbn in Sa0. unfold f_inline in Sa0. rewrite I2 in Sa0. discriminate.
    + cbn in Sa0. rewrite andb_true_r in Fv. destruct (f_embtag f), (f_anon f), (f_single f); discriminate.
  - destruct (f_flat f v) eqn:Fv; [|discriminate]. destruct (f_flat f w) eqn:Fw; [|discriminate].
    assert (I2 : f_inline f = true). { unfold f_flat in Fv. unfold f_inline. destruct (f_anon f), (f_embtag f); auto; discriminate. }
    destruct v as [k| |p v|fs'| |l]; try discriminate.
    + cbn in Sa0. rewrite I2 in Sa0. discriminate.
    + destruct w as [m| |q w|gs'| |k]; try destruct T1; try discriminate. cbn [diff_value]. rewrite core_struct by assumption.
      assert (H : In (column_name (n2 :: rest)) (diff_struct (fl_st st f) fs' gs')) by (eapply IH; eassumption).
      cbn [ind_struct is_struct andb]. rewrite I2. apply in_or_app. left. destruct (diff_struct (fl_st st f) fs' gs'); [destruct H|exact H].
Qed.

Lemma core_leaf : forall v w st em sd d, shape_ok v = true -> same_type v w -> is_struct v = true -> diff_core st em v w = (sd, d) -> incl sd (leaf_names v).
Proof.
  induction v as [v IH] using gval_size_ind. intros w st em sd d S T Is E. destruct v as [n| |p v|fs| |l]; try discriminate.
  destruct w as [m| |q w|gs| |k]; try destruct T. rewrite core_struct in E by assumption. injection E as <- _.
  revert gs S T IH. induction fs as [|[f v] fs IHf]; intros [|[g w] gs] S T IH; try destruct T; try (intros x []).
  subst g. destruct H0 as (T1 & T2). rewrite shape_ok_struct in S. apply andb_true_iff in S. destruct S as (S & S2). apply andb_true_iff in S. destruct S as (S0 & S1).
  rewrite diff_struct_cons, leaf_names_struct. destruct (diff_value (diff_core (fl_st st f) (fl_em f)) v w) as (sd, d') eqn:E.
  apply incl_app; [|apply incl_appr; apply IHf; try assumption; [intros x Hx; apply IH; eapply Nat.lt_trans; [exact Hx|apply gsize_tail]]].
  apply incl_appl. destruct d'; [|intros x []].
  destruct (ind_struct v && f_inline f) eqn:I.
  - apply andb_true_iff in I. destruct I as (I1 & I2). destruct v as [n| |p v|fs'| |l]; try discriminate.
    + cbn in S0. rewrite I2 in S0. discriminate.
    + cbn [is_struct andb]. rewrite I2. destruct w as [m| |q w|gs'| |k]; try destruct T1. cbn [diff_value] in E.
      eapply IH; [apply gsize_field|exact S1|exact T1|reflexivity|exact E].
  - destruct (is_struct v && f_inline f) eqn:I'; [|apply incl_refl].
    exfalso. apply andb_true_iff in I'. destruct I' as (I1 & I2). destruct v; try discriminate. cbn in I. rewrite I2 in I. discriminate.
Qed.
Lemma diff_leaf st fs gs : shape_ok (GStruct fs) = true -> same_type (GStruct fs) (GStruct gs) -> incl (diff_struct st fs gs) (leaf_names (GStruct fs)).
Proof.
  intros S T. eapply (core_leaf (GStruct fs) (GStruct gs) st false); try assumption; [reflexivity|]. rewrite core_struct by assumption. reflexivity.
Qed.
Lemma flat_inline f v : f_flat f v = true -> f_inline f = true.
Proof. unfold f_flat, f_inline. destruct (f_anon f), (f_embtag f); auto. Qed.
Lemma column_leaf : forall path fs va, shape_ok (GStruct fs) = true -> column path fs = Some va -> In (column_name path) (leaf_names (GStruct fs)).
Proof.
  induction path as [|n rest IH]; intros fs va S C; [discriminate|]. cbn [column] in C.
  induction fs as [|[f v] fs IHf]; [discriminate|]. rewrite leaf_names_struct.
  rewrite shape_ok_struct in S. apply andb_true_iff in S. destruct S as (S & S2). apply andb_true_iff in S. destruct S as (S0 & S1).
  cbn [field] in C. destruct (String.eqb n (f_name f)) eqn:N; [|apply in_or_app; right; now apply IHf].
  apply String.eqb_eq in N. subst n. destruct (negb (f_exported f)); [discriminate|]. apply in_or_app. left.
  destruct rest as [|n2 rest].
  - destruct (f_flat f v) eqn:Fv; [discriminate|]. destruct (is_struct v && f_inline f) eqn:I; [|now left].
    exfalso. apply andb_true_iff in I. destruct I as (I1 & I2). destruct v; try discriminate. unfold f_flat in Fv. cbn in S0. unfold f_inline in I2.
    rewrite andb_true_r in Fv. destruct (f_embtag f), (f_anon f), (f_single f); discriminate.
  - destruct (f_flat f v) eqn:Fv; [|discriminate]. pose proof (flat_inline _ _ Fv) as I2. destruct v as [k| |p v|fs'| |l]; try discriminate.
    + cbn in S0. rewrite I2 in S0. discriminate.
    + cbn [is_struct andb]. rewrite I2. change (column_name (f_name f :: n2 :: rest)) with (column_name (n2 :: rest)). eapply IH; eassumption.
Qed.
Lemma nodup_app_disjoint {A} (a b : list A) x : NoDup (a ++ b) -> In x a -> In x b -> False.
Proof.
  induction a as [|y a IH]; cbn; [tauto|]. intros H [->|Ha] Hb; inversion H; subst; [|now apply IH].
  apply H2. apply in_or_app. now right.
Qed.
Lemma nodup_app_parts {A} (a b : list A) : NoDup (a ++ b) -> NoDup a /\ NoDup b.
Proof.
  induction a as [|y a IH]; cbn; [split; [constructor|assumption]|]. intros H. inversion H; subst. destruct (IH H3). split; [|assumption].
  constructor; [|assumption]. intros K. apply H2. apply in_or_app. now left.
Qed.
Lemma column_notIn : forall path fs gs st va vb,
  same_type (GStruct fs) (GStruct gs) -> shape_ok (GStruct fs) = true -> visible st false (GStruct fs) = true ->
  NoDup (leaf_names (GStruct fs)) ->
  column path fs = Some va -> column path gs = Some vb -> deep_eq va vb = true ->
  ~ In (column_name path) (diff_struct st fs gs).
Proof.
  induction path as [|n rest IH]; intros fs gs st va vb T Sa V ND Ca Cb D; [discriminate|].
  pose proof (column_leaf _ _ _ Sa Ca) as L. cbn [column] in Ca, Cb.
  revert gs T Sa V ND Ca Cb L. induction fs as [|[f v] fs IHf]; intros [|[g w] gs] T Sa V ND Ca Cb L; try destruct T; try discriminate.
  subst g. destruct H0 as (T1 & T2).
  pose proof Sa as Sa'. rewrite shape_ok_struct in Sa. apply andb_true_iff in Sa. destruct Sa as (Sa & Sa2). apply andb_true_iff in Sa. destruct Sa as (Sa0 & Sa1).
  rewrite visible_struct in V. apply andb_true_iff in V. destruct V as (V1 & V2).
  rewrite diff_struct_cons. rewrite leaf_names_struct in ND, L. cbn [field] in Ca, Cb.
  assert (Head : forall sd d, diff_value (diff_core (fl_st st f) (fl_em f)) v w = (sd, d) ->
    incl (if d then if ind_struct v && f_inline f then sd else [f_name f] else []) (if is_struct v && f_inline f then leaf_names v else [f_name f])).
  { intros sd d E. assert (K := diff_leaf st [(f, v)] [(f, w)]). rewrite diff_struct_cons, E, leaf_names_struct, !app_nil_r in K. apply K.
    - rewrite shape_ok_struct, Sa0, Sa1. reflexivity.
    - apply same_type_struct. repeat split. assumption. }
  assert (Tail : incl (diff_struct st fs gs) (leaf_names (GStruct fs))) by now apply diff_leaf.
  destruct (diff_value (diff_core (fl_st st f) (fl_em f)) v w) as (sd, d) eqn:E. specialize (Head sd d eq_refl).
  destruct (nodup_app_parts _ _ ND) as (ND1 & ND2).
  destruct (String.eqb n (f_name f)) eqn:N.
  - apply String.eqb_eq in N. subst n. clear IHf. destruct (negb (f_exported f)) eqn:X; [discriminate|].
    intros K. apply in_app_or in K.
    assert (Lh : In (column_name (f_name f :: rest)) (if is_struct v && f_inline f then leaf_names v else [f_name f])).
    { assert (K2 := column_leaf (f_name f :: rest) [(f, v)] va). cbn [column field] in K2. rewrite String.eqb_refl, X in K2.
      rewrite leaf_names_struct, app_nil_r in K2. apply K2; [rewrite shape_ok_struct, Sa0, Sa1; reflexivity|exact Ca]. }
    destruct K as [K|K].
    2: { apply Tail in K. eapply nodup_app_disjoint; [exact ND|exact Lh|exact K]. }
    destruct rest as [|n2 rest].
    + destruct (f_flat f v) eqn:Fv; [discriminate|]. destruct (f_flat f w) eqn:Fw; [discriminate|]. injection Ca as ->. injection Cb as ->.
      destruct (diff_precise va vb _ _ T1 V1 D) as (_ & E2). rewrite E in E2. injection E2 as -> ->. destruct K.
    + destruct (f_flat f v) eqn:Fv; [|discriminate]. destruct (f_flat f w) eqn:Fw; [|discriminate]. pose proof (flat_inline _ _ Fv) as I2.
      destruct v as [k| |p v|fs'| |l]; try discriminate.
      * cbn in Sa0. rewrite I2 in Sa0. discriminate.
      * destruct w as [m| |q w|gs'| |k]; try destruct T1; try discriminate. cbn [diff_value] in E. rewrite core_struct in E by assumption.
        injection E as <- <-. cbn [ind_struct is_struct andb] in K, ND1. rewrite I2 in K, ND1.
        change (column_name (f_name f :: n2 :: rest)) with (column_name (n2 :: rest)) in K.
        assert (V1' : visible (fl_st st f) false (GStruct fs') = true).
        { clear - V1. induction fs' as [|[f' v'] fs' IHf]; [reflexivity|]. rewrite visible_struct in *. apply andb_true_iff in V1. destruct V1 as (A & B). rewrite A. now apply IHf. }
        refine (IH fs' gs' (fl_st st f) va vb T1 Sa1 V1' ND1 Ca Cb D _). destruct (nonempty _) eqn:Z; [exact K|destruct K].
  - assert (Lt : In (column_name (n :: rest)) (leaf_names (GStruct fs))) by (apply (column_leaf (n :: rest) fs va Sa2); exact Ca).
    intros K. apply in_app_or in K. destruct K as [K|K].
    + apply Head in K. eapply nodup_app_disjoint; [exact ND|exact K|exact Lt].
    + eapply IHf; try eassumption.
Qed.

(** DeepEqual says whether the contents are the same *)
Lemma deep_eq_content : forall a b, deep_eq a b = true <-> content a = content b.
Proof.
  induction a as [a IH] using gval_size_ind. intros b. destruct a as [n| |p v|fs| |l], b as [m| |q w|gs| |k]; cbn [deep_eq content]; try (split; [discriminate|discriminate || reflexivity]); try (split; reflexivity).
  - rewrite Nat.eqb_eq. split; congruence.
  - rewrite IH by (cbn; lia). split; congruence.
  - assert (G : (fix go fs gs := match fs, gs with | [], [] => true | (_, v) :: fs, (_, w) :: gs => deep_eq v w && go fs gs | _, _ => false end) fs gs = true
                <-> map (fun x : finfo * gval => let '(_, w) := x in content w) fs = map (fun x : finfo * gval => let '(_, w) := x in content w) gs).
    { revert gs. induction fs as [|[f v] fs IHf]; intros [|[g w] gs]; cbn [map]; try (split; [discriminate|discriminate || reflexivity]); try (split; reflexivity).
      rewrite andb_true_iff, IH by apply gsize_field. rewrite IHf by (intros x Hx; apply IH; eapply Nat.lt_trans; [exact Hx|apply gsize_tail]). split; [intros [-> ->]; reflexivity|intros E; injection E; auto]. }
    rewrite G. split; congruence.
  - assert (G : (fix go l m := match l, m with [], [] => true | v :: l, w :: m => deep_eq v w && go l m | _, _ => false end) l k = true <-> map content l = map content k).
    { revert k. induction l as [|v l IHl]; intros [|w k]; cbn [map]; try (split; [discriminate|discriminate || reflexivity]); try (split; reflexivity).
      rewrite andb_true_iff. rewrite IH by (cbn [gsize map]; unfold list_sum; cbn [fold_right]; lia).
      rewrite IHl by (intros x Hx; apply IH; cbn [gsize map] in *; unfold list_sum in *; cbn [fold_right] in *; lia). split; [intros [-> ->]; reflexivity|intros E; injection E; auto]. }
    rewrite G. split; congruence.
Qed.
Lemma deep_neq_content a b : deep_eq a b = false <-> content a <> content b.
Proof. rewrite <- deep_eq_content. destruct (deep_eq a b); split; congruence. Qed.

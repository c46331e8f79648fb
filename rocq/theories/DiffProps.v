(** C58, C59: the set of written columns of an update. *)
From Verif Require Import DiffSpec DiffProof.

(** executor.go 90-104 OpUpdate with a previous model: db.Select(fields).Updates(m) - gorm writes exactly the columns whose name is
    selected (also zero values); without any field there is no statement. [row]: the stored row. Simplification: the column of an
    autoUpdateTime field, which gorm sets in addition, is not modelled. *)
Definition update_row (curr prev : gval) (row : list string -> option gval) : list string -> option gval :=
  fun path => match curr with
              | GStruct fs => if existsb (String.eqb (column_name path)) (diff_model curr prev) then column path fs else row path
              | _ => row path
              end.

(** C58: every column with a changed value is written (models without embedded pointers and without anonymous one-column types). *)
Theorem C58_changed_column_written_partial mem fs gs path va vb :
  same_type (GStruct fs) (GStruct gs) -> shape_ok (GStruct fs) = true -> shape_ok (GStruct gs) = true ->
  in_memory mem (GStruct fs) -> in_memory mem (GStruct gs) ->
  column path fs = Some va -> column path gs = Some vb -> content va <> content vb ->
  In (column_name path) (diff_model (GStruct fs) (GStruct gs)).
Proof. intros ? ? ? ? ? ? ? D. apply deep_neq_content in D. eapply column_In; eassumption. Qed.

(** C59: a column with an unchanged value is not written (if column names are unique, and nothing is hidden from reflection). *)
Theorem C59_unchanged_column_not_written_partial fs gs path va vb :
  same_type (GStruct fs) (GStruct gs) -> shape_ok (GStruct fs) = true -> visible false false (GStruct fs) = true ->
  NoDup (leaf_names (GStruct fs)) ->
  column path fs = Some va -> column path gs = Some vb -> content va = content vb ->
  ~ In (column_name path) (diff_model (GStruct fs) (GStruct gs)).
Proof. intros ? ? ? ? ? ? D. apply deep_eq_content in D. eapply column_notIn; eassumption. Qed.

Lemma existsb_str n l : existsb (String.eqb n) l = true <-> In n l.
Proof.
  rewrite existsb_exists. split; [intros (x & H & E); apply String.eqb_eq in E; now subst|]. intros H. exists n. split; [assumption|apply String.eqb_refl].
Qed.
(** Both together: after the update each column has the new value if it changed, and otherwise whatever it had in the database,
    for instance a value another process has written meanwhile. *)
Theorem C59_concurrent_changes_survive_partial mem fs gs path va vb row :
  same_type (GStruct fs) (GStruct gs) -> shape_ok (GStruct fs) = true -> shape_ok (GStruct gs) = true ->
  visible false false (GStruct fs) = true -> NoDup (leaf_names (GStruct fs)) ->
  in_memory mem (GStruct fs) -> in_memory mem (GStruct gs) ->
  column path fs = Some va -> column path gs = Some vb ->
  (content va = content vb -> update_row (GStruct fs) (GStruct gs) row path = row path) /\
  (content va <> content vb -> update_row (GStruct fs) (GStruct gs) row path = Some va).
Proof.
  intros T Sa Sb V ND Ma Mb Ca Cb. unfold update_row. destruct (existsb _ _) eqn:E; split; intros D; auto; exfalso.
  - apply existsb_str in E. eapply C59_unchanged_column_not_written_partial; eassumption.
  - assert (K : In (column_name path) (diff_model (GStruct fs) (GStruct gs))) by (eapply C58_changed_column_written_partial; eassumption).
    apply existsb_str in K. congruence.
Qed.
(** An unchanged model causes no statement at all. *)
Theorem C59_unchanged_model_partial fs gs :
  same_type (GStruct fs) (GStruct gs) -> visible false false (GStruct fs) = true -> content (GStruct fs) = content (GStruct gs) ->
  diff_model (GStruct fs) (GStruct gs) = [].
Proof.
  intros T V D. apply deep_eq_content in D. destruct (diff_precise _ _ false false T V D) as (C & _). rewrite core_struct in C by assumption. now injection C.
Qed.

Local Open Scope string_scope.
Local Open Scope list_scope.
Local Open Scope nat_scope.
Definition plain n := mkF n true false false false.
Definition hidden n := mkF n false false false false.
Definition anon n := mkF n true true false false.
Definition embedded n := mkF n true false true false.

(** The hypotheses are met by a model with an embedded struct, a struct column, a slice column and a pointer; two columns change. *)
Definition ex_model (city note : nat) (tags : list gval) : list (finfo * gval) :=
  [(anon "Base", GStruct [(plain "ID", GB 7); (plain "City", GB city)]);
   (plain "Extra", GStruct [(plain "Note", GB note); (hidden "cache", GB 3)]); (plain "Tags", GSlice tags); (plain "Opt", GPtr 9 (GB 4))].
Example C58_nontrivial :
  let a := ex_model 1 2 [GB 1] in let b := ex_model 5 2 [GB 2; GB 3] in let mem := fun _ : nat => GB 4 in
  same_type (GStruct a) (GStruct b) /\ shape_ok (GStruct a) = true /\ shape_ok (GStruct b) = true /\ visible false false (GStruct a) = true
  /\ NoDup (leaf_names (GStruct a)) /\ in_memory mem (GStruct a) /\ in_memory mem (GStruct b)
  /\ column ["Base"; "City"] a = Some (GB 1) /\ column ["Base"; "City"] b = Some (GB 5) /\ column ["Extra"] a = column ["Extra"] b
  /\ diff_model (GStruct a) (GStruct b) = ["City"; "Tags"].
Proof.
  cbn. repeat split. repeat constructor; cbn; intuition discriminate.
Qed.

(** C58 is false for an embedded struct held by a pointer: when it is set, none of its columns is written... *)
Theorem C58_embedded_pointer_set_refuted f p inner path va :
  f_exported f = true -> f_inline f = true -> f_single f = false -> column path inner = Some va ->
  let a := [(f, GPtr p (GStruct inner))] in let b := [(f, GNil)] in
  column (f_name f :: path) a = Some va /\ column (f_name f :: path) b = None /\ diff_model (GStruct a) (GStruct b) = [].
Proof.
  intros X I S C. cbn zeta. assert (F : f_flat f (GPtr p (GStruct inner)) = true /\ f_flat f GNil = true).
  { unfold f_flat, f_inline in *. rewrite S. destruct (f_anon f), (f_embtag f); cbn in *; auto; discriminate. }
  destruct F as (F1 & F2). repeat split.
  - cbn [column field]. rewrite String.eqb_refl, X, F1. cbn [negb]. destruct path; [discriminate|exact C].
  - cbn [column field]. rewrite String.eqb_refl, X, F2. cbn [negb]. now destruct path.
  - cbn. now rewrite I.
Qed.
(** ... and when it is taken away, only the name of the pointer field is reported, which is no column. *)
Theorem C58_embedded_pointer_cleared_refuted f p inner path va :
  f_exported f = true -> f_inline f = true -> f_single f = false -> column path inner = Some va ->
  let a := [(f, GNil)] in let b := [(f, GPtr p (GStruct inner))] in
  column (f_name f :: path) a = None /\ column (f_name f :: path) b = Some va
  /\ diff_model (GStruct a) (GStruct b) = [f_name f] /\ column [f_name f] a = None /\ column [f_name f] b = None.
Proof.
  intros X I S C. cbn zeta. assert (F : f_flat f (GPtr p (GStruct inner)) = true /\ f_flat f GNil = true).
  { unfold f_flat, f_inline in *. rewrite S. destruct (f_anon f), (f_embtag f); cbn in *; auto; discriminate. }
  destruct F as (F1 & F2). repeat split.
  - cbn [column field]. rewrite String.eqb_refl, X, F2. cbn [negb]. now destruct path.
  - cbn [column field]. rewrite String.eqb_refl, X, F1. cbn [negb]. destruct path; [discriminate|exact C].
  - cbn [column field]. now rewrite String.eqb_refl, X, F2.
  - cbn [column field]. now rewrite String.eqb_refl, X, F1.
Qed.
(** C58 is false for an anonymous field of a type gorm stores in one column, such as time.Time: the changed column is not
    reported, only the inner fields. *)
Definition time_utc (wall ext : nat) : gval := GStruct [(hidden "wall", GB wall); (hidden "ext", GB ext); (hidden "loc", GNil)].
Theorem C58_anonymous_time_refuted w1 w2 e :
  w1 <> w2 ->
  let f := mkF "Time" true true false true in let a := [(f, time_utc w1 e)] in let b := [(f, time_utc w2 e)] in
  column ["Time"] a = Some (time_utc w1 e) /\ column ["Time"] b = Some (time_utc w2 e)
  /\ content (time_utc w1 e) <> content (time_utc w2 e) /\ ~ In "Time" (diff_model (GStruct a) (GStruct b)).
Proof.
  intros N. cbn zeta. assert (E : w1 =? w2 = false) by now apply Nat.eqb_neq. repeat split.
  - cbn. congruence.
  - unfold diff_model. rewrite diff_struct_cons. unfold time_utc, diff_value. rewrite core_struct by (cbn; tauto).
    rewrite diff_struct_cons. assert (D1 : diff_value (diff_core (fl_st (fl_st false (mkF "Time" true true false true)) (hidden "wall")) (fl_em (hidden "wall"))) (GB w1) (GB w2) = ([], true)).
    { cbn. rewrite E. destruct w1, w2; try reflexivity. now elim N. }
    rewrite D1. rewrite diff_struct_cons.
    assert (D2 : diff_value (diff_core (fl_st (fl_st false (mkF "Time" true true false true)) (hidden "ext")) (fl_em (hidden "ext"))) (GB e) (GB e) = ([], false)).
    { cbn. rewrite Nat.eqb_refl. now destruct ((e =? 0) && (e =? 0)). }
    rewrite D2. cbn. intuition discriminate.
Qed.
(** C58 is false when two embedded structs have a field of the same name (kept apart in the table by a column prefix): whichever
    column gorm finds for a name, a change of one of the two columns is not written. *)
Definition ex_prefixed (home work : nat) : list (finfo * gval) :=
  [(embedded "Home", GStruct [(plain "City", GB home)]); (embedded "Work", GStruct [(plain "City", GB work)])].
Theorem C58_shared_field_name_refuted (resolve : string -> list string) :
  exists a b path va vb, same_type (GStruct a) (GStruct b) /\ shape_ok (GStruct a) = true /\ shape_ok (GStruct b) = true
    /\ column path a = Some va /\ column path b = Some vb /\ content va <> content vb
    /\ ~ (exists n, In n (diff_model (GStruct a) (GStruct b)) /\ resolve n = path).
Proof.
  destruct (list_eq_dec string_dec (resolve "City") ["Home"; "City"]) as [E|N].
  - exists (ex_prefixed 1 2), (ex_prefixed 1 3), ["Work"; "City"], (GB 2), (GB 3). repeat split; [discriminate|].
    intros (n & [<-|[]] & K). cbn in K. rewrite E in K. discriminate.
  - exists (ex_prefixed 2 1), (ex_prefixed 3 1), ["Home"; "City"], (GB 2), (GB 3). repeat split; [discriminate|].
    intros (n & [<-|[]] & K). contradiction.
Qed.

(** C59 is false for times with a location other than UTC: the column is written although nothing changed, because the location
    holds an unexported slice. *)
Definition time_in (wall ext loc_addr name : nat) (zones : list gval) : gval :=
  GStruct [(hidden "wall", GB wall); (hidden "ext", GB ext); (hidden "loc", GPtr loc_addr (GStruct [(hidden "name", GB name); (hidden "zone", GSlice zones)]))].
Theorem C59_located_time_refuted wall ext p name zones col :
  let a := [(mkF col true false false true, time_in wall ext p name zones)] in
  column [col] a = Some (time_in wall ext p name zones)
  /\ diff_model (GStruct a) (GStruct a) = [col].
Proof.
  cbn zeta. split; [cbn; now rewrite String.eqb_refl|]. unfold diff_model. rewrite diff_struct_cons.
  set (f := mkF col true false false true).
  assert (Z : forall st em n, diff_core st em (GB n) (GB n) = ([], false)).
  { intros st em n. cbn. rewrite Nat.eqb_refl. now destruct ((n =? 0) && (n =? 0)). }
  assert (TY : forall v, same_type v v).
  { clear. induction v as [v IH] using gval_size_ind. destruct v as [n| |p v|fs| |l]; try exact I.
    - cbn. apply IH. cbn. lia.
    - induction fs as [|[g v] fs IHf]; [exact I|]. apply same_type_struct. repeat split; [apply IH, gsize_field|].
      apply IHf. intros x Hx. apply IH. eapply Nat.lt_trans; [exact Hx|apply gsize_tail]. }
  unfold time_in at 1 2. cbn [diff_value]. rewrite core_struct by apply TY.
  rewrite !diff_struct_cons. cbn [diff_value]. rewrite !Z. rewrite core_struct by apply TY. rewrite !diff_struct_cons. cbn [diff_value]. rewrite !Z.
  cbn. reflexivity.
Qed.

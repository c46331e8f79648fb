(** Property theorems: loading aggregates (vocabulary: BuildSpec.v). *)
From Verif Require Import BuildSpec BuildProof.

(* ---------------------------------------------------------------- C61 *)
(** Whatever executor and converters: a load that succeeds has filled the root from the first row found for it and each child argument
    from the rows found below the root as loaded; it has touched nothing else. *)
Theorem C61_load_exact_partial :
  forall zero e2m query m2e parent args s s', honest e2m query m2e -> separate s parent args ->
  build zero e2m query m2e parent args s = (None, s') ->
  b_id (b_heap s parent) <> EmptyString /\
  (exists m ms, found e2m query (b_heap s parent) None (m :: ms) /\ m2e m (b_heap s parent) = (b_heap s' parent, None)) /\
  (forall a, In a args -> child_loaded zero e2m query m2e s s' (b_heap s' parent) a) /\
  others_kept s s' (parent :: flat_map (targets s) args) args.
Proof.
  intros zero e2m query m2e parent args s s' Hh S E. unfold build in E. destruct (String.eqb_spec (b_id (b_heap s parent)) "") as [|Nid]; [discriminate|].
  split; [assumption|]. destruct (build_entity e2m query m2e parent None s) as [[e|] s1] eqn:Eb; [discriminate|].
  destruct (entity_cases e2m query m2e Hh _ _ _ _ _ Eb) as [(X & _)|[(e & X & _)|(_ & m & ms & F & Em & Es)]]; try discriminate.
  destruct S as (S1 & S2 & S3 & S4). assert (Hp : parent < b_next s) by (apply S2; now left). inversion S1 as [|? ? P1 P2]; subst.
  assert (Tl : flat_map (targets s1) args = flat_map (targets s) args). { rewrite Es. clear. induction args as [|[]]; cbn; congruence. }
  assert (Hs : forall q, q <> parent -> b_heap s1 q = b_heap s q). { intros q Hq. rewrite Es. cbn. destruct (Nat.eqb_spec q parent); [contradiction|reflexivity]. }
  assert (Hn : b_next s1 = b_next s) by now rewrite Es.
  destruct (children_ok zero e2m query m2e Hh parent args s1 s' E) as (A & (B1 & B2 & B3 & B4)).
  { split; [rewrite Tl; now constructor|]. split; [rewrite Tl, Hn; assumption|]. auto. }
  assert (Hpar : b_heap s' parent = b_heap s1 parent). { apply B1; [lia|]. now rewrite Tl. }
  rewrite Hpar. split; [eauto|]. split.
  - intros a Ha. apply (loaded_ext zero e2m query m2e parent s s1); auto.
    + intros x _. now rewrite Es.
    + intros x _. now rewrite Es.
    + intros p Hp2. apply Hs. intros ->. apply P1. apply in_flat_map. eauto.
    + lia.
  - rewrite Tl in B1. rewrite Hn in *. split; [|split; [|split]].
    + intros q Hq X. rewrite B1; [|lia|intros Y; apply X; now right]. apply Hs. intros ->. apply X. now left.
    + intros x X. rewrite B2 by assumption. now rewrite Es.
    + intros x X. rewrite B3 by assumption. now rewrite Es.
    + assumption.
Qed.
Print Assumptions C61_load_exact_partial.
(** Without id nothing happens; without row: ErrEntityNotFound, and nothing has been touched. *)
Theorem C61_root_without_id :
  forall zero e2m query m2e parent args s, b_id (b_heap s parent) = EmptyString ->
  build zero e2m query m2e parent args s = (Some EMustHaveID, s).
Proof. intros. unfold build. now rewrite H. Qed.
Print Assumptions C61_root_without_id.
Theorem C61_missing_root :
  forall zero e2m query m2e parent args s, b_id (b_heap s parent) <> EmptyString -> found e2m query (b_heap s parent) None [] ->
  build zero e2m query m2e parent args s = (Some ENotFound, s).
Proof.
  intros zero e2m query m2e parent args s N (q & E1 & E2). unfold build. destruct (String.eqb_spec (b_id (b_heap s parent)) ""); [contradiction|].
  unfold build_entity. cbn [option_map]. now rewrite E1, E2.
Qed.
Print Assumptions C61_missing_root.
(** Whatever happens - also if the load fails half way - no slice loses the elements it had. *)
Lemma rows_keep_slices zero m2e ty ms : forall acc s r s', build_rows zero m2e ty ms acc s = (r, s') -> b_slices s' = b_slices s /\ forall l, r = inr l -> exists t, l = acc ++ t.
Proof.
  induction ms as [|m t IH]; intros acc s r s' E; cbn in E.
  - injection E as <- <-. split; auto. intros l [= <-]. exists []. now rewrite app_nil_r.
  - destruct (m2e m _) as [v [e|]].
    + injection E as <- <-. split; auto. discriminate.
    + destruct (IH _ _ _ _ E) as [A B]. split; auto. intros l H. destruct (B l H) as (u & ->). eexists. rewrite <- app_assoc. reflexivity.
Qed.
Theorem C61_no_child_lost :
  forall zero e2m query m2e parent args s x, exists l, b_slices (snd (build zero e2m query m2e parent args s)) x = b_slices s x ++ l.
Proof.
  intros zero e2m query m2e parent args s x.
  assert (Z : forall s, exists l, b_slices s x = b_slices s x ++ l) by (intros s0; exists []; now rewrite app_nil_r).
  assert (En : forall p par s, b_slices (snd (build_entity e2m query m2e p par s)) = b_slices s).
  { intros p par s0. unfold build_entity. destruct (e2m _ _); auto. destruct (query m) as [|[|m0 ms]]; auto. destruct (m2e m0 _); auto. }
  assert (Ch : forall a s, exists l, b_slices (snd (build_child zero e2m query m2e parent a s)) x = b_slices s x ++ l).
  { intros [y ty| |y ty|p|] s0; cbn [build_child snd]; auto.
    - unfold build_slice. destruct (e2m _ _); auto. destruct (query m) as [|[|m0 ms]]; auto. destruct (build_rows _ _ _ _ _ _) as [r s1] eqn:E. destruct (rows_keep_slices _ _ _ _ _ _ _ _ E) as [A B]. destruct r as [e|l]; cbn.
      + rewrite A. auto.
      + destruct (Nat.eqb_spec x y) as [->|]; [|rewrite A; auto]. apply B. reflexivity.
    - destruct (b_ptrs s0 y) as [p|]; cbn.
      + pose proof (En p (Some parent) s0) as Q. destruct (build_entity _ _ _ _ _ _) as [[e|] s2]; cbn in *; [destruct (is_notfound e)|]; cbn; rewrite Q; auto.
      + match goal with |- context [build_entity _ _ _ ?p ?q ?s1] => pose proof (En p q s1) as Q; destruct (build_entity e2m query m2e p q s1) as [[e|] s2] end; cbn in *; [destruct (is_notfound e)|]; cbn; rewrite Q; auto.
    - pose proof (En p (Some parent) s0) as Q. destruct (build_entity _ _ _ _ _ _) as [[e|] s2]; cbn in *; [destruct (is_notfound e)|]; cbn; rewrite Q; auto. }
  unfold build. destruct (String.eqb _ _); cbn; auto. pose proof (En parent None s) as Q. destruct (build_entity _ _ _ _ _ _) as [[e|] s1]; cbn in Q |- *; [rewrite Q; auto|]. rewrite <- Q. clear Q.
  revert s1. induction args as [|a t IH]; intros s1; cbn; auto. destruct (Ch a s1) as (l & El). destruct (build_child zero e2m query m2e parent a s1) as [[e|] s2]; cbn in *; [eauto|].
  destruct (IH s2) as (l2 & E2). rewrite E2, El. exists (l ++ l2). now rewrite app_assoc.
Qed.
Print Assumptions C61_no_child_lost.
(** It succeeds if the root has a row and converters and executor work. *)
Lemma rows_total zero m2e ty : (forall m v, snd (m2e m v) = None) -> forall ms acc s, exists l s', build_rows zero m2e ty ms acc s = (inr l, s').
Proof.
  intros H. induction ms as [|m ms IH]; intros acc s; cbn; [eauto|]. rewrite Nat.eqb_refl. specialize (H m (zero ty)). destruct (m2e m (zero ty)) as [v [e|]]; [discriminate|]. apply IH.
Qed.
Theorem C61_load_succeeds_partial :
  forall zero e2m query m2e parent args s,
  (forall v par, exists q, e2m v par = inr q) -> (forall q, exists ms, query q = inr ms) -> (forall m v, snd (m2e m v) = None) ->
  ~ In ArgBad args -> ~ In ArgSliceBad args ->
  b_id (b_heap s parent) <> EmptyString -> ~ found e2m query (b_heap s parent) None [] ->
  exists s', build zero e2m query m2e parent args s = (None, s').
Proof.
  intros zero e2m query m2e parent args s He Hq Hm B1 B2 N F. unfold build. destruct (String.eqb_spec (b_id (b_heap s parent)) ""); [contradiction|].
  assert (En : forall p par s, exists s', (build_entity e2m query m2e p par s = (None, s')) \/ build_entity e2m query m2e p par s = (Some ENotFound, s')).
  { intros p par s0. unfold build_entity. destruct (He (b_heap s0 p) (option_map (b_heap s0) par)) as (q & ->). destruct (Hq q) as ([|m ms] & ->); [eauto|].
    specialize (Hm m (b_heap s0 p)). destruct (m2e m (b_heap s0 p)) as [v e0]. cbn in Hm. subst e0. eauto. }
  destruct (En parent None s) as (s1 & [E|E]).
  - rewrite E. clear - He Hq Hm B1 B2 En. revert s1. induction args as [|a args IH]; intros s1; cbn [build_children]; [eauto|].
    assert (C : exists s2, build_child zero e2m query m2e parent a s1 = (None, s2)).
    { destruct a as [x ty| |x ty|p|]; cbn [build_child].
      - unfold build_slice. destruct (He (zero ty) (Some (b_heap s1 parent))) as (q & ->). destruct (Hq q) as ([|m ms] & ->); [eauto|].
        destruct (rows_total zero m2e ty Hm (m :: ms) (b_slices s1 x) s1) as (l & s2 & ->). eauto.
      - elim B2. now left.
      - destruct (b_ptrs s1 x) as [p|]; cbn [alloc].
        + destruct (En p (Some parent) s1) as (s2 & [->| ->]); cbn; eauto.
        + match goal with |- context [build_entity _ _ _ ?p ?par ?s0] => destruct (En p par s0) as (s2 & [->| ->]) end; cbn; eauto.
      - destruct (En p (Some parent) s1) as (s2 & [->| ->]); cbn; eauto.
      - elim B1. now left. }
    destruct C as (s2 & ->). apply IH; intros X; [apply B1|apply B2]; now right.
  - exfalso. apply F. unfold build_entity in E. unfold found. cbn [option_map] in E. destruct (He (b_heap s parent) None) as (q & Eq). rewrite Eq in E.
    exists q. split; [assumption|]. destruct (Hq q) as ([|m ms] & Em); [assumption|]. rewrite Em in E. specialize (Hm m (b_heap s parent)).
    destruct (m2e m (b_heap s parent)) as [v e0]. cbn in Hm. subst e0. discriminate.
Qed.
Print Assumptions C61_load_succeeds_partial.

(** ** on MySQL *)
Definition mysql (t : tables) (q : model) : err + list model := inr (x_query q t).
Definition has_parent (i : nat) (id : string) (r : xrow) : bool := match nth_error (snd r) i with Some v => String.eqb v id | None => false end.
Lemma zero_cols_match : forall q r, (forall j c, nth_error q j = Some c -> c = EmptyString) -> x_cols_match q r = true.
Proof.
  induction q as [|c q IH]; intros r H; [reflexivity|]. assert (c = EmptyString) as -> by (apply (H 0); reflexivity).
  assert (H' : forall j c, nth_error q j = Some c -> c = EmptyString) by (intros j; apply (H (S j))). destruct r; cbn; now apply IH.
Qed.
Lemma only_col_match : forall q i v r, v <> EmptyString -> only_col q i v -> x_cols_match q r = match nth_error r i with Some w => String.eqb w v | None => false end.
Proof.
  induction q as [|c q IH]; intros i v r N (E & Z); [destruct i; discriminate|]. destruct i as [|i]; cbn in E.
  - injection E as ->. assert (Zq : forall j c, nth_error q j = Some c -> c = EmptyString) by (intros j c; apply (Z (S j)); lia).
    destruct r as [|w r]; cbn.
    + destruct (String.eqb_spec v ""); [contradiction|reflexivity].
    + rewrite zero_cols_match by assumption. destruct (String.eqb_spec v ""); [contradiction|]. cbn. rewrite andb_true_r. apply String.eqb_sym.
  - assert (c = EmptyString) as -> by (apply (Z 0); [lia|reflexivity]).
    assert (O : only_col q i v). { split; [assumption|]. intros j c Hj. apply (Z (S j)). lia. }
    destruct r as [|w r]; cbn.
    + rewrite (IH i v []) by assumption. destruct i; reflexivity.
    + now rewrite (IH i v r).
Qed.
Lemma query_by_parent k cols i v t : v <> EmptyString -> only_col cols i v ->
  x_query (mkModel k EmptyString cols) t = map (fun r => mkModel k (fst r) (snd r)) (filter (has_parent i v) (t k)).
Proof.
  intros N O. unfold x_query. cbn [m_type]. f_equal. apply filter_ext. intros r. unfold x_match, has_parent. cbn [m_id m_cols].
  rewrite (only_col_match cols i v (snd r)) by assumption. reflexivity.
Qed.
(** A slice argument receives exactly the rows whose parent column holds the root's id, provided the converter asks for them by this
    column; a pointer argument that was nil receives the first of them, or stays nil. *)
Theorem C61_children_are_the_parents_rows_partial :
  forall zero e2m t m2e parent args s s' x ty k i, honest e2m (mysql t) m2e -> separate s parent args ->
  build zero e2m (mysql t) m2e parent args s = (None, s') -> b_id (b_heap s' parent) <> EmptyString ->
  keyed_by_parent zero e2m ty k i ->
  let mine := filter (has_parent i (b_id (b_heap s' parent))) (t k) in
  (In (ArgSlice x ty) args -> exists l, b_slices s' x = b_slices s x ++ l /\
     Forall2 (fun r p => m2e (mkModel k (fst r) (snd r)) (zero ty) = (b_heap s' p, None)) mine l) /\
  (In (ArgPtr x ty) args -> b_ptrs s x = None ->
     match mine with [] => b_ptrs s' x = None | r :: _ => exists p, b_ptrs s' x = Some p /\ m2e (mkModel k (fst r) (snd r)) (zero ty) = (b_heap s' p, None) end).
Proof.
  intros zero e2m t m2e parent args s s' x ty k i Hh S E N K mine. destruct (C61_load_exact_partial _ _ _ _ _ _ _ _ Hh S E) as (_ & _ & C & _).
  destruct (K (b_heap s' parent)) as (cols & Ec & O).
  assert (F : forall ms, found e2m (mysql t) (zero ty) (Some (b_heap s' parent)) ms -> ms = map (fun r => mkModel k (fst r) (snd r)) mine).
  { intros ms (q & E1 & E2). rewrite Ec in E1. injection E1 as <-. unfold mysql in E2. rewrite (query_by_parent k cols i _ t N O) in E2. now injection E2 as <-. }
  split.
  - intros Ha. destruct (C _ Ha) as (ms & l & F1 & F2 & F3 & _). apply F in F1. subst ms. exists l. split; [assumption|].
    clear - F3. revert l F3. induction mine as [|r rs IH]; cbn; intros l F3; inversion F3; subst; constructor; auto.
  - intros Ha Hn. destruct (C _ Ha) as (ms & F1 & F2). cbn zeta in F1, F2. rewrite Hn in F1, F2. apply F in F1. subst ms.
    destruct mine as [|r rs]; cbn [map] in F2; [assumption|]. destruct F2 as (p & G1 & _ & G3). eauto.
Qed.
Print Assumptions C61_children_are_the_parents_rows_partial.

(** ** example and counterexamples: orders (type 1: name) with items (type 2: title, below an order) *)
Section Example.
  Local Open Scope string_scope.
  Local Open Scope list_scope.
  Local Open Scope nat_scope.
  Definition bz (ty : nat) : bval := mkB ty "" [""].
  Definition b_e2m (v : bval) (par : option bval) : err + model :=
    match b_type v with
    | 1 => inr (mkModel 1 (b_id v) (b_data v))
    | 2 => inr (mkModel 2 (b_id v) (match par with Some o => b_id o | None => "" end :: b_data v))
    | _ => inl ENotRegister end.
  Definition b_m2e (m : model) (v : bval) : bval * option err :=
    match b_type v with
    | 1 => (mkB 1 (m_id m) (m_cols m), None)
    | 2 => (mkB 2 (m_id m) (tl (m_cols m)), None)
    | _ => (v, Some ENotRegister) end.
  (** a converter for items that forgets the parent *)
  Definition b_e2m_bad (v : bval) (par : option bval) : err + model :=
    match b_type v with 1 => inr (mkModel 1 (b_id v) (b_data v)) | 2 => inr (mkModel 2 (b_id v) ("" :: b_data v)) | _ => inl ENotRegister end.
  Definition b_tab : tables := fun k => match k with
    | 1 => [("o1", ["one"]); ("o2", ["two"])]
    | 2 => [("i1", ["o1"; "a"]); ("i2", ["o2"; "b"]); ("i3", ["o1"; "c"])] | _ => [] end.
  Definition b_ex (id name : string) : bst := mkBst (fun p => if p =? 0 then mkB 1 id [name] else bz 2) (fun _ => []) (fun _ => None) 1.
  Definition b_see (r : option err * bst) (x : slot) := (fst r, b_heap (snd r) 0, map (b_heap (snd r)) (b_slices (snd r) x), option_map (b_heap (snd r)) (b_ptrs (snd r) x)).
  Lemma b_honest t : honest b_e2m (mysql t) b_m2e.
  Proof.
    split; [|split].
    - intros v par e. unfold b_e2m. destruct (b_type v) as [|[|[|n]]]; intros [= <-]; reflexivity.
    - intros q e [=].
    - intros m v v' e. unfold b_m2e. destruct (b_type v) as [|[|[|n]]]; intros [= _ <-]; reflexivity.
  Qed.
  Definition rows_of_key (t : tables) (k : nat) (id : string) : option (list string) := option_map snd (find (fun r => String.eqb (fst r) id) (t k)).
  Example C61_example :
    b_see (build bz b_e2m (mysql b_tab) b_m2e 0 [ArgSlice 7 2; ArgPtr 7 2; ArgPtr 8 2] (b_ex "o1" "")) 7
      = (None, mkB 1 "o1" ["one"], [mkB 2 "i1" ["a"]; mkB 2 "i3" ["c"]], Some (mkB 2 "i1" ["a"]))
    /\ b_see (build bz b_e2m (mysql b_tab) b_m2e 0 [ArgSlice 7 2] (b_ex "o3" "")) 7 = (Some ENotFound, mkB 1 "o3" [""], [], None)
    /\ honest b_e2m (mysql b_tab) b_m2e /\ separate (b_ex "o1" "") 0 [ArgSlice 7 2; ArgPtr 7 2; ArgPtr 8 2] /\ keyed_by_parent bz b_e2m 2 2 0.
  Proof.
    split; [reflexivity|]. split; [reflexivity|]. split; [apply b_honest|]. split.
    - split; [repeat constructor; auto|]. split; [cbn; intros p [<-|[]]; lia|]. split; cbn; repeat constructor; cbn; intuition discriminate.
    - intros par. exists [b_id par; ""]. split; [reflexivity|]. split; [reflexivity|]. intros [|[|j]] c Hj E; cbn in E; [contradiction|now injection E|destruct j; discriminate].
  Qed.
  (** Fields set besides the id restrict the search: the row exists, but is not found. *)
  Theorem C61_other_root_fields_refuted :
    rows_of_key b_tab 1 "o1" = Some ["one"] /\
    fst (build bz b_e2m (mysql b_tab) b_m2e 0 [] (b_ex "o1" "new name")) = Some ENotFound.
  Proof. split; reflexivity. Qed.
  (** A slice that is not empty keeps its elements: loading twice doubles the children. *)
  Theorem C61_loading_twice_refuted :
    let s1 := snd (build bz b_e2m (mysql b_tab) b_m2e 0 [ArgSlice 7 2] (b_ex "o1" "")) in
    let r := build bz b_e2m (mysql b_tab) b_m2e 0 [ArgSlice 7 2] (set_heap s1 0 (mkB 1 "o1" [""])) in
    fst r = None /\ map (b_heap (snd r)) (b_slices (snd r) 7) = [mkB 2 "i1" ["a"]; mkB 2 "i3" ["c"]; mkB 2 "i1" ["a"]; mkB 2 "i3" ["c"]].
  Proof. split; reflexivity. Qed.
  (** If the converter's query model has only zero fields, all rows of the table are loaded, whoever their parent is. *)
  Theorem C61_whole_table_refuted :
    b_see (build bz b_e2m_bad (mysql b_tab) b_m2e 0 [ArgSlice 7 2] (b_ex "o1" "")) 7
      = (None, mkB 1 "o1" ["one"], [mkB 2 "i1" ["a"]; mkB 2 "i2" ["b"]; mkB 2 "i3" ["c"]], None).
  Proof. reflexivity. Qed.
End Example.
Print Assumptions C61_other_root_fields_refuted.
Print Assumptions C61_loading_twice_refuted.
Print Assumptions C61_whole_table_refuted.
(** An error of the converter or the executor while a child is loaded: if it says "not found" - itself, wrapped or joined with
    others - the child counts as absent and the load goes on; any other error is returned. *)
Inductive says_notfound : err -> Prop :=
| says_itself : says_notfound ENotFound
| says_wrapped e : says_notfound e -> says_notfound (EWrap e)
| says_joined e l : In e l -> says_notfound e -> says_notfound (EJoin l).
Lemma is_notfound_says : forall e, is_notfound e = true <-> says_notfound e.
Proof.
  fix IH 1. intros e. split.
  - destruct e; cbn [is_notfound]; intros H; try discriminate H.
    + constructor.
    + constructor. now apply IH.
    + revert H. induction l as [|x t IHl]; cbn [existsb]; intros H; [discriminate H|]. apply orb_true_iff in H. destruct H as [H|H].
      * apply (says_joined x); [now left|now apply IH].
      * specialize (IHl H). inversion IHl; subst. apply (says_joined e); [now right|assumption].
  - induction 1 as [|e H J|e l Hin H J]; cbn [is_notfound]; auto. apply existsb_exists. eauto.
Qed.
Theorem C61_child_error : forall zero e2m query m2e parent p x ty s e, (b_ptrs s x = Some p) ->
  (e2m (b_heap s p) (Some (b_heap s parent)) = inl e \/ exists q, e2m (b_heap s p) (Some (b_heap s parent)) = inr q /\ query q = inl e) ->
  (says_notfound e -> build_child zero e2m query m2e parent (ArgEnt p) s = (None, s) /\ fst (build_child zero e2m query m2e parent (ArgPtr x ty) s) = None /\
                      b_ptrs (snd (build_child zero e2m query m2e parent (ArgPtr x ty) s)) x = None) /\
  (~ says_notfound e -> build_child zero e2m query m2e parent (ArgEnt p) s = (Some e, s) /\ build_child zero e2m query m2e parent (ArgPtr x ty) s = (Some e, s)).
Proof.
  intros zero e2m query m2e parent p x ty s e Hx H.
  assert (B : build_entity e2m query m2e p (Some parent) s = (Some e, s)).
  { unfold build_entity. cbn [option_map]. destruct H as [->|(q & -> & ->)]; reflexivity. }
  cbn [build_child]. rewrite Hx, B. rewrite <- is_notfound_says. split; intros N.
  - rewrite N. cbn [fst snd set_ptr b_ptrs]. rewrite Nat.eqb_refl. auto.
  - destruct (is_notfound e); [congruence|auto].
Qed.
Print Assumptions C61_child_error.
Example C61_child_error_case : says_notfound (EWrap (EJoin [EUser 1; ENotFound])) /\ ~ says_notfound (EJoin [EUser 1; EBreak]).
Proof.
  split; [constructor; apply (says_joined ENotFound); [right; now left|constructor]|]. intros H. apply is_notfound_says in H. discriminate H.
Qed.

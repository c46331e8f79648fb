(** Property theorems: what one run stores, a later run loads. *)
From Verif Require Import GraphProof5 SyncProof2 EngineProof5 EngineProof8 ExecSpec ExecProof ExecProps ExecEngine BuildSpec BuildProof BuildProps.
From Verif Require Import SaveProps SyncProps EngineProps EngineModel.

(** The fields of entity [p], as the converters see them. *)
Definition fields_of (h : heap) (p : ptr) : bval := mkB (e_type (h p)) (e_id (h p)) (e_data (h p)).
(** An object holding only the id, as handed to Get. *)
Definition only_id (zero : nat -> bval) (ty : nat) (id : string) : bval := mkB ty id (b_data (zero ty)).

(** Entities written by the run: the entities of child list [k] of [p], all of type [ty], stored in table [tk] with [p]'s id in column [i]. *)
Record child_list (cfg : config) (s : st) (h : heap) (t : tables) (p : ptr) (id : string) (k : key) (ty tk i : nat) (l : list ptr) : Prop := mkChildList {
  cl_kids : forall q, In q l <-> now_child (kids_now s) p k q;
  cl_nodup : NoDup l;
  cl_rows : forall q, In q l -> exists m, row cfg h q p = Some m /\ m_type m = tk /\ m_id m = e_id (h q) /\ nth_error (m_cols m) i = Some id;
  (** there were no such rows before the run, and no other entity written by the run claims to be a child of [p] in this table *)
  cl_none : forall r, In r (t tk) -> nth_error (snd r) i <> Some id;
  cl_only : forall c par kk q m, must_save cfg s c par kk q -> row cfg h q par = Some m -> m_type m = tk -> nth_error (m_cols m) i = Some id -> In q l /\ par = p }.

Lemma must_save_live cfg s c par k q : must_save cfg s c par k q -> c <> CDelete -> live_at s q par k.
Proof.
  intros [H|(_ & X & _)] N; [|contradiction]. destruct c; cbn in H.
  - destruct H as ((R & C & _) & _). split; assumption.
  - destruct H as [(R & C & _)|((R & C & _) & _)]; split; assumption.
  - contradiction.
  - destruct H.
Qed.
Lemma In_rows t k id c : unique_keys t -> (rows_of t (k, id) = Some c <-> In (id, c) (t k)).
Proof.
  intros K. unfold rows_of. cbn [fst snd]. specialize (K k). induction (t k) as [|[i v] rows IH]; cbn [find map In fst] in *; [split; [discriminate|intros []]|].
  inversion K as [|? ? K1 K2]; subst. destruct (String.eqb_spec i id) as [->|N].
  - cbn. split; [intros [= ->]; now left|]. intros [[= ->]|X]; [reflexivity|]. elim K1. apply (in_map fst) in X. exact X.
  - rewrite IH by assumption. split; [now right|]. intros [[= -> _]|X]; [contradiction|assumption].
Qed.
Lemma touched_dec cfg s h d chs key : ready cfg s h d -> (forall t par k p, reported chs t par k p <-> must_save cfg s t par k p) ->
  (exists c par kk q m, must_save cfg s c par kk q /\ row cfg h q par = Some m /\ row_key m = key) \/
  (forall c par kk q m, must_save cfg s c par kk q -> row cfg h q par = Some m -> row_key m <> key).
Proof.
  intros RD M1. destruct (existsb (fun c => key_eqb (row_key (cb_model c)) key) (contributions cfg h (s_pool s) chs)) eqn:E.
  - left. apply existsb_exists in E. destruct E as (c & Hc & Ek). apply SyncProof.key_eqb_spec in Ek. apply contributions_In in Hc.
    destruct Hc as (t & par & k & q & m & Hr & Hv & ->). cbn in Ek. exists t, par, k, q, m. split; [now apply M1|]. split; [|assumption]. eapply conv_row; eauto.
  - right. intros c par kk q m Hs Hr Ek. assert (X : existsb (fun c => key_eqb (row_key (cb_model c)) key) (contributions cfg h (s_pool s) chs) = true); [|congruence].
    apply existsb_exists. eexists. split.
    + apply contributions_In. exists c, par, kk, q, m. split; [now apply M1|]. split; [eapply row_conv; eauto|reflexivity].
    + cbn. now apply SyncProof.key_eqb_spec.
Qed.
(** The rows with [p]'s id in the parent column are exactly those of the children. *)
Lemma stored_children cfg s h t t' p id k ty tk i l d chs : ready cfg s h d -> (forall t par k p, reported chs t par k p <-> must_save cfg s t par k p) ->
  in_step cfg s h (rows_of t) (rows_of t') -> unique_keys t -> unique_keys t' ->
  reach (kids_now s) meta p -> child_list cfg s h t p id k ty tk i l ->
  forall r, In r (filter (has_parent i id) (t' tk)) <-> exists q m, In q l /\ row cfg h q p = Some m /\ r = to_row m.
Proof.
  intros RD M1 IS U U' R [C1 C2 C3 C4 C5] r. rewrite filter_In. unfold has_parent. split.
  - intros (Hr & Hp). assert (Hp' : nth_error (snd r) i = Some id).
    { destruct (nth_error (snd r) i) as [v|]; [|discriminate]. apply String.eqb_eq in Hp. now subst. } clear Hp.
    destruct r as [rid rc]. cbn [snd] in Hp'. assert (E := proj2 (In_rows t' tk rid rc U') Hr).
    destruct (touched_dec cfg s h d chs (tk, rid) RD M1) as [(c & par & kk & q & m & S1 & S2 & S3)|X].
    + assert (Hc : c <> CDelete). { intros ->. rewrite <- S3, (is_gone _ _ _ _ _ IS q par kk m S1 S2) in E. discriminate. }
      assert (L := must_save_live _ _ _ _ _ _ S1 Hc). rewrite <- S3, (is_live _ _ _ _ _ IS q par kk m L S2) in E. injection E as <-.
      unfold row_key in S3. injection S3 as S3 S4. destruct (C5 c par kk q m S1 S2 S3 Hp') as (Hq & ->). exists q, m. split; [assumption|]. split; [assumption|].
      unfold to_row. now rewrite S4.
    + exfalso. rewrite (is_other _ _ _ _ _ IS (tk, rid) X) in E. apply (In_rows t tk rid rc U) in E. now apply (C4 _ E).
  - intros (q & m & Hq & Hm & ->). destruct (C3 q Hq) as (m' & E & Tm & _ & Hn). rewrite Hm in E. injection E as <-. split.
    + assert (L : live_at s q p k) by (split; [assumption|now apply C1]). assert (E := is_live _ _ _ _ _ IS q p k m L Hm).
      unfold row_key in E. rewrite Tm in E. now apply (In_rows t' tk (m_id m) (m_cols m) U').
    + cbn [to_row snd]. rewrite Hn. apply String.eqb_refl.
Qed.
Lemma nodup_filter_rows t k f : unique_keys t -> NoDup (filter f (t k)).
Proof. intros U. apply NoDup_filter. apply (NoDup_map_inv fst). apply U. Qed.

(* ---------------------------------------------------------------- C62 *)
(** A child field of the entity: a slice or (pointer) a single one; its slot in the loaded object, the entity type, the name of the child
    list, the table, the column with the parent's id, the children when stored. *)
Record wanted := mkWanted { w_pointer : bool; w_slot : nat; w_type : nat; w_key : key; w_table : nat; w_col : nat; w_kids : list ptr }.
Definition arg_of (w : wanted) : child_arg := if w_pointer w then ArgPtr (w_slot w) (w_type w) else ArgSlice (w_slot w) (w_type w).
(** The loaded field has the field values of the stored children ([h]: the objects when stored). *)
Definition field_back (h : heap) (s1 : bst) (w : wanted) : Prop :=
  if w_pointer w then match w_kids w with
                      | [] => b_ptrs s1 (w_slot w) = None
                      | q :: _ => exists p, b_ptrs s1 (w_slot w) = Some p /\ b_heap s1 p = fields_of h q end
  else Permutation (map (b_heap s1) (b_slices s1 (w_slot w))) (map (fields_of h) (w_kids w)).

(** Any entity [p] of an aggregate stored by a successful save (a root: [par] = the repository) and its child fields are loaded by a
    later run: [zero], [e2m], [m2e]: its new objects and converters.  [v0]: the object handed to the load, with the id only or, for a
    further level, already loaded. *)
Theorem C62_store_then_load :
  forall cfg w single s s' t t' delta par kp p mp zero e2m m2e s0 rp v0 want,
  (* the save, on MySQL tables [t], leaving [t'] *)
  keeps_types cfg -> orders_ok cfg -> go_maps (s_heap s) (s_pool s) -> c_dry cfg = false -> persist cfg s = (Done None, s') ->
  after_unread cfg (s_trace s') ->
  unique_keys t -> widths w t -> (forall c par k q m, must_save cfg s c par k q -> row cfg (s_heap s') q par = Some m -> model_width w m) ->
  ready cfg s (s_heap s') (rows_of t) -> s_trace s' = s_trace s ++ delta -> x_execs single (execs delta) t = Some t' ->
  (* the aggregate *)
  live_at s p par kp -> row cfg (s_heap s') p par = Some mp -> m_id mp = e_id (s_heap s' p) -> m_id mp <> EmptyString ->
  (forall a, In a want -> child_list cfg s (s_heap s') t p (m_id mp) (w_key a) (w_type a) (w_table a) (w_col a) (w_kids a) /\
     keyed_by_parent zero e2m (w_type a) (w_table a) (w_col a) /\ (w_pointer a = true -> length (w_kids a) <= 1)) ->
  (* converters: total, and inverse; the query for the object given asks for nothing the row does not have *)
  (forall v par, exists q, e2m v par = inr q) -> (forall m v, snd (m2e m v) = None) ->
  (exists cols, e2m v0 None = inr (mkModel (m_type mp) (m_id mp) cols) /\ x_cols_match cols (m_cols mp) = true) ->
  fst (m2e mp v0) = fields_of (s_heap s') p ->
  (forall a q m, In a want -> In q (w_kids a) -> row cfg (s_heap s') q p = Some m -> fst (m2e m (zero (w_type a))) = fields_of (s_heap s') q) ->
  (* the load, into empty fields *)
  b_heap s0 rp = v0 -> b_id v0 = m_id mp -> rp < b_next s0 ->
  (forall a, In a want -> b_slices s0 (w_slot a) = [] /\ b_ptrs s0 (w_slot a) = None) -> NoDup (map (fun a => (w_pointer a, w_slot a)) want) ->
  exists s1, build zero e2m (mysql t') m2e rp (map arg_of want) s0 = (None, s1) /\
    b_heap s1 rp = fields_of (s_heap s') p /\ forall a, In a want -> field_back (s_heap s') s1 a.
Proof.
  intros cfg w single s s' t t' delta par0 kp p mp zero e2m m2e s0 rp v0 want Ht Ho Hmaps Hd H Hn U W Hw RD T X Hl Hrp Hid Hne Hwant He Hm Hq Hroot Hinv H0 H0i H0n H0s Hnd.
  destruct (persist_acts cfg s s' Ht Ho Hmaps Hd H Hn) as (delta' & chs & T' & M1 & _).
  destruct (C63_save_on_mysql_in_step_partial cfg single w s s' t Ht Ho Hmaps Hd H Hn U W Hw RD) as (d2 & T2 & R2).
  assert (d2 = delta) as ->. { rewrite T in T2. apply app_inv_head in T2. now symmetry. }
  destruct (R2 t' X) as (U' & IS). clear R2 T2.
  set (h := s_heap s') in *. set (args := map arg_of want).
  destruct Hq as (cols & Hq & Hz).
  assert (Qr : x_query (mkModel (m_type mp) (m_id mp) cols) t' = [mp]).
  { assert (L := is_live _ _ _ _ _ IS p par0 kp mp Hl Hrp). unfold row_key in L. apply (In_rows t' (m_type mp) (m_id mp) (m_cols mp) U') in L.
    unfold x_query. cbn [m_type]. specialize (U' (m_type mp)).
    assert (Ef : filter (x_match (mkModel (m_type mp) (m_id mp) cols)) (t' (m_type mp)) = [(m_id mp, m_cols mp)]); [|rewrite Ef; cbn; now destruct mp].
    assert (Xm : forall r, x_match (mkModel (m_type mp) (m_id mp) cols) r = String.eqb (m_id mp) (fst r) && x_cols_match cols (snd r)).
    { intros r. unfold x_match. cbn [m_id m_cols]. destruct (String.eqb_spec (m_id mp) ""); [contradiction|]. reflexivity. }
    clear - L U' Hz Xm. induction (t' (m_type mp)) as [|[i c] rows IH]; [destruct L|]. cbn [map fst] in U'. inversion U' as [|? ? U1 U2]; subst.
    cbn [filter]. rewrite Xm. cbn [fst snd]. destruct L as [L|L].
    - injection L as -> ->. rewrite String.eqb_refl, Hz. cbn [andb]. f_equal.
      clear - U1 Xm. induction rows as [|[j c] rows IH]; [reflexivity|]. cbn [filter]. rewrite Xm. cbn [fst]. destruct (String.eqb_spec (m_id mp) j) as [<-|]; [elim U1; now left|]. apply IH. intros Y. apply U1. now right.
    - destruct (String.eqb_spec (m_id mp) i) as [<-|]; [elim U1; apply (in_map fst) in L; exact L|]. now apply IH. }
  assert (Hh : honest e2m (mysql t') m2e).
  { split; [|split].
    - intros v par e E. destruct (He v par) as (q & E'). congruence.
    - intros q e [=].
    - intros m v v' e E. specialize (Hm m v). rewrite E in Hm. discriminate. }
  assert (Tg : flat_map (targets s0) args = []).
  { unfold args. clear - H0s. induction want as [|a l IH]; cbn [map flat_map]; [reflexivity|]. rewrite IH by (intros b Hb; apply H0s; now right).
    unfold arg_of. destruct (w_pointer a); cbn [targets]; [|reflexivity]. destruct (H0s a (or_introl eq_refl)) as (_ & ->). reflexivity. }
  assert (Sl : NoDup (flat_map slice_of args) /\ NoDup (flat_map field_of args)).
  { unfold args. clear - Hnd. induction want as [|a l IH]; cbn [map flat_map]; [split; constructor|]. cbn [map] in Hnd. inversion Hnd as [|? ? N1 N2]; subst. destruct (IH N2) as (I1 & I2).
    unfold arg_of at 1 3. destruct (w_pointer a) eqn:P; cbn [slice_of field_of app]; (split; [|]); auto; constructor; auto; intros Y; apply N1.
    - apply in_flat_map in Y. destruct Y as (b & Hb & Y). apply in_map_iff in Hb. destruct Hb as (c & <- & Hc). apply in_map_iff. exists c. split; [|exact Hc].
      unfold arg_of in Y. destruct (w_pointer c); cbn in Y; [|destruct Y]. destruct Y as [Y|[]]. congruence.
    - apply in_flat_map in Y. destruct Y as (b & Hb & Y). apply in_map_iff in Hb. destruct Hb as (c & <- & Hc). apply in_map_iff. exists c. split; [|exact Hc].
      unfold arg_of in Y. destruct (w_pointer c); cbn in Y; [destruct Y|]. destruct Y as [Y|[]]. congruence. }
  assert (Sep : separate s0 rp args).
  { unfold separate. rewrite Tg. split; [repeat constructor; auto|]. split; [intros q [<-|[]]; assumption|]. exact Sl. }
  assert (Bad : forall a, In a args -> a <> ArgBad /\ a <> ArgSliceBad).
  { intros a Ha. unfold args in Ha. apply in_map_iff in Ha. destruct Ha as (b & <- & _). unfold arg_of. destruct (w_pointer b); split; discriminate. }
  destruct (C61_load_succeeds_partial zero e2m (mysql t') m2e rp args s0 He) as (s1 & E).
  { intros q. unfold mysql. eauto. }
  { assumption. }
  { intros Y. now destruct (Bad _ Y). }
  { intros Y. now destruct (Bad _ Y). }
  { rewrite H0, H0i. exact Hne. }
  { intros (q & E1 & E2). rewrite H0, Hq in E1. injection E1 as <-. unfold mysql in E2. rewrite Qr in E2. discriminate. }
  exists s1. split; [exact E|]. destruct (C61_load_exact_partial _ _ _ _ _ _ _ _ Hh Sep E) as (_ & (m & ms & F & Em) & C & K).
  assert (Er : b_heap s1 rp = fields_of h p).
  { destruct F as (q & E1 & E2). rewrite H0, Hq in E1. injection E1 as <-. unfold mysql in E2. rewrite Qr in E2. injection E2 as <- <-. rewrite H0 in Em. rewrite Em in Hroot. exact Hroot. }
  split; [exact Er|]. intros a Hx. destruct (Hwant a Hx) as (CL & KP & One). destruct (H0s a Hx) as (H0sa & H0pa).
  pose proof (Hinv a) as Hinva. unfold field_back. destruct a as [ip x ty k tk i l]. cbn [w_pointer w_slot w_type w_key w_table w_col w_kids] in *.
  assert (Ei : b_id (b_heap s1 rp) = m_id mp) by (rewrite Er; cbn; now symmetry).
  destruct (C61_children_are_the_parents_rows_partial zero e2m t' m2e rp args s0 s1 x ty tk i Hh Sep E) as (Cs & Cp); [rewrite Ei; assumption|assumption|].
  assert (Hp : reach (kids_now s) meta p) by (eapply live_reach; eauto).
  assert (SC := stored_children cfg s h t t' p (m_id mp) k ty tk i l _ chs RD M1 IS U U' Hp CL).
  (* the rows, and the models of the children *)
  set (rows := filter (has_parent i (m_id mp)) (t' tk)) in *.
  assert (Nr : NoDup rows) by now apply nodup_filter_rows.
  set (rowof := fun q => match row cfg h q p with Some m => to_row m | None => (EmptyString, []) end).
  assert (Rq : forall q, In q l -> exists m, row cfg h q p = Some m /\ m_type m = tk /\ rowof q = to_row m).
  { intros q Hq2. destruct (cl_rows _ _ _ _ _ _ _ _ _ _ _ CL q Hq2) as (m0 & A & B & _). exists m0. unfold rowof. rewrite A. auto. }
  assert (Pr : Permutation rows (map rowof l)).
  { apply NoDup_Permutation; [assumption| |].
    - assert (Inj : forall q q', In q l -> In q' l -> rowof q = rowof q' -> q = q').
      { intros q q' Hq1 Hq2 Eq. destruct (Rq q Hq1) as (m1 & A1 & B1 & D1), (Rq q' Hq2) as (m2 & A2 & B2 & D2). rewrite D1, D2 in Eq. unfold to_row in Eq. injection Eq as Eq1 _.
        apply (rd_keys _ _ _ _ RD q p q' p m1 m2); auto.
        - exists k. left. split; [assumption|]. now apply (cl_kids _ _ _ _ _ _ _ _ _ _ _ CL).
        - exists k. left. split; [assumption|]. now apply (cl_kids _ _ _ _ _ _ _ _ _ _ _ CL).
        - unfold row_key. congruence. }
      assert (Nl := cl_nodup _ _ _ _ _ _ _ _ _ _ _ CL). clear - Inj Nl. induction Nl as [|q l Hq _ IH]; cbn; [constructor|]. constructor.
      + intros Y. apply in_map_iff in Y. destruct Y as (q' & E & Hq'). apply Hq. rewrite (Inj q q'); auto; [now left|now right].
      + apply IH. intros a b Ha Hb. apply Inj; now right.
    - intros r. rewrite SC, in_map_iff. split.
      + intros (q & m0 & A & B & ->). exists q. split; [|assumption]. unfold rowof. now rewrite B.
      + intros (q & <- & Hq2). destruct (Rq q Hq2) as (m0 & A & _ & B). exists q, m0. auto. }
  (* from rows to objects *)
  assert (Back : forall q, In q l -> fst (m2e (mkModel tk (fst (rowof q)) (snd (rowof q))) (zero ty)) = fields_of h q).
  { intros q Hq2. destruct (Rq q Hq2) as (m0 & A & B & D). rewrite D. cbn [to_row fst snd]. rewrite <- (Hinva q m0 Hx Hq2 A). rewrite <- B. now destruct m0. }
  rewrite Ei in Cs, Cp. fold rows in Cs, Cp. destruct ip.
  - assert (Ia : In (ArgPtr x ty) args) by (unfold args; apply in_map_iff; eexists; split; [|exact Hx]; reflexivity).
    specialize (Cp Ia H0pa). destruct l as [|q [|q2 l]].
    + apply Permutation_sym, Permutation_nil in Pr. rewrite Pr in Cp. exact Cp.
    + cbn [map] in Pr. apply Permutation_sym, Permutation_length_1_inv in Pr. rewrite Pr in Cp. destruct Cp as (p' & P1 & P2). exists p'. split; [exact P1|].
      rewrite <- (Back q (or_introl eq_refl)), P2. reflexivity.
    + specialize (One eq_refl). cbn in One. lia.
  - destruct Cs as (ps & Eps & F2). { unfold args. apply in_map_iff. eexists. split; [|exact Hx]. reflexivity. }
    rewrite H0sa in Eps. cbn [app] in Eps. rewrite Eps.
    assert (E1 : map (b_heap s1) ps = map (fun r => fst (m2e (mkModel tk (fst r) (snd r)) (zero ty))) rows).
    { clear - F2. induction F2 as [|r q rs qs A _ IH]; cbn; [reflexivity|]. rewrite IH. f_equal. now rewrite A. }
    rewrite E1, (Permutation_map _ Pr), map_map. assert (E2 : map (fun q => fst (m2e (mkModel tk (fst (rowof q)) (snd (rowof q))) (zero ty))) l = map (fields_of h) l).
    { apply map_ext_in. exact Back. }
    now rewrite E2.
Qed.
Print Assumptions C62_store_then_load.

(** ** a concrete aggregate: order 1 with items 2 and 3, item 2 with its note 4 (a pointer), created by a run, and loaded *)
Definition rt_heap : heap := fun p => match p with
  | 1 => mkEnt "o9"%string false 1 None [mkField "L"%string true false (FSlice [2; 3])] [] ["nine"%string]
  | 2 => mkEnt "i8"%string false 2 None [mkField "N"%string true false (FEntity (Some 4))] [] ["x"%string]
  | 3 => mkEnt "i9"%string false 2 None [mkField "N"%string true false (FEntity None)] [] ["y"%string]
  | 4 => mkEnt "n1"%string false 3 None [] [] ["z"%string]
  | _ => ex_ent ""%string 0 [] [] [] end.
(** converters like those of BuildProps (total: other types are stored in a table of their own) *)
Definition rt_e2m (v : bval) (par : option bval) : err + model :=
  match b_type v with
  | 2 | 3 => inr (mkModel (b_type v) (b_id v) (match par with Some o => b_id o | None => ""%string end :: b_data v))
  | ty => inr (mkModel ty (b_id v) (b_data v)) end.
Definition rt_m2e (m : model) (v : bval) : bval * option err :=
  match b_type v with 2 | 3 => (mkB (b_type v) (m_id m) (tl (m_cols m)), None) | ty => (mkB ty (m_id m) (m_cols m), None) end.
Definition rt_conv : heap -> ptr -> option ptr -> op -> conv := fun h p par _ =>
  if p =? meta then NotReg false else match rt_e2m (fields_of h p) (option_map (fields_of h) par) with inr m => CModel m | inl e => ConvErr e end.
Definition rt_cfg : config := mkConfig true false false BusPlain None 0 rt_conv (fun _ _ _ => true) (fun _ => ord_id) (fun _ l => l) 20 all_ok.
Definition rt_state : st := mkSt rt_heap (mkCont [1] []) (fun _ => None) [] None false [] 0 [].
Definition rt_after : st := snd (persist rt_cfg rt_state).
Definition rt_chs : list change := match getEntityChanged false ord_id (kids_now rt_state) (fun p => e_dirty (rt_heap p)) (fun _ => None) 20 with ROk l => l | _ => [] end.
Definition rt_tables' : tables := match x_execs (fun _ => true) (execs (s_trace rt_after)) b_tab with Some t => t | None => b_tab end.
Lemma rt_maps : go_maps rt_heap (fun _ => None).
Proof.
  split.
  - intros p m. do 5 (destruct p as [|p]; [discriminate|]). discriminate.
  - intros p s [=].
Qed.
Lemma rt_must t par k p : must_save rt_cfg rt_state t par k p <-> reported rt_chs t par k p.
Proof.
  symmetry. revert t par k p. apply (must_save_spec rt_cfg rt_state rt_chs).
  - exact rt_maps.
  - intros q m. cbn. unfold ord_id. apply Permutation_refl.
  - vm_compute. reflexivity.
Qed.
Definition rt_edge (par p : ptr) : Prop := par = 0 /\ p = 1 \/ par = 1 /\ p = 2 \/ par = 1 /\ p = 3 \/ par = 2 /\ p = 4.
Lemma rt_reported t par k p : reported rt_chs t par k p -> t = CNew /\ rt_edge par p.
Proof.
  unfold rt_edge. intros (ch & H & <- & <- & _ & Hp). vm_compute in H. repeat (destruct H as [<-|H]; [cbn in Hp; intuition (subst; auto)|]). destruct H.
Qed.
Lemma rt_kids q : kids_now rt_state q = match q with 0 => [(meta_key, [1])] | 1 => [("L"%string, [2; 3])] | 2 => [("N"%string, [4])] | 3 => [("N"%string, [])] | 4 => [] | _ => [("L"%string, [])] end.
Proof. do 5 (destruct q as [|q]; [reflexivity|]). reflexivity. Qed.
Lemma rt_child p k c : now_child (kids_now rt_state) p k c ->
  (p = 0 /\ c = 1 /\ k = meta_key) \/ (p = 1 /\ (c = 2 \/ c = 3) /\ k = "L"%string) \/ (p = 2 /\ c = 4 /\ k = "N"%string).
Proof.
  intros (l & H1 & H2). rewrite rt_kids in H1.
  do 5 (destruct p as [|p]; [cbn in H1; try (destruct H1 as [[= <- <-]|[]]); cbn in H2; intuition (subst; auto); fail|]). cbn in H1. destruct H1 as [[= <- <-]|[]]. destruct H2.
Qed.
Definition rt_h : heap := s_heap rt_after.
Lemma rt_row p par : rt_edge par p ->
  row rt_cfg rt_h p par = Some (match p with 1 => mkModel 1 "o9" ["nine"] | 2 => mkModel 2 "i8" ["o9"; "x"] | 3 => mkModel 2 "i9" ["o9"; "y"] | _ => mkModel 3 "n1" ["i8"; "z"] end%string).
Proof. intros [(-> & ->)|[(-> & ->)|[(-> & ->)|(-> & ->)]]]; vm_compute; reflexivity. Qed.
Lemma rt_relevant p par : relevant rt_cfg rt_state p par -> rt_edge par p.
Proof. intros (k & [[_ H]|(t & H)]); [apply rt_child in H; unfold rt_edge; intuition|apply rt_must, rt_reported in H; tauto]. Qed.
Lemma rt_ready : ready rt_cfg rt_state rt_h (rows_of b_tab).
Proof.
  split.
  - reflexivity.
  - intros p k p' k' c _ _ H H'. apply rt_child in H, H'. intuition (subst; auto; try discriminate).
  - intros par k p H R. apply rt_must, rt_reported in H. destruct H as (H & _). discriminate.
  - intros p sn m [=].
  - intros p par k m L (sn & l & W & _). discriminate.
  - intros p par k m H. apply rt_must, rt_reported in H. destruct H as (H & _). discriminate.
  - intros p par q parq mp mq Hp Hq Mp Mq E. apply rt_relevant in Hp, Hq. rewrite (rt_row p par Hp) in Mp. rewrite (rt_row q parq Hq) in Mq.
    injection Mp as <-. injection Mq as <-. destruct Hp as [(_ & ->)|[(_ & ->)|[(_ & ->)|(_ & ->)]]], Hq as [(_ & ->)|[(_ & ->)|[(_ & ->)|(_ & ->)]]]; auto; discriminate.
Qed.
Lemma rt_child_list : child_list rt_cfg rt_state rt_h b_tab 1 "o9"%string "L"%string 2 2 0 [2; 3].
Proof.
  split.
  - intros q. split.
    + intros Hq. exists [2; 3]. split; [now left|exact Hq].
    + intros Hq. apply rt_child in Hq. cbn. intuition (subst; try discriminate; auto).
  - repeat constructor; cbn; intuition discriminate.
  - intros q [<-|[<-|[]]]; eexists; (split; [vm_compute; reflexivity|]); repeat split; reflexivity.
  - intros r Hr. cbn in Hr. repeat (destruct Hr as [<-|Hr]; [discriminate|]). destruct Hr.
  - intros c par kk q m Hs Hr Hm _. apply rt_must, rt_reported in Hs. destruct Hs as (_ & Hs). rewrite (rt_row q par Hs) in Hr. injection Hr as <-.
    destruct Hs as [(_ & ->)|[(-> & ->)|[(-> & ->)|(_ & ->)]]]; try discriminate; cbn; auto.
Qed.
Lemma rt_child_list2 : child_list rt_cfg rt_state rt_h b_tab 2 "i8"%string "N"%string 3 3 0 [4].
Proof.
  split.
  - intros q. split.
    + intros Hq. exists [4]. split; [now left|exact Hq].
    + intros Hq. apply rt_child in Hq. cbn. intuition (subst; try discriminate; auto).
  - repeat constructor; cbn; intuition discriminate.
  - intros q [<-|[]]; eexists; (split; [vm_compute; reflexivity|]); repeat split; reflexivity.
  - intros r Hr. destruct Hr.
  - intros c par kk q m Hs Hr Hm _. apply rt_must, rt_reported in Hs. destruct Hs as (_ & Hs). rewrite (rt_row q par Hs) in Hr. injection Hr as <-.
    destruct Hs as [(_ & ->)|[(-> & ->)|[(-> & ->)|(-> & ->)]]]; try discriminate; cbn; auto.
Qed.
Lemma rt_keyed ty : ty = 2 \/ ty = 3 -> keyed_by_parent bz rt_e2m ty ty 0.
Proof. intros [-> | ->] par; exists [b_id par; ""%string]; (split; [reflexivity|]); (split; [reflexivity|]); intros [|[|j]] c Hj E; cbn in E; [contradiction|now injection E|destruct j; discriminate|contradiction|now injection E|destruct j; discriminate]. Qed.
Lemma rt_saved : persist rt_cfg rt_state = (Done None, rt_after).
Proof. unfold rt_after. assert (X : fst (persist rt_cfg rt_state) = Done None) by (vm_compute; reflexivity). rewrite (surjective_pairing (persist rt_cfg rt_state)) at 1. now rewrite X. Qed.
Lemma rt_hooks : after_unread rt_cfg (s_trace rt_after).
Proof.
  intros q c x Hx g. assert (F : forall cx, In cx (s_trace rt_after) -> snd cx = ok_resp).
  { intros cx Hcx. vm_compute in Hcx. repeat (destruct Hcx as [<-|Hcx]; [reflexivity|]). destruct Hcx. }
  apply F in Hx. cbn in Hx. now subst x.
Qed.
Lemma rt_unique : unique_keys b_tab.
Proof. intros k. do 3 (destruct k as [|k]; [cbn; repeat constructor; cbn; intuition discriminate|]). constructor. Qed.
Definition rt_width (k : nat) : nat := match k with 2 | 3 => 2 | _ => 1 end.
Lemma rt_widths : widths rt_width b_tab.
Proof. intros k r Hr. do 3 (destruct k as [|k]; [cbn in Hr; repeat (destruct Hr as [<-|Hr]; [reflexivity|]); destruct Hr|]). destruct Hr. Qed.
Lemma rt_model_width c par k q m : must_save rt_cfg rt_state c par k q -> row rt_cfg rt_h q par = Some m -> model_width rt_width m.
Proof.
  intros Hs Hr. apply rt_must, rt_reported in Hs. destruct Hs as (_ & Hs). rewrite (rt_row q par Hs) in Hr. injection Hr as <-.
  destruct Hs as [(_ & ->)|[(_ & ->)|[(_ & ->)|(_ & ->)]]]; reflexivity.
Qed.
Lemma rt_stored : x_execs (fun _ => true) (execs (s_trace rt_after)) b_tab = Some rt_tables'.
Proof.
  unfold rt_tables'. assert (X : x_execs (fun _ => true) (execs (s_trace rt_after)) b_tab <> None) by (vm_compute; discriminate).
  destruct (x_execs (fun _ => true) (execs (s_trace rt_after)) b_tab); [reflexivity|contradiction].
Qed.
Lemma rt_total v par : exists q, rt_e2m v par = inr q.
Proof. unfold rt_e2m. destruct (b_type v) as [|[|[|[|n]]]]; eauto. Qed.
Lemma rt_no_error m v : snd (rt_m2e m v) = None.
Proof. unfold rt_m2e. destruct (b_type v) as [|[|[|[|n]]]]; reflexivity. Qed.
(** All hypotheses of C62 hold, so the theorem gives the loaded aggregate: the order with its items, *)
Example C62_example :
  exists s1, build bz rt_e2m (mysql rt_tables') rt_m2e 0 [ArgSlice 7 2] (b_ex "o9" "") = (None, s1) /\
    b_heap s1 0 = mkB 1 "o9" ["nine"%string] /\ Permutation (map (b_heap s1) (b_slices s1 7)) [mkB 2 "i8" ["x"%string]; mkB 2 "i9" ["y"%string]].
Proof.
  destruct (C62_store_then_load rt_cfg rt_width (fun _ => true) rt_state rt_after b_tab rt_tables' (s_trace rt_after) meta meta_key 1 (mkModel 1 "o9" ["nine"%string]) bz rt_e2m rt_m2e
    (b_ex "o9" "") 0 (mkB 1 "o9" [""%string]) [mkWanted false 7 2 "L"%string 2 0 [2; 3]]) as (s1 & E & R & P);
    auto using rt_maps, rt_saved, rt_hooks, rt_unique, rt_widths, rt_ready, rt_stored, rt_total, rt_no_error; try (vm_compute; reflexivity).
  - split; [intros n p m; reflexivity|intros n l; reflexivity].
  - exact rt_model_width.
  - split; [constructor|]. exists [1]. split; now left.
  - discriminate.
  - intros a [<-|[]]. split; [exact rt_child_list|]. split; [apply rt_keyed; auto|discriminate].
  - exists [""%string]. split; reflexivity.
  - intros a q m [<-|[]] Hq Hr. destruct Hq as [<-|[<-|[]]]; vm_compute in Hr; injection Hr as <-; vm_compute; reflexivity.
  - repeat constructor. cbn. tauto.
  - exists s1. split; [exact E|]. split; [exact R|]. apply (P _ (or_introl eq_refl)).
Qed.
(** and the loaded item with its note. *)
Example C62_second_level_example :
  exists s1 p, build bz rt_e2m (mysql rt_tables') rt_m2e 0 [ArgPtr 9 3] (mkBst (fun p => if p =? 0 then mkB 2 "i8" ["x"%string] else bz 0) (fun _ => []) (fun _ => None) 1) = (None, s1) /\
    b_heap s1 0 = mkB 2 "i8" ["x"%string] /\ b_ptrs s1 9 = Some p /\ b_heap s1 p = mkB 3 "n1" ["z"%string].
Proof.
  destruct (C62_store_then_load rt_cfg rt_width (fun _ => true) rt_state rt_after b_tab rt_tables' (s_trace rt_after) 1 "L"%string 2 (mkModel 2 "i8" ["o9"; "x"]%string) bz rt_e2m rt_m2e
    (mkBst (fun p => if p =? 0 then mkB 2 "i8" ["x"%string] else bz 0) (fun _ => []) (fun _ => None) 1) 0 (mkB 2 "i8" ["x"%string]) [mkWanted true 9 3 "N"%string 3 0 [4]]) as (s1 & E & R & P);
    auto using rt_maps, rt_saved, rt_hooks, rt_unique, rt_widths, rt_ready, rt_stored, rt_total, rt_no_error; try (vm_compute; reflexivity).
  - split; [intros n p m; reflexivity|intros n l; reflexivity].
  - exact rt_model_width.
  - split; [|exists [2; 3]; split; now left]. apply (live_reach _ 1 meta meta_key). split; [constructor|]. exists [1]. split; now left.
  - discriminate.
  - intros a [<-|[]]. split; [exact rt_child_list2|]. split; [apply rt_keyed; auto|auto].
  - exists [""; "x"]%string. split; reflexivity.
  - intros a q m [<-|[]] Hq Hr. destruct Hq as [<-|[]]; vm_compute in Hr; injection Hr as <-; vm_compute; reflexivity.
  - repeat constructor. cbn. tauto.
  - destruct (P _ (or_introl eq_refl)) as (p & P1 & P2). exists s1, p. auto.
Qed.

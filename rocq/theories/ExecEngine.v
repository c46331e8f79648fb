(** The engine's saves on the MySQL executor. *)
From Verif Require Import GraphProof5 SyncProof2 EngineProof5 EngineProof8 ExecSpec ExecProof ExecProps.
From Verif Require Import SaveProps SyncProps EngineProps EngineModel.

Lemma persist_acts cfg s s' : keeps_types cfg -> orders_ok cfg -> go_maps (s_heap s) (s_pool s) -> c_dry cfg = false -> persist cfg s = (Done None, s') ->
  after_unread cfg (s_trace s') ->
  exists delta chs, s_trace s' = s_trace s ++ delta /\ (forall t par k p, reported chs t par k p <-> must_save cfg s t par k p) /\
    actions_for (contributions cfg (s_heap s') (s_pool s) chs) (execs delta) /\ (c_recursive cfg = false -> NoDup (flat_map ch_kids chs)).
Proof.
  intros Hty Hord Hm Hd H Hn. destruct (persist_inv cfg Hty s _ s' H) as [[_ N]|(chs & hb & idc & ws & ha & Eg & T & P)]; [congruence|].
  destruct (must_save_spec cfg s chs Hm (proj1 Hord _) Eg) as [M1 M2].
  exists (hb ++ idc ++ ws ++ ha), chs. split; [assumption|]. split; [assumption|]. remember (Done None) as o eqn:Eo.
  destruct P as [hb o s1 X Hb|hb idc o s1 X Hb Hi|hb idc ws h acts o s1 X Hb Hi Hok Hid Haf Hdd Hw|hb idc ws ha h acts o s1 s' Hb Hi Hok Hid Hgen Haf Hw Ha A1 A2 A3 A4 A5 A7 A6]; try congruence.
  subst o. rewrite Hd in *. destruct (calls_out_ok _ _ _ Hw) as [_ W]. specialize (W eq_refl).
  assert (Ex : execs (hb ++ idc ++ ws ++ ha) = acts).
  { rewrite !execs_app, (execs_map _ _ W).
    assert (Nh : forall b ty (dd : list (call * resp)) o, calls_out (hook_calls cfg ty b chs) dd o -> execs dd = []).
    { intros b ty dd o Hx. apply calls_out_prefix in Hx. destruct Hx as (rest & Hx).
      assert (Hf : Forall (fun c => forall a, fst c <> KExec a) dd).
      { apply Forall_forall. intros c Hc a Ea. assert (Hin : In (fst c) (hook_calls cfg ty b chs)) by (rewrite Hx; apply in_app_iff; left; now apply in_map).
        rewrite Ea in Hin. apply hook_calls_shape in Hin. destruct Hin as (q & t & Hq). discriminate. }
      clear - Hf. induction Hf as [|[c r] t Hc _ IH]; [reflexivity|]. unfold execs in *. cbn in *. rewrite IH. destruct c; auto. exfalso. now apply (Hc a). }
    rewrite (Nh _ _ _ _ Hb), (Nh _ _ _ _ Ha), app_nil_r. cbn [app].
    assert (Ni : execs idc = []). { clear - Hi. induction Hi as [|[c r] t Hc _ IH]; [reflexivity|]. cbn in Hc. subst c. unfold execs in *. cbn. exact IH. }
    now rewrite Ni. }
  rewrite Ex. cbn in A6.
  assert (Eh : forall q par o, c_conv cfg (s_heap s') q par o = c_conv cfg h q par o).
  { rewrite A6. cbn. rewrite A2. apply after_unread_calls. intros [c x] Hc Hmu g. cbn in *.
    apply calls_out_prefix in Ha. destruct Ha as (rest & Ha).
    assert (Hin : In c (hook_calls cfg (fun p => e_type (s_heap s p)) false chs)) by (rewrite Ha; apply in_app_iff; left; change c with (fst (c, x)); now apply in_map).
    apply hook_calls_shape in Hin. destruct Hin as (p & t & ->).
    apply (Hn p t x). rewrite T. rewrite !in_app_iff. auto. }
  rewrite (contributions_ext cfg _ _ (s_pool s) chs Eh). split; assumption.
Qed.

(** ** the actions the engine makes are such that the executor's behaviour is known *)
Lemma acts_rows cfg s h d chs acts : ready cfg s h d ->
  (forall t par k p, reported chs t par k p <-> must_save cfg s t par k p) ->
  actions_for (contributions cfg h (s_pool s) chs) acts ->
  forall a, In a acts -> a_models a <> [] /\ one_table (a_models a) /\
    (forall m, In m (a_models a) -> exists c par k p, must_save cfg s c par k p /\ row cfg h p par = Some m /\ change_op c = a_op a) /\
    (a_op a = OpUpdate -> full_prevs (a_models a) (a_prev a)) /\
    (NoDup (map (fun c => row_key (cb_model c)) (contributions cfg h (s_pool s) chs)) -> NoDup (map m_id (a_models a))).
Proof.
  intros RD M1 AF a Ha. destruct (af_exact _ _ AF a Ha) as (Hne & Hms & Hps).
  set (mine := filter (same_kind (a_op a) (action_type a)) (contributions cfg h (s_pool s) chs)) in *.
  assert (Hmine : forall c, In c mine -> cb_op c = a_op a /\ m_type (cb_model c) = action_type a /\ In c (contributions cfg h (s_pool s) chs)).
  { intros c Hc. apply filter_In in Hc. destruct Hc as (Hc & Hk). unfold same_kind in Hk. apply andb_true_iff in Hk. destruct Hk as (K1 & K2).
    apply Nat.eqb_eq in K2. repeat split; try assumption. destruct (cb_op c), (a_op a); try discriminate; reflexivity. }
  assert (Hrow : forall c, In c mine -> exists ch p, In ch chs /\ In p (ch_kids ch) /\ row cfg h p (ch_parent ch) = Some (cb_model c)
      /\ cb_op c = change_op (ch_type ch) /\ cb_prev c = match s_pool s p with Some sn => s_po sn | None => None end).
  { intros c Hc. destruct (Hmine c Hc) as (_ & _ & Hc'). unfold contributions in Hc'. apply in_flat_map in Hc'. destruct Hc' as (ch & Hch & Hc').
    apply in_flat_map in Hc'. destruct Hc' as (p & Hp & Hc'). exists ch, p. do 2 (split; [assumption|]). rewrite (rd_conv _ _ _ _ RD) in Hc'. unfold row.
    destruct (c_conv cfg h p (Some (ch_parent ch)) OpQuery) as [m| |]; [|now destruct Hc'..]. destruct Hc' as [<-|[]]. cbn. auto. }
  split; [rewrite Hms; destruct mine; [contradiction|discriminate]|]. split; [|split; [|split]].
  - intros m m' H H'. rewrite Hms in H, H'. apply in_map_iff in H, H'. destruct H as (c & <- & Hc), H' as (c' & <- & Hc').
    destruct (Hmine c Hc) as (_ & -> & _), (Hmine c' Hc') as (_ & -> & _). reflexivity.
  - intros m H. rewrite Hms in H. apply in_map_iff in H. destruct H as (c & <- & Hc). destruct (Hrow c Hc) as (ch & p & A & B & R & Ho & _).
    exists (ch_type ch), (ch_parent ch), (ch_key ch), p. split; [apply M1; exists ch; auto|]. split; [assumption|]. rewrite <- Ho. now apply Hmine.
  - intros Hop. rewrite Hop in Hps. rewrite Hms, Hps. unfold full_prevs.
    assert (G : forall l, incl l mine -> Forall2 (fun m p => exists q, p = Some q /\ length (m_cols q) = length (m_cols m)) (map cb_model l) (map cb_prev l)).
    { induction l as [|c l IH]; intros Hl; cbn; [constructor|]. assert (Hc : In c mine) by (apply Hl; now left).
      constructor; [|apply IH; intros x Hx; apply Hl; now right]. destruct (Hrow c Hc) as (ch & p & Hch & Hp & R & Ho & ->).
      destruct (Hmine c Hc) as (Eo & _ & _). assert (Ct : ch_type ch = CDirty) by (rewrite Hop, Ho in Eo; destruct (ch_type ch); cbn in Eo; congruence).
      assert (Ms : must_save cfg s CDirty (ch_parent ch) (ch_key ch) p). { apply M1. exists ch. auto. }
      destruct (rd_same _ _ _ _ RD p (ch_parent ch) (ch_key ch) (cb_model c) Ms R) as (sn & m0 & Hs & Hpo & _ & Hl').
      rewrite Hs, Hpo. eauto. }
    apply G. apply incl_refl.
  - intros D. rewrite Hms. unfold mine in *. clear - D Hmine. induction (contributions cfg h (s_pool s) chs) as [|c l IH]; cbn; [constructor|].
    cbn in D. inversion D as [|? ? D1 D2]; subst. cbn in Hmine. destruct (same_kind (a_op a) (action_type a) c) eqn:K.
    + cbn. constructor; [|apply IH; [|assumption]].
      * intros X. apply in_map_iff in X. destruct X as (m & Em & X). apply in_map_iff in X. destruct X as (c' & <- & X). apply D1. apply in_map_iff. exists c'.
        split; [|now apply filter_In in X]. unfold row_key. rewrite Em. destruct (Hmine c (or_introl eq_refl)) as (_ & -> & _), (Hmine c' (or_intror X)) as (_ & -> & _). reflexivity.
      * intros c' Hc'. destruct (Hmine c' (or_intror Hc')) as (A & B & _). apply filter_In in Hc'. intuition.
    + apply IH; [|assumption]. intros c' Hc'. destruct (Hmine c' Hc') as (A & B & _). apply filter_In in Hc'. intuition.
Qed.

(** A save on MySQL leaves the tables in step with the aggregates.  [t]: the tables before. *)
Theorem C63_save_on_mysql_in_step_partial :
  forall cfg single w s s' t, keeps_types cfg -> orders_ok cfg -> go_maps (s_heap s) (s_pool s) -> c_dry cfg = false ->
  persist cfg s = (Done None, s') ->
  after_unread cfg (s_trace s') ->
  unique_keys t -> widths w t -> (forall c par k p m, must_save cfg s c par k p -> row cfg (s_heap s') p par = Some m -> model_width w m) ->
  ready cfg s (s_heap s') (rows_of t) ->
  exists delta, s_trace s' = s_trace s ++ delta /\
    forall t', x_execs single (execs delta) t = Some t' -> unique_keys t' /\ in_step cfg s (s_heap s') (rows_of t) (rows_of t').
Proof.
  intros cfg single w s s' t Ht Ho Hm Hd H Hn K W Hw RD.
  destruct (persist_acts cfg s s' Ht Ho Hm Hd H Hn) as (delta & chs & T & M1 & AF & _). exists delta. split; [assumption|]. intros t' E.
  assert (AW : forall a, In a (execs delta) -> one_table (a_models a) /\ (forall m, In m (a_models a) -> model_width w m) /\ (a_op a = OpUpdate -> full_prevs (a_models a) (a_prev a))).
  { intros a Ha. destruct (acts_rows cfg s (s_heap s') _ chs _ RD M1 AF a Ha) as (_ & B & C & D & _). split; [assumption|]. split; [|assumption].
    intros m Hm2. destruct (C m Hm2) as (c & par & k & p & Ms & R & _). eauto. }
  destruct (C63_batch_refines_partial single w (execs delta) t t' K W AW E) as (K' & _ & R).
  split; [assumption|]. destruct (sync cfg s (s_heap s') (rows_of t) chs (execs delta) RD M1 AF) as [S1 S2 S3]. constructor.
  - intros p par k m L Rm. rewrite R. eauto.
  - intros p par k m L Rm. rewrite R. eauto.
  - intros key N. rewrite R. auto.
Qed.
Print Assumptions C63_save_on_mysql_in_step_partial.

(** ** a save succeeds on MySQL *)
Definition free (t : tables) (a : action) : Prop := forall m r, In m (a_models a) -> In r (t (m_type m)) -> m_id m <> fst r.
Lemma x_update_total ms : forall ps t, (forall m, In m ms -> m_id m <> EmptyString) ->
  exists t', x_update ms ps t = XOk t' /\ (Forall2 (fun m p => exists q, p = Some q) ms ps -> forall k, map fst (t' k) = map fst (t k)).
Proof.
  induction ms as [|m ms IH]; intros ps t H; cbn; [eauto|]. assert (H' : forall m, In m ms -> m_id m <> EmptyString) by (intros; apply H; now right).
  destruct ps as [|[p|] ps].
  - destruct (IH [] (x_save m t) H') as (t' & E & F). exists t'. split; [assumption|]. intros X. inversion X.
  - destruct (x_diff m p).
    + destruct (String.eqb_spec (m_id m) "") as [E0|_]; [elim (H m (or_introl eq_refl)); assumption|].
      match goal with |- context [x_update ms ps ?t1] => set (t1' := t1) end. destruct (IH ps t1' H') as (t' & E & F). exists t'. split; [assumption|].
      intros X k. inversion X; subst. rewrite F by assumption. unfold t1', tset. destruct (Nat.eqb_spec k (m_type m)) as [->|]; [|reflexivity].
      apply (keys_map (m_id m) (fun r => (fst r, x_overlay (m_cols m) (m_cols p) (snd r)))). reflexivity.
    + destruct (IH ps t H') as (t' & E & F). exists t'. split; [assumption|]. intros X k. inversion X; subst. auto.
  - destruct (IH ps t H') as (t' & E & F). exists t'. split; [assumption|]. intros X k. inversion X; subst. auto.
Qed.
Lemma x_exec_total single a t : a_models a <> [] -> one_table (a_models a) -> (forall m, In m (a_models a) -> m_id m <> EmptyString) ->
  (a_op a = OpUpdate -> Forall2 (fun m p => exists q, p = Some q) (a_models a) (a_prev a)) ->
  (a_op a = OpInsert -> NoDup (map m_id (a_models a)) /\ free t a) ->
  exists t', x_exec single a t = XOk t' /\ forall k r, In r (t' k) -> exists r', fst r' = fst r /\ (In r' (t k) \/ a_op a = OpInsert /\ exists m, In m (a_models a) /\ m_type m = k).
Proof.
  destruct a as [o ms ps]. cbn [a_models a_op a_prev]. intros N T I Fp F. destruct o.
  - destruct (F eq_refl) as (D & Fr). destruct (C63_insert_all_or_nothing single ms ps t N T) as [(_ & t' & E)|(X & _)]; [|elim X; split; [assumption|exact Fr]].
    exists t'. split; [assumption|]. intros k r Hr. cbn [x_exec a_op a_models] in E. unfold x_insert in E. destruct ms as [|m0 ms']; [contradiction|].
    destruct (negb _) in E; [discriminate|]. destruct (_ && _) in E; [|discriminate]. injection E as <-. unfold tset in Hr.
    destruct (Nat.eqb_spec k (m_type m0)) as [->|Nk]; [|eauto]. exists r. split; [reflexivity|]. apply in_app_or in Hr. destruct Hr as [Hr|Hr]; [now left|].
    right. split; [reflexivity|]. exists m0. split; [now left|reflexivity].
  - destruct (x_update_total ms ps t I) as (t' & E & K). exists t'. split; [exact E|]. intros k r Hr. apply (in_map fst) in Hr. rewrite (K (Fp eq_refl)) in Hr.
    apply in_map_iff in Hr. destruct Hr as (r' & E' & Hr). eauto.
  - destruct (C60_delete_succeeds single ms ps t N (or_intror I)) as (t' & E). exists t'. split; [assumption|]. intros k r Hr.
    destruct (C60_delete_exact single ms ps t t' T E) as (R & _). apply R in Hr. exists r. intuition.
  - exists t. split; [reflexivity|]. eauto.
Qed.
Definition table_of (a : action) : nat := match a_models a with m :: _ => m_type m | [] => 0 end.
Lemma x_execs_total single l : forall t,
  NoDup (map (fun a => (a_op a, table_of a)) l) ->
  (forall a, In a l -> a_models a <> [] /\ one_table (a_models a) /\ (forall m, In m (a_models a) -> m_id m <> EmptyString) /\
     (a_op a = OpUpdate -> Forall2 (fun m p => exists q, p = Some q) (a_models a) (a_prev a)) /\
     (a_op a = OpInsert -> NoDup (map m_id (a_models a)) /\ free t a)) ->
  exists t', x_execs single l t = Some t'.
Proof.
  induction l as [|a l IH]; intros t D H; cbn [x_execs]; [eauto|]. destruct (H a (or_introl eq_refl)) as (H1 & H2 & H3 & H4 & H5).
  destruct (x_exec_total single a t H1 H2 H3 H4 H5) as (t1 & E & R). rewrite E. cbn [map] in D. inversion D as [|? ? D1 D2]; subst.
  apply IH; [assumption|]. intros b Hb. destruct (H b (or_intror Hb)) as (B1 & B2 & B3 & B4 & B5). repeat (split; [assumption|]).
  intros Ho. destruct (B5 Ho) as (B6 & B7). split; [assumption|]. intros m r Hm Hr Er. destruct (R _ _ Hr) as (r' & Er' & [Hr'|(Ha & m' & Hm' & Tm')]).
  - apply (B7 m r' Hm Hr'). congruence.
  - apply D1. apply in_map_iff. exists b. split; [|assumption]. rewrite Ha, Ho. f_equal.
    assert (Ta : forall c, one_table (a_models c) -> forall x, In x (a_models c) -> table_of c = m_type x).
    { intros c Hc x Hx. unfold table_of. destruct (a_models c) as [|m0 rest]; [destruct Hx|]. apply Hc; [now left|assumption]. }
    rewrite (Ta a H2 m' Hm'), (Ta b B2 m Hm). now symmetry.
Qed.
Lemma nodup_contribs cfg s h d chs : ready cfg s h d -> (forall t par k p, reported chs t par k p <-> must_save cfg s t par k p) ->
  NoDup (flat_map ch_kids chs) -> NoDup (map (fun c => row_key (cb_model c)) (contributions cfg h (s_pool s) chs)).
Proof.
  intros RD M1 D. 
  assert (Rel : forall ch p, In ch chs -> In p (ch_kids ch) -> relevant cfg s p (ch_parent ch)).
  { intros ch p Hc Hp. exists (ch_key ch). right. exists (ch_type ch). apply M1. exists ch. auto. }
  (* from entity to contribution *)
  set (one := fun ch p => match c_conv cfg h p (Some (ch_parent ch)) (change_op (ch_type ch)) with
      | CModel m => [mkContrib (change_op (ch_type ch)) m (match s_pool s p with Some sn => s_po sn | None => None end)] | _ => [] end).
  set (pairs := flat_map (fun ch => map (fun p => (ch, p)) (ch_kids ch)) chs).
  assert (E : contributions cfg h (s_pool s) chs = flat_map (fun x => one (fst x) (snd x)) pairs).
  { unfold contributions, pairs. clear. induction chs as [|ch l IH]; cbn; [reflexivity|]. rewrite IH, flat_map_app. f_equal.
    induction (ch_kids ch) as [|p ps IH2]; cbn; [reflexivity|]. now rewrite IH2. }
  assert (P : map snd pairs = flat_map ch_kids chs).
  { unfold pairs. clear. induction chs as [|ch l IH]; cbn; [reflexivity|]. rewrite map_app, IH. f_equal. rewrite map_map. apply map_id. }
  assert (Hin : forall ch p, In (ch, p) pairs -> In ch chs /\ In p (ch_kids ch)).
  { intros ch p H. unfold pairs in H. apply in_flat_map in H. destruct H as (c & Hc & H). apply in_map_iff in H. destruct H as (q & [= -> ->] & H). auto. }
  rewrite E. rewrite <- P in D. clear E P. clearbody pairs. induction pairs as [|[ch p] l IH]; cbn [flat_map map fst snd]; [constructor|].
  cbn [map snd] in D. inversion D as [|? ? D1 D2]; subst. assert (IH' := IH D2 (fun c q H => Hin c q (or_intror H))). clear IH.
  unfold one at 1. destruct (c_conv cfg h p (Some (ch_parent ch)) (change_op (ch_type ch))) as [m| |] eqn:Ec; [|exact IH'..].
  cbn [app map cb_model]. constructor; [|exact IH']. intros X. apply in_map_iff in X. destruct X as (c & Ec' & X). apply in_flat_map in X. destruct X as ((ch2, p2) & H2 & X).
  unfold one in X. cbn [fst snd] in X. destruct (c_conv cfg h p2 (Some (ch_parent ch2)) (change_op (ch_type ch2))) as [m2| |] eqn:Ec2; [|now destruct X..].
  destruct X as [<-|[]]. cbn [cb_model] in Ec'. destruct (Hin _ _ (or_introl eq_refl)) as (A1 & A2). destruct (Hin _ _ (or_intror H2)) as (A3 & A4).
  rewrite (rd_conv _ _ _ _ RD) in Ec, Ec2. assert (p = p2).
  { apply (rd_keys _ _ _ _ RD p (ch_parent ch) p2 (ch_parent ch2) m m2); auto; unfold row; now rewrite ?Ec, ?Ec2. }
  subst p2. apply D1. apply in_map_iff. exists (ch2, p). auto.
Qed.

Theorem C63_save_on_mysql_succeeds_partial :
  forall cfg single s s' t, keeps_types cfg -> orders_ok cfg -> go_maps (s_heap s) (s_pool s) -> c_dry cfg = false -> c_recursive cfg = false ->
  persist cfg s = (Done None, s') ->
  after_unread cfg (s_trace s') ->
  ready cfg s (s_heap s') (rows_of t) ->
  (* every written entity has an id, and the rows to be inserted are not there yet *)
  (forall c p par k m, must_save cfg s c par k p -> row cfg (s_heap s') p par = Some m -> m_id m <> EmptyString) ->
  (forall p par k m, must_save cfg s CNew par k p -> row cfg (s_heap s') p par = Some m -> rows_of t (row_key m) = None) ->
  exists delta t', s_trace s' = s_trace s ++ delta /\ x_execs single (execs delta) t = Some t'.
Proof.
  intros cfg single s s' t Ht Ho Hm Hd Hr H Hn RD Hid Hnew.
  destruct (persist_acts cfg s s' Ht Ho Hm Hd H Hn) as (delta & chs & T & M1 & AF & M2). specialize (M2 Hr).
  exists delta. destruct (x_execs_total single (execs delta) t) as (t' & E).
  - exact (af_once _ _ AF).
  - intros a Ha. destruct (acts_rows cfg s (s_heap s') _ chs _ RD M1 AF a Ha) as (A & B & C & D & N). do 2 (split; [assumption|]). split; [|split].
    + intros m Hm2. destruct (C m Hm2) as (c & par & k & p & Ms & R & _). eauto.
    + intros Hop. specialize (D Hop). clear - D. induction D as [|m p ms ps (q & -> & _) _ IH]; constructor; eauto.
    + intros Hop. split; [apply N; now apply (nodup_contribs cfg s (s_heap s') (rows_of t))|]. intros m r Hm2 Hr2 Er.
      destruct (C m Hm2) as (c & par & k & p & Ms & R & Ec). rewrite Hop in Ec. destruct c; try discriminate.
      specialize (Hnew p par k m Ms R). change (findk (m_id m) (t (m_type m)) = None) in Hnew. apply findk_none in Hnew. apply Hnew. rewrite Er. now apply in_map.
  - exists t'. auto.
Qed.
Print Assumptions C63_save_on_mysql_succeeds_partial.

(** the example of C09 on MySQL: update, insert, delete *)
Definition sv_tables : tables := fun k => match k with 1 => [("r", ["v"])] | 2 => [("c", ["w"]); ("other", ["o"])] | _ => [] end%string.
Lemma sv_rows k : sv_db k = rows_of sv_tables k.
Proof.
  destruct k as (k, i). unfold sv_db, rows_of, key_eqb. cbn [fst snd]. rewrite (String.eqb_sym i "r"), (String.eqb_sym i "c"), (String.eqb_sym i "other").
  do 3 (destruct k as [|k]; [cbn -[String.eqb]; repeat (match goal with |- context [String.eqb ?a ?b] => destruct (String.eqb a b) end); reflexivity|]). reflexivity.
Qed.
Lemma ready_ext cfg s h d d' : (forall k, d k = d' k) -> ready cfg s h d -> ready cfg s h d'.
Proof. intros E [A B C D F G H]. constructor; try assumption. intros. rewrite <- E. eauto. Qed.
Example C63_save_example :
  ready (sv_cfg all_ok) sv_state sv_after (rows_of sv_tables) /\ unique_keys sv_tables /\ widths (fun _ => 1) sv_tables /\
  let x := persist (sv_cfg all_ok) sv_state in fst x = Done None /\
  option_map (fun t => (t 1, t 2)) (x_execs (fun _ => true) (execs (s_trace (snd x))) sv_tables) = Some ([("r", ["v2"])], [("other", ["o"]); ("gen", ["n"])])%string.
Proof.
  split; [exact (ready_ext _ _ _ _ _ sv_rows C09_hypotheses_met)|]. split; [|split; [|split; [vm_compute; reflexivity|vm_compute; reflexivity]]].
  - intros k. do 3 (destruct k as [|k]; [cbn; repeat constructor; cbn; intuition discriminate|]). constructor.
  - intros k r H. do 3 (destruct k as [|k]; [cbn in H; repeat (destruct H as [<-|H]; [reflexivity|]); destruct H|]). destruct H.
Qed.

(* ---------------------------------------------------------------- C64 *)
(** Inserts come first, so a save that inserts an entity whose row is still there never gets through, whatever else it does. *)
Theorem C64_existing_row_refused :
  forall single l t a m, StronglySorted (fun x y => op_rank (a_op x) <= op_rank (a_op y)) l -> (forall x, In x l -> one_table (a_models x)) ->
  In a l -> a_op a = OpInsert -> In m (a_models a) -> rows_of t (row_key m) <> None -> x_execs single l t = None.
Proof.
  intros single l. induction l as [|b l IH]; intros t a m S T Ha Ho Hm Hr; [destruct Ha|]. cbn [x_execs].
  destruct Ha as [->|Ha].
  - assert (E : x_exec single a t = XErr t).
    { assert (Na : a_models a <> []) by (intros X; rewrite X in Hm; destruct Hm). destruct a as [o ms ps]. cbn [a_op a_models] in *. subst o.
      destruct (C63_insert_all_or_nothing single ms ps t Na (T _ (or_introl eq_refl))) as [((_ & X) & _)|(_ & E)]; [|assumption]. exfalso.
      apply Hr. change (findk (m_id m) (t (m_type m)) = None). apply findk_none. intros Y. apply in_map_iff in Y. destruct Y as (r & E & Hr2). apply (X m r Hm Hr2). now symmetry. }
    now rewrite E.
  - inversion S as [|? ? S1 S2]; subst. rewrite Forall_forall in S2. specialize (S2 a Ha). rewrite Ho in S2.
    assert (Hb : a_op b = OpInsert) by (destruct (a_op b); cbn in S2; [reflexivity|lia..]).
    destruct (x_exec single b t) as [t1|t1|t1] eqn:E; try reflexivity. apply (IH t1 a m); auto; [intros; apply T; now right|].
    intros X. apply Hr. change (findk (m_id m) (t1 (m_type m)) = None) in X. change (findk (m_id m) (t (m_type m)) = None). apply findk_none. apply findk_none in X.
    intros Y. apply X. destruct b as [o ms ps]. cbn [a_op] in Hb. subst o. cbn [x_exec a_op a_models] in E. unfold x_insert in E. destruct ms as [|m0 ms']; [discriminate|].
    destruct (negb _) in E; [discriminate|]. destruct (_ && _) in E; [|discriminate]. injection E as <-. unfold tset.
    destruct (Nat.eqb_spec (m_type m) (m_type m0)) as [Em|]; [|assumption]. rewrite map_app. apply in_or_app. left. now rewrite <- Em.
Qed.
Print Assumptions C64_existing_row_refused.
(** So replacing a child object by a new object with the same id never works: the insert of the new object precedes the delete of the old
    one and is refused.  (sv_heap with the new child 3 carrying the id of the removed child 2.) *)
Definition rp_state : st := mkSt (fun p => match p with
  | 3 => mkEnt "c"%string false 2 None [mkField "L"%string true false (FSlice [])] [] ["n"%string]
  | _ => sv_heap p end) (mkCont [1] []) sv_pool [] None false [] 0 [].
Theorem C64_replacing_with_same_id_refuted :
  let x := persist (sv_cfg all_ok) rp_state in
  fst x = Done None /\ must_save (sv_cfg all_ok) rp_state CNew 1 "L"%string 3 /\ must_save (sv_cfg all_ok) rp_state CDelete 1 "L"%string 2 /\
  (* refused by MySQL *)
  x_execs (fun _ => true) (execs (s_trace (snd x))) sv_tables = None /\
  (* with an executor whose insert overwrites, the row of the live entity is deleted *)
  apply_actions sv_db (execs (s_trace (snd x))) (2, "c"%string) = None.
Proof.
  assert (M : forall t par k p, reported (match getEntityChanged false ord_id (kids_now rp_state) (fun p => e_dirty (s_heap rp_state p)) sv_pool 20 with ROk l => l | _ => [] end) t par k p -> must_save (sv_cfg all_ok) rp_state t par k p).
  { intros t par k p. apply (must_save_spec (sv_cfg all_ok) rp_state).
    - split; [|exact (proj2 sv_maps)]. intros p0 m. do 4 (destruct p0 as [|p0]; [discriminate|]). discriminate.
    - intros q m. cbn. unfold ord_id. apply Permutation.Permutation_refl.
    - vm_compute. reflexivity. }
  split; [vm_compute; reflexivity|]. split; [|split; [|split; vm_compute; reflexivity]]; apply M; vm_compute.
  - exists (mkChange CNew 1 "L"%string [3]). cbn. auto 10.
  - exists (mkChange CDelete 1 "L"%string [2]). cbn. auto 10.
Qed.
Print Assumptions C64_replacing_with_same_id_refuted.

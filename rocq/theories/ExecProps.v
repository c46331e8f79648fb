(** Property theorems: the MySQL executor (vocabulary: ExecSpec.v). *)
From Verif Require Import ExecSpec ExecProof.

Lemma thinned_filter f l : thinned (filter f l) l.
Proof. induction l as [|r l IH]; cbn; [constructor|]. destruct (f r); now constructor. Qed.
Lemma thinned_refl l : thinned l l.
Proof. induction l; now constructor. Qed.
Lemma thinned_trans a b c : thinned a b -> thinned b c -> thinned a c.
Proof.
  intros H1 H2. revert a H1. induction H2 as [|r l l0 H IH|r l l0 H IH]; intros a H1; [assumption| |constructor; auto].
  inversion H1; subst; constructor; auto.
Qed.
Lemma remove_rows k ids t j r : In r (x_remove k ids t j) <-> In r (t j) /\ ~ (j = k /\ In (fst r) ids).
Proof.
  unfold x_remove, tset. destruct (Nat.eqb_spec j k) as [->|N]; [|tauto]. rewrite filter_In, negb_true_iff, str_in_nIn. tauto.
Qed.
Lemma remove_thinned k ids t j : thinned (x_remove k ids t j) (t j).
Proof. unfold x_remove, tset. destruct (Nat.eqb_spec j k) as [->|N]; [apply thinned_filter|apply thinned_refl]. Qed.
Lemma delete_each_rows ms : forall t t', x_delete_each ms t = XOk t' ->
  (forall j r, In r (t' j) <-> In r (t j) /\ ~ exists m, In m ms /\ denotes m j r) /\ (forall j, thinned (t' j) (t j)).
Proof.
  induction ms as [|m ms IH]; intros t t' E; cbn in E.
  - injection E as <-. split; [|intros; apply thinned_refl]. intros j r. split; [intros H; split; [assumption|intros (m & [] & _)]|tauto].
  - destruct (String.eqb (m_id m) ""); [discriminate|]. destruct (IH _ _ E) as (A & B). split.
    + intros j r. rewrite A, remove_rows. unfold denotes. cbn [In]. split.
      * intros ((H1 & H2) & H3). split; [assumption|]. intros (m' & [<-|Hm] & D1 & D2); [apply H2; auto|apply H3; eauto].
      * intros (H1 & H2). repeat split; [assumption| |].
        -- intros (-> & [E1|[]]). apply H2. exists m. auto.
        -- intros (m' & Hm & D). apply H2. exists m'. auto.
    + intros j. eapply thinned_trans; [apply B|apply remove_thinned].
Qed.
Lemma delete_each_err ms : forall t t', x_delete_each ms t = XErr t' ->
  exists done m rest, ms = done ++ m :: rest /\ m_id m = EmptyString /\ x_delete_each done t = XOk t'.
Proof.
  induction ms as [|m ms IH]; intros t t' E; cbn in E; [discriminate|]. destruct (String.eqb_spec (m_id m) "") as [H|H].
  - injection E as <-. exists [], m, ms. auto.
  - destruct (IH _ _ E) as (d & m' & r & -> & Hm & Ed). exists (m :: d), m', r. repeat split; [assumption|]. cbn.
    destruct (String.eqb_spec (m_id m) ""); [contradiction|assumption].
Qed.
Lemma delete_each_total ms : (forall m, In m ms -> m_id m <> EmptyString) -> forall t, exists t', x_delete_each ms t = XOk t'.
Proof.
  induction ms as [|m ms IH]; intros H t; cbn; [eauto|]. destruct (String.eqb_spec (m_id m) "") as [E|_]; [elim (H m); auto; now left|].
  apply IH. intros; apply H; now right.
Qed.
Lemma delete_each_nopanic ms : forall t t', x_delete_each ms t <> XPanic t'.
Proof. induction ms as [|m ms IH]; intros t t'; cbn; [discriminate|]. destruct (String.eqb (m_id m) ""); [discriminate|apply IH]. Qed.

(* ---------------------------------------------------------------- C60 *)
(** A delete that succeeds removes exactly the rows denoted by its models, in whichever of the two ways it works. *)
Theorem C60_delete_exact :
  forall single ms prev t t', one_table ms -> x_exec single (mkAction OpDelete ms prev) t = XOk t' ->
  (forall k r, In r (t' k) <-> In r (t k) /\ ~ exists m, In m ms /\ denotes m k r) /\ (forall k, thinned (t' k) (t k)).
Proof.
  intros single ms prev t t' T E. cbn [x_exec a_op a_models x_delete] in E. destruct ms as [|m0 ms']; [discriminate|]. cbn [x_delete] in E.
  destruct (single (m_type m0)); [|now apply delete_each_rows]. injection E as <-. split; [|intros; apply remove_thinned].
  intros k r. rewrite remove_rows. split; intros (H1 & H2); (split; [assumption|]).
  - intros (m & Hm & <- & E2). apply H2. split; [apply T; [assumption|now left]|]. rewrite <- E2. exact (in_map m_id (m0 :: ms') m Hm).
  - intros (-> & H3). apply (in_map_iff m_id (m0 :: ms')) in H3. destruct H3 as (m & E2 & Hm). apply H2. exists m. split; [assumption|]. split; [apply T; [assumption|now left]|assumption].
Qed.
Print Assumptions C60_delete_exact.
(** It succeeds if it has a model, and either the table has a single primary key column or every model has an id. *)
Theorem C60_delete_succeeds :
  forall single ms prev t, ms <> [] -> ((forall m, In m ms -> single (m_type m) = true) \/ (forall m, In m ms -> m_id m <> EmptyString)) ->
  exists t', x_exec single (mkAction OpDelete ms prev) t = XOk t'.
Proof.
  intros single [|m0 ms] prev t N H; [contradiction|]. cbn [x_exec a_op a_models x_delete]. destruct (single (m_type m0)) eqn:S; [eauto|].
  destruct H as [H|H]; [specialize (H m0 (or_introl eq_refl)); congruence|]. apply (delete_each_total (m0 :: ms) H).
Qed.
Print Assumptions C60_delete_succeeds.
(** If it reports an error, an id was empty and the models before it have been deleted; nothing else was. *)
Theorem C60_delete_failure :
  forall single ms prev t t', x_exec single (mkAction OpDelete ms prev) t = XErr t' ->
  exists done m rest, ms = done ++ m :: rest /\ m_id m = EmptyString /\
    forall k r, In r (t' k) <-> In r (t k) /\ ~ exists m, In m done /\ denotes m k r.
Proof.
  intros single [|m0 ms] prev t t' E; cbn [x_exec a_op a_models x_delete] in E; [discriminate|]. destruct (single (m_type m0)); [discriminate|].
  destruct (delete_each_err _ _ _ E) as (d & m & r & H1 & H2 & H3). exists d, m, r. repeat (split; [assumption|]). now apply (delete_each_rows d t t').
Qed.
Print Assumptions C60_delete_failure.

Definition xm (k : nat) (i c : string) : model := mkModel k i [c].
Definition x_ex : tables := fun k => match k with 1 => [("a", ["1"]); ("b", ["2"]); ("c", ["3"])] | 2 => [("a", ["9"])] | _ => [] end%string.
Example C60_example :
  (exists t', x_exec (fun _ => true) (mkAction OpDelete [xm 1 "c" ""; xm 1 "a" ""; xm 1 "nosuch" ""] []) x_ex = XOk t'
              /\ t' 1 = [("b", ["2"])]%string /\ t' 2 = x_ex 2)
  /\ one_table [xm 1 "c" ""; xm 1 "a" ""; xm 1 "nosuch" ""]
  /\ (exists t', x_exec (fun _ => false) (mkAction OpDelete [xm 1 "c" ""; xm 1 "" ""; xm 1 "a" ""] []) x_ex = XErr t'
                 /\ t' 1 = [("a", ["1"]); ("b", ["2"])]%string).
Proof.
  split; [eexists; split; [reflexivity|split; reflexivity]|]. split.
  - intros m m' H H'. cbn in H, H'. intuition (subst; reflexivity).
  - eexists. split; reflexivity.
Qed.

(* ---------------------------------------------------------------- C63 *)
(** A successful insert, update or delete does to the rows exactly what the abstract database of C01, C02 and C09 does. *)
Theorem C63_executor_refines_partial :
  forall single w a t t', unique_keys t -> widths w t -> one_table (a_models a) -> (forall m, In m (a_models a) -> model_width w m) ->
  (a_op a = OpUpdate -> full_prevs (a_models a) (a_prev a)) ->
  x_exec single a t = XOk t' ->
  unique_keys t' /\ widths w t' /\ forall k, rows_of t' k = apply_action (rows_of t) a k.
Proof.
  intros single w [o ms ps] t t' K W T Wm F E. cbn [a_op a_models a_prev] in *. unfold x_exec, apply_action in *. cbn [a_op a_models a_prev] in *. destruct o.
  - destruct (x_insert_ok ms t t' K E) as (A & B). split; [assumption|]. split; [|assumption].
    unfold x_insert in E. destruct ms as [|m0 ms']; [discriminate|].
    destruct (negb _) in E; [discriminate|]. destruct (_ && _) in E; [|discriminate]. injection E as <-.
    intros k r Hr. unfold tset in Hr. destruct (Nat.eqb_spec k (m_type m0)) as [->|N]; [|now apply W].
    apply in_app_or in Hr. destruct Hr as [Hr|Hr]; [now apply W|]. apply (in_map_iff to_row (m0 :: ms')) in Hr. destruct Hr as (m & <- & Hm).
    cbn [to_row snd]. rewrite (Wm m Hm). f_equal. apply T; [assumption|now left].
  - specialize (F eq_refl). assert (L : length ps = length ms) by (symmetry; clear - F; induction F; cbn; auto).
    destruct (x_update_ok w ms ps t t' K W L Wm F E) as (A & B & _ & D). auto.
  - destruct (x_delete_ok single ms t t' K T E) as (A & B). split; [assumption|]. split.
    + destruct (C60_delete_exact single ms ps t t' T E) as (R & _). intros k r Hr. apply R in Hr. now apply W.
    + intros (j, id). change (rows_of t' (j, id)) with (db_of t' (j, id)). rewrite B, fold_delete. reflexivity.
  - injection E as <-. auto.
Qed.
Print Assumptions C63_executor_refines_partial.

(** A whole batch of actions, as the engine executes it. *)
Fixpoint x_execs (single : nat -> bool) (l : list action) (t : tables) : option tables :=
  match l with [] => Some t | a :: l' => match x_exec single a t with XOk t1 => x_execs single l' t1 | _ => None end end.
Lemma apply_action_ext a d1 d2 : (forall k, d1 k = d2 k) -> forall k, apply_action d1 a k = apply_action d2 a k.
Proof.
  intros H. destruct a as [o ms ps]. unfold apply_action. cbn [a_op a_models a_prev].
  assert (S : forall v (d1 d2 : db) kk, (forall k, d1 k = d2 k) -> forall k, db_set d1 kk v k = db_set d2 kk v k).
  { intros v e1 e2 kk He k. unfold db_set. destruct (key_eqb k kk); auto. }
  destruct o.
  - revert d1 d2 H. induction ms as [|m ms IH]; intros d1 d2 H k; cbn; [apply H|]. apply IH. now apply S.
  - revert ps d1 d2 H. induction ms as [|m ms IH]; intros ps d1 d2 H k; cbn; [apply H|]. apply IH. intros k'. unfold apply_update. rewrite H.
    destruct (d2 (row_key m)); [|apply H]. now apply S.
  - revert d1 d2 H. induction ms as [|m ms IH]; intros d1 d2 H k; cbn; [apply H|]. apply IH. now apply S.
  - exact H.
Qed.
Lemma apply_actions_ext l : forall d1 d2, (forall k, d1 k = d2 k) -> forall k, apply_actions d1 l k = apply_actions d2 l k.
Proof. induction l as [|a l IH]; intros d1 d2 H k; cbn; [apply H|]. apply IH. now apply apply_action_ext. Qed.
Theorem C63_batch_refines_partial :
  forall single w l t t', unique_keys t -> widths w t ->
  (forall a, In a l -> one_table (a_models a) /\ (forall m, In m (a_models a) -> model_width w m) /\ (a_op a = OpUpdate -> full_prevs (a_models a) (a_prev a))) ->
  x_execs single l t = Some t' -> unique_keys t' /\ widths w t' /\ forall k, rows_of t' k = apply_actions (rows_of t) l k.
Proof.
  intros single w l. induction l as [|a l IH]; intros t t' K W H E; cbn in E; [injection E as <-; auto|].
  destruct (x_exec single a t) as [t1|t1|t1] eqn:X; try discriminate. destruct (H a (or_introl eq_refl)) as (T & M & F).
  destruct (C63_executor_refines_partial single w a t t1 K W T M F X) as (K1 & W1 & R1).
  destruct (IH t1 t' K1 W1 (fun a' Ha => H a' (or_intror Ha)) E) as (K2 & W2 & R2). split; [assumption|]. split; [assumption|].
  intros k. rewrite R2. cbn. now apply apply_actions_ext.
Qed.
Print Assumptions C63_batch_refines_partial.
(** An insert is all or nothing, and fails exactly on a key that is taken or occurs twice. *)
Theorem C63_insert_all_or_nothing :
  forall single ms prev t, ms <> [] -> one_table ms ->
  ((NoDup (map m_id ms) /\ forall m r, In m ms -> In r (t (m_type m)) -> m_id m <> fst r) /\ exists t', x_exec single (mkAction OpInsert ms prev) t = XOk t')
  \/ (~ (NoDup (map m_id ms) /\ forall m r, In m ms -> In r (t (m_type m)) -> m_id m <> fst r) /\ x_exec single (mkAction OpInsert ms prev) t = XErr t).
Proof.
  intros single [|m0 ms'] prev t N T; [contradiction|]. cbn [x_exec a_op a_models]. set (ms := m0 :: ms') in *.
  assert (M0 : In m0 ms) by now left. assert (E : x_insert ms t = if str_nodup (map m_id ms) && forallb (fun m => negb (str_in (m_id m) (map fst (t (m_type m0))))) ms
         then XOk (tset t (m_type m0) (t (m_type m0) ++ map to_row ms)) else XErr t).
  { unfold x_insert, ms. fold ms. assert (F : forallb (fun m => m_type m =? m_type m0) ms = true) by (apply forallb_forall; intros m Hm; apply Nat.eqb_eq, T; assumption).
    now rewrite F. }
  rewrite E. clear E. clearbody ms.
  assert (D : forall l, str_nodup l = true <-> NoDup l).
  { intros l. split; [apply str_nodup_ok|]. induction 1 as [|x l Hx _ IH]; cbn; [reflexivity|]. apply str_in_nIn in Hx. now rewrite Hx, IH. }
  set (fb := forallb (fun m => negb (str_in (m_id m) (map fst (t (m_type m0))))) ms) in *. assert (P : fb = true <-> forall m r, In m ms -> In r (t (m_type m)) -> m_id m <> fst r).
  { unfold fb. rewrite forallb_forall. split; intros H m.
    - intros r Hm Hr Er. specialize (H m Hm). apply negb_true_iff, str_in_nIn in H. apply H. rewrite Er. apply in_map. now rewrite (T m0 m).
    - intros Hm. apply negb_true_iff, str_in_nIn. intros X. apply in_map_iff in X. destruct X as (r & Er & Hr). apply (H m r Hm); [now rewrite (T m m0)|now symmetry]. }
  destruct (str_nodup (map m_id ms)) eqn:A; cbn [andb].
  - apply D in A. clearbody fb. destruct fb eqn:B.
    + assert (B' := proj1 P eq_refl). clear B; rename B' into B. left. eauto.
    + right. split; [|reflexivity]. intros (_ & X). apply P in X. discriminate.
  - right. split; [|reflexivity]. intros (X & _). apply D in X. congruence.
Qed.
Print Assumptions C63_insert_all_or_nothing.

(** Update of an entity without previous model: a nil previous model writes nothing and reports success. *)
Theorem C63_update_without_previous_model_refuted :
  exists a t t', one_table (a_models a) /\ a_op a = OpUpdate /\ length (a_prev a) = length (a_models a) /\ unique_keys t /\
    x_exec (fun _ => true) a t = XOk t' /\ rows_of t' (1, "a"%string) = Some ["1"%string] /\ apply_action (rows_of t) a (1, "a"%string) = Some ["new"%string].
Proof.
  exists (mkAction OpUpdate [xm 1 "a" "new"] [None]), x_ex, x_ex. repeat (split; [try reflexivity|]); try reflexivity.
  - intros m m' [<-|[]] [<-|[]]. reflexivity.
  - intros k. do 3 (destruct k as [|k]; [cbn; repeat constructor; cbn; intuition discriminate|]). constructor.
Qed.
Print Assumptions C63_update_without_previous_model_refuted.
(** An update action with fewer previous models than models: the rest is written with Save, which brings a row back that was deleted. *)
Theorem C63_short_previous_models_refuted :
  exists a t t', one_table (a_models a) /\ a_op a = OpUpdate /\ unique_keys t /\
    x_exec (fun _ => true) a t = XOk t' /\ rows_of t (1, "gone"%string) = None /\ apply_action (rows_of t) a (1, "gone"%string) = None /\ rows_of t' (1, "gone"%string) = Some ["new"%string].
Proof.
  exists (mkAction OpUpdate [xm 1 "gone" "new"] []), x_ex. eexists. repeat (split; [try reflexivity|]); try reflexivity.
  - intros m m' [<-|[]] [<-|[]]. reflexivity.
  - intros k. do 3 (destruct k as [|k]; [cbn; repeat constructor; cbn; intuition discriminate|]). constructor.
Qed.
Print Assumptions C63_short_previous_models_refuted.
(** two updates (one of which changes nothing), an insert and a delete; a column changed by somebody else since loading survives *)
Definition x_ex2 : tables := fun k => match k with 1 => [("a", ["1"; "other"]); ("b", ["2"; "x"])] | 2 => [("a", ["9"; "y"])] | _ => [] end%string.
Example C63_example :
  let up := mkAction OpUpdate [mkModel 1 "a" ["5"%string; "x"%string]; mkModel 1 "b" ["2"%string; "x"%string]] [Some (mkModel 1 "a" ["1"%string; "x"%string]); Some (mkModel 1 "b" ["2"%string; "x"%string])] in
  let ins := mkAction OpInsert [mkModel 2 "n" ["7"%string; "z"%string]; mkModel 2 "m" ["8"%string; "z"%string]] [] in
  let del := mkAction OpDelete [mkModel 2 "a" ["9"%string; "y"%string]] [] in
  option_map (fun t => (t 1, t 2)) (x_execs (fun _ => true) [ins; up; del] x_ex2)
  = Some ([("a"%string, ["5"%string; "other"%string]); ("b"%string, ["2"%string; "x"%string])], [("n"%string, ["7"%string; "z"%string]); ("m"%string, ["8"%string; "z"%string])])
  /\ unique_keys x_ex2 /\ widths (fun _ => 2) x_ex2 /\ full_prevs (a_models up) (a_prev up) /\ one_table (a_models up) /\ one_table (a_models ins).
Proof.
  cbn zeta. split; [reflexivity|]. split; [|split; [|split; [|split]]].
  - intros k. do 3 (destruct k as [|k]; [cbn; repeat constructor; cbn; intuition discriminate|]). constructor.
  - intros k r H. do 3 (destruct k as [|k]; [cbn in H; repeat (destruct H as [<-|H]; [reflexivity|]); destruct H|]). destruct H.
  - repeat constructor; eexists; split; reflexivity.
  - intros m m' H H'. cbn in H, H'. intuition (subst; reflexivity).
  - intros m m' H H'. cbn in H, H'. intuition (subst; reflexivity).
Qed.

(** An update with models that did not change does nothing and succeeds, whatever the keys are. *)
Theorem C63_unchanged_update_does_nothing : forall single ms t, x_exec single (mkAction OpUpdate ms (map Some ms)) t = XOk t.
Proof.
  intros single ms t. cbn [x_exec a_op a_models a_prev]. induction ms as [|m ms IH]; [reflexivity|]. cbn [map x_update].
  assert (D : x_diff m m = false).
  { unfold x_diff. rewrite String.eqb_refl. cbn [negb orb]. generalize (m_cols m). induction l as [|c l IHl]; [reflexivity|]. cbn [combine existsb fst snd]. now rewrite String.eqb_refl. }
  now rewrite D.
Qed.
Print Assumptions C63_unchanged_update_does_nothing.
(** Without previous models each model is stored: its row is there afterwards with its columns, whether it existed or not, and
    no other row changed. *)
Theorem C63_save_upserts : forall single m t, unique_keys t -> exists t', x_exec single (mkAction OpUpdate [m] []) t = XOk t' /\ unique_keys t' /\
  forall k r, In r (t' k) <-> (k = m_type m /\ r = (m_id m, m_cols m)) \/ (In r (t k) /\ ~ denotes m k r).
Proof.
  intros single m t U. eexists. split; [reflexivity|].
  assert (Map : forall l, map fst (map (fun r : xrow => if String.eqb (fst r) (m_id m) then to_row m else r) l) = map fst l).
  { intros l. rewrite map_map. apply map_ext. intros r. destruct (String.eqb_spec (fst r) (m_id m)) as [E|E]; [now rewrite E|reflexivity]. }
  split.
  - intros k. unfold x_save, tset. destruct (Nat.eqb_spec k (m_type m)) as [->|]; [|apply U]. destruct (str_in (m_id m) (map fst (t (m_type m)))) eqn:S; [rewrite Map; apply U|].
    apply str_in_nIn in S. rewrite map_app. cbn. apply NoDup_Add with (a := m_id m) (l := map fst (t (m_type m))); [rewrite <- (app_nil_r (map fst (t (m_type m)))) at 1; apply Add_app|split; [apply U|exact S]].
  - intros k r. unfold x_save, tset, denotes. destruct (Nat.eqb_spec k (m_type m)) as [->|N]; [|split; [intros H; right; split; auto; intros [E _]; congruence|intros [[E _]|[H _]]; [contradiction|exact H]]].
    destruct (str_in (m_id m) (map fst (t (m_type m)))) eqn:S.
    + rewrite in_map_iff. split.
      * intros (x & <- & Hx). destruct (String.eqb_spec (fst x) (m_id m)) as [E|E]; [left; auto|right; split; auto; intros [_ X]; congruence].
      * intros [[_ ->]|[H D]].
        -- apply str_in_In, in_map_iff in S. destruct S as (x & E & Hx). exists x. rewrite <- E, String.eqb_refl. unfold to_row. now rewrite E.
        -- exists r. split; auto. destruct (String.eqb_spec (fst r) (m_id m)) as [E|E]; auto. exfalso. apply D. auto.
    + apply str_in_nIn in S. rewrite in_app_iff. split.
      * intros [H|[<-|[]]]; [right; split; auto; intros [_ E]; apply S; rewrite E; now apply in_map|left; auto].
      * intros [[_ ->]|[H _]]; [right; left; reflexivity|now left].
Qed.
Print Assumptions C63_save_upserts.

(** The MySQL executor against the database of DbSpec. *)
From Verif Require Import ExecModel DbSpec.

(** The database an observer sees in the tables. *)
Definition db_of (t : tables) : db := fun k => option_map snd (find (fun r => String.eqb (fst r) (snd k)) (t (fst k))).
(** Primary keys are unique. *)
Definition keys_ok (t : tables) : Prop := forall k, NoDup (map fst (t k)).

Lemma str_in_In x l : str_in x l = true <-> In x l.
Proof.
  unfold str_in. rewrite existsb_exists. split; [intros (y & H & E); apply String.eqb_eq in E; now subst|].
  intros H. exists x. split; [assumption|apply String.eqb_refl].
Qed.
Lemma str_in_nIn x l : str_in x l = false <-> ~ In x l.
Proof. rewrite <- str_in_In. destruct (str_in x l); split; congruence. Qed.
Lemma str_nodup_ok l : str_nodup l = true -> NoDup l.
Proof.
  induction l as [|x t IH]; cbn; [constructor|]. intros H. apply andb_true_iff in H. destruct H as (A & B).
  constructor; [|auto]. apply negb_true_iff, str_in_nIn in A. assumption.
Qed.
Lemma key_eqb_spec a b : key_eqb a b = true <-> a = b.
Proof.
  unfold key_eqb. rewrite andb_true_iff, Nat.eqb_eq, String.eqb_eq. destruct a, b; cbn. split; [intros (-> & ->); reflexivity|intros H; injection H as -> ->; auto].
Qed.
Lemma key_eqb_refl a : key_eqb a a = true.
Proof. now apply key_eqb_spec. Qed.

Definition findk (id : string) (rows : list xrow) : option (list string) := option_map snd (find (fun r => String.eqb (fst r) id) rows).
Lemma db_of_findk t k id : db_of t (k, id) = findk id (t k).
Proof. reflexivity. Qed.
Lemma findk_app id a b : findk id (a ++ b) = match findk id a with Some x => Some x | None => findk id b end.
Proof. unfold findk. induction a as [|r a IH]; cbn; [reflexivity|]. destruct (String.eqb (fst r) id); [reflexivity|exact IH]. Qed.
Lemma findk_none id rows : findk id rows = None <-> ~ In id (map fst rows).
Proof.
  unfold findk. induction rows as [|r rows IH]; cbn; [tauto|]. destruct (String.eqb_spec (fst r) id) as [E|E]; cbn.
  - split; [discriminate|intros H; elim H; now left].
  - rewrite IH. tauto.
Qed.
Lemma findk_filter id ids rows : findk id (filter (fun r => negb (str_in (fst r) ids)) rows) = if str_in id ids then None else findk id rows.
Proof.
  unfold findk. induction rows as [|[i c] rows IH]; cbn [filter find fst option_map]; [now destruct (str_in id ids)|].
  destruct (str_in i ids) eqn:E; cbn [negb find fst].
  - rewrite IH. destruct (str_in id ids) eqn:F; [reflexivity|]. destruct (String.eqb_spec i id) as [->|]; [congruence|reflexivity].
  - destruct (String.eqb_spec i id) as [->|N]; [now rewrite E|exact IH].
Qed.
Lemma findk_map id k g rows : (forall r, fst (g r) = fst r) ->
  findk id (map (fun r => if String.eqb (fst r) k then g r else r) rows)
  = match find (fun r => String.eqb (fst r) id) rows with Some r => Some (snd (if String.eqb id k then g r else r)) | None => None end.
Proof.
  intros G. unfold findk. induction rows as [|r rows IH]; cbn; [reflexivity|].
  assert (E : fst (if String.eqb (fst r) k then g r else r) = fst r) by (destruct (String.eqb (fst r) k); auto).
  rewrite E. destruct (String.eqb_spec (fst r) id) as [<-|N]; [reflexivity|exact IH].
Qed.
Lemma keys_map k g rows : (forall r : xrow, fst (g r) = fst r) -> map fst (map (fun r => if String.eqb (fst r) k then g r else r) rows) = map fst rows.
Proof. intros G. rewrite map_map. apply map_ext. intros r. destruct (String.eqb (fst r) k); auto. Qed.
Lemma overlay_eq n p : forall o, length n = length p -> length n = length o -> overlay n p o = x_overlay n p o.
Proof.
  revert p. induction n as [|x n IH]; intros [|y p] [|z o] A B; cbn in *; try lia; try reflexivity. f_equal. apply IH; lia.
Qed.
Lemma overlay_same n p : forall o, length n = length p -> length n = length o ->
  existsb (fun x => negb (String.eqb (fst x) (snd x))) (combine n p) = false -> overlay n p o = o.
Proof.
  revert p. induction n as [|x n IH]; intros [|y p] [|z o] A B E; cbn in *; try lia; try reflexivity.
  apply orb_false_iff in E. destruct E as (E & E'). apply negb_false_iff in E. rewrite E. f_equal. apply IH; try lia. assumption.
Qed.

(** Columns per table: all rows of a table and all its models have the same number of columns. *)
Definition width_ok (w : nat -> nat) (t : tables) : Prop := forall k r, In r (t k) -> length (snd r) = w k.

Lemma findk_In id rows c : findk id rows = Some c -> exists r, In r rows /\ fst r = id /\ snd r = c.
Proof.
  unfold findk. induction rows as [|r rows IH]; cbn; [discriminate|]. destruct (String.eqb_spec (fst r) id) as [E|E].
  - intros H. injection H as <-. eauto.
  - intros H. destruct (IH H) as (r' & A & B). eauto.
Qed.

(** ** insert *)
Lemma x_insert_ok ms t t' : keys_ok t -> x_insert ms t = XOk t' ->
  keys_ok t' /\ (forall k, db_of t' k = fold_left (fun d m => db_set d (row_key m) (Some (m_cols m))) ms (db_of t) k).
Proof.
  intros K E. unfold x_insert in E. destruct ms as [|m0 ms']; [discriminate|]. set (ms := m0 :: ms') in *. set (y := m_type m0) in *. clearbody ms y.
  destruct (forallb (fun m => m_type m =? y) ms) eqn:T; [|discriminate]. cbn [negb] in E.
  destruct (str_nodup (map m_id ms) && forallb (fun m => negb (str_in (m_id m) (map fst (t y)))) ms) eqn:C; [|discriminate]. injection E as <-.
  apply andb_true_iff in C. destruct C as (C1 & C2). apply str_nodup_ok in C1. rewrite forallb_forall in C2, T.
  split.
  - intros k. unfold tset. destruct (Nat.eqb_spec k y) as [->|N]; [|apply K].
    assert (EQ : forall l, map fst (t y ++ map to_row l) = map fst (t y) ++ map m_id l).
    { intros l. rewrite map_app. f_equal. induction l as [|a l IH]; cbn; [reflexivity|]. now f_equal. }
    rewrite EQ.
    assert (G : forall l, NoDup (map m_id l) -> (forall m, In m l -> negb (str_in (m_id m) (map fst (t y))) = true) -> NoDup (map fst (t y) ++ map m_id l)).
    { induction l as [|m l IH] using rev_ind; intros A B; [rewrite app_nil_r; apply K|].
      rewrite map_app in A |- *. cbn in *. apply NoDup_remove in A. rewrite app_nil_r in A. destruct A as (A1 & A2).
      rewrite app_assoc. assert (H := IH A1 (fun m' Hm => B m' (in_or_app _ _ _ (or_introl Hm)))).
      apply (Permutation.Permutation_NoDup (l := m_id m :: (map fst (t y) ++ map m_id l))); [apply Permutation.Permutation_cons_append|].
      constructor; [|assumption]. intros X. apply in_app_or in X. destruct X as [X|X]; [|contradiction].
      assert (B' : negb (str_in (m_id m) (map fst (t y))) = true) by (apply B, in_or_app; right; now left). apply negb_true_iff, str_in_nIn in B'. contradiction. }
    now apply G.
  - intros (k, id). rewrite db_of_findk. unfold tset.
    assert (G : forall l d, NoDup (map m_id l) -> (forall m, In m l -> m_type m = y) ->
      fold_left (fun d m => db_set d (row_key m) (Some (m_cols m))) l d (k, id)
      = if k =? y then match findk id (map to_row l) with Some c => Some c | None => d (k, id) end else d (k, id)).
    { induction l as [|m l IH]; intros d A B; cbn [fold_left map]; [now destruct (k =? y)|]. cbn [map] in A. inversion A as [|? ? A1 A2]; subst.
      rewrite IH; [|assumption|intros; apply B; now right]. unfold db_set, row_key. rewrite (B m (or_introl eq_refl)). unfold key_eqb. cbn [fst snd].
      destruct (Nat.eqb_spec k y) as [->|N]; [|reflexivity]. cbn [andb]. unfold findk at 2. cbn [find to_row fst]. rewrite (String.eqb_sym (m_id m) id).
      destruct (String.eqb_spec id (m_id m)) as [->|N2]; [|reflexivity].
      assert (F : findk (m_id m) (map to_row l) = None). { apply findk_none. rewrite map_map. cbn. exact A1. }
      now rewrite F. }
    rewrite G; [|assumption|intros m Hm; now apply Nat.eqb_eq, T]. clear G.
    destruct (Nat.eqb_spec k y) as [->|N]; [|reflexivity]. rewrite findk_app, db_of_findk.
    destruct (findk id (t y)) as [c|] eqn:F; [|now destruct (findk id (map to_row ms))].
    destruct (findk id (map to_row ms)) as [c'|] eqn:F'; [|reflexivity]. exfalso.
    apply findk_In in F'. destruct F' as (r & Hr & <- & _). apply in_map_iff in Hr. destruct Hr as (m & <- & Hm).
    apply findk_In in F. destruct F as (r & Hr & E & _). specialize (C2 m Hm). apply negb_true_iff, str_in_nIn in C2. apply C2.
    apply in_map_iff. exists r. split; [exact E|assumption].
Qed.

(** ** update *)
Lemma x_update_ok w : forall ms ps t t', keys_ok t -> width_ok w t -> length ps = length ms ->
  (forall m, In m ms -> length (m_cols m) = w (m_type m)) ->
  Forall2 (fun m p => exists q, p = Some q /\ length (m_cols q) = length (m_cols m)) ms ps ->
  x_update ms ps t = XOk t' ->
  keys_ok t' /\ width_ok w t' /\ (forall k, map fst (t' k) = map fst (t k)) /\ (forall k, db_of t' k = apply_updates (db_of t) ms ps k).
Proof.
  assert (EXT : forall ms ps d1 d2, (forall k, d1 k = d2 k) -> forall k, apply_updates d1 ms ps k = apply_updates d2 ms ps k).
  { clear. induction ms as [|m ms IH]; intros ps d1 d2 H k; cbn; [apply H|]. apply IH. intros k'. unfold apply_update. rewrite H.
    destruct (d2 (row_key m)); [|apply H]. unfold db_set. destruct (key_eqb k' (row_key m)); [reflexivity|apply H]. }
  induction ms as [|m ms IH]; intros ps t t' K W L Wm F E; inversion F as [|? ? ? ? (p & -> & Hl) F']; subst.
  - injection E as <-. cbn. auto.
  - cbn [x_update] in E. cbn [apply_updates].
    assert (L' : length l' = length ms) by (cbn in L; lia).
    assert (Wm' : forall m', In m' ms -> length (m_cols m') = w (m_type m')) by (intros; apply Wm; now right).
    assert (Wm0 := Wm m (or_introl eq_refl)).
    destruct (x_diff m p) eqn:D.
    + destruct (String.eqb (m_id m) ""); [discriminate|].
      set (g := fun r : xrow => (fst r, x_overlay (m_cols m) (m_cols p) (snd r))).
      set (t1 := tset t (m_type m) (map (fun r => if String.eqb (fst r) (m_id m) then g r else r) (t (m_type m)))) in *.
      assert (Kt : forall k, map fst (t1 k) = map fst (t k)).
      { intros k. unfold t1, tset. destruct (Nat.eqb_spec k (m_type m)) as [->|]; [|reflexivity]. now apply keys_map. }
      assert (K1 : keys_ok t1) by (intros k; rewrite Kt; apply K).
      assert (OL : forall n q o, length n = length q -> length n = length o -> length (x_overlay n q o) = length n).
      { clear. induction n as [|x n IH]; intros [|y q] [|z o] A B; cbn in *; try lia. rewrite IH; lia. }
      assert (W1 : width_ok w t1).
      { intros k r Hr. unfold t1, tset in Hr. destruct (Nat.eqb_spec k (m_type m)) as [->|]; [|now apply W].
        apply in_map_iff in Hr. destruct Hr as (r0 & <- & Hr0). specialize (W _ _ Hr0). destruct (String.eqb (fst r0) (m_id m)); [|assumption].
        unfold g. cbn. rewrite OL; lia. }
      destruct (IH l' t1 t' K1 W1 L' Wm' F' E) as (A & B & C & Dd). repeat split; [assumption|assumption|intros k; now rewrite C|].
      intros key. rewrite Dd. apply EXT. intros (k, id). rewrite db_of_findk. unfold t1, tset, apply_update, row_key. rewrite !db_of_findk.
      unfold db_set, key_eqb. cbn [fst snd].
      destruct (Nat.eqb_spec k (m_type m)) as [->|N]; cbn [andb].
      * rewrite findk_map by reflexivity.
        destruct (String.eqb_spec id (m_id m)) as [->|N2].
        -- unfold findk. destruct (find (fun r => String.eqb (fst r) (m_id m)) (t (m_type m))) as [r|] eqn:Fd; cbn [option_map].
           ++ rewrite Nat.eqb_refl, String.eqb_refl. cbn [andb]. unfold g. cbn. f_equal. symmetry. apply overlay_eq; [lia|].
              apply find_some in Fd. destruct Fd as (Fd & _). rewrite (W _ _ Fd). lia.
           ++ unfold db_of. cbn [fst snd]. now rewrite Fd.
        -- assert (Q : match find (fun r => String.eqb (fst r) id) (t (m_type m)) with Some r => Some (snd r) | None => None end = db_of t (m_type m, id)) by reflexivity.
           rewrite Q. destruct (findk (m_id m) (t (m_type m))); [|reflexivity]. cbn [fst snd]. destruct (String.eqb_spec id (m_id m)); [contradiction|]. now rewrite andb_false_r.
      * destruct (findk (m_id m) (t (m_type m))); [|reflexivity]. cbn [fst snd]. destruct (Nat.eqb_spec k (m_type m)); [contradiction|]. reflexivity.
    + destruct (IH l' t t' K W L' Wm' F' E) as (A & B & C & Dd). repeat split; [assumption|assumption|assumption|].
      intros key. rewrite Dd. apply EXT. intros (k, id). unfold apply_update, row_key. rewrite (db_of_findk t (m_type m) (m_id m)).
      destruct (findk (m_id m) (t (m_type m))) as [old|] eqn:Fo; [|reflexivity]. unfold db_set.
      destruct (key_eqb (k, id) (m_type m, m_id m)) eqn:Ke; [|reflexivity]. apply key_eqb_spec in Ke. injection Ke as -> ->.
      rewrite db_of_findk, Fo. f_equal. unfold x_diff in D. apply orb_false_iff in D. destruct D as (_ & D). symmetry. apply overlay_same; [lia| |exact D].
      apply findk_In in Fo. destruct Fo as (r & Hr & _ & <-). rewrite (W _ _ Hr). lia.
Qed.

(** ** delete *)
Lemma x_remove_ok k ids t : keys_ok t -> keys_ok (x_remove k ids t)
  /\ forall j id, db_of (x_remove k ids t) (j, id) = if (j =? k) && str_in id ids then None else db_of t (j, id).
Proof.
  intros K. split.
  - intros j. unfold x_remove, tset. destruct (Nat.eqb_spec j k) as [->|]; [|apply K]. specialize (K k). clear - K.
    induction (t k) as [|r rows IH]; cbn; [constructor|]. cbn in K. inversion K; subst. destruct (negb (str_in (fst r) ids)); cbn; [|auto].
    constructor; [|auto]. intros H. apply H1. apply in_map_iff in H. destruct H as (r' & <- & H). apply filter_In in H. apply in_map, H.
  - intros j id. rewrite !db_of_findk. unfold x_remove, tset. destruct (Nat.eqb_spec j k) as [->|]; [|reflexivity]. cbn [andb]. apply findk_filter.
Qed.
Lemma fold_delete ms : forall d j id,
  fold_left (fun d m => db_set d (row_key m) None) ms d (j, id)
  = if existsb (fun m => key_eqb (j, id) (row_key m)) ms then None else d (j, id).
Proof.
  induction ms as [|m ms IH]; intros d j id; cbn; [reflexivity|]. rewrite IH. unfold db_set.
  destruct (key_eqb (j, id) (row_key m)); cbn; [now destruct (existsb _ ms)|reflexivity].
Qed.
Lemma x_delete_each_ok ms : forall t t', keys_ok t -> x_delete_each ms t = XOk t' ->
  keys_ok t' /\ forall j id, db_of t' (j, id) = if existsb (fun m => key_eqb (j, id) (row_key m)) ms then None else db_of t (j, id).
Proof.
  induction ms as [|m ms IH]; intros t t' K E; cbn in E; [injection E as <-; auto|].
  destruct (String.eqb (m_id m) ""); [discriminate|]. destruct (x_remove_ok (m_type m) [m_id m] t K) as (K1 & R).
  destruct (IH _ _ K1 E) as (A & B). split; [assumption|]. intros j id. rewrite B, R. cbn [existsb]. unfold key_eqb, row_key, str_in. cbn.
  rewrite orb_false_r. destruct ((j =? m_type m) && String.eqb id (m_id m)); cbn; [now destruct (existsb _ ms)|reflexivity].
Qed.
Lemma x_delete_ok single ms t t' : keys_ok t -> (forall m m', In m ms -> In m' ms -> m_type m = m_type m') -> x_delete single ms t = XOk t' ->
  keys_ok t' /\ forall j id, db_of t' (j, id) = if existsb (fun m => key_eqb (j, id) (row_key m)) ms then None else db_of t (j, id).
Proof.
  intros K T E. destruct ms as [|m0 ms']; [discriminate|]. cbn [x_delete] in E. destruct (single (m_type m0)).
  - injection E as <-. destruct (x_remove_ok (m_type m0) (map m_id (m0 :: ms')) t K) as (K1 & R). split; [assumption|].
    intros j id. rewrite R. replace ((j =? m_type m0) && str_in id (map m_id (m0 :: ms'))) with (existsb (fun m => key_eqb (j, id) (row_key m)) (m0 :: ms')); [reflexivity|].
    assert (H : forall l, (forall m, In m l -> m_type m = m_type m0) -> existsb (fun m => key_eqb (j, id) (row_key m)) l = (j =? m_type m0) && str_in id (map m_id l)).
    { induction l as [|m l IH]; intros Hl; cbn; [now rewrite andb_false_r|]. rewrite IH by (intros; apply Hl; now right).
      unfold key_eqb, row_key. cbn. rewrite (Hl m (or_introl eq_refl)). destruct (j =? m_type m0); cbn; [|reflexivity]. reflexivity. }
    apply H. intros m Hm. apply T; [assumption|now left].
  - now apply x_delete_each_ok.
Qed.

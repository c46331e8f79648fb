(** The actions of a save bring the database in step with the aggregates. *)
From Verif Require Export EngineProof12 SyncSpec.
From Verif Require Import EngineModel.

Lemma key_eqb_spec a b : key_eqb a b = true <-> a = b.
Proof.
  destruct a, b. unfold key_eqb. cbn. rewrite andb_true_iff, Nat.eqb_eq, String.eqb_eq. split; [intros [-> ->]; auto|intros [= -> ->]; auto].
Qed.
Lemma db_set_other d k v k' : k' <> k -> db_set d k v k' = d k'.
Proof. intros H. unfold db_set. destruct (key_eqb k' k) eqn:E; auto. apply key_eqb_spec in E. contradiction. Qed.
Lemma db_set_same d k v : db_set d k v k = v.
Proof. unfold db_set. now rewrite (proj2 (key_eqb_spec k k) eq_refl). Qed.

Lemma overlay_new_prev n : forall p, length p = length n -> overlay n p p = n.
Proof. induction n as [|a t IH]; intros [|b u]; cbn; auto; try discriminate. intros [= H]. rewrite IH by auto. destruct (String.eqb_spec a b); congruence. Qed.
Lemma overlay_new_new n : forall p, length p = length n -> overlay n p n = n.
Proof. induction n as [|a t IH]; intros [|b u]; cbn; auto; try discriminate. intros [= H]. rewrite IH by auto. destruct (String.eqb a b); auto. Qed.

(** one model of an action: what it does to the rows *)
Definition apply_one (o : op) (d : db) (mp : model * option model) : db :=
  match o with
  | OpInsert => db_set d (row_key (fst mp)) (Some (m_cols (fst mp)))
  | OpUpdate => apply_update d (fst mp) (snd mp)
  | OpDelete => db_set d (row_key (fst mp)) None
  | OpQuery => d
  end.
Lemma apply_updates_fold ms : forall ps d, length ps = length ms -> apply_updates d ms ps = fold_left (apply_one OpUpdate) (combine ms ps) d.
Proof. induction ms as [|m t IH]; intros [|p u] d; cbn; try discriminate; auto. Qed.
Lemma apply_one_other o d mp k : row_key (fst mp) <> k -> apply_one o d mp k = d k.
Proof.
  intros H. destruct o; cbn; auto; try (apply db_set_other; auto). unfold apply_update. destruct (d (row_key (fst mp))); auto. apply db_set_other; auto.
Qed.
(** an action that is the image of contributions *)
Lemma apply_action_fold a (mine : list contrib) d : a_models a = map cb_model mine ->
  a_prev a = (match a_op a with OpUpdate => map cb_prev mine | _ => [] end) ->
  apply_action d a = fold_left (fun d c => apply_one (a_op a) d (cb_model c, cb_prev c)) mine d.
Proof.
  intros H1 H2. unfold apply_action. rewrite H1, H2. clear H1 H2. destruct (a_op a).
  - revert d. induction mine as [|c t IH]; intros d; cbn; auto.
  - rewrite apply_updates_fold by now rewrite !map_length. revert d. induction mine as [|c t IH]; intros d; cbn; auto.
  - revert d. induction mine as [|c t IH]; intros d; cbn; auto.
  - revert d. induction mine as [|c t IH]; intros d; cbn; auto.
Qed.

Section Actions.
  Variables (cs : list contrib) (acts : list action).
  Hypothesis AF : actions_for cs acts.
  Lemma acts_fold d : exists l, apply_actions d acts = fold_left (fun d c => apply_one (cb_op c) d (cb_model c, cb_prev c)) l d /\
    (forall c, In c l <-> In c cs).
  Proof using AF.
    destruct AF as [AE AA _ _]. 
    assert (X : forall acts', incl acts' acts -> exists l,
       (forall d, apply_actions d acts' = fold_left (fun d c => apply_one (cb_op c) d (cb_model c, cb_prev c)) l d) /\
       (forall c, In c l <-> exists a, In a acts' /\ In c cs /\ a_op a = cb_op c /\ action_type a = m_type (cb_model c))).
    { induction acts' as [|a t IH]; intros Hi.
      - exists []. split; [reflexivity|]. intros c. split; [intros []|intros (a & [] & _)].
      - destruct IH as (l & L1 & L2). { intros x Hx. apply Hi. now right. }
        destruct (AE a) as (E1 & E2 & E3). { apply Hi. now left. } set (mine := filter (same_kind (a_op a) (action_type a)) cs) in *.
        assert (Hm : forall c, In c mine <-> In c cs /\ a_op a = cb_op c /\ action_type a = m_type (cb_model c)).
        { intros c. unfold mine. rewrite filter_In. unfold same_kind. rewrite andb_true_iff, op_eqb_spec, Nat.eqb_eq. intuition. }
        exists (mine ++ l). split.
        + intros d0. cbn. rewrite (apply_action_fold a mine) by auto. rewrite fold_left_app. rewrite <- L1. unfold apply_actions. f_equal.
          assert (Ho : forall c, In c mine -> cb_op c = a_op a) by (intros c Hc; apply Hm in Hc; symmetry; tauto).
          clear - Ho. revert d0. induction mine as [|c u IHu]; intros d0; cbn; auto. rewrite (Ho c) by now left. apply IHu. intros; apply Ho; now right.
        + intros c. rewrite in_app_iff, L2, Hm. split.
          * intros [H|(b & H1 & H2)]; [exists a; split; [now left|tauto]|exists b; split; [now right|tauto]].
          * intros (b & [<-|H1] & H2); [left; tauto|right; eauto]. }
    destruct (X acts (incl_refl _)) as (l & L1 & L2). exists l. split; [apply L1|]. intros c. rewrite L2. split; [intros (a & _ & H & _); auto|].
    intros Hc. destruct (AA c Hc) as (a & A1 & A2 & A3). exists a. auto.
  Qed.
  Definition step (d : db) (c : contrib) : db := apply_one (cb_op c) d (cb_model c, cb_prev c).
  Lemma fold_untouched l : forall d k, (forall c, In c l -> row_key (cb_model c) <> k) -> fold_left step l d k = d k.
  Proof using.
    induction l as [|c t IH]; intros d k H; cbn; [reflexivity|]. rewrite IH by (intros x Hx; apply H; now right).
    apply apply_one_other. apply H. now left.
  Qed.
  (** if every step on key [k] leads from a value in [V] to [v], the end value is [v] *)
  Lemma fold_value l : forall d k (V : option (list string) -> Prop) v,
    (forall d c, In c l -> row_key (cb_model c) = k -> V (d k) -> step d c k = v) -> V v -> V (d k) ->
    (exists c, In c l /\ row_key (cb_model c) = k) -> fold_left step l d k = v.
  Proof using.
    induction l as [|c t IH]; intros d k V v Hs Hv Hd (x & Hx & Hk); [destruct Hx|]. cbn.
    destruct (key_eqb (row_key (cb_model c)) k) eqn:E.
    - apply key_eqb_spec in E. assert (Hc : step d c k = v) by (apply Hs; auto; now left).
      destruct (existsb (fun c => key_eqb (row_key (cb_model c)) k) t) eqn:Et.
      + apply existsb_exists in Et. destruct Et as (y & Hy & Ey). apply key_eqb_spec in Ey.
        apply (IH _ k V v); auto; [intros d0 c0 H0; apply Hs; now right|now rewrite Hc|eauto].
      + rewrite fold_untouched; [exact Hc|]. intros y Hy Ey. apply key_eqb_spec in Ey.
        assert (existsb (fun c => key_eqb (row_key (cb_model c)) k) t = true) by (apply existsb_exists; eauto). congruence.
    - destruct Hx as [->|Hx]; [rewrite (proj2 (key_eqb_spec _ _) Hk) in E; discriminate|].
      apply (IH _ k V v); auto; [intros d0 c0 H0; apply Hs; now right| |eauto].
      unfold step. rewrite apply_one_other; auto. intros X. cbn in X. apply key_eqb_spec in X. congruence.
  Qed.
End Actions.

Lemma contributions_In cfg h pl chs c : In c (contributions cfg h pl chs) <->
  exists t par k p m, reported chs t par k p /\ c_conv cfg h p (Some par) (change_op t) = CModel m /\
    c = mkContrib (change_op t) m (match pl p with Some sn => s_po sn | None => None end).
Proof.
  unfold contributions. rewrite in_flat_map. split.
  - intros (ch & H1 & H2). apply in_flat_map in H2. destruct H2 as (p & H2 & H3).
    destruct (c_conv cfg h p (Some (ch_parent ch)) (change_op (ch_type ch))) as [m| |] eqn:E; [|destruct H3..]. destruct H3 as [<-|[]].
    exists (ch_type ch), (ch_parent ch), (ch_key ch), p, m. split; [exists ch; auto|auto].
  - intros (t & par & k & p & m & (ch & H1 & <- & <- & <- & H5) & H6 & ->). exists ch. split; auto. apply in_flat_map. exists p. split; auto.
    rewrite H6. now left.
Qed.

Definition was_childb (pl : pool) (par : ptr) (k : key) (p : ptr) : bool :=
  match pl par with None => false | Some s => existsb (fun kl => String.eqb (fst kl) k && memb p (snd kl)) (s_kids s) end.
Lemma was_childb_spec pl par k p : was_childb pl par k p = true <-> was_child pl par k p.
Proof.
  unfold was_childb, was_child. destruct (pl par) as [s|]; [|split; [discriminate|intros (s & l & H & _); discriminate]].
  rewrite existsb_exists. split.
  - intros ([k' l] & H1 & H2). apply andb_true_iff in H2. destruct H2 as [H2 H3]. apply String.eqb_eq in H2. apply memb_In in H3. cbn in *. subst. eauto.
  - intros (s' & l & [= <-] & H1 & H2). exists (k, l). split; auto. cbn. rewrite String.eqb_refl. now apply memb_In.
Qed.

Section Sync.
  Variables (cfg : config) (s : st) (h : heap) (d : db) (chs : list change) (acts : list action).
  Hypothesis RD : ready cfg s h d.
  Hypothesis REP : forall t par k p, reported chs t par k p <-> must_save cfg s t par k p.
  Hypothesis AF : actions_for (contributions cfg h (s_pool s) chs) acts.

  (** a live entity is created or updated in its only place *)
  Lemma live_unique t par k p par' k' : must_save cfg s t par k p -> live_at s p par' k' -> reach (kids_now s) meta p ->
    t <> CDelete /\ par = par'.
  Proof using RD.
    intros H1 H2 H3. destruct t.
    - split; [discriminate|]. destruct H1 as [[(R & C & _) _]|(_ & X & _)]; [|discriminate]. destruct H2 as [R2 C2]. now apply (rd_tree _ _ _ _ RD par k par' k' p).
    - split; [discriminate|]. destruct H1 as [[(R & C & _)|[(R & C & _) _]]|(_ & X & _)]; [..|discriminate]; destruct H2 as [R2 C2]; now apply (rd_tree _ _ _ _ RD par k par' k' p).
    - exfalso. now apply (rd_gone _ _ _ _ RD par k p).
    - exfalso. destruct H1 as [[]|(_ & X & _)]. discriminate.
  Qed.
  Lemma live_reach p par k : live_at s p par k -> reach (kids_now s) meta p.
  Proof using.
    intros [R C]. clear - R C. induction R; [econstructor; [exact C|constructor]|]. econstructor; eauto.
  Qed.
  Lemma conv_row p par m o : c_conv cfg h p (Some par) o = CModel m -> row cfg h p par = Some m.
  Proof using RD. intros H. unfold row. rewrite (rd_conv _ _ _ _ RD) in H. now rewrite H. Qed.
  Lemma row_conv p par m o : row cfg h p par = Some m -> c_conv cfg h p (Some par) o = CModel m.
  Proof using RD. unfold row. rewrite (rd_conv _ _ _ _ RD p par o). destruct (c_conv cfg h p (Some par) OpQuery); congruence. Qed.

  (** created and updated exclude each other *)
  Lemma new_or_dirty par k p par' k' : must_save cfg s CNew par k p -> must_save cfg s CDirty par' k' p -> False.
  Proof using RD.
    intros [[(R1 & C1 & W1) D1]|(_ & X & _)]; [|discriminate]. intros [[(R2 & C2 & W2 & _)|[_ (p' & k2 & X)]]|(_ & X & _)]; [..|discriminate].
    - destruct (rd_tree _ _ _ _ RD par k par' k' p R1 R2 C1 C2) as [<- <-]. contradiction.
    - now apply (D1 p' k2).
  Qed.
  (** everything written to the row of a live entity *)
  Lemma writes_of_live p par k m c : live_at s p par k -> row cfg h p par = Some m ->
    In c (contributions cfg h (s_pool s) chs) -> row_key (cb_model c) = row_key m ->
    cb_model c = m /\
    ((cb_op c = OpInsert /\ exists k', must_save cfg s CNew par k' p) \/
     (cb_op c = OpUpdate /\ (exists k', must_save cfg s CDirty par k' p) /\ cb_prev c = match s_pool s p with Some sn => s_po sn | None => None end)).
  Proof using RD REP.
    intros L R Hc Hk. apply contributions_In in Hc. destruct Hc as (t & par' & k' & q & m' & Hr & Hv & ->). cbn in *. apply REP in Hr.
    assert (Hq := conv_row _ _ _ _ Hv).
    assert (q = p) as ->. { apply (rd_keys _ _ _ _ RD q par' p par m' m); auto; [exists k'; right; eauto|exists k; left; auto]. }
    destruct (live_unique _ _ _ _ _ _ Hr L (live_reach _ _ _ L)) as [Ht ->]. split; [congruence|].
    destruct t; cbn; [left; eauto|right; eauto|congruence|]. destruct Hr as [[]|(_ & X & _)]. discriminate.
  Qed.
  Lemma saved_contributes t par k p m : must_save cfg s t par k p -> row cfg h p par = Some m ->
    exists c, In c (contributions cfg h (s_pool s) chs) /\ cb_model c = m /\ cb_op c = change_op t.
  Proof using RD REP.
    intros H1 H2. eexists. split; [apply contributions_In; exists t, par, k, p, m; split; [now apply REP|split; [now apply row_conv|reflexivity]]|]. auto.
  Qed.

  Lemma sync : in_step cfg s h d (apply_actions d acts).
  Proof using RD REP AF.
    destruct (acts_fold _ _ AF d) as (l & L1 & L2). rewrite L1. change (fun d c => apply_one (cb_op c) d (cb_model c, cb_prev c)) with step. split.
    - intros p par k m L R. assert (Lr := live_reach _ _ _ L).
      destruct (existsb (fun c => key_eqb (row_key (cb_model c)) (row_key m)) l) eqn:Ex.
      + apply existsb_exists in Ex. destruct Ex as (c & Hc & Ek). apply key_eqb_spec in Ek. assert (Hc' := proj1 (L2 c) Hc).
        destruct (writes_of_live p par k m c L R Hc' Ek) as [Em [[Eo (k1 & Hn)]|[Eo [(k1 & Hd) Ep]]]].
        * (* created *)
          apply (fold_value l d _ (fun _ => True)); auto; [|eauto]. intros d0 c0 H0 K0 _. apply L2 in H0.
          destruct (writes_of_live p par k m c0 L R H0 K0) as [Em0 [[Eo0 _]|[_ [(k2 & Hd) _]]]]; [|exfalso; eapply new_or_dirty; eauto].
          unfold step. rewrite Eo0, Em0. cbn. apply db_set_same.
        * (* updated *)
          destruct (rd_same _ _ _ _ RD p par k1 m Hd R) as (sn & m0 & P1 & P2 & P3 & P4).
          apply (fold_value l d _ (fun v => v = Some (m_cols m0) \/ v = Some (m_cols m))); auto; [| |eauto].
          -- intros d0 c0 H0 K0 Hv. apply L2 in H0.
             destruct (writes_of_live p par k m c0 L R H0 K0) as [Em0 [[_ (k2 & Hn)]|[Eo0 [_ Ep0]]]]; [exfalso; eapply new_or_dirty; eauto|].
             unfold step. rewrite Eo0, Em0, Ep0, P1, P2. cbn. unfold apply_update.
             destruct Hv as [-> | ->]; rewrite db_set_same; [rewrite overlay_new_prev|rewrite overlay_new_new]; auto.
          -- left. rewrite <- P3. eapply (rd_loaded _ _ _ _ RD); eauto.
      + assert (Nc : forall c, In c l -> row_key (cb_model c) <> row_key m).
        { intros c Hc E. assert (existsb (fun c => key_eqb (row_key (cb_model c)) (row_key m)) l = true) by (apply existsb_exists; exists c; split; auto; now apply key_eqb_spec). congruence. }
        rewrite fold_untouched by auto.
        assert (Nm : forall t, ~ must_save cfg s t par k p).
        { intros t Ht. destruct (saved_contributes t par k p m Ht R) as (c & Hc & Em & _). apply (Nc c); [now apply L2|congruence]. }
        destruct L as [Lp Lc].
        assert (W : was_child (s_pool s) par k p).
        { apply was_childb_spec. destruct (was_childb (s_pool s) par k p) eqn:Ew; auto. exfalso.
          assert (Hn : ~ was_child (s_pool s) par k p) by (rewrite <- was_childb_spec; congruence).
          apply (Nm CNew). left. split; [split; auto|]. intros p' k' Hx. apply (Nm CDirty). left. right. split; [split; auto|eauto]. }
        assert (Dn : e_dirty (s_heap s p) = false).
        { destruct (e_dirty (s_heap s p)) eqn:Ed; auto. exfalso. apply (Nm CDirty). left. left. split; auto. }
        destruct (rd_clean _ _ _ _ RD p par k m (conj Lp Lc) W Dn R) as (sn & P1 & P2). eapply (rd_loaded _ _ _ _ RD); eauto.
    - intros p par k m H R. destruct (saved_contributes CDelete par k p m H R) as (c & Hc & Em & Eo).
      apply (fold_value l d _ (fun _ => True)); auto; [|exists c; split; [now apply L2|congruence]].
      intros d0 c0 H0 K0 _. apply L2 in H0. apply contributions_In in H0. destruct H0 as (t & par' & k' & q & m' & Hr & Hv & ->). cbn in K0. apply REP in Hr.
      assert (Hq := conv_row _ _ _ _ Hv).
      assert (q = p) as ->. { apply (rd_keys _ _ _ _ RD q par' p par m' m); auto; [exists k'; right; eauto|exists k; right; eauto]. }
      assert (Ng := rd_gone _ _ _ _ RD par k p H).
      assert (t = CDelete) as ->.
      { destruct t; auto; exfalso; apply Ng.
        - destruct Hr as [[(A & B & _) _]|(_ & X & _)]; [|discriminate]. eapply live_reach. split; eauto.
        - destruct Hr as [[(A & B & _)|[(A & B & _) _]]|(_ & X & _)]; [..|discriminate]; eapply live_reach; split; eauto.
        - destruct Hr as [[]|(_ & X & _)]. discriminate. }
      unfold step. cbn. rewrite K0. apply db_set_same.
    - intros key Hk. apply fold_untouched. intros c Hc. apply L2, contributions_In in Hc. destruct Hc as (t & par & k & p & m & Hr & Hv & ->). cbn.
      apply REP in Hr. eapply Hk; eauto. eapply conv_row; eauto.
  Qed.
End Sync.

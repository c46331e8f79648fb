(** Snapshots, flush, and saving twice. *)
From Verif Require Export EngineProof11.
From Verif Require Import GraphProof GraphProof2 GraphProof3 GraphProof4 EngineModel.

Section Flush.
  Variable cfg : config.

  (** what updateSnapshot remembers as model of an entity *)
  Definition remembered (h : heap) (p : ptr) (par : option ptr) (po : option model) : Prop :=
    match c_conv cfg h p par OpQuery with CModel m => po = Some m | NotReg false => po = None | _ => False end.
  Lemma snap_list_spec h roots l : forall pl pl', snap_list cfg h roots pl l = (None, pl') ->
    (forall q, pl' q = pl q \/
       exists par po, In (q, par) l /\ (pl q = None \/ q = meta) /\ pl' q = Some (mkSnap po (findChildren h roots q)) /\ remembered h q par po) /\
    (forall q, In q (map fst l) -> pl' q <> None) /\
    (forall q, In q (map fst l) -> q = meta -> exists po, pl' q = Some (mkSnap po (findChildren h roots q))).
  Proof.
    induction l as [|[p par] t IH]; cbn; intros pl pl' H.
    { injection H as <-. split; [auto|]. split; intros q []. }
    destruct (snap_entity cfg h roots pl p par) as [e|pl1] eqn:E; [discriminate|]. apply IH in H. destruct H as (H1 & H2 & H3).
    assert (X : (pl1 = pl /\ pl p <> None /\ p <> meta) \/
      exists po, (pl p = None \/ p = meta) /\ pl1 = (fun q => if Nat.eqb q p then Some (mkSnap po (findChildren h roots p)) else pl q) /\ remembered h p par po).
    { unfold snap_entity in E. unfold remembered. destruct (pl p) as [sn|] eqn:Ep, (Nat.eqb_spec p meta) as [Em|Em];
        [|injection E as <-; left; split; [auto|split; [discriminate|auto]]| |]; right;
        (destruct (c_conv cfg h p par OpQuery) as [m|[|]|]; [exists (Some m)|discriminate|exists None|discriminate]);
        injection E as <-; auto. }
    split; [|split].
    - intros q. destruct (H1 q) as [Hq|(par' & po & Hq1 & Hq2 & Hq3 & Hq4)].
      + destruct X as [(-> & _)|(po & X1 & -> & X3)]; [auto|]. destruct (Nat.eqb_spec q p) as [Eqp|Hne]; [subst q|auto].
        right. exists par, po. auto.
      + right. destruct X as [(-> & X1 & X2)|(po' & X1 & -> & X3)].
        * exists par', po. auto.
        * exists par', po. split; auto. split; [|auto]. destruct (Nat.eqb_spec q p) as [->|]; [|auto].
          destruct Hq2; [discriminate|auto].
    - intros q [<-|Hq]; [|auto]. destruct (H1 p) as [Hq|(par' & po & Hq1 & Hq2 & Hq3 & Hq4)]; [|congruence]. rewrite Hq.
      destruct X as [(-> & X1 & _)|(po & X1 & -> & X3)]; [auto|]. now rewrite Nat.eqb_refl.
    - intros q [<-|Hq] Hm; [|auto]. destruct (H1 p) as [Hq|(par' & po & Hq1 & Hq2 & Hq3 & Hq4)]; [|eauto]. rewrite Hq.
      destruct X as [(-> & X1 & X2)|(po & X1 & -> & X3)]; [contradiction|]. rewrite Nat.eqb_refl. eauto.
  Qed.

  Lemma walk_from_inv p s o s' : walk_from cfg p s = (o, s') -> s' = tick s /\
    match walk (c_ord cfg (s_tick s)) (kids_now s) (c_fuel cfg) p None with None => o = Crash | Some l => o = Done l end.
  Proof. unfold walk_from, bind, get, upd, tick. destruct (walk _ _ _ _ _); intros [= <- <-]; auto. Qed.

  Lemma updateSnapshot_inv s o s' : updateSnapshot cfg s = (o, s') ->
    match walk (c_ord cfg (s_tick s)) (kids_now s) (c_fuel cfg) meta None with
    | None => o = Crash /\ s' = tick s
    | Some l => exists e pl', snap_list cfg (s_heap s) (ct_roots (s_cont s)) (s_pool s) l = (e, pl') /\ o = Done e /\ s' = with_pool (tick s) pl'
    end.
  Proof.
    unfold updateSnapshot. intros H. destruct (bind_inv _ _ _ _ _ H) as [(l & s1 & H1 & H2)|[[H1 ->]|[H1 ->]]];
      apply walk_from_inv in H1; destruct H1 as [-> H1]; destruct (walk _ _ _ _ _) as [l0|]; try discriminate.
    - injection H1 as ->. unfold bind, get, upd, ret in H2. cbn in H2. injection H2 as <- <-.
      destruct (snap_list _ _ _ _ _) as [e pl'] eqn:E. exists e, pl'. auto.
    - auto.
  Qed.

  Record flushed (s s' : st) : Prop := mkFlushed {
    fl_heap : s_heap s' = s_heap s; fl_cont : s_cont s' = s_cont s; fl_trace : s_trace s' = s_trace s;
    fl_acts : s_actions s' = s_actions s; fl_errs : s_errs s' = s_errs s; fl_ctx : s_evctx s' = s_evctx s;
    fl_out : s_output s' = s_output s;
    fl_walk : exists ord l, order_ok ord /\ walk ord (kids_now s') (c_fuel cfg) meta None = Some l;
    fl_snap : forall q, reach (kids_now s') meta q -> exists par po, (q = meta \/ exists r k, par = Some r /\ reach (kids_now s') meta r /\ now_child (kids_now s') r k q) /\
       s_pool s' q = Some (mkSnap po (kids_now s' q)) /\ remembered (s_heap s') q par po;
    fl_none : forall q, ~ reach (kids_now s') meta q -> s_pool s' q = None }.

  Lemma flush_spec s s' : orders_ok cfg -> flush cfg s = (Done None, s') -> flushed s s'.
  Proof.
    intros [Ho _] H. unfold flush in H. unfold bind at 1, upd in H. apply updateSnapshot_inv in H.
    change (kids_now (with_pool s (fun _ => None))) with (kids_now s) in H. cbn [s_tick with_pool s_heap s_cont s_pool] in H.
    destruct (walk _ _ _ _ _) as [l|] eqn:E; [|destruct H; discriminate]. destruct H as (e & pl' & Hs & [= <-] & ->).
    apply snap_list_spec in Hs. destruct Hs as (H1 & H2 & _).
    assert (W := walk_reach _ _ (Ho _) _ _ _ _ E). assert (Wp := walk_parent _ _ (Ho _) _ _ _ _ E).
    assert (K : kids_now (with_pool (tick (with_pool s (fun _ => None))) pl') = kids_now s) by reflexivity.
    split; try reflexivity.
    - exists (c_ord cfg (s_tick s)), l. split; [apply Ho|]. rewrite K. exact E.
    - rewrite K. intros q Hq. apply W in Hq. destruct (H1 q) as [X|(par & po & X1 & X2 & X3 & X4)]; [apply H2 in Hq; congruence|].
      exists par, po. split; [|cbn; auto]. apply Wp in X1. destruct X1 as [[X1 _]|(r & k & -> & X1 & X5)]; [auto|]. right. exists r, k. auto.
    - rewrite K. intros q Hq. cbn. destruct (H1 q) as [X|(par & po & X1 & _)]; [exact X|]. exfalso. apply Hq, W. apply in_map_iff. exists (q, par). auto.
  Qed.

  Lemma kids_undirty h ps roots q : findChildren (undirty_all h ps) roots q = findChildren h roots q.
  Proof. unfold findChildren, undirty_all, findChildren_ent. destruct (Nat.eqb q meta); auto. destruct (memb q ps); reflexivity. Qed.
  Lemma unDirty_spec s u s' : orders_ok cfg -> unDirty cfg s = (Done u, s') ->
    exists ps, s' = with_heap (tick s) (undirty_all (s_heap s) ps) /\ (forall q, In q ps <-> reach (kids_now s) meta q).
  Proof.
    intros [Ho _] H. unfold unDirty in H. apply bind_done in H. destruct H as (l & s1 & H1 & H2). apply walk_from_inv in H1. destruct H1 as [-> H1].
    destruct (walk _ _ _ _ _) as [l0|] eqn:E; [|discriminate]. injection H1 as ->. injection H2 as _ <-. exists (map fst l0). split; [reflexivity|].
    apply (walk_reach _ _ (Ho _) _ _ _ _ E).
  Qed.

  (** The state after a successful intermediate save. *)
  Record clean (s : st) : Prop := mkClean {
    cl_walk : exists ord l, order_ok ord /\ walk ord (kids_now s) (c_fuel cfg) meta None = Some l;
    cl_snap : forall q, reach (kids_now s) meta q -> exists po, s_pool s q = Some (mkSnap po (kids_now s q));
    cl_dirty : forall q, reach (kids_now s) meta q -> e_dirty (s_heap s q) = false }.

  Lemma now_child_ext k1 k2 p k c : (forall q, k1 q = k2 q) -> now_child k1 p k c -> now_child k2 p k c.
  Proof. intros E (l & H1 & H2). exists l. rewrite <- E. auto. Qed.
  Lemma reach_ext k1 k2 p q : (forall q, k1 q = k2 q) -> reach k1 p q -> reach k2 p q.
  Proof. intros E. induction 1; [constructor|]. econstructor; [eapply now_child_ext; eauto|auto]. Qed.
  Lemma walk_ext ord k1 k2 fuel : (forall q, k1 q = k2 q) -> forall p par, walk ord k1 fuel p par = walk ord k2 fuel p par.
  Proof.
    intros E. induction fuel as [|n IH]; intros p par; [reflexivity|]. cbn. rewrite E.
    rewrite (mconcat_ext _ (fun kc => mconcat (fun c => walk ord k2 n c (Some p)) (snd kc))); [reflexivity|].
    intros x _. apply mconcat_ext. intros c _. apply IH.
  Qed.

  Lemma commit_clean s s' : orders_ok cfg -> commit cfg s = (Done None, s') -> clean s'.
  Proof.
    intros Ho H. unfold commit in H. apply andthen_inv in H. destruct H as (o1 & s1 & H1 & H2). destruct H2 as [(Hn & Ho1 & _)|[-> H2]]; [congruence|].
    apply andthen_inv in H2. destruct H2 as (o2 & s2 & H2 & H3). destruct H3 as [(Hn & Ho1 & _)|[-> H3]]; [congruence|].
    apply bind_done in H3. destruct H3 as (u & s3 & H3 & [= <-]). apply flush_spec in H2; auto. destruct (unDirty_spec _ _ _ Ho H3) as (ps & -> & Hps).
    destruct H2 as [_ _ _ _ _ _ _ (ord & l & Ho1 & W) Sn _].
    assert (K : forall q, kids_now (with_heap (tick s2) (undirty_all (s_heap s2) ps)) q = kids_now s2 q).
    { intros q. unfold kids_now. cbn. apply kids_undirty. }
    split.
    - exists ord, l. split; auto. rewrite (walk_ext _ _ (kids_now s2)); auto.
    - intros q Hq. apply (reach_ext _ _ _ _ K) in Hq. destruct (Sn q Hq) as (par & po & _ & X & _). exists po. rewrite K. exact X.
    - intros q Hq. apply (reach_ext _ _ _ _ K) in Hq. apply Hps, memb_In in Hq. cbn. unfold undirty_all. rewrite Hq. reflexivity.
  Qed.

  Lemma toSlice_empty s : (forall x, ~ In x (map fst s)) -> toSlice s = [].
  Proof. destruct s as [|[x i] t]; [reflexivity|]. intros H. destruct (H x). now left. Qed.
  Lemma diff_clean ord kids dirty pl fuel : order_ok ord ->
    forall p par l, walk ord kids fuel p par = Some l ->
    (forall q, reach kids p q -> (exists po, pl q = Some (mkSnap po (kids q))) /\ dirty q = false) ->
    entityDiff kids dirty pl fuel p = Some [].
  Proof.
    intros Ho. induction fuel as [|n IH]; intros p par l W Hc; [discriminate|]. cbn in W |- *.
    destruct (mconcat (fun kc => mconcat (fun c => walk ord kids n c (Some p)) (snd kc)) (ord p (kids p))) as [l'|] eqn:E; [|discriminate]. clear W.
    destruct (Hc p) as [(po & Hp) _]; [constructor|].
    assert (Sk : forall k, snap_kids pl p k = kids_at (kids p) k) by (intros k; unfold snap_kids, kids_at; rewrite Hp; reflexivity).
    assert (Eb : forall k, created_of kids pl p k = [] /\ deleted_of kids pl p k = []).
    { intros k. unfold created_of, deleted_of. rewrite Sk. split; apply toSlice_empty; intros x Hx; apply set_diff_In in Hx; now destruct Hx. }
    assert (Er : forall k, mconcat (entityDiff kids dirty pl n) (remain_of kids pl p k) = Some [] /\ filter dirty (remain_of kids pl p k) = []).
    { intros k. assert (Hin : forall c, In c (remain_of kids pl p k) -> now_child kids p k c).
      { intros c Hx. unfold remain_of in Hx. apply toSlice_In, set_inter_In in Hx. destruct Hx as [Hx _]. apply (proj1 (makeEntitySet_In _ _)) in Hx.
        unfold kids_at in Hx. destruct (assoc k (kids p)) as [lc|] eqn:Ea; [|destruct Hx]. exists lc. split; [now apply assoc_In|exact Hx]. }
      assert (Hs : forall c, In c (remain_of kids pl p k) -> entityDiff kids dirty pl n c = Some []).
      { intros c Hx. apply Hin in Hx. assert (Hcc := Hx). destruct Hx as (lc & L1 & L2).
        assert (Hor : In (k, lc) (ord p (kids p))) by (eapply Permutation_in; [symmetry; apply Ho|exact L1]).
        destruct (mconcat_Some_each _ _ _ E _ Hor) as (y & Hy). destruct (mconcat_Some_each _ _ _ Hy _ L2) as (z & Hz).
        apply (IH c (Some p) z); auto. intros q Hq. apply Hc. econstructor; eauto. }
      split.
      - clear - Hs. induction (remain_of kids pl p k) as [|c t IHt]; [reflexivity|]. cbn. rewrite Hs by now left. rewrite IHt; [reflexivity|]. intros; apply Hs; now right.
      - assert (Hd : forall c, In c (remain_of kids pl p k) -> dirty c = false).
        { intros c Hx. apply Hc. econstructor; [apply Hin; exact Hx|constructor]. }
        clear - Hd. induction (remain_of kids pl p k) as [|c t IHt]; [reflexivity|]. cbn. rewrite Hd by now left. apply IHt. intros; apply Hd; now right. }
    clear - Eb Er. induction (isort str_leb (map fst (kids p))) as [|k t IHt]; [reflexivity|]. cbn. destruct (Eb k) as [-> ->]. destruct (Er k) as [-> ->].
    cbn. now rewrite IHt.
  Qed.
  Lemma clean_unchanged s : clean s ->
    getEntityChanged (c_recursive cfg) (c_ord cfg (s_tick s)) (kids_now s) (fun p => e_dirty (s_heap s p)) (s_pool s) (c_fuel cfg) = ROk [].
  Proof.
    intros [(ord & l & Ho & W) Sn Dr]. unfold getEntityChanged.
    rewrite (diff_clean ord _ _ _ _ Ho _ _ _ W) by auto. cbn. destruct (c_recursive cfg); reflexivity.
  Qed.
  Lemma clean_persist s : clean s -> persist cfg s = (Done None, with_cont (with_actions (tick s) (s_actions s ++ [])) (mkCont (ct_roots (s_cont s)) (ct_deleted (s_cont s) ++ []))) \/
    persist cfg s = (Done None, with_cont (tick s) (mkCont (ct_roots (s_cont s)) (ct_deleted (s_cont s) ++ []))).
  Proof.
    intros H. apply clean_unchanged in H.
    assert (E : changed cfg s = (Done (inr []), tick s)).
    { unfold changed, bind, get, upd, ret. rewrite H. reflexivity. }
    destruct (c_dry cfg) eqn:Ed; [right|left]; unfold persist, bind at 1; rewrite E; cbv beta iota;
      unfold hooks, putNewID, makeActions, make_actions, change_items, exec; rewrite Ed; reflexivity.
  Qed.
End Flush.

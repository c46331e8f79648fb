(** Which events are published (C24), the transactional bus (C25) and persisted events (C27). *)
From Verif Require Export EngineProof7.

Lemma ev_before_of_leb a b : ev_leb a b = true -> ev_id a <> ev_id b -> ev_before a b.
Proof.
  unfold ev_leb, ev_before. rewrite orb_true_iff, andb_true_iff, Z.ltb_lt, Z.eqb_eq. intros [H|[H1 H2]] Hn; [auto|right; split; auto].
  unfold str_leb in H2. destruct (str_ltb_total (ev_id a) (ev_id b)) as [|[|Hx]]; [auto|congruence|]. rewrite Hx in H2. discriminate.
Qed.
Lemma ev_leb_total a b : ev_leb a b = true \/ ev_leb b a = true.
Proof.
  unfold ev_leb. rewrite !orb_true_iff, !andb_true_iff, !Z.ltb_lt, !Z.eqb_eq.
  destruct (Z.lt_trichotomy (ev_created a) (ev_created b)) as [|[E|]]; [auto| |auto].
  destruct (str_leb_total (ev_id a) (ev_id b)); auto.
Qed.
Lemma ev_leb_trans a b c : ev_leb a b = true -> ev_leb b c = true -> ev_leb a c = true.
Proof.
  unfold ev_leb. rewrite !orb_true_iff, !andb_true_iff, !Z.ltb_lt, !Z.eqb_eq.
  intros [H1|[H1 H1']] [H2|[H2 H2']]; [left; lia..|]. right. split; [congruence|]. eapply str_leb_trans; eauto.
Qed.
Lemma ev_before_trans a b c : ev_before a b -> ev_before b c -> ev_before a c.
Proof.
  unfold ev_before. intros [H1|[H1 H1']] [H2|[H2 H2']]; [left; lia..|]. right. split; [congruence|]. eapply str_ltb_trans; eauto.
Qed.
Lemma ev_before_irrefl a : ~ ev_before a a.
Proof. unfold ev_before. rewrite str_ltb_irrefl. intros [H|[_ H]]; [lia|discriminate]. Qed.
Lemma sorted_before l : StronglySorted (fun a b => ev_leb a b = true) l -> NoDup (map ev_id l) -> StronglySorted ev_before l.
Proof.
  induction 1 as [|x t Ht IH Hx]; intros Hn; constructor; inversion Hn as [|? ? N1 N2]; subst; auto.
  rewrite Forall_forall in *. intros y Hy. apply ev_before_of_leb; auto. intros E. apply N1. rewrite E. now apply in_map.
Qed.
Lemma sorted_unique l1 : forall l2, StronglySorted ev_before l1 -> StronglySorted ev_before l2 -> (forall e, In e l1 <-> In e l2) -> l1 = l2.
Proof.
  induction l1 as [|x t IH]; intros l2 H1 H2 H.
  - destruct l2 as [|y u]; auto. destruct (proj2 (H y)); now left.
  - destruct l2 as [|y u]; [destruct (proj1 (H x)); now left|].
    inversion H1 as [|? ? A1 B1]; inversion H2 as [|? ? A2 B2]; subst. rewrite Forall_forall in B1, B2.
    assert (x = y).
    { destruct (proj1 (H x) (or_introl eq_refl)) as [|Hx]; [auto|]. destruct (proj2 (H y) (or_introl eq_refl)) as [|Hy]; [auto|].
      exfalso. apply (ev_before_irrefl x). eapply ev_before_trans; [apply B1, Hy|apply B2, Hx]. }
    subst y. f_equal. apply IH; auto. intros e. split; intros He.
    + destruct (proj1 (H e) (or_intror He)) as [->|]; auto. exfalso. apply (ev_before_irrefl e). now apply B1.
    + destruct (proj2 (H e) (or_intror He)) as [->|]; auto. exfalso. apply (ev_before_irrefl e). now apply B2.
Qed.
Lemma sorted_filter f l : StronglySorted ev_before l -> StronglySorted ev_before (filter f l).
Proof.
  induction 1 as [|x t Ht IH Hx]; cbn; [constructor|]. destruct (f x); auto. constructor; auto.
  rewrite Forall_forall in *. intros y Hy. apply filter_In in Hy. apply Hx. tauto.
Qed.

(** the event map *)
Lemma ev_put_ids e l : incl (map ev_id (ev_put e l)) (ev_id e :: map ev_id l) /\ In (ev_id e) (map ev_id (ev_put e l)) /\ incl (map ev_id l) (map ev_id (ev_put e l)).
Proof.
  induction l as [|x t (I1 & I2 & I3)]; cbn.
  - repeat split; auto; [apply incl_refl|easy].
  - destruct (String.eqb_spec (ev_id x) (ev_id e)) as [E|E]; cbn.
    + rewrite E. split; [|split; [auto|apply incl_refl]]. intros y [Hy|Hy]; cbn; auto.
    + split; [|split; [auto|]].
      * intros y [Hy|Hy]; cbn; auto. apply I1 in Hy. destruct Hy; auto.
      * intros y [Hy|Hy]; cbn; auto.
Qed.
Lemma ev_put_NoDup e l : NoDup (map ev_id l) -> NoDup (map ev_id (ev_put e l)).
Proof.
  induction l as [|x t IH]; cbn; intros H; [constructor; auto|]. inversion H as [|? ? N1 N2]; subst.
  destruct (String.eqb_spec (ev_id x) (ev_id e)) as [E|E]; cbn.
  - rewrite <- E. now constructor.
  - constructor; auto. intros Hx. apply ev_put_ids in Hx. destruct Hx as [Hx|Hx]; [congruence|auto].
Qed.
Lemma ev_put_In e l x : In x (ev_put e l) -> x = e \/ In x l.
Proof.
  induction l as [|y t IH]; cbn; [intros [<-|[]]; auto|]. destruct (String.eqb _ _); cbn.
  - intros [<-|H]; auto.
  - intros [<-|H]; auto. destruct (IH H); auto.
Qed.
Lemma ev_fold evs : forall acc, NoDup (map ev_id acc) ->
  let m := fold_left (fun acc e => ev_put e acc) evs acc in
  NoDup (map ev_id m) /\ (forall x, In x m -> In x evs \/ In x acc) /\
  (forall x, In x evs \/ In x acc -> In (ev_id x) (map ev_id m)).
Proof.
  induction evs as [|e t IH]; intros acc Hn; cbn.
  - split; auto. split; auto. intros x [[]|H]. now apply in_map.
  - destruct (IH (ev_put e acc) (ev_put_NoDup _ _ Hn)) as (A & B & C). split; auto. split.
    + intros x Hx. apply B in Hx. destruct Hx as [Hx|Hx]; auto. apply ev_put_In in Hx. destruct Hx as [->|Hx]; auto.
    + intros x Hx.
      assert (Hkeep : forall i, In i (map ev_id (ev_put e acc)) -> In i (map ev_id (fold_left (fun acc e => ev_put e acc) t (ev_put e acc)))).
      { intros i Hi. apply in_map_iff in Hi. destruct Hi as (y & <- & Hy). apply C. auto. }
      destruct Hx as [[<-|Hx]|Hx]; [apply Hkeep, (proj1 (proj2 (ev_put_ids e acc)))|auto|]. apply Hkeep. apply (proj2 (proj2 (ev_put_ids e acc))). now apply in_map.
Qed.

Section Collect.
  Variable cfg : config.
  Hypothesis Hord : orders_ok cfg.

  Lemma walk_from_spec p s o s' : walk_from cfg p s = (o, s') ->
    s' = with_tick s (S (s_tick s)) /\
    (o = Crash \/ exists l, o = Done l /\ walk (c_ord cfg (s_tick s)) (kids_now s) (c_fuel cfg) p None = Some l /\
                  forall q, In q (map fst l) <-> reach (kids_now s) p q).
  Proof.
    unfold walk_from, bind, get, upd. destruct (walk _ _ _ _ _) as [l|] eqn:E; intros [= <- <-]; split; auto.
    right. exists l. split; auto. split; auto. eapply walk_reach; [apply Hord|exact E].
  Qed.
  Lemma walk_all_spec ps : forall s o s', walk_all cfg ps s = (o, s') ->
    s_heap s' = s_heap s /\ s_cont s' = s_cont s /\ s_trace s' = s_trace s /\
    forall l, o = Done l -> forall q, In q l <-> exists r, In r ps /\ reach (kids_now s) r q.
  Proof.
    induction ps as [|p t IH]; intros s o s' H; cbn in H.
    - injection H as <- <-. repeat split; auto; [now injection H as <-|]. now intros (r & [] & _).
    - destruct (bind_inv _ _ _ _ _ H) as [(l & s1 & H1 & H2)|[[H1 ->]|[H1 ->]]].
      2,3: apply walk_from_spec in H1; destruct H1 as [-> _]; repeat (split; [reflexivity|]); discriminate.
      apply walk_from_spec in H1. destruct H1 as [-> [?|(l' & [= <-] & _ & Hl)]]; [discriminate|].
      destruct (bind_inv _ _ _ _ _ H2) as [(r & s2 & H3 & H4)|[[H3 ->]|[H3 ->]]];
        destruct (IH _ _ _ H3) as (E1 & E2 & E3 & Hr); cbn in E1, E2, E3.
      2,3: repeat (split; [assumption|]); discriminate.
      injection H4 as <- <-. repeat (split; [assumption|]). intros l0 [= <-] q.
      rewrite in_app_iff, Hl, (Hr r eq_refl). change (kids_now (with_tick s (S (s_tick s)))) with (kids_now s). split.
      + intros [Hx|(r0 & Hx & Hy)]; [exists p; cbn; auto|exists r0; cbn; auto].
      + intros (r0 & [<-|Hx] & Hy); [auto|right; eauto].
  Qed.

  Lemma collect_spec s evs s' : collectEvents cfg s = (Done evs, s') ->
    s_heap s' = s_heap s /\ s_cont s' = s_cont s /\
    StronglySorted ev_before evs /\ NoDup (map ev_id evs) /\
    (forall e, In e evs -> attached s e) /\ (forall e, attached s e -> exists e', In e' evs /\ ev_id e' = ev_id e).
  Proof.
    unfold collectEvents. intros H. apply bind_done in H. destruct H as (l & s1 & H1 & H).
    apply walk_from_spec in H1. destruct H1 as [-> [?|(l' & [= <-] & _ & Hl)]]; [discriminate|].
    unfold bind at 1, get at 1 in H. cbn [s_cont with_tick] in H.
    apply bind_done in H. destruct H as (d & s2 & H2 & H). destruct (walk_all_spec _ _ _ _ H2) as (E1 & E2 & _ & Hd).
    specialize (Hd d eq_refl). cbn in E1, E2. unfold bind, get, upd, ret in H.
    set (live := filter (fun p => negb (Nat.eqb p meta)) (map fst l)) in *.
    destruct (ev_fold (events_of (s_heap s2) (live ++ d)) [] ltac:(constructor)) as (F1 & F2 & F3).
    set (m := fold_left (fun acc e => ev_put e acc) (events_of (s_heap s2) (live ++ d)) []) in *.
    injection H as <- <-. cbn [s_heap s_cont with_tick]. split; auto. split; auto.
    assert (Hperm : Permutation (isort ev_leb (c_evord cfg (s_tick s2) m)) m).
    { rewrite isort_perm. apply Hord. }
    assert (Hnd : NoDup (map ev_id (isort ev_leb (c_evord cfg (s_tick s2) m)))).
    { eapply Permutation_NoDup; [|exact F1]. apply Permutation_map. now symmetry. }
    split; [|split; [exact Hnd|]].
    { apply sorted_before; auto. apply isort_sorted; [apply ev_leb_total|apply ev_leb_trans]. }
    assert (Hatt : forall e, In e (events_of (s_heap s2) (live ++ d)) <-> attached s e).
    { intros e. unfold events_of, attached. rewrite in_flat_map, E1.
      assert (Hp : forall p, In p (live ++ d) <-> (reach (kids_now s) meta p /\ p <> meta) \/ (exists r, In r (ct_deleted (s_cont s)) /\ reach (kids_now s) r p)).
      { intros p. rewrite in_app_iff, Hd. unfold live. rewrite filter_In, Hl, negb_true_iff, Nat.eqb_neq. reflexivity. }
      split; intros (p & A & B); exists p; rewrite Hp in *; auto. }
    split; intros e He.
    - apply Hatt. apply (Permutation_in _ Hperm) in He. apply F2 in He. destruct He as [He|[]]. exact He.
    - apply Hatt in He. specialize (F3 e (or_introl He)). apply in_map_iff in F3. destruct F3 as (x & Hx & Hi). exists x. split; auto.
      eapply Permutation_in; [symmetry; exact Hperm|exact Hi].
  Qed.
  Lemma collect_exact s evs s' : collectEvents cfg s = (Done evs, s') -> event_ids_unique s ->
    forall e, In e evs <-> attached s e.
  Proof.
    intros H Hu. destruct (collect_spec _ _ _ H) as (_ & _ & _ & _ & A & B). intros e. split; auto.
    intros He. destruct (B e He) as (x & Hx & Hi). rewrite <- (Hu x e); auto.
  Qed.
End Collect.

Lemma collect_order_independent cfg1 cfg2 s e1 s1 e2 s2 : orders_ok cfg1 -> orders_ok cfg2 -> event_ids_unique s ->
  collectEvents cfg1 s = (Done e1, s1) -> collectEvents cfg2 s = (Done e2, s2) -> e1 = e2.
Proof.
  intros O1 O2 Hu H1 H2. pose proof (collect_exact _ O1 _ _ _ H1 Hu) as X1. pose proof (collect_exact _ O2 _ _ _ H2 Hu) as X2.
  apply collect_spec in H1; auto. apply collect_spec in H2; auto. apply sorted_unique; [apply H1|apply H2|].
  intros e. now rewrite X1, X2.
Qed.

(* ---------------------------------------------------------------- the whole run *)
Lemma attached_ext s s' e : s_heap s' = s_heap s -> s_cont s' = s_cont s -> attached s' e <-> attached s e.
Proof. intros E1 E2. unfold attached, kids_now. now rewrite E1, E2. Qed.
Lemma ids_unique_ext s s' : s_heap s' = s_heap s -> s_cont s' = s_cont s -> event_ids_unique s' -> event_ids_unique s.
Proof. intros E1 E2 H a b Ha Hb. apply H; now rewrite (attached_ext s s'). Qed.

Definition quiet_frame_call (c : call) : bool := quiet_call c || frame_call c || is_tx_call c || is_write c ||
  match c with KBusCommit | KBusRollback => true | _ => false end.
Lemma published_none tr : Forall (fun c => quiet_frame_call (fst c) = true) tr -> published tr = [].
Proof.
  unfold published. induction 1 as [|[c r] t Hc Ht IH]; cbn; auto. rewrite IH, app_nil_r. destruct c; cbn in *; congruence || reflexivity.
Qed.
Lemma published_app a b : published (a ++ b) = published a ++ published b.
Proof. apply flat_map_app. Qed.
Definition evs_of_call (c : call) : list event := match c with KDispatch l | KDispatchBegin l => l | _ => [] end.
Lemma published_map tr : published tr = flat_map evs_of_call (map fst tr).
Proof. unfold published. induction tr as [|[c r] t IH]; cbn; auto. now rewrite IH. Qed.

Lemma tx_end_quiet cfg s1 of tl o : tx_end cfg s1 of tl o -> Forall (fun c => quiet_frame_call (fst c) = true) tl.
Proof.
  intros [|r|res r more o1 Hb Ho Hm Hc|res r more o1 Hb Hr Ho Hm|res r more o1 Hb Hr Ho Hm Hc];
    repeat (constructor; [reflexivity|]); try constructor; (eapply Forall_impl; [|exact Hm]); intros [c r'] H; cbn in *.
  - destruct H as [->|(-> & _)]; reflexivity.
  - subst c. reflexivity.
  - destruct H as [->|(-> & _)]; reflexivity.
Qed.
Lemma frame_quiet (tr : list (call * resp)) : Forall (fun c => frame_call (fst c) = true) tr -> Forall (fun c => quiet_frame_call (fst c) = true) tr.
Proof. intros H. eapply Forall_impl; [|exact H]. intros [[] ?]; cbn; congruence. Qed.
Lemma quiet_quiet (tr : list (call * resp)) : Forall (fun c => quiet_call (fst c) = true) tr -> Forall (fun c => quiet_frame_call (fst c) = true) tr.
Proof. intros H. eapply Forall_impl; [|exact H]. intros [[] ?]; cbn; congruence. Qed.
Lemma write_quiet (tr : list (call * resp)) : Forall (fun c => is_write (fst c) = true) tr -> Forall (fun c => quiet_frame_call (fst c) = true) tr.
Proof. intros H. eapply Forall_impl; [|exact H]. intros [[] ?]; cbn; congruence. Qed.

Section WholeRun.
  Variable cfg : config.

  (** Where the body runs inside the trace of the run. *)
  Lemma save_do keys main h o s' : save cfg keys main (new_stage h) = (o, s') ->
    (Forall (fun c => quiet_frame_call (fst c) = true) (s_trace s') /\ forall r, o = Done r -> bad r = true) \/
    exists a d b of s2, do_ cfg main (with_trace (new_stage h) a) = (of, s2) /\ s_trace s2 = a ++ d /\
      s' = with_trace s2 (a ++ d ++ b) /\
      Forall (fun c => quiet_frame_call (fst c) = true /\ is_write (fst c) = false) a /\ Forall (fun c => quiet_frame_call (fst c) = true) b /\
      Forall (fun c => is_write (fst c) = false) b /\
      ~ commit_ok a /\ (c_tx cfg = true -> exists rb, In (KBegin, rb) a /\ r_ans rb = AOk) /\
      inner cfg (with_trace (new_stage h) a) s2 d /\
      (forall r, o = Done r -> bad r = false -> of = o).
  Proof.
    intros H. destruct (c_tx cfg) eqn:Et.
    - destruct (save_tx_run cfg _ _ _ _ _ Et H) as (tr & Hr & Htr). cbn in Htr.
      destruct Hr as [tr0 o0 Hf Ho|pre rb d tl post of s2 o1 o0 Hpre Hpost Hr Hdo I G He Ho].
      + left. rewrite Htr. split.
        * eapply Forall_impl; [|exact Hf]. intros [c r]. cbn. intros [Hc|[-> _]]; [|reflexivity]. destruct c; cbn in *; congruence.
        * intros r ->. destruct Ho as [|(e & [= ->])]; [discriminate|reflexivity].
      + right. cbn in Hdo, I. exists (pre ++ [(KBegin, rb)]), d, (tl ++ post), of, s2. split; [exact Hdo|].
        split; [exact (i_trace _ _ _ _ I)|].
        split; [cbn; now rewrite <- !app_assoc|]. split.
        { apply Forall_app. split; [|repeat constructor]. eapply Forall_impl; [|exact Hpre]. intros [[] ?]; cbn; split; congruence. }
        split; [apply Forall_app; split; [eapply tx_end_quiet; exact He|now apply frame_quiet]|].
        split. { apply Forall_app. split; [|now apply frame_nowrite]. apply tx_end_nowrite in He. eapply Forall_impl; [|exact He]. cbn. tauto. }
        split. { apply app_no_commit; [now apply no_commit_frame|]. apply commit_ok_calls. repeat constructor. discriminate. }
        split. { intros _. exists rb. split; auto. apply in_app_iff. right. now left. }
        split; [exact I|]. intros r -> Hb. destruct Ho as [Ho|[_ Ho]]; [|discriminate]. subst o1. remember (Done r) as o eqn:Eo.
        destruct He as [|rr|res rr more o1 Hb' Ho' Hm Hc|res rr more o1 Hb' Hr' Ho' Hm|res rr more o1 Hb' Hr' Ho' Hm Hc]; subst; try discriminate.
        * destruct Ho' as [[= <-]|Ho']; [congruence|discriminate].
        * destruct Ho' as [Ho'|(e & [= ->])]; [discriminate|]. discriminate.
        * destruct Ho' as [Ho'|[= <-]]; [discriminate|reflexivity].
    - apply run_parts in H. destruct H as [(fr & -> & Hf & Ho)|(pre & s1 & of & mid & post & Hg & Hm & -> & Hpre & Hpost & Ho)].
      + left. cbn. split; [now apply frame_quiet|]. intros r ->. destruct Ho as [|(e & [= ->])]; [discriminate|reflexivity].
      + right. unfold guarded in Hg. rewrite Et in Hg. destruct (inner_do cfg main _ _ _ Hg) as (d & I & G).
        cbn in Hg, I. pose proof (i_trace _ _ _ _ I) as Hdd. cbn in Hdd, Hm. rewrite Hdd in Hm. apply app_inv_head in Hm. subst mid.
        exists pre, d, post, of, s1. split; [exact Hg|]. split; [exact Hdd|]. split; [reflexivity|].
        split; [eapply Forall_impl; [|exact Hpre]; intros [[] ?]; cbn; split; congruence|].
        split; [now apply frame_quiet|]. split; [now apply frame_nowrite|]. split; [now apply no_commit_frame|]. split; [discriminate|].
        split; [exact I|]. intros r -> _. destruct Ho as [<-|[_ Ho]]; [reflexivity|discriminate].
  Qed.

  Lemma pub_calls_published evs : c_dry cfg = false -> Permutation (flat_map evs_of_call (pub_calls cfg evs)) evs.
  Proof.
    intros Hd. unfold pub_calls. rewrite Hd. destruct evs as [|e0 es]; [reflexivity|]. set (evs := e0 :: es).
    assert (H1 : flat_map evs_of_call [KDispatch evs] = evs) by (cbn; now rewrite app_nil_r).
    destruct (c_tx cfg); [|now rewrite H1]. destruct (c_bus cfg); [now rewrite H1..|].
    rewrite flat_map_app.
    assert (Hx : forall f, flat_map evs_of_call (match filter f evs with [] => [] | l => [KDispatchBegin l] end) = filter f evs).
    { intros f. destruct (filter f evs); cbn; now rewrite ?app_nil_r. }
    assert (Hy : forall f, flat_map evs_of_call (match filter f evs with [] => [] | l => [KDispatch l] end) = filter f evs).
    { intros f. destruct (filter f evs); cbn; now rewrite ?app_nil_r. }
    rewrite Hx, Hy. clear. induction evs as [|e t IH]; cbn; [reflexivity|]. destruct (is_tx e); cbn.
    - now constructor.
    - rewrite <- Permutation_middle. now constructor.
  Qed.
  Lemma pub_calls_sorted evs c l : StronglySorted ev_before evs -> In c (pub_calls cfg evs) -> c = KDispatch l \/ c = KDispatchBegin l -> StronglySorted ev_before l.
  Proof.
    intros Hs Hin Hc. unfold pub_calls in Hin. destruct (c_dry cfg); [destruct Hin|]. destruct evs as [|e0 es]; [destruct Hin|].
    set (evs := e0 :: es) in *.
    assert (H1 : In c [KDispatch evs] -> StronglySorted ev_before l).
    { intros [<-|[]]. destruct Hc as [[= <-]|]; [auto|discriminate]. }
    destruct (c_tx cfg); [|auto]. destruct (c_bus cfg); [auto..|]. apply in_app_iff in Hin. destruct Hin as [Hin|Hin].
    - destruct (filter is_tx evs) eqn:E; [destruct Hin|destruct Hin as [<-|[]]]. destruct Hc as [|[= <-]]; [discriminate|]. rewrite <- E. now apply sorted_filter.
    - destruct (filter (fun e => negb (is_tx e)) evs) eqn:E; [destruct Hin|destruct Hin as [<-|[]]]. destruct Hc as [[= <-]|]; [|discriminate]. rewrite <- E. now apply sorted_filter.
  Qed.

  Lemma before_NoDup l : StronglySorted ev_before l -> NoDup l.
  Proof.
    induction 1 as [|x t Ht IH Hx]; constructor; auto. intros Hi. rewrite Forall_forall in Hx. apply (ev_before_irrefl x). auto.
  Qed.

  (** C24 *)
  Lemma events_published h keys main r s' : orders_ok cfg -> save cfg keys main (new_stage h) = (Done r, s') ->
    c_dry cfg = false -> res_err r = None -> res_break r = false -> event_ids_unique s' ->
    NoDup (published (s_trace s')) /\
    (forall e, In e (published (s_trace s')) <-> attached s' e) /\
    (forall l x, In (KDispatch l, x) (s_trace s') \/ In (KDispatchBegin l, x) (s_trace s') -> StronglySorted ev_before l) /\
    (c_tx cfg = false \/ c_bus cfg <> BusTx -> StronglySorted ev_before (published (s_trace s'))).
  Proof.
    intros Ho H Hd He Hb Hu. assert (Hgood : bad r = false) by (unfold bad; now rewrite He).
    destruct (save_do _ _ _ _ _ H) as [[_ Hx]|(a & d & b & of & s2 & Hdo & Ht & -> & Ha & Hbb & _ & _ & _ & _ & Hof)]; [rewrite (Hx r eq_refl) in Hgood; discriminate|].
    rewrite (Hof r eq_refl Hgood) in Hdo.
    destruct (do_shape cfg _ _ _ _ Hdo) as (dq & dp & dd & T & Cq & Cp & [(_ & _ & Hbad)|(evs & s3 & s4 & Hc & Tc & _ & _ & Eh & Ec & G)]).
    { rewrite (Hbad r eq_refl) in Hgood. discriminate. }
    cbn in T. rewrite Ht in T. apply app_inv_head in T. subst d. destruct (G r eq_refl Hgood) as (Gd & _ & _).
    assert (Hs34 : s_heap s4 = s_heap s3 /\ s_cont s4 = s_cont s3) by (apply collect_spec in Hc; tauto). destruct Hs34 as [E1 E2].
    assert (Hu3 : event_ids_unique s3).
    { eapply ids_unique_ext; [| |exact Hu]; cbn; congruence. }
    pose proof (collect_exact _ Ho _ _ _ Hc Hu3) as Hex. apply collect_spec in Hc; auto. destruct Hc as (_ & _ & Hs & _).
    assert (Hpub : published (s_trace (with_trace s2 (a ++ (dq ++ dp ++ dd) ++ b))) = flat_map evs_of_call (pub_calls cfg evs)).
    { cbn. rewrite !published_app. rewrite (published_none a) by (eapply Forall_impl; [|exact Ha]; cbn; tauto).
      rewrite (published_none dq) by now apply quiet_quiet. rewrite (published_none dp) by now apply write_quiet.
      rewrite (published_none b) by auto. cbn. rewrite app_nil_r, published_map, Gd. reflexivity. }
    rewrite Hpub. pose proof (pub_calls_published evs Hd) as Hperm.
    split; [eapply Permutation_NoDup; [symmetry; exact Hperm|now apply before_NoDup]|]. split.
    { intros e. rewrite (attached_ext s3) by (cbn; congruence). rewrite <- Hex. split; apply Permutation_in; [|symmetry]; exact Hperm. }
    split.
    - intros l x Hin.
      assert (Hq : forall c (y : resp) tr, In (c, y) tr -> Forall (fun z => quiet_frame_call (fst z) = true) tr -> c = KDispatch l \/ c = KDispatchBegin l -> False).
      { intros c y tr Hi Hf Hcc. rewrite Forall_forall in Hf. specialize (Hf _ Hi). destruct Hcc as [->| ->]; discriminate. }
      assert (exists c, (c = KDispatch l \/ c = KDispatchBegin l) /\ In (c, x) (a ++ (dq ++ dp ++ dd) ++ b)) as (c & Hc & Hi) by (destruct Hin; eauto).
      rewrite !in_app_iff in Hi. destruct Hi as [Hi|[[Hi|[Hi|Hi]]|Hi]].
      1: exfalso; eapply (Hq _ _ _ Hi); [eapply Forall_impl; [|exact Ha]; cbn; tauto|auto].
      1: exfalso; eapply (Hq _ _ _ Hi); [now apply quiet_quiet|auto].
      1: exfalso; eapply (Hq _ _ _ Hi); [now apply write_quiet|auto].
      2: exfalso; eapply (Hq _ _ _ Hi); [auto|auto].
      eapply pub_calls_sorted; [exact Hs| |exact Hc]. rewrite <- Gd. apply in_map_iff. exists (c, x). auto.
    - intros Hp. assert (E : flat_map evs_of_call (pub_calls cfg evs) = evs); [|now rewrite E].
      unfold pub_calls. rewrite Hd. destruct evs as [|e0 es]; auto. destruct (c_tx cfg); [|cbn; now rewrite app_nil_r].
      destruct Hp as [?|Hp]; [discriminate|]. destruct (c_bus cfg); [cbn; now rewrite app_nil_r..|congruence].
  Qed.

  (** C27 *)
  Lemma persist_models_spec f evs ms : persist_models f evs = inr ms -> Forall2 (fun e m => f e = inr m) evs ms.
  Proof.
    revert ms. induction evs as [|e t IH]; cbn; intros ms H; [injection H as <-; constructor|].
    destruct (f e) as [x|m] eqn:E; [discriminate|]. destruct (persist_models f t) as [|l]; [discriminate|]. injection H as <-.
    constructor; auto.
  Qed.
  Lemma split_before {A} (a b p q : list A) c : a ++ b = p ++ c :: q -> ~ In c a -> exists u, p = a ++ u /\ b = u ++ c :: q.
  Proof.
    revert p. induction a as [|x t IH]; intros p H Hn; cbn in *; [eauto|].
    destruct p as [|y u]; cbn in H; injection H as <- H; [exfalso; apply Hn; now left|].
    destruct (IH u H) as (v & -> & ->); [tauto|]. exists v. auto.
  Qed.
  Lemma events_persisted h keys main o s' f : save cfg keys main (new_stage h) = (o, s') -> c_persist cfg = Some f ->
    forall p c x q l, s_trace s' = p ++ (c, x) :: q -> c = KDispatch l \/ c = KDispatchBegin l ->
    exists evs ms rx, incl l evs /\ Forall2 (fun e m => f e = inr m) evs ms /\
      In (KExec (mkAction OpInsert ms []), rx) p /\ r_ans rx = AOk /\
      ~ commit_ok p /\ (c_tx cfg = true -> exists rb, In (KBegin, rb) p /\ r_ans rb = AOk).
  Proof.
    intros H Hf p c x q l Htr Hc.
    assert (Hq : forall tr, In (c, x) tr -> Forall (fun z => quiet_frame_call (fst z) = true) tr -> False).
    { intros tr Hi Hx. rewrite Forall_forall in Hx. specialize (Hx _ Hi). destruct Hc as [->| ->]; discriminate. }
    destruct (save_do _ _ _ _ _ H) as [[Hx _]|(a & d & b & of & s2 & Hdo & Ht & -> & Ha & Hbb & Hbw & Hnc & Htx & I & Hof)].
    { exfalso. apply (Hq (s_trace s')); auto. rewrite Htr. apply in_app_iff. right. now left. }
    destruct (do_shape cfg _ _ _ _ Hdo) as (dq & dp & dd & T & Cq & Cp & Hcase). cbn in T. rewrite Ht in T. apply app_inv_head in T. subst d.
    cbn in Htr.
    assert (Ha' : Forall (fun z => quiet_frame_call (fst z) = true) a) by (eapply Forall_impl; [|exact Ha]; cbn; tauto).
    apply split_before in Htr; [|intros Hi; eapply Hq; eauto]. destruct Htr as (u1 & -> & Htr). rewrite <- !app_assoc in Htr.
    apply split_before in Htr; [|intros Hi; apply (Hq _ Hi); now apply quiet_quiet]. destruct Htr as (u2 & -> & Htr).
    apply split_before in Htr; [|intros Hi; apply (Hq _ Hi); now apply write_quiet]. destruct Htr as (u3 & -> & Htr).
    assert (Hdd : In (c, x) dd).
    { assert (Hi : In (c, x) (dd ++ b)) by (rewrite Htr; apply in_app_iff; right; now left). apply in_app_iff in Hi.
      destruct Hi as [Hi|Hi]; [auto|exfalso; eapply Hq; eauto]. }
    destruct Hcase as [(_ & -> & _)|(evs & s3 & s4 & Hco & _ & (n & Hn) & Hp & _)]; [destruct Hdd|].
    assert (Hne : dd <> []) by (intros ->; destruct Hdd). specialize (Hp Hne). unfold persisted_first in Hp. rewrite Hf in Hp.
    destruct Hp as (ms & Hms & [[Hd _]|(_ & rx & Hrx & ->)]).
    { exfalso. assert (E : pub_calls cfg evs = []) by (unfold pub_calls; now rewrite Hd). rewrite E, firstn_nil in Hn. destruct dd; [destruct Hdd|discriminate]. }
    exists evs, ms, rx. split; [|split; [now apply persist_models_spec|]].
    - assert (Hi : In c (pub_calls cfg evs)).
      { assert (Hi : In c (map fst dd)) by (apply in_map_iff; exists (c, x); auto). rewrite Hn in Hi. rewrite <- (firstn_skipn n). apply in_app_iff. now left. }
      unfold pub_calls in Hi. destruct (c_dry cfg); [destruct Hi|]. destruct evs as [|e0 es]; [destruct Hi|]. set (evs := e0 :: es) in *.
      assert (H1 : In c [KDispatch evs] -> incl l evs).
      { intros [<-|[]]. destruct Hc as [[= <-]|]; [apply incl_refl|discriminate]. }
      destruct (c_tx cfg); [|auto]. destruct (c_bus cfg); [auto..|]. apply in_app_iff in Hi. destruct Hi as [Hi|Hi].
      + destruct (filter is_tx evs) eqn:E; [destruct Hi|destruct Hi as [<-|[]]]. destruct Hc as [|[= <-]]; [discriminate|]. rewrite <- E. apply incl_filter.
      + destruct (filter (fun e => negb (is_tx e)) evs) eqn:E; [destruct Hi|destruct Hi as [<-|[]]]. destruct Hc as [[= <-]|]; [|discriminate]. rewrite <- E. apply incl_filter.
    - split; [rewrite !in_app_iff; right; right; left; now left|]. split; auto. split.
      + intros (r & Hr & Hok). rewrite !in_app_iff in Hr.
        pose proof (inner_notx cfg _ _ _ I) as Hnt. rewrite Forall_forall in Hnt.
        destruct Hr as [Hr|[Hr|[Hr|Hr]]].
        * apply Hnc. exists r. auto.
        * specialize (Hnt (KCommit, r)). cbn in Hnt. rewrite !in_app_iff in Hnt. specialize (Hnt ltac:(auto)). discriminate.
        * destruct Hr as [Hr|[]]. discriminate.
        * assert (Hi : In (KCommit, r) dd).
          { clear - Hr Htr Hdd Hc Hq Hbb. revert dd Htr Hdd. induction u3 as [|y t IH]; intros dd Htr Hdd; [destruct Hr|].
            destruct dd as [|z w]; [destruct Hdd|]. cbn in Htr. injection Htr as <- Htr. destruct Hr as [->|Hr]; [now left|]. right.
            destruct Hdd as [->|Hdd]; [|auto].
            assert (Hi : In (c, x) (w ++ b)) by (rewrite Htr; apply in_app_iff; right; now left). apply in_app_iff in Hi.
            destruct Hi as [Hi|Hi]; [auto|]. exfalso. eapply Hq; eauto. }
          specialize (Hnt (KCommit, r)). cbn in Hnt. rewrite !in_app_iff in Hnt. specialize (Hnt (or_intror (or_intror Hi))). discriminate.
      + intros Et. destruct (Htx Et) as (rb & Hb & Hok). exists rb. split; auto. apply in_app_iff. now left.
  Qed.

  (** C25 *)
  Lemma ctx_after_one d l r : In (KDispatchBegin l, r) d -> length (filter (fun c => match fst c with KDispatchBegin _ => true | _ => false end) d) <= 1 ->
    r_ans r <> APanic -> ctx_after false d = r_ctx r.
  Proof.
    intros Hin Hlen Hp. apply in_split in Hin. destruct Hin as (d1 & d2 & ->). rewrite filter_app, app_length in Hlen. cbn in Hlen.
    assert (N : forall (tr : list (call * resp)), length (filter (fun c => match fst c with KDispatchBegin _ => true | _ => false end) tr) = 0 -> forall b, ctx_after b tr = b).
    { unfold ctx_after. induction tr as [|[c x] t IH]; intros Hn b; cbn in *; auto. destruct c; cbn in *; auto. discriminate. }
    rewrite ctx_after_app, (N d1) by lia. unfold ctx_after. cbn. fold (ctx_after (match r_ans r with APanic => false | _ => r_ctx r end) d2).
    rewrite (N d2) by lia. destruct (r_ans r); congruence.
  Qed.
  Lemma pub_begins evs : length (filter (fun c => match c with KDispatchBegin _ => true | _ => false end) (pub_calls cfg evs)) <= 1.
  Proof.
    unfold pub_calls. destruct (c_dry cfg); [cbn; lia|]. destruct evs as [|e0 es]; [cbn; lia|]. destruct (c_tx cfg); [|cbn; lia].
    destruct (c_bus cfg); [cbn; lia..|]. destruct (filter is_tx (e0 :: es)), (filter (fun e => negb (is_tx e)) (e0 :: es)); cbn; lia.
  Qed.
  Lemma filter_fst (g : call -> bool) (tr : list (call * resp)) : length (filter (fun c => g (fst c)) tr) = length (filter g (map fst tr)).
  Proof. induction tr as [|[c x] t IH]; cbn; auto. destruct (g c); cbn; lia. Qed.
  Lemma filter_firstn_le {A} (g : A -> bool) n (l : list A) : length (filter g (firstn n l)) <= length (filter g l).
  Proof. revert n. induction l as [|x t IH]; intros [|n]; cbn; try lia. specialize (IH n). destruct (g x); cbn; lia. Qed.
  Lemma do_one_begin main s o s' d : do_ cfg main s = (o, s') -> s_trace s' = s_trace s ++ d ->
    length (filter (fun c => match fst c with KDispatchBegin _ => true | _ => false end) d) <= 1.
  Proof.
    intros Hdo Ht. destruct (do_shape cfg _ _ _ _ Hdo) as (dq & dp & dd & T & Cq & Cp & Hcase). rewrite Ht in T. apply app_inv_head in T. subst d.
    rewrite !filter_app, !app_length.
    assert (N : forall (tr : list (call * resp)), Forall (fun c => quiet_frame_call (fst c) = true) tr -> length (filter (fun c => match fst c with KDispatchBegin _ => true | _ => false end) tr) = 0).
    { induction 1 as [|[c x] t Hc Ht' IH]; cbn; auto. destruct c; cbn in *; congruence || auto. }
    rewrite (N dq) by now apply quiet_quiet. rewrite (N dp) by now apply write_quiet. cbn.
    destruct Hcase as [(_ & -> & _)|(evs & s3 & s4 & Hco & _ & (n & Hn) & _)]; [cbn; lia|].
    rewrite (filter_fst (fun c => match c with KDispatchBegin _ => true | _ => false end)), Hn.
    pose proof (pub_begins evs). pose proof (filter_firstn_le (fun c => match c with KDispatchBegin _ => true | _ => false end) n (pub_calls cfg evs)). lia.
  Qed.

  Lemma bus_protocol h keys main o s' : c_tx cfg = true -> save cfg keys main (new_stage h) = (o, s') ->
    (forall p x q, s_trace s' = p ++ (KBusCommit, x) :: q -> commit_ok p) /\
    (forall p x q, s_trace s' = p ++ (KBusRollback, x) :: q -> (exists r, In (KRollback, r) p) /\ ~ commit_ok (s_trace s')) /\
    (forall p x q, s_trace s' = p ++ (KCommit, x) :: q -> Forall (fun c => match fst c with KDispatch _ | KDispatchBegin _ => False | _ => True end) q) /\
    (tx_registered (s_trace s') -> forall r, o = Done r ->
       (commit_ok (s_trace s') -> exists x, In (KBusCommit, x) (s_trace s')) /\
       (res_err r <> None \/ res_break r = true -> (exists x, In (KCommit, x) (s_trace s') /\ r_ans x <> AOk) \/ exists x, In (KBusRollback, x) (s_trace s'))).
  Proof.
    intros Et H. destruct (save_tx_run cfg _ _ _ _ _ Et H) as (tr & Hr & Htr). cbn in Htr. rewrite Htr. clear H.
    destruct Hr as [tr0 o0 Hf Ho|pre rb d tl post of s2 o1 o0 Hpre Hpost Hr Hdo I G He Ho].
    { rewrite Forall_forall in Hf.
      assert (Hno : forall c x, In (c, x) tr0 -> frame_call c = true \/ c = KBegin) by (intros c x Hi; specialize (Hf _ Hi); cbn in Hf; tauto).
      assert (Hno' : forall p c x q, tr0 = p ++ (c, x) :: q -> frame_call c = true \/ c = KBegin).
      { intros p c x q E. apply (Hno c x). rewrite E. apply in_app_iff. right. now left. }
      split; [intros p x q E; destruct (Hno' _ _ _ _ E); discriminate|].
      split; [intros p x q E; destruct (Hno' _ _ _ _ E); discriminate|].
      split; [intros p x q E; destruct (Hno' _ _ _ _ E); discriminate|].
      intros (l & x & Hi & _). destruct (Hno _ _ Hi); discriminate. }
    pose proof (i_calls _ _ _ _ I) as Hd. rewrite Forall_forall in Hd, Hpre, Hpost.
    assert (Hinl : forall c x, In (c, x) (pre ++ [(KBegin, rb)] ++ d) -> c = KBegin \/ frame_call c = true \/ inner_call c = true).
    { intros c x. rewrite !in_app_iff. intros [Hi|[[[= <- <-]|[]]|Hi]]; auto; [specialize (Hpre _ Hi)|specialize (Hd _ Hi)]; auto. }
    assert (E0 : pre ++ [(KBegin, rb)] ++ d ++ tl ++ post = (pre ++ [(KBegin, rb)] ++ d) ++ tl ++ post) by now rewrite <- !app_assoc.
    assert (Hsplit : forall c x p q, (c = KCommit \/ c = KBusCommit \/ c = KBusRollback) -> pre ++ [(KBegin, rb)] ++ d ++ tl ++ post = p ++ (c, x) :: q ->
       exists u v, p = (pre ++ [(KBegin, rb)] ++ d) ++ u /\ tl = u ++ (c, x) :: v /\ q = v ++ post).
    { intros c x p q Hc E. rewrite E0 in E. apply split_before in E.
      2:{ intros Hi. apply Hinl in Hi. destruct Hc as [->|[->| ->]]; destruct Hi as [|[|]]; discriminate. }
      destruct E as (u & -> & E). exists u.
      assert (exists v, tl = u ++ (c, x) :: v) as (v & Hv).
      { clear - E Hc Hpost. revert tl E. induction u as [|y t IH]; intros tl E; cbn in *.
        - destruct tl as [|z w]; cbn in E; [|injection E as -> _; eauto].
          exfalso. assert (Hi : In (c, x) post) by (rewrite E; now left). specialize (Hpost _ Hi). destruct Hc as [->|[->| ->]]; discriminate.
        - destruct tl as [|z w]; cbn in E.
          + exfalso. assert (Hi : In (c, x) post) by (rewrite E; right; apply in_app_iff; right; now left). specialize (Hpost _ Hi). destruct Hc as [->|[->| ->]]; discriminate.
          + injection E as -> E. destruct (IH w E) as (v & ->). eauto. }
      exists v. split; auto. split; auto. subst tl. rewrite <- app_assoc in E. apply app_inv_head in E. cbn in E. now injection E as ->. }
    assert (Hctx : s_evctx s2 = ctx_after false d) by (rewrite (i_evctx _ _ _ _ I); reflexivity).
    assert (Hnc : ~ commit_ok (pre ++ [(KBegin, rb)] ++ d)).
    { intros (x & Hi & _). apply Hinl in Hi. destruct Hi as [|[|]]; discriminate. }
    split.
    { intros p x q E. destruct (Hsplit KBusCommit x p q ltac:(auto) E) as (u & v & -> & Htl' & ->). apply commit_ok_app. right.
      destruct He as [|rr|res rr more o1 Hb' Ho' Hm Hc|res rr more o1 Hb' Hr' Ho' Hm|res rr more o1 Hb' Hr' Ho' Hm Hc].
      - now destruct u.
      - destruct u as [|? [|]]; discriminate.
      - exfalso. destruct u as [|z u]; [discriminate|]. injection Htl' as _ ->. rewrite Forall_forall in Hm.
        specialize (Hm (KBusCommit, x) ltac:(apply in_app_iff; right; now left)). cbn in Hm. destruct Hm as [|[? _]]; discriminate.
      - exfalso. destruct u as [|z u]; [discriminate|]. injection Htl' as _ ->. rewrite Forall_forall in Hm.
        specialize (Hm (KBusCommit, x) ltac:(apply in_app_iff; right; now left)). cbn in Hm. discriminate.
      - destruct u as [|z u]; [discriminate|]. injection Htl' as <- _. exists rr. split; [now left|auto]. }
    split.
    { intros p x q E. destruct (Hsplit KBusRollback x p q ltac:(auto) E) as (u & v & -> & Htl' & ->).
      destruct He as [|rr|res rr more o1 Hb' Ho' Hm Hc|res rr more o1 Hb' Hr' Ho' Hm|res rr more o1 Hb' Hr' Ho' Hm Hc].
      - now destruct u.
      - destruct u as [|? [|]]; discriminate.
      - destruct u as [|z u]; [discriminate|]. injection Htl' as <- Hmo. split.
        + exists rr. apply in_app_iff. right. now left.
        + rewrite E0. apply app_no_commit; auto. apply app_no_commit; [|now apply no_commit_frame; rewrite Forall_forall].
          intros (y & [Hi|Hi] & _); [discriminate|]. rewrite Forall_forall in Hm. specialize (Hm _ Hi). cbn in Hm. destruct Hm as [|[? _]]; discriminate.
      - exfalso. destruct u as [|z u]; [discriminate|]. injection Htl' as _ ->. rewrite Forall_forall in Hm.
        specialize (Hm (KBusRollback, x) ltac:(apply in_app_iff; right; now left)). cbn in Hm. discriminate.
      - exfalso. destruct u as [|z u]; [discriminate|]. injection Htl' as _ ->. rewrite Forall_forall in Hm.
        specialize (Hm (KBusRollback, x) ltac:(apply in_app_iff; right; now left)). cbn in Hm. destruct Hm as [|[? _]]; discriminate. }
    split.
    { intros p x q E. destruct (Hsplit KCommit x p q ltac:(auto) E) as (u & v & -> & Htl' & ->). rewrite Forall_forall. intros [c y] Hi. cbn.
      apply in_app_iff in Hi. destruct Hi as [Hi|Hi]; [|specialize (Hpost _ Hi); destruct c; cbn in *; auto; discriminate].
      pose proof (tx_end_quiet _ _ _ _ _ He) as Hq. rewrite Forall_forall in Hq.
      specialize (Hq (c, y)). rewrite Htl' in Hq. specialize (Hq ltac:(apply in_app_iff; right; now right)). destruct c; cbn in *; auto; discriminate. }
    intros (l & x & Hi & Hnp & Hcx) r ->.
    destruct Ho as [Ho|[_ Ho]]; [|discriminate]. subst o1.
    assert (Hid : In (KDispatchBegin l, x) d).
    { rewrite E0, !in_app_iff in Hi. destruct Hi as [[Hi|[[Hi|[]]|Hi]]|[Hi|Hi]]; auto.
      - specialize (Hpre _ Hi). discriminate.
      - discriminate.
      - pose proof (tx_end_quiet _ _ _ _ _ He) as Hq. rewrite Forall_forall in Hq. specialize (Hq _ Hi). discriminate.
      - specialize (Hpost _ Hi). discriminate. }
    assert (Hev : s_evctx s2 = true).
    { rewrite Hctx, (ctx_after_one d l x); auto. eapply do_one_begin; [exact Hdo|exact (i_trace _ _ _ _ I)]. }
    assert (Hbus : c_bus cfg = BusTx).
    { destruct (do_shape cfg _ _ _ _ Hdo) as (dq & dp & dd & T & Cq & Cp & Hcase). rewrite (i_trace _ _ _ _ I) in T. apply app_inv_head in T. subst d.
      rewrite !in_app_iff in Hid. destruct Hid as [Hid|[Hid|Hid]].
      - rewrite Forall_forall in Cq. specialize (Cq _ Hid). discriminate.
      - rewrite Forall_forall in Cp. specialize (Cp _ Hid). discriminate.
      - destruct Hcase as [(_ & -> & _)|(evs & s3 & s4 & Hco & _ & (n & Hn) & _)]; [destruct Hid|].
        assert (Hp : In (KDispatchBegin l) (pub_calls cfg evs)).
        { assert (Hx : In (KDispatchBegin l) (map fst dd)) by (apply in_map_iff; exists (KDispatchBegin l, x); auto).
          rewrite Hn in Hx. rewrite <- (firstn_skipn n). apply in_app_iff. now left. }
        unfold pub_calls in Hp. destruct (c_dry cfg); [destruct Hp|]. destruct evs; [destruct Hp|]. destruct (c_tx cfg); [|destruct Hp as [|[]]; discriminate].
        destruct (c_bus cfg); [destruct Hp as [|[]]; discriminate..|reflexivity]. }
    assert (Hin : forall c y, In (c, y) tl -> In (c, y) (pre ++ [(KBegin, rb)] ++ d ++ tl ++ post)).
    { intros c y Hy. rewrite !in_app_iff. auto. }
    remember (Done r) as oo eqn:Eo.
    destruct He as [|rr|res rr more o1 Hb' Ho' Hm Hc|res rr more o1 Hb' Hr' Ho' Hm|res rr more o1 Hb' Hr' Ho' Hm Hc]; subst; try discriminate.
    - split.
      + intros (y & Hy & _). exfalso. rewrite E0, in_app_iff in Hy. destruct Hy as [Hy|Hy]; [apply Hinl in Hy; destruct Hy as [|[|]]; discriminate|].
        rewrite in_app_iff in Hy. destruct Hy as [[Hy|Hy]|Hy]; [discriminate| |specialize (Hpost _ Hy); discriminate].
        rewrite Forall_forall in Hm. specialize (Hm _ Hy). cbn in Hm. destruct Hm as [|[? _]]; discriminate.
      + intros _. right. destruct Hc as (y & Hy); [discriminate|auto|auto|]. exists y. apply Hin. now right.
    - split.
      + intros (y & Hy & Hok). exfalso. rewrite E0, in_app_iff in Hy. destruct Hy as [Hy|Hy]; [apply Hinl in Hy; destruct Hy as [|[|]]; discriminate|].
        rewrite in_app_iff in Hy. destruct Hy as [[Hy|Hy]|Hy]; [injection Hy as <-; congruence| |specialize (Hpost _ Hy); discriminate].
        rewrite Forall_forall in Hm. specialize (Hm _ Hy). discriminate.
      + intros _. left. exists rr. split; auto. apply Hin. now left.
    - split.
      + intros _. destruct Hc as (y & Hy); [discriminate|auto|auto|]. exists y. apply Hin. now right.
      + intros Hx. exfalso. destruct Ho' as [|[= <-]]; [discriminate|]. unfold bad in Hb'. destruct (res_err r); [discriminate|]. destruct Hx; congruence.
  Qed.
End WholeRun.

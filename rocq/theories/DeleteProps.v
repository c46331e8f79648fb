(** C14 and C15 for a whole save: the option as given by the user decides which delete statements reach the executor. *)
From Verif Require Import SaveProps EngineProof11 EngineProps.
From Verif Require Import EngineModel.

Lemma contrib_of_reported cfg h pl chs c : In c (contributions cfg h pl chs) <->
  exists t par k p m, reported chs t par k p /\ c_conv cfg h p (Some par) (change_op t) = CModel m /\
    c = mkContrib (change_op t) m (match pl p with Some sn => s_po sn | None => None end).
Proof.
  unfold contributions. rewrite in_flat_map. split.
  - intros (ch & H1 & H2). apply in_flat_map in H2. destruct H2 as (p & H2 & H3). destruct (c_conv cfg h p _ _) eqn:E; try destruct H3 as [].
    + subst c. exists (ch_type ch), (ch_parent ch), (ch_key ch), p, m. split; [exists ch; auto|]. split; auto.
    + contradiction.
  - intros (t & par & k & p & m & (ch & R1 & R2 & R3 & R4 & R5) & E & ->). exists ch. split; auto. apply in_flat_map. exists p. split; auto. subst. rewrite E. now left.
Qed.

Lemma was_child_dec pl p k c : was_child pl p k c \/ ~ was_child pl p k c.
Proof.
  unfold was_child. destruct (pl p) as [sn|] eqn:E.
  - destruct (in_dec Nat.eq_dec c (flat_map (fun kv => if String.eqb (fst kv) k then snd kv else []) (s_kids sn))) as [H|H].
    + left. apply in_flat_map in H. destruct H as ([k' l] & H1 & H2). cbn in H2. destruct (String.eqb k' k) eqn:Ek; [|destruct H2]. apply String.eqb_eq in Ek. subst k'. eauto.
    + right. intros (sn' & l & [= <-] & H1 & H2). apply H. apply in_flat_map. exists (k, l). split; auto. cbn. now rewrite String.eqb_refl.
  - right. intros (sn' & l & X & _). discriminate.
Qed.

(** Without recursive delete, a row is only deleted for an entity that was below its (still reachable) parent when the
    aggregate was last loaded or saved, and no longer is. *)
Theorem C15_save_deletes_only_removed :
  forall cfg s o s', keeps_types cfg -> go_maps (s_heap s) (s_pool s) -> orders_ok cfg -> c_recursive cfg = false ->
  persist cfg s = (o, s') ->
  exists (d : list (call * resp)) (h : heap), s_trace s' = s_trace s ++ d /\
    forall a m, In a (execs d) -> a_op a = OpDelete -> In m (a_models a) ->
      exists par k p, reach (kids_now s) meta par /\ was_child (s_pool s) par k p /\ ~ now_child (kids_now s) par k p /\
                      (forall par' k', reach (kids_now s) meta par' -> now_child (kids_now s) par' k' p -> was_child (s_pool s) par' k' p) /\
                      c_conv cfg h p (Some par) OpDelete = CModel m.
Proof.
  intros cfg s o s' Ht Hm Ho Hr H. destruct (C16_actions_homogeneous_complete_ordered cfg s o s' Ht Hm Ho H) as (d & T & X).
  destruct (execs d) as [|a0 l] eqn:Ee.
  { exists d, (s_heap s). split; auto. rewrite Ee. intros a m []. }
  destruct X as (chs & h & acts & M & _ & Af & (rest & Ea) & _). { left. discriminate. }
  exists d, h. split; auto. rewrite Ee. intros a m Ha Hop Hin.
  assert (Hacts : In a acts) by (rewrite Ea; apply in_or_app; now left).
  destruct (af_exact _ _ Af a Hacts) as (_ & Hmod & _). rewrite Hmod in Hin. apply in_map_iff in Hin. destruct Hin as (c & <- & Hc).
  apply filter_In in Hc. destruct Hc as [Hc Hk]. apply contrib_of_reported in Hc. destruct Hc as (t & par & k & p & m & Rp & Cv & ->). cbn in *.
  unfold same_kind in Hk. cbn in Hk. apply andb_prop in Hk. destruct Hk as [Hk _]. rewrite Hop in Hk.
  assert (Etd : t = CDelete \/ t = CClear) by (destruct t; cbn in Hk; try discriminate; auto).
  apply M in Rp. destruct Rp as [Rp|(Y & _)]; [|congruence].
  unfold expected_final in Rp. destruct Etd as [->| ->]; cbn in Rp.
  - destruct Rp as [(A & _ & B & C) N]. exists par, k, p. do 3 (split; auto). split; auto.
    intros par' k' R1 R2. destruct (was_child_dec (s_pool s) par' k' p) as [|W]; auto. exfalso. apply (N par' k'). split; auto.
  - destruct Rp.
Qed.
Print Assumptions C15_save_deletes_only_removed.

(** With recursive delete, a successful save deletes the row of every removed entity and of everything still below it. *)
Theorem C14_save_deletes_subtree_partial :
  forall cfg s s', keeps_types cfg -> go_maps (s_heap s) (s_pool s) -> orders_ok cfg -> c_recursive cfg = true -> c_dry cfg = false ->
  persist cfg s = (Done None, s') ->
  exists (d : list (call * resp)) (h : heap), s_trace s' = s_trace s ++ d /\
    forall par k e, reach (kids_now s) meta par -> has_key (kids_now s) par k -> was_child (s_pool s) par k e -> ~ now_child (kids_now s) par k e ->
      (forall par' k', reach (kids_now s) meta par' -> now_child (kids_now s) par' k' e -> was_child (s_pool s) par' k' e) ->
      (forall m, c_conv cfg h e (Some par) OpDelete = CModel m -> exists a, In a (execs d) /\ a_op a = OpDelete /\ In m (a_models a)) /\
      (forall q k' p m, reach (kids_now s) e q -> now_child (kids_now s) q k' p -> c_conv cfg h p (Some q) OpDelete = CModel m ->
         exists a, In a (execs d) /\ a_op a = OpDelete /\ In m (a_models a)).
Proof.
  intros cfg s s' Ht Hm Ho Hr Hd H. destruct (C16_actions_homogeneous_complete_ordered cfg s _ s' Ht Hm Ho H) as (d & T & X).
  destruct X as (chs & h & acts & M & _ & Af & _ & Ea). { now right. }
  specialize (Ea eq_refl Hd). exists d, h. split; auto. intros par k e R K W N Nm.
  assert (Key : forall q k' p m, must_save cfg s CDelete q k' p -> c_conv cfg h p (Some q) OpDelete = CModel m -> exists a, In a (execs d) /\ a_op a = OpDelete /\ In m (a_models a)).
  { intros q k' p m Ms Cv. apply M in Ms.
    assert (Hc : In (mkContrib OpDelete m (match s_pool s p with Some sn => s_po sn | None => None end)) (contributions cfg h (s_pool s) chs)).
    { apply contrib_of_reported. exists CDelete, q, k', p, m. auto. }
    destruct (af_all _ _ Af _ Hc) as (a & A1 & A2 & A3). cbn in A2, A3. exists a. rewrite Ea. split; auto. split; auto.
    destruct (af_exact _ _ Af a A1) as (_ & Em & _). rewrite Em. apply in_map_iff. eexists. split; [|apply filter_In; split; [exact Hc|]]; [reflexivity|].
    unfold same_kind. cbn. rewrite A2, A3. cbn. apply Nat.eqb_refl. }
  assert (Ex : expected_final (kids_now s) (fun q => e_dirty (s_heap s q)) (s_pool s) meta CDelete par k e).
  { split; [split; auto|]. intros p' k' (R' & N1 & N2). apply N2. auto. }
  split.
  - intros m Cv. apply (Key par k e m); auto. now left.
  - intros q k' p m Rq Nq Cv. apply (Key q k' p m); auto. right. repeat split; auto. exists e, par, k. split; auto.
Qed.
Print Assumptions C14_save_deletes_subtree_partial.

(* the removed entity 2 has a child 4: deleted with recursive delete, kept without *)
Definition dl_heap : heap := fun p => match p with
  | 1 => mkEnt "r"%string true 1 None [mkField "L"%string true false (FSlice [])] [] ["v2"%string]
  | 2 => mkEnt "c"%string false 2 None [mkField "L"%string true false (FSlice [4])] [] ["w"%string]
  | 4 => mkEnt "g"%string false 3 None [] [] ["x"%string]
  | _ => ex_ent ""%string 0 [] [] [] end.
Definition dl_pool : pool := fun p => match p with
  | 0 => Some (mkSnap None [(meta_key, [1])])
  | 1 => Some (mkSnap (Some (mkModel 1 "r"%string ["v"%string])) [("L"%string, [2])])
  | 2 => Some (mkSnap (Some (mkModel 2 "c"%string ["w"%string])) [("L"%string, [4])])
  | 4 => Some (mkSnap (Some (mkModel 3 "g"%string ["x"%string])) [])
  | _ => None end.
Definition dl_state : st := mkSt dl_heap (mkCont [1] []) dl_pool [] None false [] 0 [].
Definition dl_cfg (r : bool) : config :=
  mkConfig true r false BusPlain None 0 ex_conv (fun _ _ _ => true) (fun _ => ord_id) (fun _ l => l) 20 all_ok.
Example C14_C15_save_example :
  keeps_types (dl_cfg true) /\ go_maps dl_heap dl_pool /\ orders_ok (dl_cfg true) /\
  (forall r, execs (s_trace (snd (persist (dl_cfg r) dl_state))) =
    [mkAction OpUpdate [mkModel 1 "r"%string ["v2"%string]] [Some (mkModel 1 "r"%string ["v"%string])];
     mkAction OpDelete [mkModel 2 "c"%string ["w"%string]] []] ++ if r then [mkAction OpDelete [mkModel 3 "g"%string ["x"%string]] []] else []) /\
  fst (persist (dl_cfg true) dl_state) = Done None /\
  was_child dl_pool 1 "L"%string 2 /\ ~ now_child (kids_now dl_state) 1 "L"%string 2 /\ now_child (kids_now dl_state) 2 "L"%string 4.
Proof.
  split; [intros n h p; reflexivity|]. split.
  { split.
    - intros p m. do 5 (destruct p as [|p]; [discriminate|]). discriminate.
    - intros p s. do 5 (destruct p as [|p]; [intros [= <-]; cbn; repeat constructor; cbn; tauto || (intros [= <-]; cbn; repeat constructor; cbn; tauto) || discriminate|]). discriminate. }
  split; [split; [intros n p m; reflexivity|intros n l; reflexivity]|].
  split; [intros []; vm_compute; reflexivity|]. split; [vm_compute; reflexivity|]. split; [eexists _, [2]; split; [reflexivity|split; now left]|].
  split; [|exists [4]; split; now left]. intros (l & [[= <-]|[]] & []).
Qed.

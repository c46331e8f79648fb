(** Property theorems about change detection, moves, deletes, traversal, child discovery and the
    root container.  Vocabulary: GraphSpec.v, MoveSpec.v (plus go_maps: Go maps have unique keys). *)
From Verif Require Import MoveSpec GraphProof MoveProof GraphProof2 GraphProof3 GraphProof4 GraphProof5.

(** C10.  Change detection is exact, and no entity occurs in two changes. *)
Theorem C10_change_detection_exact :
  forall h roots pl ord fuel out, go_maps h pl ->
  getEntityChanged false ord (findChildren h roots) (dirty_of h) pl fuel = ROk out ->
  (forall t p k c, reported out t p k c <-> expected_final (findChildren h roots) (dirty_of h) pl meta t p k c) /\
  NoDup (flat_map ch_kids out).
Proof. exact (fun h roots pl ord fuel out Hm => changed_exact h roots pl ord Hm fuel out). Qed.
Print Assumptions C10_change_detection_exact.
Example C10_example :
  go_maps mv2_heap mv_pool /\
  exists out, getEntityChanged false ord_id (findChildren mv2_heap [1; 2]) (dirty_of mv2_heap) mv_pool 9 = ROk out /\
              single_changes out = [(CDirty, 2, "L"%string, 4); (CDirty, 2, "L"%string, 5)].
Proof. split; [go_maps_tac|]. eexists. split; vm_compute; reflexivity. Qed.

(** C10, before move handling: the raw difference. *)
Theorem C10_raw_difference_exact :
  forall h roots pl fuel chs, go_maps h pl ->
  entityDiff (findChildren h roots) (dirty_of h) pl fuel meta = Some chs ->
  forall t p k c, reported chs t p k c <-> expected_change (findChildren h roots) (dirty_of h) pl meta t p k c.
Proof. exact (fun h roots pl fuel chs Hm => entityDiff_spec _ _ _ (go_maps_ok h roots pl Hm) fuel meta chs). Qed.
Print Assumptions C10_raw_difference_exact.

Theorem C10_terminates_on_acyclic :
  forall h roots pl ord, go_maps h pl -> acyclic_from (findChildren h roots) meta ->
  exists fuel, getEntityChanged false ord (findChildren h roots) (dirty_of h) pl fuel <> RFuel.
Proof. exact (fun h roots pl ord Hm => changed_terminates h roots pl ord Hm). Qed.
Print Assumptions C10_terminates_on_acyclic.

(** C12 in full is false: moving three children to another parent is refused. *)
Theorem C12_move_is_update_refuted :
  exists h roots pl,
    go_maps h pl /\ one_place (findChildren h roots) meta /\ one_place_before pl /\
    (forall c, In c [3; 4; 5] -> was_child pl 1 "L"%string c /\ now_child (findChildren h roots) 2 "L"%string c) /\
    (forall fuel ord, 9 <= fuel -> getEntityChanged false ord (findChildren h roots) (dirty_of h) pl fuel = RErr).
Proof.
  exists mv_heap, [1; 2], mv_pool. split; [go_maps_tac|]. split.
  { eapply (one_place_dec _ _ 9); vm_compute; reflexivity. }
  split. { apply (one_place_before_dec _ 6); [intros p Hp; apply pool_of_bound; exact Hp|vm_compute; reflexivity]. }
  split.
  - intros c Hc. split.
    + eexists _, [3; 4; 5]. split; [reflexivity|]. split; [now left|exact Hc].
    + exists [3; 4; 5]. split; [now left|exact Hc].
  - intros fuel ord Hf. replace fuel with (9 + (fuel - 9)) by lia. reflexivity.
Qed.
Print Assumptions C12_move_is_update_refuted.

(** C12, the exact truth for trees: the save is accepted iff among the children removed from one list only the last two
    (in loaded order) were attached elsewhere ... *)
Theorem C12_moves_accepted_iff_partial :
  forall h roots pl ord fuel, go_maps h pl ->
  one_place (findChildren h roots) meta -> one_place_before pl ->
  getEntityChanged false ord (findChildren h roots) (dirty_of h) pl fuel <> RFuel ->
  ((exists out, getEntityChanged false ord (findChildren h roots) (dirty_of h) pl fuel = ROk out) <->
   moved_only_at_tail (findChildren h roots) (dirty_of h) pl meta).
Proof. exact (fun h roots pl ord fuel Hm => tree_ok_iff h roots pl ord Hm fuel). Qed.
Print Assumptions C12_moves_accepted_iff_partial.
(** ... and if it is accepted a moved child is one update below its new parent and nothing else. *)
Theorem C12_moved_child_is_one_update_partial :
  forall h roots pl ord fuel out, go_maps h pl ->
  getEntityChanged false ord (findChildren h roots) (dirty_of h) pl fuel = ROk out ->
  forall c p k p' k',
    expected_change (findChildren h roots) (dirty_of h) pl meta CNew p k c ->
    expected_change (findChildren h roots) (dirty_of h) pl meta CDelete p' k' c ->
    reported out CDirty p k c /\
    (forall q j, ~ reported out CNew q j c /\ ~ reported out CDelete q j c) /\
    count_occ Nat.eq_dec (flat_map ch_kids out) c = 1.
Proof.
  intros h roots pl ord fuel out Hm H c p k p' k' H1 H2.
  destruct (changed_exact h roots pl ord Hm fuel out H) as [Hr Hnd].
  assert (Hd : reported out CDirty p k c) by (apply Hr; right; eauto).
  split; [exact Hd|]. split.
  - intros q j. split; intros Hx; apply Hr in Hx; destruct Hx as [_ Hx]; eapply Hx; eauto.
  - apply (NoDup_count_occ' Nat.eq_dec); auto. destruct Hd as (ch & Hc & _ & _ & _ & Hin). apply in_flat_map. eauto.
Qed.
Print Assumptions C12_moved_child_is_one_update_partial.
Example C12_example :
  one_place (findChildren mv2_heap [1; 2]) meta /\ one_place_before mv_pool /\
  expected_change (findChildren mv2_heap [1; 2]) (dirty_of mv2_heap) mv_pool meta CNew 2 "L"%string 5 /\
  expected_change (findChildren mv2_heap [1; 2]) (dirty_of mv2_heap) mv_pool meta CDelete 1 "L"%string 5.
Proof.
  split; [eapply (one_place_dec _ _ 9); vm_compute; reflexivity|].
  split; [apply (one_place_before_dec _ 6); [intros p Hp; apply pool_of_bound; exact Hp|vm_compute; reflexivity]|].
  assert (Hm : go_maps mv2_heap mv_pool) by go_maps_tac.
  assert (Hs := fun chs => entityDiff_spec _ (dirty_of mv2_heap) _ (go_maps_ok mv2_heap [1; 2] mv_pool Hm) 9 meta chs).
  split; (eapply Hs; [vm_compute; reflexivity|]; apply single_changes_In; vm_compute; tauto).
Qed.

(** C12, a second way in which the full statement fails: a child moved out of a parent that is removed in the
    same save is reported as newly created although its row exists. *)
Theorem C12_move_out_of_removed_parent_refuted :
  exists h roots pl out,
    go_maps h pl /\ one_place (findChildren h roots) meta /\ one_place_before pl /\
    was_child pl 1 "L"%string 3 /\ now_child (findChildren h roots) 2 "L"%string 3 /\
    getEntityChanged false ord_id (findChildren h roots) (dirty_of h) pl 9 = ROk out /\
    reported out CNew 2 "L"%string 3.
Proof.
  exists mv3_heap, [2], mv3_pool. eexists. split; [go_maps_tac|].
  split; [eapply (one_place_dec _ _ 9); vm_compute; reflexivity|].
  split; [apply (one_place_before_dec _ 4); [intros p Hp; apply pool_of_bound; exact Hp|vm_compute; reflexivity]|].
  split; [eexists _, [3]; split; [reflexivity|split; now left]|].
  split; [exists [3]; split; now left|]. split; [vm_compute; reflexivity|].
  apply single_changes_In. vm_compute. tauto.
Qed.
Print Assumptions C12_move_out_of_removed_parent_refuted.

(** C13.  Two conflicting changes of one entity (attached twice, removed twice, attached elsewhere while it stays
    dirty, ...) other than one attachment with one removal are always refused. *)
Theorem C13_conflicting_changes_refused :
  forall h roots pl ord fuel c t p k t' p' k', go_maps h pl ->
  expected_change (findChildren h roots) (dirty_of h) pl meta t p k c ->
  expected_change (findChildren h roots) (dirty_of h) pl meta t' p' k' c ->
  (t, p, k) <> (t', p', k') ->
  (t = CNew /\ t' = CDelete \/ t = CDelete /\ t' = CNew -> False) ->
  getEntityChanged false ord (findChildren h roots) (dirty_of h) pl fuel = RFuel \/
  getEntityChanged false ord (findChildren h roots) (dirty_of h) pl fuel = RErr.
Proof. exact (fun h roots pl ord fuel c t p k t' p' k' Hm => conflict_refused h roots pl ord Hm fuel c p k p' k' t t'). Qed.
Print Assumptions C13_conflicting_changes_refused.
Example C13_example :
  let h := heap_of [ent_list "a" false 1 [3]; ent_list "b" false 1 [3]; ent_list "c" false 2 []]%string in
  let pl := pool_of [1; 2] [snap_list []; snap_list []] in
  go_maps h pl /\
  expected_change (findChildren h [1; 2]) (dirty_of h) pl meta CNew 1 "L"%string 3 /\
  expected_change (findChildren h [1; 2]) (dirty_of h) pl meta CNew 2 "L"%string 3 /\
  getEntityChanged false ord_id (findChildren h [1; 2]) (dirty_of h) pl 9 = RErr.
Proof.
  cbv zeta. split; [go_maps_tac|].
  assert (Hm : go_maps (heap_of [ent_list "a" false 1 [3]; ent_list "b" false 1 [3]; ent_list "c" false 2 []]%string)
                       (pool_of [1; 2] [snap_list []; snap_list []])) by go_maps_tac.
  assert (Hs := fun chs => entityDiff_spec _ (dirty_of (heap_of [ent_list "a" false 1 [3]; ent_list "b" false 1 [3]; ent_list "c" false 2 []]%string)) _ (go_maps_ok _ [1; 2] _ Hm) 9 meta chs).
  split; [|split; [|vm_compute; reflexivity]]; (eapply Hs; [vm_compute; reflexivity|]; apply single_changes_In; vm_compute; tauto).
Qed.

(** C14 in full is false: a child that was detached from the deleted root before the save is not deleted. *)
Theorem C14_recursive_delete_refuted :
  exists h roots pl out,
    go_maps h pl /\ was_child pl meta meta_key 1 /\ was_child pl 1 "L"%string 2 /\ was_child pl 2 "L"%string 3 /\
    getEntityChanged true ord_id (findChildren h roots) (dirty_of h) pl 9 = ROk out /\
    reported out CDelete meta meta_key 1 /\
    (forall t p k, ~ reported out t p k 2 /\ ~ reported out t p k 3).
Proof.
  exists del_heap_detached, [], del_pool. eexists. split; [go_maps_tac|].
  split; [eexists _, [1]; split; [reflexivity|split; now left]|].
  split; [eexists _, [2]; split; [reflexivity|split; now left]|].
  split; [eexists _, [3]; split; [reflexivity|split; now left]|].
  split; [vm_compute; reflexivity|]. split; [apply single_changes_In; vm_compute; tauto|].
  intros t p k. rewrite <- !single_changes_In. vm_compute. intuition congruence.
Qed.
Print Assumptions C14_recursive_delete_refuted.

(** C14, the true part: everything reachable (at save time) from a deleted entity is deleted, with its parent. *)
Theorem C14_recursive_delete_partial :
  forall h roots pl ord fuel out, go_maps h pl -> order_ok ord ->
  getEntityChanged true ord (findChildren h roots) (dirty_of h) pl fuel = ROk out ->
  forall t p k e, reported out t p k e <->
    expected_final (findChildren h roots) (dirty_of h) pl meta t p k e \/
    (t = CDelete /\ now_child (findChildren h roots) p k e /\
     exists d p0 k0, expected_final (findChildren h roots) (dirty_of h) pl meta CDelete p0 k0 d /\
                     reach (findChildren h roots) d p).
Proof. exact (fun h roots pl ord fuel out Hm => recursive_exact h roots pl ord Hm fuel out). Qed.
Print Assumptions C14_recursive_delete_partial.
Example C14_example :
  go_maps del_heap del_pool /\ order_ok ord_id /\
  exists out, getEntityChanged true ord_id (findChildren del_heap []) (dirty_of del_heap) del_pool 9 = ROk out /\
    single_changes out = [(CDelete, 0, meta_key, 1); (CDelete, 1, "L"%string, 2); (CDelete, 2, "L"%string, 3)].
Proof. split; [go_maps_tac|]. split; [intros p m; reflexivity|]. eexists. split; vm_compute; reflexivity. Qed.

(** C15.  Without recursive delete an entity is reported as deleted only if it was itself taken out of a child list
    of a parent that is still there. *)
Theorem C15_only_removed_are_deleted :
  forall h roots pl ord fuel out, go_maps h pl ->
  getEntityChanged false ord (findChildren h roots) (dirty_of h) pl fuel = ROk out ->
  forall p k e, reported out CDelete p k e ->
    reach (findChildren h roots) meta p /\ was_child pl p k e /\ ~ now_child (findChildren h roots) p k e.
Proof.
  intros h roots pl ord fuel out Hm H p k e Hr.
  apply (changed_exact h roots pl ord Hm fuel out H) in Hr. destruct Hr as [(R & _ & W & N) _]. auto.
Qed.
Print Assumptions C15_only_removed_are_deleted.
Example C15_example :
  exists out, getEntityChanged false ord_id (findChildren del_heap []) (dirty_of del_heap) del_pool 9 = ROk out /\
    single_changes out = [(CDelete, 0, meta_key, 1)].
Proof. eexists. split; vm_compute; reflexivity. Qed.

(** C23.  The root container. *)
Theorem C23_container_roots_unique :
  forall ops, NoDup (ct_roots (fold_left cstep ops (mkCont [] []))).
Proof. intros ops. apply cont_run_nodup. constructor. Qed.
Print Assumptions C23_container_roots_unique.
Theorem C23_container_add :
  forall c r, (In r (ct_roots c) <-> cont_add c r = None) /\
  (forall c', cont_add c r = Some c' -> ct_roots c' = ct_roots c ++ [r] /\ ct_deleted c' = ct_deleted c).
Proof.
  intros c r. unfold cont_add. rewrite <- memb_In. destruct (memb r (ct_roots c)); (split; [split; congruence|]).
  - intros c' H. discriminate H.
  - intros c' [= <-]. auto.
Qed.
Print Assumptions C23_container_add.
Theorem C23_container_remove :
  forall c r,
  (In r (ct_roots c) -> exists c', cont_remove c r = Some c' /\
      (forall x, In x (ct_roots c') <-> In x (ct_roots c) /\ x <> r) /\ ct_deleted c' = ct_deleted c ++ [r]) /\
  (~ In r (ct_roots c) -> cont_remove c r = None).
Proof. exact cont_remove_spec. Qed.
Print Assumptions C23_container_remove.
Example C23_example :
  fold_left cstep [OpAdd 5; OpAdd 6; OpAdd 5; OpRemove 5; OpRemove 7] (mkCont [] []) = mkCont [6] [5].
Proof. reflexivity. Qed.

(** C28.  Traversal. *)
Theorem C28_walk_terminates :
  forall ord kids p, order_ok ord -> acyclic_from kids p ->
  exists fuel, forall par, exists l, walk ord kids fuel p par = Some l.
Proof. exact (fun ord kids p Ho => walk_terminates ord kids Ho p). Qed.
Print Assumptions C28_walk_terminates.
Theorem C28_walk_visits_exactly_reachable :
  forall ord kids fuel p par l, order_ok ord -> walk ord kids fuel p par = Some l ->
  (forall q, In q (map fst l) <-> reach kids p q) /\
  (forall q pq, In (q, pq) l -> (q = p /\ pq = par) \/ exists r k, pq = Some r /\ reach kids p r /\ now_child kids r k q) /\
  (forall r k q, reach kids p r -> now_child kids r k q -> In (q, Some r) l).
Proof.
  exact (fun ord kids fuel p par l Ho H =>
    conj (walk_reach ord kids Ho fuel p par l H)
      (conj (walk_parent ord kids Ho fuel p par l H) (walk_edges ord kids Ho fuel p par l H))).
Qed.
Print Assumptions C28_walk_visits_exactly_reachable.
Theorem C28_walk_parents_first :
  forall ord kids fuel p l, order_ok ord -> walk ord kids fuel p None = Some l ->
  forall l1 q r l2, l = l1 ++ (q, Some r) :: l2 -> In r (map fst l1).
Proof.
  intros ord kids fuel p l Ho H l1 q r l2 E.
  destruct (walk_parents_first ord kids fuel p None l [] H (fun r H => ltac:(discriminate)) l1 q r l2 E) as [[]|Hx]. exact Hx.
Qed.
Print Assumptions C28_walk_parents_first.
Theorem C28_walk_diverges_on_cycles :
  forall ord kids p q, order_ok ord -> reach kids p q -> on_cycle kids q ->
  forall fuel par, walk ord kids fuel p par = None.
Proof. exact (fun ord kids p q Ho => walk_diverges ord kids Ho p q). Qed.
Print Assumptions C28_walk_diverges_on_cycles.
Example C28_example :
  walk ord_id (findChildren del_heap [1]) 5 meta None = Some [(0, None); (1, Some 0); (2, Some 1); (3, Some 2)] /\
  let cyc := findChildren (heap_of [ent_list "a" false 1 [1]]%string) [1] in
  reach cyc meta 1 /\ on_cycle cyc 1.
Proof.
  split; [reflexivity|]. cbv zeta. split.
  - eapply reach_step; [exists [1]; split; [now left|now left]|constructor].
  - exists "L"%string, 1. split; [exists [1]; split; now left|constructor].
Qed.

(** C29.  Child discovery by reflection: the child list named [k] is the first exported field of that name that
    holds an entity (other than the embedded base), a slice or a map of entities; empty lists are kept. *)
Theorem C29_child_discovery :
  forall h roots p k l, p <> meta -> e_custom (h p) = None ->
  (In (k, l) (findChildren h roots p) <->
   exists f1 f f2, e_fields (h p) = f1 ++ f :: f2 /\ f_name f = k /\ entity_field f l /\
     forall g, In g f1 -> f_name g = k -> forall l', ~ entity_field g l').
Proof.
  intros h roots p k l Hp Hc. unfold findChildren. destruct (Nat.eqb_spec p meta); [tauto|].
  unfold findChildren_ent. rewrite Hc, fields_children_spec by constructor.
  assert (Hf : forall f l, field_children f = Some l <-> entity_field f l).
  { intros f l'. unfold field_children, entity_field.
    destruct (f_exported f); cbn; [|split; [discriminate|intros [? _]; discriminate]].
    destruct (f_kind f); [destruct (f_isbase f)|..]; intuition congruence. }
  assert (Hn : forall f, field_children f = None <-> forall l', ~ entity_field f l').
  { intros f. split.
    - intros E l' H. apply Hf in H. congruence.
    - intros H. destruct (field_children f) eqn:E; [|reflexivity]. apply Hf in E. now apply H in E. }
  split.
  - intros [[]|(_ & f1 & f & f2 & E & H1 & H2 & H3)]. apply Hf in H2. exists f1, f, f2.
    split; auto. split; auto. split; auto. intros g Hg Hk. apply Hn. auto.
  - intros (f1 & f & f2 & E & H1 & H2 & H3). right. split; [tauto|]. exists f1, f, f2.
    split; auto. split; auto. split; [now apply Hf|]. intros g Hg Hk. apply Hn. auto.
Qed.
Print Assumptions C29_child_discovery.
Example C29_example :
  findChildren (fun _ => mkEnt "x"%string false 1 None
     [mkField "Base"%string true true (FEntity (Some 7)); mkField "One"%string true false (FEntity None);
      mkField "hidden"%string false false (FSlice [8]); mkField "Many"%string true false (FMap [9; 10]);
      mkField "Name"%string true false FOther] [] []) [] 3
  = [("One"%string, []); ("Many"%string, [9; 10])].
Proof. reflexivity. Qed.

(** C29, the other half: a GetChildren of the user's own replaces the reflection entirely, whatever the fields hold. *)
Theorem C29_own_children_win :
  forall h roots p m, p <> meta -> e_custom (h p) = Some m ->
  forall k c, now_child (findChildren h roots) p k c <-> exists l, In (k, l) m /\ In c l.
Proof.
  intros h roots p m Hp Hc k c. unfold now_child, findChildren. destruct (Nat.eqb_spec p meta); [tauto|].
  unfold findChildren_ent. rewrite Hc. tauto.
Qed.
Print Assumptions C29_own_children_win.
Example C29_own_example :
  now_child (findChildren (fun _ => mkEnt "x"%string false 1 (Some [("Mine"%string, [5])])
     [mkField "Many"%string true false (FSlice [9; 10])] [] []) []) 3 "Mine"%string 5 /\
  ~ now_child (findChildren (fun _ => mkEnt "x"%string false 1 (Some [("Mine"%string, [5])])
     [mkField "Many"%string true false (FSlice [9; 10])] [] []) []) 3 "Many"%string 9.
Proof.
  split; [exists [5]; split; now left|]. intros (l & [E|[]] & _). discriminate.
Qed.

(** C30 is false: if GetChildren no longer returns the key, the vanished child is not deleted. *)
Theorem C30_custom_children_refuted :
  exists h roots pl,
    go_maps h pl /\ reach (findChildren h roots) meta 1 /\ was_child pl 1 "L"%string 2 /\
    (forall k, ~ now_child (findChildren h roots) 1 k 2) /\
    (forall fuel ord rec, 9 <= fuel -> getEntityChanged rec ord (findChildren h roots) (dirty_of h) pl fuel = ROk []).
Proof.
  exists cust_heap, [1], cust_pool. split; [go_maps_tac|].
  split; [eapply reach_step; [exists [1]; split; now left|constructor]|].
  split; [eexists _, [2]; split; [reflexivity|split; now left]|].
  split; [intros k (l & [] & _)|].
  intros fuel ord rec Hf. replace fuel with (9 + (fuel - 9)) by lia. destruct rec; reflexivity.
Qed.
Print Assumptions C30_custom_children_refuted.
(** C30, the true part: while the key is still returned, what vanished from it is deleted or was attached elsewhere. *)
Theorem C30_custom_children_partial :
  forall h roots pl ord fuel out, go_maps h pl ->
  getEntityChanged false ord (findChildren h roots) (dirty_of h) pl fuel = ROk out ->
  forall p k c, reach (findChildren h roots) meta p -> has_key (findChildren h roots) p k ->
    was_child pl p k c -> ~ now_child (findChildren h roots) p k c ->
    reported out CDelete p k c \/ exists p' k', reported out CDirty p' k' c.
Proof.
  intros h roots pl ord fuel out Hm H p k c H1 H2 H3 H4.
  destruct (changed_exact h roots pl ord Hm fuel out H) as [Hr _].
  assert (Hd : expected_change (findChildren h roots) (dirty_of h) pl meta CDelete p k c) by (split; auto).
  unfold getEntityChanged in H.
  destruct (entityDiff (findChildren h roots) (dirty_of h) pl fuel meta) as [chs|] eqn:E; [|discriminate].
  assert (Hs := entityDiff_spec _ _ _ (go_maps_ok h roots pl Hm) fuel meta chs E).
  destruct (in_dec Nat.eq_dec c (kids_of CNew chs)) as [Hn|Hn].
  - apply kids_of_reported in Hn. destruct Hn as (p' & k' & Hn). apply Hs in Hn.
    right. exists p', k'. apply Hr. right. eauto.
  - left. apply Hr. split; auto. intros p' k' Hx. apply Hn, kids_of_reported. exists p', k'. now apply Hs.
Qed.
Print Assumptions C30_custom_children_partial.

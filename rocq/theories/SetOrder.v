(** C10: the lists of the change detection are in slice order, whatever order Go iterates its maps in (snapshot.go 63-119). *)
From Verif Require Import GraphModel.
From Coq Require Import Permutation Sorted.
Local Open Scope list_scope. Local Open Scope nat_scope.

Lemma perm_sorted_eq (l2 : list (ptr * nat)) : forall l1, StronglySorted (fun a b => snd a <= snd b) l1 -> StronglySorted (fun a b => snd a < snd b) l2 -> Permutation l1 l2 -> l1 = l2.
Proof.
  induction l2 as [|x t IH]; intros l1 S1 S2 P; [apply Permutation_sym, Permutation_nil in P; exact P|]. destruct l1 as [|y u]; [apply Permutation_nil in P; discriminate P|].
  inversion S1 as [|? ? S1' F1]; subst. inversion S2 as [|? ? S2' F2]; subst. rewrite Forall_forall in F1, F2.
  assert (x = y) as ->.
  { assert (X : In x (y :: u)) by (apply (Permutation_in x (Permutation_sym P)); now left). assert (Y : In y (x :: t)) by (apply (Permutation_in y P); now left).
    destruct X as [->|X]; auto. destruct Y as [->|Y]; auto. specialize (F1 x X). specialize (F2 y Y). lia. }
  f_equal. apply IH; auto. now apply Permutation_cons_inv in P.
Qed.
Lemma put_new s e i : ~ In e (map fst s) -> set_put s e i = s ++ [(e, i)].
Proof. induction s as [|[x j] t IH]; cbn; auto. intros H. destruct (Nat.eqb_spec e x); [subst; tauto|]. rewrite IH; auto. Qed.
Lemma make_new l : forall i s, NoDup (map fst s ++ l) -> make_set_from i l s = s ++ combine l (seq i (length l)).
Proof.
  induction l as [|x t IH]; intros i s H; cbn; [now rewrite app_nil_r|]. rewrite put_new.
  - rewrite IH; [now rewrite <- app_assoc|]. rewrite map_app, <- app_assoc. exact H.
  - apply NoDup_remove_2 in H. intros X. apply H. apply in_app_iff. auto.
Qed.
Lemma combine_sorted l : forall i, StronglySorted (fun a b : ptr * nat => snd a < snd b) (combine l (seq i (length l))).
Proof.
  induction l as [|x t IH]; intros i; cbn; constructor; auto. apply Forall_forall. intros [a j] H. apply in_combine_r in H. apply in_seq in H. cbn. lia.
Qed.
Lemma sorted_filtered {A} (R : A -> A -> Prop) f l : StronglySorted R l -> StronglySorted R (filter f l).
Proof.
  induction 1 as [|x t H IH F]; cbn; [constructor|]. destruct (f x); auto. constructor; auto. rewrite Forall_forall in *. intros y Hy. apply filter_In in Hy. now apply F.
Qed.
Lemma filter_combine g l : forall (l' : list nat), length l = length l' -> map fst (filter (fun x : ptr * nat => g (fst x)) (combine l l')) = filter g l.
Proof.
  induction l as [|x t IH]; intros [|y u] H; cbn in *; try discriminate H; auto. injection H as H. destruct (g x); cbn; rewrite IH; auto.
Qed.
(** [s]: the map read in some order *)
Theorem C10_listed_in_slice_order : forall nodes g s, NoDup nodes -> Permutation s (filter (fun x => g (fst x)) (makeEntitySet nodes)) -> toSlice s = filter g nodes.
Proof.
  intros nodes g s N P. unfold makeEntitySet in P. rewrite make_new in P by (cbn; auto). cbn [app] in P. unfold toSlice.
  rewrite (perm_sorted_eq (filter (fun x => g (fst x)) (combine nodes (seq 0 (length nodes)))) (isort idx_leb s)).
  - apply filter_combine. now rewrite seq_length.
  - assert (E : StronglySorted (fun a b => idx_leb a b = true) (isort idx_leb s)).
    { apply isort_sorted.
      - intros x y. unfold idx_leb. rewrite !negb_true_iff, !Nat.ltb_ge. lia.
      - intros x y z. unfold idx_leb. rewrite !negb_true_iff, !Nat.ltb_ge. lia. }
    revert E. generalize (isort idx_leb s). induction 1 as [|x t H IH F]; constructor; auto. rewrite Forall_forall in *. intros y Hy. specialize (F y Hy). unfold idx_leb in F. apply negb_true_iff, Nat.ltb_ge in F. exact F.
  - apply sorted_filtered, combine_sorted.
  - etransitivity; [apply isort_perm|exact P].
Qed.
Print Assumptions C10_listed_in_slice_order.
(** hence the children found new, kept or gone, whichever way the maps are iterated *)
Theorem C10_difference_in_slice_order : forall kids pl p k s, NoDup (kids_at (kids p) k) -> NoDup (snap_kids pl p k) ->
  (Permutation s (set_diff (makeEntitySet (kids_at (kids p) k)) (makeEntitySet (snap_kids pl p k))) -> toSlice s = created_of kids pl p k) /\
  (Permutation s (set_inter (makeEntitySet (kids_at (kids p) k)) (makeEntitySet (snap_kids pl p k))) -> toSlice s = remain_of kids pl p k) /\
  (Permutation s (set_diff (makeEntitySet (snap_kids pl p k)) (makeEntitySet (kids_at (kids p) k))) -> toSlice s = deleted_of kids pl p k).
Proof.
  intros kids pl p k s N1 N2.
  assert (D : forall a b, NoDup a -> Permutation s (set_diff (makeEntitySet a) (makeEntitySet b)) -> toSlice s = toSlice (set_diff (makeEntitySet a) (makeEntitySet b))).
  { intros a b N P. rewrite (C10_listed_in_slice_order a (fun e => negb (set_has (makeEntitySet b) e)) s N P). symmetry. now apply C10_listed_in_slice_order. }
  assert (I : forall a b, NoDup a -> Permutation s (set_inter (makeEntitySet a) (makeEntitySet b)) -> toSlice s = toSlice (set_inter (makeEntitySet a) (makeEntitySet b))).
  { intros a b N P. rewrite (C10_listed_in_slice_order a (fun e => set_has (makeEntitySet b) e) s N P). symmetry. now apply C10_listed_in_slice_order. }
  split; [|split]; intros P; [apply D|apply I|apply D]; auto.
Qed.
Print Assumptions C10_difference_in_slice_order.
Example C10_order_case : toSlice [(9, 2); (4, 0)] = filter (fun p => negb (p =? 7)) [4; 7; 9] /\ Permutation [(9, 2); (4, 0)] (filter (fun x => negb (fst x =? 7)) (makeEntitySet [4; 7; 9])).
Proof. split; [reflexivity|]. apply perm_swap. Qed.

(** Shared vocabulary: Go strings, Go's stable sort, small list helpers. *)
From Coq Require Export String Ascii.
From Coq Require Export List Arith ZArith Lia Bool Permutation Sorted.
From Coq Require Import OrderedTypeEx.
Export ListNotations.
Open Scope list_scope.
Open Scope nat_scope.

(** Go's [<] on strings is byte-wise lexicographic; so is [String.compare]. *)
Definition str_ltb (a b : string) : bool :=
  match String.compare a b with Lt => true | _ => false end.
(** Go's <= on strings *)
Definition str_leb (a b : string) : bool := negb (str_ltb b a).

(** sort.SliceStable / sort.Strings: a stable sort given "x may stay in front of y".
    Simplification: insertion sort; the result of a stable sort does not depend on the algorithm. *)
Section Sort.
  Context {A : Type} (leb : A -> A -> bool).
  (** sort.SliceStable: one element into a sorted list *)
  Fixpoint insert_by (x : A) (l : list A) : list A :=
    match l with
    | [] => [x]
    | y :: t => if leb x y then x :: l else y :: insert_by x t
    end.
  (** sort.SliceStable *)
  Fixpoint isort (l : list A) : list A :=
    match l with [] => [] | x :: t => insert_by x (isort t) end.
End Sort.

(** Go map lookup on a list of pairs (maps are modelled by pair lists). *)
Fixpoint assoc {V : Type} (k : string) (l : list (string * V)) : option V :=
  match l with
  | [] => None
  | (k', v) :: t => if String.eqb k k' then Some v else assoc k t
  end.

(** membership of a number in a list *)
Fixpoint memb (x : nat) (l : list nat) : bool :=
  match l with [] => false | y :: t => Nat.eqb x y || memb x t end.

(** Sequencing of computations that may run out of fuel ([None]). *)
Fixpoint mconcat {A B : Type} (f : A -> option (list B)) (l : list A) : option (list B) :=
  match l with
  | [] => Some []
  | x :: t => match f x with
              | None => None
              | Some r => match mconcat f t with None => None | Some r' => Some (r ++ r') end
              end
  end.

(* ------------------------------------------------------------------ lemmas *)
Lemma memb_In x l : memb x l = true <-> In x l.
Proof.
  induction l as [|y t IH]; cbn; [split; [discriminate|tauto]|].
  rewrite orb_true_iff, Nat.eqb_eq, IH. split; intros [H|H]; auto.
Qed.
Lemma memb_nIn x l : memb x l = false <-> ~ In x l.
Proof. rewrite <- memb_In. destruct (memb x l); split; congruence. Qed.

Lemma str_compare_refl a : String.compare a a = Eq.
Proof. apply String_as_OT.cmp_eq. reflexivity. Qed.
Lemma str_ltb_irrefl a : str_ltb a a = false.
Proof. unfold str_ltb. now rewrite str_compare_refl. Qed.
Lemma str_ltb_lt a b : str_ltb a b = true <-> String_as_OT.lt a b.
Proof.
  unfold str_ltb. rewrite <- String_as_OT.cmp_lt.
  unfold String_as_OT.cmp. destruct (String.compare a b) eqn:E; split; intros; congruence.
Qed.
Lemma str_ltb_trans a b c : str_ltb a b = true -> str_ltb b c = true -> str_ltb a c = true.
Proof. rewrite !str_ltb_lt. apply String_as_OT.lt_trans. Qed.
Lemma str_ltb_total a b : str_ltb a b = true \/ a = b \/ str_ltb b a = true.
Proof.
  unfold str_ltb. rewrite (String.compare_antisym b a).
  destruct (String.compare a b) eqn:E; cbn; auto.
  right; left. now apply String_as_OT.cmp_eq.
Qed.
Lemma str_ltb_antisym a b : str_ltb a b = true -> str_ltb b a = false.
Proof.
  intros H. destruct (str_ltb b a) eqn:E; [|reflexivity].
  rewrite <- (str_ltb_irrefl a). symmetry. eapply str_ltb_trans; eassumption.
Qed.
Lemma str_leb_total a b : str_leb a b = true \/ str_leb b a = true.
Proof.
  unfold str_leb. destruct (str_ltb b a) eqn:E; cbn; auto.
  right. now rewrite (str_ltb_antisym _ _ E).
Qed.
Lemma str_leb_trans a b c : str_leb a b = true -> str_leb b c = true -> str_leb a c = true.
Proof.
  unfold str_leb. rewrite !negb_true_iff. intros H1 H2.
  destruct (str_ltb c a) eqn:E; [|reflexivity].
  destruct (str_ltb_total b a) as [H|[->|H]]; [congruence|congruence|].
  rewrite (str_ltb_trans _ _ _ E H) in H2. discriminate.
Qed.
Lemma str_leb_antisym a b : str_leb a b = true -> str_leb b a = true -> a = b.
Proof.
  unfold str_leb. rewrite !negb_true_iff. intros H1 H2.
  destruct (str_ltb_total a b) as [H|[H|H]]; congruence.
Qed.

Section SortLemmas.
  Context {A : Type} (leb : A -> A -> bool).
  Lemma insert_by_perm x l : Permutation (insert_by leb x l) (x :: l).
  Proof.
    induction l as [|y t IH]; cbn; [reflexivity|].
    destruct (leb x y); [reflexivity|]. rewrite IH. apply perm_swap.
  Qed.
  Lemma isort_perm l : Permutation (isort leb l) l.
  Proof.
    induction l as [|x t IH]; cbn; [reflexivity|]. rewrite insert_by_perm. now constructor.
  Qed.
  Lemma isort_In x l : In x (isort leb l) <-> In x l.
  Proof. split; apply Permutation_in; [|symmetry]; apply isort_perm. Qed.
  Lemma isort_length l : length (isort leb l) = length l.
  Proof. apply Permutation_length, isort_perm. Qed.
  Lemma isort_NoDup l : NoDup l -> NoDup (isort leb l).
  Proof. intros H. eapply Permutation_NoDup; [symmetry; apply isort_perm|exact H]. Qed.

  Hypothesis total : forall x y, leb x y = true \/ leb y x = true.
  Hypothesis trans : forall x y z, leb x y = true -> leb y z = true -> leb x z = true.
  Lemma insert_by_sorted x l :
    StronglySorted (fun a b => leb a b = true) l ->
    StronglySorted (fun a b => leb a b = true) (insert_by leb x l).
  Proof.
    induction l as [|y t IH]; cbn; intros H; [repeat constructor|].
    inversion H as [|? ? Ht Hy]; subst.
    destruct (leb x y) eqn:E.
    - constructor; [exact H|]. constructor; [exact E|].
      eapply Forall_impl; [|exact Hy]. intros z Hz. eauto.
    - constructor; [auto|].
      rewrite insert_by_perm. constructor; [|exact Hy].
      destruct (total x y); congruence.
  Qed.
  Lemma isort_sorted l : StronglySorted (fun a b => leb a b = true) (isort leb l).
  Proof. induction l; cbn; [constructor|]. now apply insert_by_sorted. Qed.

  Hypothesis antisym : forall x y, leb x y = true -> leb y x = true -> x = y.
  Lemma sorted_perm_eq l1 : forall l2,
    StronglySorted (fun a b => leb a b = true) l1 ->
    StronglySorted (fun a b => leb a b = true) l2 ->
    Permutation l1 l2 -> l1 = l2.
  Proof.
    induction l1 as [|x t IH]; intros l2 H1 H2 HP.
    - now apply Permutation_nil in HP.
    - destruct l2 as [|y u]; [now apply Permutation_sym, Permutation_nil in HP|].
      inversion H1 as [|? ? Ht Hx]; inversion H2 as [|? ? Hu Hy]; subst.
      assert (x = y) as ->.
      { assert (In x (y :: u)) as [->|Hin] by (eapply Permutation_in; [exact HP|now left]); [reflexivity|].
        assert (In y (x :: t)) as [->|Hin'] by (eapply Permutation_in; [symmetry; exact HP|now left]); [reflexivity|].
        rewrite Forall_forall in Hx, Hy. apply antisym; auto. }
      f_equal. apply IH; auto. eapply Permutation_cons_inv; exact HP.
  Qed.
  Lemma isort_perm_eq l1 l2 : Permutation l1 l2 -> isort leb l1 = isort leb l2.
  Proof.
    intros H. apply sorted_perm_eq; [apply isort_sorted..|]. now rewrite !isort_perm.
  Qed.
End SortLemmas.

Lemma isort_sorted_id {A} (leb : A -> A -> bool) l :
  StronglySorted (fun a b => leb a b = true) l -> isort leb l = l.
Proof.
  induction 1 as [|x t Ht IH Hx]; cbn; [reflexivity|]. rewrite IH.
  destruct t as [|y u]; cbn; [reflexivity|]. inversion Hx as [|? ? Hxy _]; subst. now rewrite Hxy.
Qed.

Section MConcat.
  Context {A B : Type} (f : A -> option (list B)).
  Lemma mconcat_app l1 l2 :
    mconcat f (l1 ++ l2) = match mconcat f l1 with
                           | None => None
                           | Some a => match mconcat f l2 with None => None | Some b => Some (a ++ b) end
                           end.
  Proof.
    induction l1 as [|x t IH]; cbn; [now destruct (mconcat f l2)|].
    destruct (f x); [|reflexivity]. rewrite IH.
    destruct (mconcat f t); [|reflexivity]. destruct (mconcat f l2); [|reflexivity].
    now rewrite app_assoc.
  Qed.
  Lemma mconcat_Some_each l r : mconcat f l = Some r -> forall x, In x l -> exists y, f x = Some y.
  Proof.
    revert r; induction l as [|a t IH]; cbn; intros r H x Hin; [tauto|].
    destruct (f a) eqn:E; [|discriminate]. destruct (mconcat f t) eqn:E2; [|discriminate].
    destruct Hin as [->|Hin]; eauto.
  Qed.
  Lemma mconcat_all l : (forall x, In x l -> exists y, f x = Some y) -> exists r, mconcat f l = Some r.
  Proof.
    induction l as [|a t IH]; cbn; intros H; [eauto|].
    destruct (H a (or_introl eq_refl)) as [y ->].
    destruct IH as [r ->]; [auto|]. eauto.
  Qed.
  Lemma mconcat_In l r : mconcat f l = Some r ->
    forall b, In b r <-> exists x y, In x l /\ f x = Some y /\ In b y.
  Proof.
    revert r; induction l as [|a t IH]; cbn; intros r H b.
    - injection H as <-. split; [intros []|intros (x & y & [] & _)].
    - destruct (f a) as [y|] eqn:E; [|discriminate]. destruct (mconcat f t) as [r'|]; [|discriminate].
      injection H as <-. rewrite in_app_iff, (IH _ eq_refl). split.
      + intros [H|(x & z & H1 & H2 & H3)]; [exists a, y|exists x, z]; auto.
      + intros (x & z & [->|H1] & H2 & H3); [left; congruence|right; eauto].
  Qed.
End MConcat.

Lemma mconcat_ext {A B} (f g : A -> option (list B)) l :
  (forall x, In x l -> f x = g x) -> mconcat f l = mconcat g l.
Proof.
  induction l as [|a t IH]; cbn; intros H; [reflexivity|].
  rewrite (H a (or_introl eq_refl)), IH; auto.
Qed.

Lemma assoc_In {V} k (v : V) l : assoc k l = Some v -> In (k, v) l.
Proof.
  induction l as [|[k' v'] t IH]; cbn; [discriminate|].
  destruct (String.eqb_spec k k') as [->|]; [intros [= ->]; auto|auto].
Qed.
Lemma assoc_NoDup {V} k (v : V) l : NoDup (map fst l) -> (assoc k l = Some v <-> In (k, v) l).
Proof.
  intros Hnd. split; [apply assoc_In|].
  induction l as [|[k' v'] t IH]; cbn in *; [tauto|]. inversion Hnd as [|? ? Hn Ht]; subst.
  intros [H|H].
  - injection H as -> ->. now rewrite String.eqb_refl.
  - destruct (String.eqb_spec k k') as [->|]; [|auto].
    exfalso. apply Hn. change k' with (fst (k', v)). now apply in_map.
Qed.
Lemma assoc_None {V} k (l : list (string * V)) : assoc k l = None <-> ~ In k (map fst l).
Proof.
  induction l as [|[k' v'] t IH]; cbn; [tauto|].
  destruct (String.eqb_spec k k') as [->|Hn].
  - split; [discriminate|]. intros H; exfalso; auto.
  - rewrite IH. split; intros H; [intros [H'|H']; subst; tauto|tauto].
Qed.

(** Proofs for the shared slice of lock keys: one run alone; any runs whose slice is in order already. *)
From Verif Require Import KeysModel.
From Coq Require Import Permutation Sorted.
Local Open Scope string_scope. Local Open Scope list_scope. Local Open Scope nat_scope.

(* ------------------------------------------------------------ small facts *)
Lemma kset_same f p c : kset f p c p = c. Proof. unfold kset. now rewrite Nat.eqb_refl. Qed.
Lemma kset_other f p c q : q <> p -> kset f p c q = f q. Proof. intros H. unfold kset. destruct (Nat.eqb_spec q p); congruence. Qed.
Lemma put_length k v : forall l, length (put k v l) = length l.
Proof. induction k as [|k IH]; intros [|x l]; cbn; auto. Qed.
Lemma put_in k v : forall l x, In x (put k v l) -> x = v \/ In x l.
Proof. induction k as [|k IH]; intros [|y l] x H; cbn in *; auto; destruct H as [<-|H]; auto. destruct (IH l x H); auto. Qed.
Lemma put_mid v x B : forall A, put (length A) v (A ++ x :: B) = A ++ v :: B.
Proof. induction A as [|a A IH]; cbn; auto. now rewrite IH. Qed.
Lemma at_mid x B A : at_ (A ++ x :: B) (length A) = x.
Proof. unfold at_. rewrite app_nth2, Nat.sub_diag; auto. Qed.
Lemma at_in l k : k < length l -> In (at_ l k) l.
Proof. intros H. now apply nth_In. Qed.

Definition leS (a b : string) : Prop := str_leb a b = true.
Definition ltS (a b : string) : Prop := str_ltb a b = true.
Lemma not_lt_le a b : str_ltb a b = false -> leS b a. Proof. unfold leS, str_leb. now intros ->. Qed.
Lemma lt_le a b : str_ltb a b = true -> leS a b. Proof. unfold leS, str_leb. intros H. now rewrite (str_ltb_antisym _ _ H). Qed.
Lemma le_trans a b c : leS a b -> leS b c -> leS a c. Proof. apply str_leb_trans. Qed.
Lemma le_lt a b : leS a b -> a <> b -> ltS a b.
Proof. unfold leS, ltS, str_leb. intros H N. destruct (str_ltb_total a b) as [X|[X|X]]; [exact X|contradiction|]. now rewrite X in H. Qed.
Lemma lt_ne a b : ltS a b -> a <> b. Proof. intros H ->. unfold ltS in H. now rewrite str_ltb_irrefl in H. Qed.

(* ------------------------------------------------------------ a run alone: sorting *)
(** finitely many steps of one run, seen alone *)
Inductive star : list string * kpc -> list string * kpc -> Prop :=
| star_nil s : star s s
| star_cons s t : star (sort_step (fst s) (snd s)) t -> star s t.
Lemma star_trans s t u : star s t -> star t u -> star s u.
Proof. induction 1; auto. intros H'. constructor. auto. Qed.
Lemma sorted_snoc (R : string -> string -> Prop) l x : StronglySorted R l -> Forall (fun y => R y x) l -> StronglySorted R (l ++ [x]).
Proof.
  induction l as [|a l IH]; intros H F; cbn; [repeat constructor|]. apply StronglySorted_inv in H. destruct H as [H1 H2]. apply Forall_cons_iff in F. destruct F as [F1 F2].
  constructor; auto. apply Forall_app. split; auto.
Qed.
Lemma sorted_app_inv (R : string -> string -> Prop) l x : StronglySorted R (l ++ [x]) -> StronglySorted R l /\ Forall (fun y => R y x) l.
Proof.
  induction l as [|a l IH]; intros H; cbn in *; [split; constructor|]. apply StronglySorted_inv in H. destruct H as [H1 H2]. destruct (IH H1) as [X Y]. apply Forall_app in H2. destruct H2 as [H2 H3].
  split; constructor; auto. now apply Forall_inv in H3.
Qed.
(** the inner loop *)
Lemma inner x i : forall A B, A <> [] -> StronglySorted leS A ->
  exists R, Permutation (A ++ [x]) R /\ StronglySorted leS R /\ star (A ++ x :: B, KCmpA i (length A)) (R ++ B, enter_i (length (A ++ x :: B)) (S i)).
Proof.
  induction A as [|y A IH] using rev_ind; intros B NE SO; [contradiction|]. clear NE. apply sorted_app_inv in SO. destruct SO as [SO FO].
  assert (L1 : length (A ++ [y]) = S (length A)) by (rewrite app_length; cbn; lia).
  assert (R0 : at_ ((A ++ [y]) ++ x :: B) (length (A ++ [y])) = x) by apply at_mid.
  assert (R1 : at_ ((A ++ [y]) ++ x :: B) (length (A ++ [y]) - 1) = y). { rewrite L1, <- app_assoc. cbn [app]. replace (S (length A) - 1) with (length A) by lia. apply at_mid. }
  destruct (str_ltb x y) eqn:E.
  - assert (M : star ((A ++ [y]) ++ x :: B, KCmpA i (length (A ++ [y]))) (A ++ x :: y :: B, enter_j (length (A ++ x :: y :: B)) i (length A))).
    { apply star_cons. cbn [fst snd sort_step]. rewrite R0. apply star_cons. cbn [fst snd sort_step]. rewrite R1, E. apply star_cons. cbn [fst snd sort_step]. rewrite R1. apply star_cons. cbn [fst snd sort_step]. rewrite R0. apply star_cons. cbn [fst snd sort_step]. rewrite put_mid.
      apply star_cons. cbn [fst snd sort_step]. rewrite L1. replace (S (length A) - 1) with (length A) by lia. rewrite <- app_assoc. cbn [app]. rewrite put_mid. replace (length (A ++ y :: y :: B)) with (length (A ++ x :: y :: B)) by (rewrite !app_length; reflexivity). constructor. }
    unfold enter_j in M. destruct A as [|a A].
    + cbn [app length Nat.ltb Nat.leb] in *. exists [x; y]. split; [apply perm_swap|]. split; [repeat constructor; now apply lt_le|]. exact M.
    + cbn [length Nat.ltb Nat.leb] in M. destruct (IH (y :: B) ltac:(discriminate) SO) as (R & P1 & P2 & P3). exists (R ++ [y]). split; [|split].
      * rewrite <- P1. rewrite <- !app_assoc. apply Permutation_app_head. cbn. apply perm_swap.
      * apply sorted_snoc; auto. apply (Permutation_Forall P1). apply Forall_app. split; auto. constructor; auto. now apply lt_le.
      * assert (Q : length (((a :: A) ++ [y]) ++ x :: B) = length ((a :: A) ++ x :: y :: B)) by (rewrite !app_length; cbn; lia).
        rewrite Q. eapply star_trans; [exact M|]. rewrite <- (app_assoc R [y] B). exact P3.
  - exists ((A ++ [y]) ++ [x]). split; [apply Permutation_refl|]. split.
    + apply sorted_snoc; [apply sorted_snoc; auto|]. apply not_lt_le in E. apply Forall_app. split; [|constructor; auto]. revert FO. apply Forall_impl. intros a H. now apply (le_trans _ y).
    + apply star_cons. cbn [fst snd sort_step]. rewrite R0. apply star_cons. cbn [fst snd sort_step]. rewrite R1, E. rewrite <- (app_assoc (A ++ [y]) [x] B). constructor.
Qed.
(** the outer loop *)
Lemma outer : forall B A, A <> [] -> StronglySorted leS A ->
  exists R, Permutation (A ++ B) R /\ StronglySorted leS R /\ star (A ++ B, enter_i (length (A ++ B)) (length A)) (R, enter_chk (length R) 1).
Proof.
  induction B as [|x B IH]; intros A NE SO.
  - exists A. rewrite app_nil_r. split; auto. split; auto. unfold enter_i. rewrite Nat.ltb_irrefl. constructor.
  - destruct (inner x (length A) A B NE SO) as (R0 & P1 & P2 & P3).
    assert (L : length R0 = S (length A)) by (rewrite <- (Permutation_length P1), app_length; cbn; lia).
    destruct (IH R0 ltac:(intros ->; discriminate L) P2) as (R & Q1 & Q2 & Q3). exists R. split; [|split; auto].
    + rewrite <- Q1. rewrite <- P1. rewrite <- app_assoc. reflexivity.
    + unfold enter_i at 1. destruct (Nat.ltb_spec (length A) (length (A ++ x :: B))) as [_|X]; [|rewrite app_length in X; cbn in X; lia].
      eapply star_trans; [exact P3|]. rewrite L in Q3. replace (length (R0 ++ B)) with (length (A ++ x :: B)) in Q3; [exact Q3|]. rewrite !app_length. cbn. lia.
Qed.
(** the search for a repeated key *)
Lemma check : forall B A x, StronglySorted leS (A ++ x :: B) -> NoDup (A ++ [x]) -> let m := A ++ x :: B in
  (NoDup m /\ star (m, enter_chk (length m) (S (length A))) (m, enter_lock (length m) 0)) \/
  (~ NoDup m /\ star (m, enter_chk (length m) (S (length A))) (m, KRepeated)).
Proof.
  induction B as [|y B IH]; intros A x SO ND; cbn zeta.
  - left. split; auto. unfold enter_chk. destruct (Nat.ltb_spec (S (length A)) (length (A ++ [x]))) as [X|_]; [rewrite app_length in X; cbn in X; lia|constructor].
  - assert (Lx : length (A ++ [x]) = S (length A)) by (rewrite app_length; cbn; lia).
    assert (R0 : at_ (A ++ x :: y :: B) (S (length A)) = y). { rewrite <- Lx. replace (A ++ x :: y :: B) with ((A ++ [x]) ++ y :: B) by (now rewrite <- app_assoc). apply at_mid. }
    assert (R1 : at_ (A ++ x :: y :: B) (S (length A) - 1) = x). { replace (S (length A) - 1) with (length A) by lia. apply at_mid. }
    assert (M : star (A ++ x :: y :: B, enter_chk (length (A ++ x :: y :: B)) (S (length A))) (A ++ x :: y :: B, if String.eqb y x then KRepeated else enter_chk (length (A ++ x :: y :: B)) (S (S (length A))))).
    { unfold enter_chk at 1. destruct (Nat.ltb_spec (S (length A)) (length (A ++ x :: y :: B))) as [_|X]; [|rewrite app_length in X; cbn in X; lia].
      apply star_cons. cbn [fst snd sort_step]. rewrite R0. apply star_cons. cbn [fst snd sort_step]. rewrite R1. constructor. }
    destruct (String.eqb_spec y x) as [->|N].
    + right. split; auto. intros X. apply NoDup_remove_2 in X. apply X. apply in_or_app. right. now left.
    + replace (A ++ x :: y :: B) with ((A ++ [x]) ++ y :: B) in * by (now rewrite <- app_assoc).
      assert (ND' : NoDup ((A ++ [x]) ++ [y])).
      { apply NoDup_rev in ND. rewrite rev_app_distr in ND. cbn in ND. rewrite <- (rev_involutive ((A ++ [x]) ++ [y])). apply NoDup_rev. rewrite !rev_app_distr. cbn. constructor; auto.
        intros I. assert (I' : In y (A ++ [x])) by (apply in_rev; rewrite rev_app_distr; exact I). 
        assert (SO' : StronglySorted leS ((A ++ [x]) ++ [y])). { clear - SO. replace ((A ++ [x]) ++ y :: B) with (((A ++ [x]) ++ [y]) ++ B) in SO by (now rewrite <- (app_assoc (A ++ [x]) [y] B)). revert SO. generalize ((A ++ [x]) ++ [y]). intros l. induction l as [|a l IH]; intros H; [constructor|]. cbn in H. apply StronglySorted_inv in H. destruct H as [H1 H2]. apply Forall_app in H2. constructor; [auto|apply H2]. }
        apply sorted_app_inv in SO'. destruct SO' as [SO1 SO2]. apply sorted_app_inv in SO1. destruct SO1 as [_ SO1]. rewrite Forall_forall in SO1, SO2.
        apply in_app_iff in I'. destruct I' as [I'|[I'|[]]]; [|congruence]. apply N. apply str_leb_antisym; [exact (SO1 y I')|apply SO2; apply in_or_app; right; now left]. }
      destruct (IH (A ++ [x]) y SO ND') as [[P1 P2]|[P1 P2]]; [left|right]; (split; [exact P1|]; eapply star_trans; [exact M|]; rewrite <- Lx; exact P2).
Qed.

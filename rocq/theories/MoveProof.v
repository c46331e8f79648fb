From Verif Require Import MoveSpec GraphProof.

Lemma fold_opt_app {A B} (f : A -> B -> option A) l1 l2 a :
  fold_opt f (l1 ++ l2) a = match fold_opt f l1 a with None => None | Some b => fold_opt f l2 b end.
Proof. revert a; induction l1 as [|x t IH]; cbn; intros a; [reflexivity|]. destruct (f a x); auto. Qed.

Lemma ct_eqb_eq a b : ct_eqb a b = true <-> a = b.
Proof. destruct a, b; cbn; split; congruence. Qed.
Lemma ct_eqb_refl a : ct_eqb a a = true.
Proof. now apply ct_eqb_eq. Qed.

Lemma kids_of_In t chs e : In e (kids_of t chs) <-> exists ch, In ch chs /\ ch_type ch = t /\ In e (ch_kids ch).
Proof.
  unfold kids_of. rewrite in_flat_map. split.
  - intros (ch & H & He). apply filter_In in H. destruct H as [H1 H2].
    apply ct_eqb_eq in H2. eauto.
  - intros (ch & H & Ht & He). exists ch. rewrite filter_In, ct_eqb_eq. auto.
Qed.
Lemma reported_kids_of chs t e : In e (kids_of t chs) <-> exists p k, reported chs t p k e.
Proof.
  rewrite kids_of_In. unfold reported. split.
  - intros (ch & H1 & H2 & H3). exists (ch_parent ch), (ch_key ch), ch. auto.
  - intros (p & k & ch & H1 & H2 & _ & _ & H3). eauto.
Qed.
Lemma kids_of_app t a b : kids_of t (a ++ b) = kids_of t a ++ kids_of t b.
Proof. unfold kids_of. now rewrite filter_app, flat_map_app. Qed.
Lemma kids_of_perm t a b : Permutation a b -> Permutation (kids_of t a) (kids_of t b).
Proof.
  intros H. unfold kids_of. apply Permutation_flat_map.
  induction H; cbn; auto; repeat match goal with |- context [if ?c then _ else _] => destruct c end; auto.
  - apply perm_swap.
  - etransitivity; eassumption.
Qed.

Definition dch : change := mkChange CClear 0 ""%string [].

Lemma upd_nth_length {A} n (f : A -> A) l : length (upd_nth n f l) = length l.
Proof. revert n; induction l as [|x t IH]; intros [|n]; cbn; auto. Qed.
Lemma cell_at_upd n f cs i : i < length cs -> 
  cell_at (upd_nth n f cs) i = if Nat.eqb i n then f (cell_at cs i) else cell_at cs i.
Proof.
  unfold cell_at. revert n i; induction cs as [|x t IH]; intros [|n] [|i] H; cbn in *; auto; try lia.
  now rewrite IH by lia.
Qed.

Lemma change_of_remove e c :
  change_of (cell_remove e c) =
  mkChange (cl_type c) (cl_parent c) (cl_key c)
           (filter (fun x => negb (Nat.eqb x e)) (ch_kids (change_of c))).
Proof.
  unfold change_of, cell_remove; cbn.
  rewrite firstn_app, Nat.sub_diag, firstn_O, app_nil_r, firstn_all. reflexivity.
Qed.
Lemma change_of_cell_of ch : change_of (cell_of ch) = ch.
Proof. destruct ch; unfold change_of, cell_of; cbn. now rewrite firstn_all. Qed.

Lemma NoDup_app_iff {A} (l1 l2 : list A) :
  NoDup (l1 ++ l2) <-> NoDup l1 /\ NoDup l2 /\ (forall x, In x l1 -> ~ In x l2).
Proof.
  induction l1 as [|a t IH]; cbn.
  - split; [intros H; repeat split; auto; constructor|tauto].
  - rewrite !NoDup_cons_iff, IH, in_app_iff. split.
    + intros (H1 & H2 & H3 & H4). repeat split; auto; try tauto.
      intros x [->|Hx]; auto.
    + intros ((H1 & H2) & H3 & H4). repeat split; auto.
      intros [Ha|Ha]; [auto|]. apply (H4 a); auto.
Qed.

Lemma nodup_owner (l : list change) i j e :
  NoDup (flat_map ch_kids l) -> i < length l -> j < length l ->
  In e (ch_kids (nth i l dch)) -> In e (ch_kids (nth j l dch)) -> i = j.
Proof.
  revert i j; induction l as [|c t IH]; cbn; intros i j Hnd Hi Hj H1 H2; [lia|].
  apply NoDup_app_iff in Hnd. destruct Hnd as (Ha & Hb & Hc).
  assert (Hx : forall n, n < length t -> In e (ch_kids (nth n t dch)) -> In e (flat_map ch_kids t)).
  { intros n Hn He. apply in_flat_map. exists (nth n t dch). split; [now apply nth_In|auto]. }
  destruct i as [|i], j as [|j]; auto.
  - exfalso. apply (Hc e); auto. apply (Hx j); auto; lia.
  - exfalso. apply (Hc e); auto. apply (Hx i); auto; lia.
  - f_equal. apply IH; auto; lia.
Qed.

  Lemma filter_filter {A} (f g : A -> bool) l : filter f (filter g l) = filter (fun x => g x && f x) l.
  Proof. induction l as [|x t IH]; cbn; auto. destruct (g x); cbn; [|auto]. destruct (f x); rewrite IH; auto. Qed.
  Lemma filter_id {A} (f : A -> bool) l : (forall x, In x l -> f x = true) -> filter f l = l.
  Proof. induction l as [|x t IH]; cbn; intros H; auto. rewrite H, IH; auto. Qed.
  Lemma memb_app x a b : memb x (a ++ b) = memb x a || memb x b.
  Proof. induction a as [|y t IH]; cbn; auto. now rewrite IH, orb_assoc. Qed.
    Lemma filter_len {A} (f : A -> bool) l : length (filter f l) <= length l.
    Proof. induction l as [|a t IH]; cbn; auto. destruct (f a); cbn; lia. Qed.
    Lemma filter_full {A} (f : A -> bool) l : length (filter f l) = length l -> filter f l = l.
    Proof.
      induction l as [|a t IH]; cbn; auto. destruct (f a); cbn; intros H.
      - f_equal. apply IH. lia.
      - assert (Hf := filter_len f t). lia.
    Qed.
    Lemma nth_skipn_tail (l k : list ptr) m : length k <= m ->
      nth m (k ++ skipn (length k) l) 0 = nth m l 0.
    Proof.
      intros H. rewrite app_nth2 by lia.
      destruct (Nat.le_gt_cases (length l) (length k)) as [Hle|Hgt].
      - rewrite skipn_all2 by lia. rewrite !nth_overflow; cbn; try lia; reflexivity.
      - transitivity (nth (length k + (m - length k)) (firstn (length k) l ++ skipn (length k) l) 0).
        + rewrite app_nth2; rewrite firstn_length_le by lia; [|lia]. f_equal. lia.
        + rewrite firstn_skipn. f_equal. lia.
    Qed.

Section Moves.
  Variables ND DL : list change.
  Let S := ND ++ DL.
  Hypothesis HND : forall ch, In ch ND -> ch_type ch = CNew \/ ch_type ch = CDirty.
  Hypothesis HDL : forall ch, In ch DL -> ch_type ch = CDelete.
  Hypothesis Hkids : forall ch, In ch S -> NoDup (ch_kids ch).
  Let N := kids_of CNew S.
  Let Dy := kids_of CDirty S.

  Definition strip (P : list ptr) (ch : change) : change :=
    mkChange (ch_type ch) (ch_parent ch) (ch_key ch)
      (match ch_type ch with
       | CNew => filter (fun x => negb (memb x P)) (ch_kids ch)
       | CDelete => filter (fun x => negb (memb x N && memb x P)) (ch_kids ch)
       | _ => ch_kids ch
       end).
  Definition has_new (e : ptr) (ch : change) : bool := ct_eqb (ch_type ch) CNew && memb e (ch_kids ch).
  Definition extra_of (e : ptr) : list change :=
    match find (has_new e) S with
    | Some ch => [mkChange CDirty (ch_parent ch) (ch_key ch) [e]]
    | None => []
    end.
  Notation Sat i := (nth i S dch).

  (** [cur]: the item being processed; later delete items are still untouched. *)
  Record Inv (cur : nat) (Q P : list ptr) (s : mstate) : Prop := mkInv {
    i_len : length (ms_cells s) = length S;
    i_fields : forall i, i < length S ->
      cl_type (cell_at (ms_cells s) i) = ch_type (Sat i) /\
      cl_parent (cell_at (ms_cells s) i) = ch_parent (Sat i) /\
      cl_key (cell_at (ms_cells s) i) = ch_key (Sat i);
    i_cell : forall i, i < length S -> i < length ND \/ i < cur ->
               change_of (cell_at (ms_cells s) i) = strip P (Sat i);
    i_done : forall i, length ND <= i -> i < cur -> incl (ch_kids (Sat i)) P;
    i_extra : ms_extra s = flat_map extra_of P;
    i_inP : forall e, In e P -> exists i, seen_at (ms_seen s) e = Some i /\ i < length S /\ ch_type (Sat i) = CDelete;
    i_inQ : forall e, ~ In e P -> In e Q -> exists i, seen_at (ms_seen s) e = Some i /\ i < length S /\
                 ch_type (Sat i) <> CDelete /\ In e (ch_kids (Sat i));
    i_out : forall e, ~ In e P -> ~ In e Q -> seen_at (ms_seen s) e = None }.
  Definition fresh_from (i : nat) (s : mstate) : Prop :=
    forall j, i <= j -> j < length S -> cell_at (ms_cells s) j = cell_of (Sat j).

  Lemma Sat_ND i : i < length ND -> Sat i = nth i ND dch.
  Proof. intros H. unfold S. now rewrite app_nth1. Qed.
  Lemma Sat_DL i : length ND <= i -> Sat i = nth (i - length ND) DL dch.
  Proof. intros H. unfold S. now rewrite app_nth2. Qed.

  Lemma strip_nil ch : strip [] ch = ch.
  Proof.
    destruct ch as [t p k l]. unfold strip; cbn. f_equal.
    assert (H : forall f : ptr -> bool, (forall x, f x = true) -> filter f l = l).
    { intros f Hf. induction l as [|x u IH]; cbn; auto. now rewrite Hf, IH. }
    destruct t; auto; apply H; intros x; auto. now rewrite andb_false_r.
  Qed.

  (* ---------------------------------------------------------- phase 1: new and dirty items *)
  Lemma step_nd Q s i j e : Inv 0 Q [] s -> fresh_from 0 s -> i < length ND ->
    nth j (ch_kids (Sat i)) 0 = e -> In e (ch_kids (Sat i)) ->
    if memb e Q then move_step i s j = None
    else exists s', move_step i s j = Some s' /\ Inv 0 (Q ++ [e]) [] s' /\ fresh_from 0 s'.
  Proof.
    intros HI HF Hi Hj He.
    assert (HiS : i < length S) by (unfold S; rewrite app_length; lia).
    assert (Ht : ch_type (Sat i) <> CDelete).
    { rewrite Sat_ND by auto. destruct (HND (nth i ND dch)) as [-> | ->]; [now apply nth_In|congruence..]. }
    unfold move_step. rewrite (HF i) by lia. cbn [cl_arr cell_of cl_type]. rewrite Hj.
    destruct (memb e Q) eqn:Em.
    - apply memb_In in Em. destruct (i_inQ _ _ _ _ HI e) as (i' & -> & _); auto.
      destruct (cl_type (cell_at (ms_cells s) i')); auto.
      destruct (ch_type (Sat i)); auto; congruence.
    - apply memb_nIn in Em. rewrite (i_out _ _ _ _ HI e); auto.
      eexists. split; [reflexivity|]. split; [|exact HF].
      destruct HI as [I1 I8 I2 I7 I3 I4 I5 I6].
      constructor; cbn [ms_cells ms_extra ms_seen seen_at]; auto.
      + intros e' [].
      + intros e' _ Hin. rewrite in_app_iff in Hin. cbn in Hin.
        destruct (Nat.eqb_spec e' e) as [->|Hne]; [exists i; auto|].
        apply I5; auto. intuition congruence.
      + intros e' Hn1 Hn2. rewrite in_app_iff in Hn2. cbn in Hn2.
        destruct (Nat.eqb_spec e' e) as [->|Hne]; [tauto|]. apply I6; auto.
  Qed.

  Lemma inner_nd i : i < length ND -> forall l2 l1 Q s,
    ch_kids (Sat i) = l1 ++ l2 -> Inv 0 Q [] s -> fresh_from 0 s ->
    (NoDup (Q ++ l2) -> exists s', fold_opt (move_step i) (seq (length l1) (length l2)) s = Some s' /\
        Inv 0 (Q ++ l2) [] s' /\ fresh_from 0 s') /\
    (forall s', NoDup Q -> fold_opt (move_step i) (seq (length l1) (length l2)) s = Some s' -> NoDup (Q ++ l2)).
  Proof.
    intros Hi. induction l2 as [|e t IH]; intros l1 Q s Hl HI HF; cbn [length seq fold_opt].
    - rewrite app_nil_r. split; [intros _; eauto|auto].
    - assert (Hj : nth (length l1) (ch_kids (Sat i)) 0 = e).
      { rewrite Hl, app_nth2, Nat.sub_diag by lia. reflexivity. }
      assert (He : In e (ch_kids (Sat i))) by (rewrite Hl; apply in_elt).
      assert (Hst := step_nd Q s i (length l1) e HI HF Hi Hj He).
      assert (Hl' : ch_kids (Sat i) = (l1 ++ [e]) ++ t) by (rewrite <- app_assoc; exact Hl).
      assert (Hlen : length (l1 ++ [e]) = Datatypes.S (length l1)) by (rewrite app_length; cbn; lia).
      assert (Hap : (Q ++ [e]) ++ t = Q ++ e :: t) by (rewrite <- app_assoc; reflexivity).
      destruct (memb e Q) eqn:Em.
      + rewrite Hst. apply memb_In in Em. split; [|discriminate].
        intros Hnd. apply NoDup_app_iff in Hnd. exfalso. apply (proj2 (proj2 Hnd) e); cbn; auto.
      + apply memb_nIn in Em. destruct Hst as (s1 & -> & HI1 & HF1).
        destruct (IH (l1 ++ [e]) (Q ++ [e]) s1 Hl' HI1 HF1) as [IHa IHb].
        rewrite Hlen, Hap in *. split; [exact IHa|].
        intros s' HQ. apply IHb. apply NoDup_app_iff. repeat split; auto.
        * repeat constructor; auto.
        * intros x Hx [->|[]]; auto.
  Qed.

  Lemma move_item_nd i Q s : i < length ND -> Inv 0 Q [] s -> fresh_from 0 s ->
    (NoDup (Q ++ ch_kids (Sat i)) -> exists s', move_item s i = Some s' /\ Inv 0 (Q ++ ch_kids (Sat i)) [] s' /\ fresh_from 0 s') /\
    (forall s', NoDup Q -> move_item s i = Some s' -> NoDup (Q ++ ch_kids (Sat i))).
  Proof.
    intros Hi HI HF. unfold move_item.
    assert (HiS : i < length S) by (unfold S; rewrite app_length; lia).
    rewrite (HF i) by lia. cbn [cl_len cell_of].
    apply (inner_nd i Hi (ch_kids (Sat i)) [] Q s); auto.
  Qed.

  Lemma outer_nd : forall l2 l1 Q s, ND = l1 ++ l2 -> Inv 0 Q [] s -> fresh_from 0 s ->
    (NoDup (Q ++ flat_map ch_kids l2) -> exists s',
       fold_opt move_item (seq (length l1) (length l2)) s = Some s' /\
       Inv 0 (Q ++ flat_map ch_kids l2) [] s' /\ fresh_from 0 s') /\
    (forall s', NoDup Q -> fold_opt move_item (seq (length l1) (length l2)) s = Some s' ->
       NoDup (Q ++ flat_map ch_kids l2)).
  Proof.
    induction l2 as [|ch t IH]; intros l1 Q s Hl HI HF; cbn [length seq fold_opt flat_map].
    - rewrite app_nil_r. split; [intros _; eauto|auto].
    - assert (Hi : length l1 < length ND) by (rewrite Hl, app_length; cbn; lia).
      assert (Hs : Sat (length l1) = ch).
      { rewrite Sat_ND by auto. rewrite Hl, app_nth2, Nat.sub_diag by lia. reflexivity. }
      destruct (move_item_nd _ Q s Hi HI HF) as [Ha Hb]. rewrite Hs in *.
      assert (Hl' : ND = (l1 ++ [ch]) ++ t) by (rewrite <- app_assoc; exact Hl).
      assert (Hlen : length (l1 ++ [ch]) = Datatypes.S (length l1)) by (rewrite app_length; cbn; lia).
      rewrite app_assoc. split.
      + intros Hnd. assert (Hnd' := Hnd). apply NoDup_app_iff in Hnd'. destruct Hnd' as (Hnd1 & _).
        destruct (Ha Hnd1) as (s1 & -> & HI1 & HF1).
        destruct (IH (l1 ++ [ch]) _ s1 Hl' HI1 HF1) as [IHa _]. rewrite Hlen in IHa. auto.
      + intros s' HQ. destruct (move_item s (length l1)) as [s1|] eqn:E; [|discriminate].
        assert (Hnd1 := Hb s1 HQ eq_refl). destruct (Ha Hnd1) as (s1' & E1 & HI1 & HF1).
        injection E1 as <-. destruct (IH (l1 ++ [ch]) _ s1 Hl' HI1 HF1) as [_ IHb].
        rewrite Hlen in IHb. exact (IHb s' Hnd1).
  Qed.

  (* ---------------------------------------------------------- phase 2: delete items *)
  Let QN := flat_map ch_kids ND.

  Lemma type_ND i : i < length S -> ch_type (Sat i) <> CDelete -> i < length ND.
  Proof.
    intros Hi Ht. destruct (Nat.lt_ge_cases i (length ND)) as [|Hge]; auto.
    exfalso. apply Ht. rewrite Sat_DL by auto. apply HDL, nth_In.
    unfold S in Hi. rewrite app_length in Hi. lia.
  Qed.
  Lemma type_DL i : length ND <= i -> i < length S -> ch_type (Sat i) = CDelete.
  Proof.
    intros Hge Hi. rewrite Sat_DL by auto. apply HDL, nth_In.
    unfold S in Hi. rewrite app_length in Hi. lia.
  Qed.
  Lemma N_QN e : In e N -> In e QN.
  Proof.
    unfold N. rewrite kids_of_In. intros (ch & H & Ht & He). unfold S in H. apply in_app_iff in H.
    apply in_flat_map. exists ch. destruct H as [H|H]; auto. apply HDL in H. congruence.
  Qed.
  Lemma QN_split e : In e QN -> In e N \/ In e Dy.
  Proof.
    intros H. apply in_flat_map in H. destruct H as (ch & H & He).
    unfold N, Dy. rewrite !kids_of_In. unfold S.
    destruct (HND ch H); [left|right]; exists ch; rewrite in_app_iff; auto.
  Qed.

  Hypothesis HQN : NoDup QN.

  Lemma owner_new i e : i < length S -> ch_type (Sat i) <> CDelete -> In e (ch_kids (Sat i)) ->
    (In e N <-> ch_type (Sat i) = CNew).
  Proof.
    intros Hi Ht He. assert (Hi' := type_ND _ Hi Ht).
    rewrite Sat_ND in * by auto. split.
    - unfold N. rewrite kids_of_In. intros (ch & H & Htc & Hec).
      unfold S in H. apply in_app_iff in H. destruct H as [H|H]; [|apply HDL in H; congruence].
      apply (In_nth _ _ dch) in H. destruct H as (j & Hj & <-).
      assert (i = j) as -> by (eapply nodup_owner; eassumption). exact Htc.
    - intros E. unfold N. rewrite kids_of_In. exists (nth i ND dch).
      split; auto. unfold S. apply in_app_iff. left. now apply nth_In.
  Qed.

  Lemma extra_of_owner i e : i < length S -> ch_type (Sat i) = CNew -> In e (ch_kids (Sat i)) ->
    extra_of e = [mkChange CDirty (ch_parent (Sat i)) (ch_key (Sat i)) [e]].
  Proof.
    intros Hi Ht He. unfold extra_of.
    destruct (find (has_new e) S) as [ch|] eqn:E.
    - apply find_some in E. destruct E as [H1 H2]. unfold has_new in H2.
      apply andb_true_iff in H2. destruct H2 as [H2 H3]. apply ct_eqb_eq in H2. apply memb_In in H3.
      unfold S in H1. apply in_app_iff in H1. destruct H1 as [H1|H1]; [|apply HDL in H1; congruence].
      apply (In_nth _ _ dch) in H1. destruct H1 as (j & Hj & <-).
      assert (Hi' : i < length ND) by (apply type_ND; congruence).
      rewrite Sat_ND in * by auto.
      assert (i = j) as -> by (eapply nodup_owner; eassumption). reflexivity.
    - exfalso. eapply find_none in E; [|apply nth_In; exact Hi].
      unfold has_new in E. rewrite Ht in E. cbn in E. apply memb_nIn in E. auto.
  Qed.
  Lemma extra_of_notN e : ~ In e N -> extra_of e = [].
  Proof.
    intros H. unfold extra_of. destruct (find (has_new e) S) as [ch|] eqn:E; [|reflexivity].
    apply find_some in E. destruct E as [H1 H2]. unfold has_new in H2. apply andb_true_iff in H2.
    destruct H2 as [H2 H3]. apply ct_eqb_eq in H2. apply memb_In in H3.
    exfalso. apply H. unfold N. apply kids_of_In. eauto.
  Qed.



  (** Effect of reading element [e] in delete item [i]. *)
  Lemma step_dl P s i j e : Inv i QN P s -> length ND <= i -> i < length S ->
    nth j (cl_arr (cell_at (ms_cells s) i)) 0 = e -> In e (ch_kids (Sat i)) ->
    ~ In e P -> ~ In e Dy ->
    exists s', move_step i s j = Some s' /\ Inv i QN (P ++ [e]) s' /\
      cell_at (ms_cells s') i = (if memb e N then cell_remove e (cell_at (ms_cells s) i) else cell_at (ms_cells s) i) /\
      (forall i', i < i' -> i' < length S -> cell_at (ms_cells s') i' = cell_at (ms_cells s) i').
  Proof.
    intros HI Hge HiS Hj He HnP HnDy.
    assert (Ht : ch_type (Sat i) = CDelete) by (apply type_DL; auto).
    unfold move_step. rewrite Hj.
    destruct (memb e N) eqn:EN.
    - apply memb_In in EN. destruct (i_inQ _ _ _ _ HI e HnP (N_QN _ EN)) as (pi & Hseen & Hpi & Hpt & Hpe).
      rewrite Hseen. destruct (i_fields _ _ _ _ HI pi Hpi) as (Hf1 & Hf2 & Hf3).
      destruct (i_fields _ _ _ _ HI i HiS) as (Hg1 & _).
      assert (HN' := EN). rewrite owner_new in HN' by eassumption.
      assert (Hpi' : pi < length ND) by (apply type_ND; auto).
      rewrite Hf1, HN', Hg1, Ht. eexists. split; [reflexivity|].
      split.
      + destruct HI as [I1 I8 I2 I7 I3 I4 I5 I6].
        constructor; cbn [ms_cells ms_extra ms_seen seen_at].
        * now rewrite !upd_nth_length.
        * intros i0 Hi0. rewrite cell_at_upd by (rewrite upd_nth_length; lia). rewrite cell_at_upd by lia.
          destruct (Nat.eqb i0 pi), (Nat.eqb i0 i); cbn [cl_type cl_parent cl_key cell_remove]; auto.
        * intros i0 Hi0 Hc0. rewrite cell_at_upd by (rewrite upd_nth_length; lia). rewrite cell_at_upd by lia.
          assert (E0 := I2 i0 Hi0 Hc0).
          destruct (I8 i0 Hi0) as (F1 & F2 & F3).
          destruct (Nat.eqb_spec i0 pi) as [Heq|Hne1]; [rewrite Heq in *|].
          { destruct (Nat.eqb_spec pi i) as [->|]; [lia|].
            rewrite change_of_remove, E0, F1, F2, F3. unfold strip; cbn [ch_kids ch_type ch_parent ch_key].
            rewrite HN'. f_equal. rewrite filter_filter. apply filter_ext. intros x.
            rewrite memb_app. cbn. rewrite orb_false_r. destruct (memb x P), (Nat.eqb x e); reflexivity. }
          destruct (Nat.eqb_spec i0 i) as [->|Hne2]; [lia|].
          rewrite E0. unfold strip.
          assert (Hnot : ~ In e (ch_kids (Sat i0)) \/ ch_type (Sat i0) = CDirty).
          { destruct (in_dec Nat.eq_dec e (ch_kids (Sat i0))) as [Hin|]; [|auto].
            destruct (Nat.lt_ge_cases i0 (length ND)) as [Hlt|Hge0].
            - exfalso. apply Hne1. apply (nodup_owner ND i0 pi e); auto.
              + rewrite Sat_ND in Hin by auto; auto.
              + rewrite Sat_ND in Hpe by auto; auto.
            - exfalso. apply HnP. apply (I7 i0); auto. lia. }
          f_equal. destruct Hnot as [Hnot | -> ]; [|reflexivity].
          destruct (ch_type (Sat i0)); auto; apply filter_ext_in; intros x Hx; rewrite memb_app; cbn;
            rewrite orb_false_r; destruct (Nat.eqb_spec x e) as [->|]; try tauto; now rewrite orb_false_r.
        * intros i0 Hi0 Hc0. apply incl_appl, I7; auto.
        * rewrite I3, flat_map_app. cbn [flat_map]. rewrite app_nil_r.
          rewrite (extra_of_owner pi e) by auto. now rewrite Hf2, Hf3.
        * intros e' Hin. apply in_app_iff in Hin. cbn in Hin.
          destruct (Nat.eqb_spec e' e) as [->|Hne]; [exists i; auto|]. apply I4. intuition congruence.
        * intros e' Hn. rewrite in_app_iff in Hn. cbn in Hn.
          destruct (Nat.eqb_spec e' e) as [->|Hne]; [tauto|]. intros Hq. apply I5; auto.
        * intros e' Hn Hq. rewrite in_app_iff in Hn. cbn in Hn.
          destruct (Nat.eqb_spec e' e) as [->|Hne]; [tauto|]. apply I6; auto.
      + cbn [ms_cells].
        assert (HL := i_len _ _ _ _ HI). split.
        * rewrite cell_at_upd by (rewrite upd_nth_length; lia). rewrite cell_at_upd by lia.
          destruct (Nat.eqb_spec i pi); [lia|]. now rewrite Nat.eqb_refl.
        * intros i' Hlt Hi'. rewrite cell_at_upd by (rewrite upd_nth_length; lia). rewrite cell_at_upd by lia.
          destruct (Nat.eqb_spec i' pi); [lia|]. destruct (Nat.eqb_spec i' i); [lia|]. reflexivity.
    - apply memb_nIn in EN.
      assert (HnQ : ~ In e QN) by (intros Hq; apply QN_split in Hq; tauto).
      rewrite (i_out _ _ _ _ HI e HnP HnQ). eexists. split; [reflexivity|].
      split; [|auto]. destruct HI as [I1 I8 I2 I7 I3 I4 I5 I6].
      constructor; cbn [ms_cells ms_extra ms_seen seen_at]; auto.
      + intros i0 Hi0 Hc0. rewrite I2 by auto. unfold strip. f_equal.
        destruct (ch_type (Sat i0)) eqn:E0; auto; apply filter_ext_in; intros x Hx; rewrite memb_app; cbn;
          rewrite orb_false_r; destruct (Nat.eqb_spec x e) as [->|]; try now rewrite orb_false_r.
        * exfalso. apply EN. unfold N. apply kids_of_In. exists (Sat i0). split; [now apply nth_In|auto].
        * apply memb_nIn in EN. rewrite EN. reflexivity.
      + intros i0 Hi0 Hc0. apply incl_appl, I7; auto.
      + rewrite I3, flat_map_app. cbn. rewrite app_nil_r, extra_of_notN by auto. now rewrite app_nil_r.
      + intros e' Hin. apply in_app_iff in Hin. cbn in Hin.
        destruct (Nat.eqb_spec e' e) as [->|Hne]; [exists i; auto|]. apply I4. intuition congruence.
      + intros e' Hn. rewrite in_app_iff in Hn. cbn in Hn.
        destruct (Nat.eqb_spec e' e) as [->|Hne]; [tauto|]. intros Hq. apply I5; auto.
      + intros e' Hn Hq. rewrite in_app_iff in Hn. cbn in Hn.
        destruct (Nat.eqb_spec e' e) as [->|Hne]; [tauto|]. apply I6; auto.
  Qed.

  Lemma owner_dirty i e : i < length S -> ch_type (Sat i) <> CDelete -> In e (ch_kids (Sat i)) ->
    In e Dy -> ch_type (Sat i) = CDirty.
  Proof.
    intros Hi Ht He. assert (Hi' := type_ND _ Hi Ht).
    rewrite Sat_ND in * by auto.
    unfold Dy. rewrite kids_of_In. intros (ch & H & Htc & Hec).
    unfold S in H. apply in_app_iff in H. destruct H as [H|H]; [|apply HDL in H; congruence].
    apply (In_nth _ _ dch) in H. destruct H as (j & Hj & <-).
    assert (i = j) as -> by (eapply nodup_owner; eassumption). exact Htc.
  Qed.
  Lemma Dy_QN e : In e Dy -> In e QN.
  Proof.
    unfold Dy. rewrite kids_of_In. intros (ch & H & Ht & He). unfold S in H. apply in_app_iff in H.
    apply in_flat_map. exists ch. destruct H as [H|H]; auto. apply HDL in H. congruence.
  Qed.

  Lemma step_bad P s i j e : Inv i QN P s -> i < length S ->
    nth j (cl_arr (cell_at (ms_cells s) i)) 0 = e -> In e P \/ In e Dy -> move_step i s j = None.
  Proof.
    intros HI Hi Hj Hb. unfold move_step. rewrite Hj.
    destruct (in_dec Nat.eq_dec e P) as [HP|HP].
    - destruct (i_inP _ _ _ _ HI e HP) as (pi & -> & Hpi & Ht).
      destruct (i_fields _ _ _ _ HI pi Hpi) as (-> & _). now rewrite Ht.
    - destruct Hb as [Hb|Hb]; [tauto|].
      destruct (i_inQ _ _ _ _ HI e HP (Dy_QN _ Hb)) as (pi & -> & Hpi & Ht & He).
      destruct (i_fields _ _ _ _ HI pi Hpi) as (-> & _).
      now rewrite (owner_dirty pi e Hpi Ht He Hb).
  Qed.

  Section Item.
    Variable i : nat.
    Hypothesis Hge : length ND <= i.
    Hypothesis Hi : i < length S.
    Let L := ch_kids (Sat i).

    (** elements that are not moved *)
    Lemma prefix_loop rest : forall l2 l1 P s, L = l1 ++ l2 ++ rest ->
      (forall e, In e l2 -> ~ In e N) -> Inv i QN P s -> fresh_from i s ->
      ((forall e, In e l2 -> ~ In e P /\ ~ In e Dy) -> exists s',
          fold_opt (move_step i) (seq (length l1) (length l2)) s = Some s' /\
          Inv i QN (P ++ l2) s' /\ fresh_from i s') /\
      (forall s', fold_opt (move_step i) (seq (length l1) (length l2)) s = Some s' ->
          forall e, In e l2 -> ~ In e P /\ ~ In e Dy).
    Proof.
      induction l2 as [|e t IH]; intros l1 P s HL HnN HI HF; cbn [length seq fold_opt].
      - rewrite app_nil_r. split; [eauto|]. intros s' _ e [].
      - assert (Hrd : nth (length l1) (cl_arr (cell_at (ms_cells s) i)) 0 = e).
        { rewrite (HF i) by lia. cbn [cl_arr cell_of]. fold L. rewrite HL, app_nth2, Nat.sub_diag by lia. reflexivity. }
        assert (Hin : In e (ch_kids (Sat i))) by (fold L; rewrite HL; apply in_elt).
        assert (HndL : NoDup L) by (apply Hkids, nth_In; exact Hi).
        assert (Hne : forall x, In x t -> x <> e).
        { intros x Hx ->. rewrite HL in HndL. apply NoDup_app_iff in HndL. destruct HndL as (_ & H2 & _).
          cbn in H2. apply NoDup_cons_iff in H2. apply (proj1 H2), in_app_iff. auto. }
        assert (HL' : L = (l1 ++ [e]) ++ t ++ rest) by (rewrite <- app_assoc; exact HL).
        assert (Hlen : length (l1 ++ [e]) = Datatypes.S (length l1)) by (rewrite app_length; cbn; lia).
        assert (Hap : (P ++ [e]) ++ t = P ++ e :: t) by (rewrite <- app_assoc; reflexivity).
        destruct (in_dec Nat.eq_dec e P) as [HP|HP].
        { rewrite (step_bad P s i _ e HI Hi Hrd) by auto. split; [|discriminate].
          intros H. destruct (H e (or_introl eq_refl)). tauto. }
        destruct (in_dec Nat.eq_dec e Dy) as [HD|HD].
        { rewrite (step_bad P s i _ e HI Hi Hrd) by auto. split; [|discriminate].
          intros H. destruct (H e (or_introl eq_refl)). tauto. }
        destruct (step_dl P s i (length l1) e HI Hge Hi Hrd Hin HP HD) as (s1 & -> & HI1 & Hc1 & Hc2).
        assert (HeN : memb e N = false) by (apply memb_nIn, HnN; now left). rewrite HeN in Hc1.
        assert (HF1 : fresh_from i s1).
        { intros j Hj1 Hj2. destruct (Nat.eq_dec j i) as [->|]; [rewrite Hc1|rewrite Hc2 by lia]; apply HF; auto. }
        destruct (IH (l1 ++ [e]) (P ++ [e]) s1 HL') as [IHa IHb]; auto.
        { intros x Hx. apply HnN. now right. }
        rewrite Hlen, Hap in *. split.
        + intros H. apply IHa. intros x Hx. rewrite in_app_iff. cbn.
          destruct (H x (or_intror Hx)) as [H1 H2]. split; auto.
          intros [|[->|[]]]; [tauto|]. eapply Hne; eauto.
        + intros s' Hs' x [<-|Hx]; [tauto|]. destruct (IHb s' Hs' x Hx) as [H1 H2].
          rewrite in_app_iff in H1. tauto.
    Qed.

    (** after a moved element with two successors the loop fails *)
    Lemma step_weak s j s' : i < length (ms_cells s) -> cl_type (cell_at (ms_cells s) i) = CDelete ->
      move_step i s j = Some s' ->
      length (ms_cells s') = length (ms_cells s) /\
      seen_at (ms_seen s') (nth j (cl_arr (cell_at (ms_cells s) i)) 0) = Some i /\
      (cell_at (ms_cells s') i = cell_at (ms_cells s) i \/
       exists e, cell_at (ms_cells s') i = cell_remove e (cell_at (ms_cells s) i)).
    Proof.
      intros Hl Ht. unfold move_step. set (e := nth j (cl_arr (cell_at (ms_cells s) i)) 0).
      destruct (seen_at (ms_seen s) e) as [pi|] eqn:E.
      - rewrite Ht. destruct (cl_type (cell_at (ms_cells s) pi)) eqn:Ept; try discriminate.
        intros [= <-]. cbn [ms_cells ms_seen seen_at]. rewrite !upd_nth_length, Nat.eqb_refl.
        split; auto. split; auto. right. exists e.
        rewrite cell_at_upd by (rewrite upd_nth_length; lia). rewrite cell_at_upd by lia.
        destruct (Nat.eqb_spec i pi) as [->|]; [congruence|]. now rewrite Nat.eqb_refl.
      - intros [= <-]. cbn [ms_cells ms_seen seen_at]. rewrite Nat.eqb_refl. auto.
    Qed.

    Definition doomed (n : nat) (x : ptr) (c : cell) : Prop :=
      cl_type c = CDelete /\ length (cl_arr c) = n /\ cl_len c <= n - 1 /\
      nth (n - 2) (cl_arr c) 0 = x /\ nth (n - 1) (cl_arr c) 0 = x.
    Lemma doomed_remove n x e c : 2 <= n -> doomed n x c -> doomed n x (cell_remove e c).
    Proof.
      intros Hn (H1 & H2 & H3 & H4 & H5). unfold cell_remove.
      set (kept := filter (fun x => negb (Nat.eqb x e)) (firstn (cl_len c) (cl_arr c))).
      assert (Hk : length kept <= cl_len c).
      { unfold kept. etransitivity; [apply filter_len|]. rewrite firstn_length. lia. }
      assert (Harr : length (kept ++ skipn (length kept) (cl_arr c)) = n).
      { rewrite app_length, skipn_length. lia. }
      destruct (Nat.eq_dec (length kept) (cl_len c)) as [E|E].
      - assert (Hfull : kept = firstn (cl_len c) (cl_arr c)).
        { apply filter_full. rewrite firstn_length, Nat.min_l by lia. exact E. }
        assert (Hsame : kept ++ skipn (length kept) (cl_arr c) = cl_arr c).
        { rewrite E, Hfull. apply firstn_skipn. }
        rewrite Hsame. repeat split; cbn; auto. lia.
      - repeat split; cbn [cl_type cl_arr cl_len]; auto; try lia.
        + rewrite nth_skipn_tail by (unfold ptr in *; lia); auto.
        + rewrite nth_skipn_tail by (unfold ptr in *; lia); auto.
    Qed.

    Lemma doomed_fails n x : 2 <= n -> forall m j s, i < length (ms_cells s) ->
      doomed n x (cell_at (ms_cells s) i) -> j + Datatypes.S (Datatypes.S m) = n ->
      fold_opt (move_step i) (seq j (Datatypes.S (Datatypes.S m))) s = None.
    Proof.
      intros Hn. induction m as [|m IH]; intros j s Hl HD Hjm; cbn [seq fold_opt].
      - destruct (move_step i s j) as [s1|] eqn:E; [|reflexivity].
        destruct (step_weak _ _ _ Hl (proj1 HD) E) as (Hl1 & Hs1 & Hc1).
        assert (HD1 : doomed n x (cell_at (ms_cells s1) i)).
        { destruct Hc1 as [-> | (e & ->)]; auto using doomed_remove. }
        assert (Hx : seen_at (ms_seen s1) x = Some i).
        { destruct HD as (_ & _ & _ & H4 & _). replace j with (n - 2) in Hs1 by lia. now rewrite H4 in Hs1. }
        destruct HD1 as (T & _ & _ & _ & H5). replace (Datatypes.S j) with (n - 1) by lia.
        unfold move_step at 1. rewrite H5, Hx, T. reflexivity.
      - destruct (move_step i s j) as [s1|] eqn:E; [|reflexivity].
        destruct (step_weak _ _ _ Hl (proj1 HD) E) as (Hl1 & Hs1 & Hc1).
        apply (IH (Datatypes.S j) s1); [lia| |lia].
        destruct Hc1 as [-> | (e & ->)]; auto using doomed_remove.
    Qed.

    Lemma doomed_init l1 e l2 : L = l1 ++ e :: l2 -> 2 <= length l2 ->
      doomed (length L) (last l2 0) (cell_remove e (cell_of (Sat i))).
    Proof.
      intros HL Hl2. assert (HndL : NoDup L) by (apply Hkids, nth_In; exact Hi).
      unfold cell_remove, cell_of; cbn [cl_arr cl_len cl_type cl_parent cl_key]. fold L. rewrite firstn_all.
      assert (Hk : filter (fun x => negb (Nat.eqb x e)) L = l1 ++ l2).
      { rewrite HL in HndL |- *. apply NoDup_app_iff in HndL. destruct HndL as (_ & H2 & H3).
        apply NoDup_cons_iff in H2. destruct H2 as [H2 _].
        rewrite filter_app. cbn. rewrite Nat.eqb_refl. cbn.
        rewrite !filter_id; auto; intros x Hx; apply negb_true_iff, Nat.eqb_neq; intros ->; auto.
        apply (H3 e); cbn; auto. }
      rewrite Hk.
      assert (HlL : length L = length l1 + length l2 + 1) by (rewrite HL, app_length; cbn; lia).
      assert (Hlast : forall d, nth (length l2 - 1) l2 d = last l2 0).
      { clear - Hl2. destruct (exists_last (l:=l2)) as (u & z & ->); [intros ->; cbn in *; lia|].
        intros d. rewrite last_last, app_length, app_nth2; cbn; [|lia].
        replace (length u + 1 - 1 - length u) with 0 by lia. reflexivity. }
      repeat split; cbn [cl_type cl_arr cl_len].
      - now apply type_DL.
      - rewrite app_length, skipn_length, app_length. lia.
      - rewrite app_length. lia.
      - rewrite app_nth1 by (rewrite app_length; lia). rewrite app_nth2 by lia.
        replace (length L - 2 - length l1) with (length l2 - 1) by lia. apply Hlast.
      - rewrite nth_skipn_tail by (rewrite app_length; lia).
        rewrite HL at 2. rewrite app_nth2 by lia. 
        replace (length L - 1 - length l1) with (Datatypes.S (length l2 - 1)) by lia. cbn [nth]. apply Hlast.
    Qed.

    Definition item_ok (P : list ptr) : Prop :=
      (forall e, In e L -> ~ In e P /\ ~ In e Dy) /\
      (forall e, In e L -> In e N -> near_end e L).

    Lemma first_moved (l : list ptr) : (forall e, In e l -> ~ In e N) \/
      exists l1 e l2, l = l1 ++ e :: l2 /\ In e N /\ (forall x, In x l1 -> ~ In x N).
    Proof.
      induction l as [|a t IH]; [left; intros e []|].
      destruct (in_dec Nat.eq_dec a N) as [Ha|Ha].
      - right. exists [], a, t. split; [reflexivity|]. split; [exact Ha|]. intros x [].
      - destruct IH as [IH|(l1 & e & l2 & -> & H1 & H2)].
        + left. intros e [<-|H]; auto.
        + right. exists (a :: l1), e, l2. split; auto. split; auto. intros x [<-|H]; auto.
    Qed.

    Lemma strip_final P : (forall e, In e L -> ~ In e P) -> forall kids,
      kids = filter (fun x => negb (memb x N)) L ->
      mkChange (ch_type (Sat i)) (ch_parent (Sat i)) (ch_key (Sat i)) kids = strip (P ++ L) (Sat i).
    Proof.
      intros HP kids ->. unfold strip. rewrite type_DL by auto. f_equal. apply filter_ext_in. intros x Hx.
      assert (memb x (P ++ L) = true) as -> by (apply memb_In, in_app_iff; auto). now rewrite andb_true_r.
    Qed.

    (** closing an item: [Inv] moves on to the next one *)
    Lemma Inv_next P s : Inv i QN (P ++ L) s ->
      change_of (cell_at (ms_cells s) i) = strip (P ++ L) (Sat i) -> Inv (Datatypes.S i) QN (P ++ L) s.
    Proof.
      intros [I1 I8 I2 I7 I3 I4 I5 I6] Hc. constructor; auto.
      - intros i0 H1 H2. destruct (Nat.eq_dec i0 i) as [->|]; [exact Hc|]. apply I2; auto. lia.
      - intros i0 H1 H2. destruct (Nat.eq_dec i0 i) as [->|]; [apply incl_appr, incl_refl|].
        apply I7; auto. lia.
    Qed.

    Lemma move_item_dl P s : Inv i QN P s -> fresh_from i s ->
      (item_ok P -> exists s', move_item s i = Some s' /\ Inv (Datatypes.S i) QN (P ++ L) s' /\
                               fresh_from (Datatypes.S i) s') /\
      (forall s', move_item s i = Some s' -> item_ok P).
    Proof.
      intros HI HF. unfold move_item.
      rewrite (HF i) by lia. cbn [cl_len cell_of]. fold L.
      assert (HndL : NoDup L) by (apply Hkids, nth_In; exact Hi).
      destruct (first_moved L) as [Hno|(l1 & e & l2 & HL & HeN & Hl1)].
      - destruct (prefix_loop [] L [] P s) as [Ha Hb]; auto. { now rewrite app_nil_r. }
        cbn [length] in *. split.
        + intros [H1 _]. destruct (Ha H1) as (s' & E & HI' & HF'). exists s'. split; auto.
          split; [|intros j Hj1 Hj2; apply HF'; lia]. apply Inv_next; auto.
          rewrite (HF' i) by lia. rewrite change_of_cell_of.
          rewrite <- (strip_final P) with (kids := L); [|intros x Hx; apply H1; auto|].
          * unfold L. now destruct (Sat i).
          * symmetry. apply filter_id. intros x Hx. apply negb_true_iff, memb_nIn, Hno, Hx.
        + intros s' E. split; [apply (Hb s' E)|]. intros x Hx HN. exfalso. eapply Hno; eauto.
      - assert (HlL : length L = length l1 + Datatypes.S (length l2)) by (rewrite HL, app_length; reflexivity).
        rewrite HlL, seq_app, fold_opt_app. cbn [Nat.add].
        destruct (prefix_loop (e :: l2) l1 [] P s) as [Ha Hb]; auto.
        cbn [length] in Ha, Hb.
        assert (Hdis : NoDup l1 /\ NoDup (e :: l2) /\ (forall x, In x l1 -> ~ In x (e :: l2))).
        { apply NoDup_app_iff. now rewrite <- HL. }
        destruct Hdis as (Hd1 & Hd2 & Hd3). apply NoDup_cons_iff in Hd2. destruct Hd2 as [Hd2 Hd2'].
        assert (Hstart : (forall x, In x l1 -> ~ In x P /\ ~ In x Dy) -> exists s1,
          fold_opt (move_step i) (seq 0 (length l1)) s = Some s1 /\
          Inv i QN (P ++ l1) s1 /\ fresh_from i s1 /\
          nth (length l1) (cl_arr (cell_at (ms_cells s1) i)) 0 = e).
        { intros H. destruct (Ha H) as (s1 & E1 & HI1 & HF1). exists s1. split; auto. split; auto. split; auto.
          rewrite (HF1 i) by lia. cbn. fold L. rewrite HL, app_nth2, Nat.sub_diag by lia. reflexivity. }
        assert (Hin : In e (ch_kids (Sat i))) by (fold L; rewrite HL; apply in_elt).
        (* the step of e *)
        assert (Hstep : forall s1, Inv i QN (P ++ l1) s1 -> fresh_from i s1 ->
            nth (length l1) (cl_arr (cell_at (ms_cells s1) i)) 0 = e ->
            (In e P \/ In e Dy) /\ move_step i s1 (length l1) = None \/
            (~ In e P /\ ~ In e Dy /\ exists s2, move_step i s1 (length l1) = Some s2 /\
               Inv i QN ((P ++ l1) ++ [e]) s2 /\
               cell_at (ms_cells s2) i = cell_remove e (cell_of (Sat i)) /\
               fresh_from (Datatypes.S i) s2)).
        { intros s1 HI1 HF1 Hrd.
          destruct (in_dec Nat.eq_dec e P) as [HP|HP].
          { left. split; auto. eapply step_bad; eauto. left. apply in_app_iff. auto. }
          destruct (in_dec Nat.eq_dec e Dy) as [HD|HD].
          { left. split; auto. eapply step_bad; eauto. }
          right. split; auto. split; auto.
          destruct (step_dl (P ++ l1) s1 i (length l1) e HI1 Hge Hi Hrd Hin) as (s2 & E2 & HI2 & Hc1 & Hc2); auto.
          { rewrite in_app_iff. intros [|Hx]; [tauto|]. apply (Hd3 e Hx). now left. }
          exists s2. split; auto. split; auto. assert (HeN' := HeN). apply memb_In in HeN'. rewrite HeN' in Hc1.
          rewrite (HF1 i) in Hc1 by lia. split; auto.
          intros j Hj1 Hj2. rewrite Hc2 by lia. apply HF1; lia. }
        assert (Hnear : forall l2', l2' = l2 -> length l2' <= 1 -> forall x, In x L -> In x N -> near_end x L).
        { intros l2' -> Hle x Hx HxN a b Hab. rewrite HL in Hx. apply in_app_iff in Hx.
          destruct Hx as [Hx|Hx]; [exfalso; eapply Hl1; eauto|].
          assert (Hlen : length a + Datatypes.S (length b) = length l1 + Datatypes.S (length l2)).
          { rewrite <- HlL, Hab, app_length. reflexivity. }
          destruct (Nat.le_gt_cases (length b) 1) as [|Hgt]; auto. exfalso.
          (* x would sit in l1 *)
          assert (Hxl1 : In x l1).
          { assert (nth (length a) L 0 = x) by (rewrite Hab, app_nth2, Nat.sub_diag by lia; reflexivity).
            rewrite HL, app_nth1 in H by lia. rewrite <- H. apply nth_In. lia. }
          eapply Hl1; eauto. }
        destruct l2 as [|b [|c l2]].
        + (* e is the last one *)
          cbn [seq fold_opt length]. split.
          * intros [H1 H2].
            destruct Hstart as (s1 & -> & HI1 & HF1 & Hrd).
            { intros x Hx. apply H1. rewrite HL. apply in_app_iff. auto. }
            destruct (Hstep s1 HI1 HF1 Hrd) as [[Hbad _]|(_ & _ & s2 & -> & HI2 & Hc & HF2)].
            { destruct (H1 e) as [? ?]; [rewrite HL; apply in_elt|]. tauto. }
            exists s2. split; auto. rewrite <- app_assoc, <- HL in HI2. split; auto.
            apply Inv_next; auto. rewrite Hc, change_of_remove, change_of_cell_of. cbn [cl_type cl_parent cl_key cell_of].
            apply strip_final; [intros x Hx; apply H1; auto|].
            fold L. apply filter_ext_in. intros x Hx. f_equal.
            rewrite HL in Hx. apply in_app_iff in Hx. cbn in Hx.
            destruct (Nat.eqb_spec x e) as [->|Hne]; symmetry; [now apply memb_In|].
            apply memb_nIn. destruct Hx as [Hx|[Hx|[]]]; [auto|congruence].
          * intros s' E. destruct (fold_opt (move_step i) (seq 0 (length l1)) s) as [s1|] eqn:E1; [|discriminate].
            assert (Hl1ok := Hb s1 eq_refl). destruct (Hstart Hl1ok) as (s1' & E1' & HI1 & HF1 & Hrd).
            injection E1' as <-. destruct (Hstep s1 HI1 HF1 Hrd) as [[_ Hnone]|(Hx1 & Hx2 & _)].
            { now rewrite Hnone in E. }
            split; [|apply (Hnear []); auto]. intros x Hx. rewrite HL in Hx. apply in_app_iff in Hx. cbn in Hx.
            destruct Hx as [Hx|[<-|[]]]; auto.
        + (* one successor *)
          cbn [seq fold_opt length].
          assert (Hnb : b <> e) by (intros ->; apply Hd2; now left).
          assert (Hrd2 : forall s2, cell_at (ms_cells s2) i = cell_remove e (cell_of (Sat i)) ->
                   nth (Datatypes.S (length l1)) (cl_arr (cell_at (ms_cells s2) i)) 0 = b).
          { intros s2 ->. unfold cell_remove, cell_of; cbn [cl_arr cl_len]. fold L. rewrite firstn_all.
            rewrite nth_skipn_tail.
            - rewrite HL, app_nth2 by lia. replace (Datatypes.S (length l1) - length l1) with 1 by lia. reflexivity.
            - assert (Hk : filter (fun x => negb (Nat.eqb x e)) L = l1 ++ [b]).
              { rewrite HL, filter_app. cbn. rewrite Nat.eqb_refl. cbn.
                destruct (Nat.eqb_spec b e); [tauto|]. cbn. f_equal. apply filter_id.
                intros x Hx. apply negb_true_iff, Nat.eqb_neq. intros ->. apply (Hd3 e Hx). now left. }
              rewrite Hk, app_length. cbn. lia. }
          assert (Hinb : In b (ch_kids (Sat i))) by (fold L; rewrite HL; apply in_app_iff; cbn; auto).
          assert (HbP : ~ In b P -> ~ In b ((P ++ l1) ++ [e])).
          { intros HbP. rewrite !in_app_iff. cbn. intros [[|Hx]|[Hx|[]]]; [tauto| |congruence].
            apply (Hd3 b Hx). cbn. auto. }
          assert (Hstep2 : forall s2, Inv i QN ((P ++ l1) ++ [e]) s2 ->
             cell_at (ms_cells s2) i = cell_remove e (cell_of (Sat i)) -> fresh_from (Datatypes.S i) s2 ->
             (In b P \/ In b Dy) /\ move_step i s2 (Datatypes.S (length l1)) = None \/
             (~ In b P /\ ~ In b Dy /\ exists s3, move_step i s2 (Datatypes.S (length l1)) = Some s3 /\
               Inv i QN (P ++ L) s3 /\
               cell_at (ms_cells s3) i = (if memb b N then cell_remove b (cell_remove e (cell_of (Sat i)))
                                          else cell_remove e (cell_of (Sat i))) /\
               fresh_from (Datatypes.S i) s3)).
          { intros s2 HI2 Hc HF2. specialize (Hrd2 s2 Hc).
            destruct (in_dec Nat.eq_dec b P) as [HP|HP].
            { left. split; auto. eapply step_bad; eauto. left. rewrite !in_app_iff. auto. }
            destruct (in_dec Nat.eq_dec b Dy) as [HD|HD].
            { left. split; auto. eapply step_bad; eauto. }
            right. split; auto. split; auto.
            destruct (step_dl _ s2 i _ b HI2 Hge Hi Hrd2 Hinb) as (s3 & E3 & HI3 & Hc1 & Hc2); auto.
            exists s3. split; auto. rewrite Hc in Hc1. split; [|split; auto].
            - replace (P ++ L) with (((P ++ l1) ++ [e]) ++ [b]); auto. rewrite HL, <- !app_assoc. reflexivity.
            - intros j Hj1 Hj2. rewrite Hc2 by lia. apply HF2; lia. }
          split.
          * intros [H1 H2].
            destruct Hstart as (s1 & -> & HI1 & HF1 & Hrd).
            { intros x Hx. apply H1. rewrite HL. apply in_app_iff. auto. }
            destruct (Hstep s1 HI1 HF1 Hrd) as [[Hbad _]|(_ & _ & s2 & -> & HI2 & Hc & HF2)].
            { destruct (H1 e) as [? ?]; [rewrite HL; apply in_elt|]. tauto. }
            destruct (Hstep2 s2 HI2 Hc HF2) as [[Hbad _]|(_ & _ & s3 & -> & HI3 & Hc3 & HF3)].
            { destruct (H1 b) as [? ?]; [auto|]. tauto. }
            exists s3. split; auto. split; auto.
            apply Inv_next; auto.
            assert (Hfin : forall x, In x L -> memb x N = Nat.eqb x e || (memb b N && Nat.eqb x b)).
            { intros x Hx. rewrite HL in Hx. apply in_app_iff in Hx. cbn in Hx.
              destruct (Nat.eqb_spec x e) as [->|Hne]; [now apply memb_In|]. cbn.
              destruct (Nat.eqb_spec x b) as [->|Hneb]; [now rewrite andb_true_r|].
              rewrite andb_false_r. apply memb_nIn. destruct Hx as [Hx|[Hx|[Hx|[]]]]; [auto|congruence..]. }
            rewrite Hc3. destruct (memb b N) eqn:EbN.
            -- rewrite !change_of_remove, change_of_cell_of. cbn [cl_type cl_parent cl_key cell_of cell_remove ch_kids].
               apply strip_final; [intros x Hx; apply H1; auto|].
               fold L. rewrite filter_filter. apply filter_ext_in. intros x Hx. rewrite Hfin by auto.
               destruct (Nat.eqb x e), (Nat.eqb x b); reflexivity.
            -- rewrite !change_of_remove, change_of_cell_of. cbn [cl_type cl_parent cl_key cell_of cell_remove ch_kids].
               apply strip_final; [intros x Hx; apply H1; auto|].
               fold L. apply filter_ext_in. intros x Hx. rewrite Hfin by auto. now rewrite orb_false_r.
          * intros s' E. destruct (fold_opt (move_step i) (seq 0 (length l1)) s) as [s1|] eqn:E1; [|discriminate].
            assert (Hl1ok := Hb s1 eq_refl). destruct (Hstart Hl1ok) as (s1' & E1' & HI1 & HF1 & Hrd).
            injection E1' as <-. destruct (Hstep s1 HI1 HF1 Hrd) as [[_ Hnone]|(Hx1 & Hx2 & s2 & E2 & HI2 & Hc & HF2)].
            { now rewrite Hnone in E. }
            rewrite E2 in E. destruct (Hstep2 s2 HI2 Hc HF2) as [[_ Hnone]|(Hy1 & Hy2 & _)].
            { now rewrite Hnone in E. }
            split; [|apply (Hnear [b]); auto]. intros x Hx. rewrite HL in Hx. apply in_app_iff in Hx. cbn in Hx.
            destruct Hx as [Hx|[<-|[<-|[]]]]; auto.
        + (* two or more successors: always an error *)
          split.
          * intros [_ H2]. exfalso.
            assert (Hbad := H2 e Hin HeN l1 _ HL). cbn in Hbad. lia.
          * intros s' E. exfalso.
            destruct (fold_opt (move_step i) (seq 0 (length l1)) s) as [s1|] eqn:E1; [|discriminate].
            assert (Hl1ok := Hb s1 eq_refl). destruct (Hstart Hl1ok) as (s1' & E1' & HI1 & HF1 & Hrd).
            injection E1' as <-. destruct (Hstep s1 HI1 HF1 Hrd) as [[_ Hnone]|(Hx1 & Hx2 & s2 & E2 & HI2 & Hc & HF2)].
            { cbn [seq fold_opt length] in E. now rewrite Hnone in E. }
            change (seq (length l1) (Datatypes.S (length (b :: c :: l2)))) with
                   (length l1 :: seq (Datatypes.S (length l1)) (length (b :: c :: l2))) in E.
            cbn [fold_opt] in E. rewrite E2 in E.
            assert (HD := doomed_init l1 e (b :: c :: l2) HL ltac:(cbn; lia)). rewrite <- Hc in HD.
            cbn [length] in E.
            assert (H2L : 2 <= length L) by (rewrite HlL; cbn; lia).
            rewrite (doomed_fails (length L) (last (b :: c :: l2) 0) H2L (length l2) _ s2) in E; [discriminate| |exact HD|].
            -- rewrite (i_len _ _ _ _ HI2). exact Hi.
            -- rewrite HlL. cbn. lia.
    Qed.
  End Item.

  Lemma outer_dl : forall l2 l1 P s, DL = l1 ++ l2 ->
    Inv (length ND + length l1) QN P s -> fresh_from (length ND + length l1) s ->
    ((NoDup (flat_map ch_kids l2) /\ (forall e, In e (flat_map ch_kids l2) -> ~ In e P /\ ~ In e Dy) /\
      (forall ch e, In ch l2 -> In e (ch_kids ch) -> In e N -> near_end e (ch_kids ch))) ->
     exists s', fold_opt move_item (seq (length ND + length l1) (length l2)) s = Some s' /\
       Inv (length S) QN (P ++ flat_map ch_kids l2) s') /\
    (forall s', fold_opt move_item (seq (length ND + length l1) (length l2)) s = Some s' ->
      NoDup (flat_map ch_kids l2) /\ (forall e, In e (flat_map ch_kids l2) -> ~ In e P /\ ~ In e Dy) /\
      (forall ch e, In ch l2 -> In e (ch_kids ch) -> In e N -> near_end e (ch_kids ch))).
  Proof.
    induction l2 as [|ch t IH]; intros l1 P s Hl HI HF; cbn [length seq fold_opt flat_map].
    - rewrite app_nil_r. split.
      + intros _. exists s. split; auto. rewrite app_nil_r in Hl. subst l1.
        unfold S. now rewrite app_length.
      + intros _ _. split; [constructor|]. split; [intros e []|intros ch e []].
    - set (i := length ND + length l1) in *.
      assert (Hge : length ND <= i) by (unfold i; lia).
      assert (Hi : i < length S) by (unfold S, i; rewrite Hl, !app_length; cbn; lia).
      assert (Hs : Sat i = ch).
      { rewrite Sat_DL by auto. unfold i. replace (length ND + length l1 - length ND) with (length l1) by lia.
        rewrite Hl, app_nth2, Nat.sub_diag by lia. reflexivity. }
      assert (HndL : NoDup (ch_kids ch)).
      { apply Hkids. unfold S. apply in_app_iff. right. rewrite Hl. apply in_elt. }
      destruct (move_item_dl i Hge Hi P s HI HF) as [Ha Hb].
      unfold item_ok in Ha, Hb. rewrite Hs in Ha, Hb.
      assert (Hl' : DL = (l1 ++ [ch]) ++ t) by (rewrite <- app_assoc; exact Hl).
      assert (Hlen : length ND + length (l1 ++ [ch]) = Datatypes.S i) by (rewrite app_length; cbn; unfold i; lia).
      split.
      + intros (H1 & H2 & H3). apply NoDup_app_iff in H1. destruct H1 as (H1 & H1' & H1'').
        destruct Ha as (s1 & -> & HI1 & HF1).
        { split; [intros e He; apply H2, in_app_iff; auto|intros e He; apply H3; cbn; auto]. }
        rewrite <- Hlen in HI1, HF1.
        destruct (IH (l1 ++ [ch]) _ s1 Hl' HI1 HF1) as [IHa _]. rewrite Hlen, <- app_assoc in IHa. apply IHa.
        split; auto. split.
        * intros e He. destruct (H2 e) as [Hx Hy]; [apply in_app_iff; auto|]. split; auto.
          rewrite in_app_iff. intros [|Hz]; [tauto|]. eapply H1''; eauto.
        * intros ch' e Hc. apply H3. cbn; auto.
      + intros s' E. destruct (move_item s i) as [s1|] eqn:E1; [|discriminate].
        assert (Hok := Hb s1 eq_refl). destruct (Ha Hok) as (s1' & E1' & HI1 & HF1). injection E1' as <-.
        rewrite <- Hlen in HI1, HF1.
        destruct (IH (l1 ++ [ch]) _ s1 Hl' HI1 HF1) as [_ IHb]. rewrite Hlen in IHb.
        destruct (IHb s' E) as (J1 & J2 & J3). destruct Hok as [O1 O2].
        split; [|split].
        * apply NoDup_app_iff. split; auto. split; auto. intros x Hx Hy. destruct (J2 x Hy) as [Hz _].
          apply Hz, in_app_iff. auto.
        * intros e He. apply in_app_iff in He. destruct He as [He|He]; [auto|].
          destruct (J2 e He) as [Hz Hw]. rewrite in_app_iff in Hz. tauto.
        * intros ch' e [<-|Hc]; auto.
  Qed.
End Moves.

(* ---------------------------------------------------------------- putting it together *)
Lemma isort_split_types chs : (forall ch, In ch chs -> ch_type ch <> CClear) ->
  exists ND DL, isort ct_leb chs = ND ++ DL /\
    (forall ch, In ch ND -> ch_type ch = CNew \/ ch_type ch = CDirty) /\
    (forall ch, In ch DL -> ch_type ch = CDelete).
Proof.
  intros Hnc.
  assert (Hs : StronglySorted (fun a b => ct_leb a b = true) (isort ct_leb chs)).
  { apply isort_sorted; unfold ct_leb; intros x y; [|intros z];
      rewrite ?negb_true_iff, ?Nat.ltb_ge; lia. }
  assert (Hnc' : forall ch, In ch (isort ct_leb chs) -> ch_type ch <> CClear).
  { intros ch H. apply isort_In in H. auto. }
  revert Hnc'. induction Hs as [|a l Hl IH Ha]; intros Hnc'.
  - exists [], []. split; auto. split; intros ch [].
  - destruct (ch_type a) eqn:Et.
    + destruct IH as (ND & DL & -> & H1 & H2); [intros ch H; apply Hnc'; now right|].
      exists (a :: ND), DL. split; auto. split; auto. intros ch [<-|H]; auto.
    + destruct IH as (ND & DL & -> & H1 & H2); [intros ch H; apply Hnc'; now right|].
      exists (a :: ND), DL. split; auto. split; auto. intros ch [<-|H]; auto.
    + exists [], (a :: l). split; auto. split; [intros ch []|].
      intros ch [<-|H]; auto. rewrite Forall_forall in Ha. specialize (Ha ch H).
      unfold ct_leb in Ha. rewrite Et in Ha. rewrite negb_true_iff, Nat.ltb_ge in Ha. cbn in Ha.
      assert (Hc := Hnc' ch (or_intror H)). destruct (ch_type ch); cbn in *; auto; try lia; congruence.
    + exfalso. apply (Hnc' a); [now left|auto].
Qed.

Lemma kids_of_filter_all t (chs : list change) : (forall ch, In ch chs -> ch_type ch = t) ->
  kids_of t chs = flat_map ch_kids chs.
Proof.
  intros H. unfold kids_of. f_equal. induction chs as [|a l IH]; cbn; auto.
  rewrite H by (now left). rewrite ct_eqb_refl. f_equal. apply IH. intros; apply H; now right.
Qed.
Lemma kids_of_filter_none t (chs : list change) : (forall ch, In ch chs -> ch_type ch <> t) ->
  kids_of t chs = [].
Proof.
  intros H. unfold kids_of. induction chs as [|a l IH]; cbn; auto.
  destruct (ct_eqb (ch_type a) t) eqn:E; [apply ct_eqb_eq in E; exfalso; apply (H a); [now left|auto]|].
  apply IH. intros; apply H; now right.
Qed.
Lemma perm_flat_types (chs : list change) :
  (forall ch, In ch chs -> ch_type ch = CNew \/ ch_type ch = CDirty) ->
  Permutation (flat_map ch_kids chs) (kids_of CNew chs ++ kids_of CDirty chs).
Proof.
  unfold kids_of. induction chs as [|a l IH]; cbn; intros H; auto.
  destruct (H a (or_introl eq_refl)) as [E|E]; rewrite E; cbn.
  - rewrite <- app_assoc. apply Permutation_app_head, IH. auto.
  - rewrite IH by auto. rewrite !app_assoc. apply Permutation_app_tail, Permutation_app_comm.
Qed.

Lemma move_ok_perm a b : Permutation a b -> move_ok a -> move_ok b.
Proof.
  intros HP [H1 H2 H3 H4].
  assert (Hin : forall t e, In e (kids_of t a) <-> In e (kids_of t b)).
  { intros t e. split; apply Permutation_in; [|symmetry]; apply kids_of_perm; auto. }
  constructor.
  - eapply Permutation_NoDup; [|exact H1]. apply Permutation_app; apply kids_of_perm; auto.
  - eapply Permutation_NoDup; [|exact H2]. apply kids_of_perm; auto.
  - intros e. rewrite <- !Hin. apply H3.
  - intros ch e Hch Ht He. rewrite <- Hin. intros HN. eapply H4; eauto.
    eapply Permutation_in; [symmetry; exact HP|exact Hch].
Qed.

(** The exact outcome of move handling. *)
Definition move_out (S : list change) : list change :=
  map (strip S [] (kids_of CDelete S)) S ++ flat_map (extra_of S []) (kids_of CDelete S).

Lemma strip_app ND DL P ch : strip ND DL P ch = strip (ND ++ DL) [] P ch.
Proof. unfold strip. now rewrite app_nil_r. Qed.
Lemma extra_app ND DL e : extra_of ND DL e = extra_of (ND ++ DL) [] e.
Proof. unfold extra_of. now rewrite app_nil_r. Qed.

Theorem handleEntityMove_exact chs :
  (forall ch, In ch chs -> NoDup (ch_kids ch)) -> (forall ch, In ch chs -> ch_type ch <> CClear) ->
  (move_ok chs -> handleEntityMove chs = Some (move_out (isort ct_leb chs))) /\
  (forall out, handleEntityMove chs = Some out -> move_ok chs).
Proof.
  intros Hnd Hnc.
  destruct (isort_split_types chs Hnc) as (ND & DL & ES & HND & HDL).
  assert (Hperm : Permutation (ND ++ DL) chs) by (rewrite <- ES; apply isort_perm).
  assert (Hkids : forall ch, In ch (ND ++ DL) -> NoDup (ch_kids ch)).
  { intros ch H. apply Hnd. eapply Permutation_in; eauto. }
  unfold handleEntityMove. rewrite ES.
  set (s0 := mkM (map cell_of (ND ++ DL)) [] []).
  assert (Hat : forall i, i < length (ND ++ DL) -> cell_at (ms_cells s0) i = cell_of (nth i (ND ++ DL) dch)).
  { intros i Hi. unfold cell_at, s0; cbn [ms_cells].
    rewrite (nth_indep _ _ (cell_of dch)) by (rewrite map_length; auto). apply map_nth. }
  assert (HI0 : Inv ND DL 0 [] [] s0).
  { constructor; cbn [s0 ms_extra ms_seen seen_at]; auto.
    - apply map_length.
    - intros i Hi. fold s0. rewrite Hat by auto. auto.
    - intros i Hi _. fold s0. rewrite Hat, change_of_cell_of by auto. symmetry. apply strip_nil.
    - intros i _ Hi. lia.
    - intros e [].
    - intros e _ []. }
  assert (HF0 : fresh_from ND DL 0 s0) by (intros j _ Hj; now apply Hat).
  rewrite app_length, seq_app, fold_opt_app. cbn [Nat.add].
  destruct (outer_nd ND DL HND ND [] [] s0 eq_refl HI0 HF0) as [Ha Hb]. cbn [length app] in Ha, Hb.
  assert (HDN : kids_of CDelete (ND ++ DL) = flat_map ch_kids DL).
  { rewrite kids_of_app, kids_of_filter_none, (kids_of_filter_all CDelete DL); auto.
    intros ch H. destruct (HND ch H) as [-> | ->]; congruence. }
  assert (Hkn : forall t, t <> CDelete -> kids_of t (ND ++ DL) = kids_of t ND).
  { intros t Ht. rewrite kids_of_app, (kids_of_filter_none t DL), app_nil_r; auto.
    intros ch H. rewrite (HDL ch H). congruence. }
  assert (Hphase : NoDup (flat_map ch_kids ND) -> exists s1,
     fold_opt move_item (seq 0 (length ND)) s0 = Some s1 /\
     Inv ND DL (length ND + 0) (flat_map ch_kids ND) [] s1 /\ fresh_from ND DL (length ND + 0) s1).
  { intros H. destruct (Ha H) as (s1 & E1 & HI1 & HF1). exists s1. split; auto. rewrite Nat.add_0_r.
    split; [|intros j _ Hj; apply HF1; auto; lia].
    destruct HI1 as [I1 I8 I2 I7 I3 I4 I5 I6]. constructor; auto.
    - intros i Hi [Hc|Hc]; apply I2; auto.
    - intros i Hi1 Hi2. lia. }
  split.
  - intros Hok. apply (move_ok_perm _ (ND ++ DL)) in Hok; [|now symmetry].
    destruct Hok as [O1 O2 O3 O4].
    assert (HQ : NoDup (flat_map ch_kids ND)).
    { eapply Permutation_NoDup; [symmetry; apply perm_flat_types; auto|].
      rewrite <- !Hkn by congruence. exact O1. }
    destruct (Hphase HQ) as (s1 & -> & HI1 & HF1).
    destruct (outer_dl ND DL HND HDL Hkids HQ DL [] [] s1 eq_refl HI1 HF1) as [Hc _].
    cbn [length app] in Hc. rewrite Nat.add_0_r in Hc.
    destruct Hc as (s2 & -> & HI2).
    { split; [rewrite <- HDN; auto|]. split.
      - intros e He. split; [intros []|]. rewrite <- HDN in He. intros Hd. eapply O3; eauto.
      - intros ch e H1 H2 H3. eapply O4; eauto. apply in_app_iff; auto. }
    f_equal. unfold move_out. rewrite HDN. f_equal.
    + apply nth_ext with (d := change_of dummy_cell) (d' := strip (ND ++ DL) [] (flat_map ch_kids DL) dch).
      * rewrite !map_length. apply (i_len _ _ _ _ _ _ HI2).
      * rewrite map_length. intros i Hi. rewrite !map_nth.
        rewrite (i_len _ _ _ _ _ _ HI2) in Hi.
        rewrite <- strip_app. apply (i_cell _ _ _ _ _ _ HI2); auto.
    + rewrite (i_extra _ _ _ _ _ _ HI2). apply flat_map_ext. intros e. apply extra_app.
  - intros out H.
    destruct (fold_opt move_item (seq 0 (length ND)) s0) as [s1|] eqn:E1; [|discriminate].
    assert (HQ : NoDup (flat_map ch_kids ND)) by (apply (Hb s1); auto; constructor).
    destruct (Hphase HQ) as (s1' & E1' & HI1 & HF1). injection E1' as <-.
    destruct (outer_dl ND DL HND HDL Hkids HQ DL [] [] s1 eq_refl HI1 HF1) as [_ Hc].
    cbn [length app] in Hc. rewrite Nat.add_0_r in Hc.
    destruct (fold_opt move_item (seq (length ND) (length DL)) s1) as [s2|]; [|discriminate].
    destruct (Hc s2 eq_refl) as (J1 & J2 & J3).
    apply (move_ok_perm (ND ++ DL)); auto. constructor.
    + rewrite !Hkn by congruence. eapply Permutation_NoDup; [apply perm_flat_types; auto|auto].
    + now rewrite HDN.
    + intros e He. rewrite HDN. intros Hd. destruct (J2 e Hd) as [_ Hx]. tauto.
    + intros ch e H1 H2 H3 H4. apply (J3 ch e); auto. apply in_app_iff in H1. destruct H1 as [H1|H1]; auto.
      destruct (HND ch H1); congruence.
Qed.

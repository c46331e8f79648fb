(** Proofs for the shared slice of lock keys: a run alone, up to its locks; the invariants of any number of runs. *)
From Verif Require Import KeysModel KeysProof.
From Coq Require Import Permutation Sorted.
Local Open Scope string_scope. Local Open Scope list_scope. Local Open Scope nat_scope.

Definition only (p n : nat) : list (nat * bool) := repeat (p, true) n.
Lemma krun_app a b w : krun (a ++ b) w = krun b (krun a w).
Proof. revert w. induction a as [|[p ok] a IH]; intros w; cbn; auto. Qed.
Lemma only_plus p a b w : krun (only p (a + b)) w = krun (only p b) (krun (only p a) w).
Proof. unfold only. rewrite repeat_app. apply krun_app. Qed.

Lemma solo_star p s t : star s t -> forall w, k_keys w = fst s -> k_pc w p = snd s -> exists n, let w' := krun (only p n) w in
  k_keys w' = fst t /\ k_pc w' p = snd t /\ k_held w' = k_held w /\ k_log w' = k_log w.
Proof.
  induction 1 as [s|s t H IH]; intros w E1 E2.
  - exists 0. cbn. auto.
  - assert (D : sort_step (fst s) (snd s) = s \/ (k_keys (kstep p true w) = fst (sort_step (fst s) (snd s)) /\ k_pc (kstep p true w) p = snd (sort_step (fst s) (snd s)) /\ k_held (kstep p true w) = k_held w /\ k_log (kstep p true w) = k_log w)).
    { destruct s as [m c]. cbn [fst snd] in *. subst m c. unfold kstep. destruct (k_pc w p) eqn:P; try (left; reflexivity); right;
        match goal with |- context [sort_step ?m ?c] => destruct (sort_step m c) as [m' c'] end; cbn [k_keys k_pc k_held k_log fst snd]; rewrite kset_same; auto. }
    destruct D as [D|(D1 & D2 & D3 & D4)].
    + rewrite D in IH. apply (IH w E1 E2).
    + destruct (IH (kstep p true w) D1 D2) as (n & X1 & X2 & X3 & X4). exists (S n). cbn [only repeat krun]. fold (only p n). rewrite D3 in X3. rewrite D4 in X4. auto.
Qed.
Lemma solo_lock p : forall B A w, k_keys w = A ++ B -> k_pc w p = enter_lock (length (A ++ B)) (length A) -> NoDup B -> (forall x, In x B -> ~ In x (map snd (k_held w))) ->
  exists n, let w' := krun (only p n) w in k_keys w' = k_keys w /\ k_pc w' p = KGo /\ k_held w' = k_held w ++ map (pair p) B /\ k_log w' = k_log w ++ map (pair p) B.
Proof.
  induction B as [|x B IH]; intros A w E P ND F.
  - exists 0. cbn. rewrite !app_nil_r in *. split; auto. split; auto. rewrite P. unfold enter_lock. now rewrite Nat.ltb_irrefl.
  - assert (Lt : length A <? length (A ++ x :: B) = true) by (apply Nat.ltb_lt; rewrite app_length; cbn; lia). unfold enter_lock in P. rewrite Lt in P.
    assert (R : at_ (k_keys w) (length A) = x) by (rewrite E; apply at_mid).
    assert (Fr : existsb (fun y => String.eqb (snd y) x) (k_held w) = false).
    { destruct (existsb _ _) eqn:X; auto. apply existsb_exists in X. destruct X as (y & Y1 & Y2). apply String.eqb_eq in Y2. exfalso. apply (F x (or_introl eq_refl)). rewrite <- Y2. now apply in_map. }
    assert (St : kstep p true w = mkK (k_keys w) (kset (k_pc w) p (enter_lock (length (k_keys w)) (S (length A)))) (k_held w ++ [(p, x)]) (k_log w ++ [(p, x)])) by (unfold kstep; rewrite P; cbn [negb]; rewrite R, Fr; reflexivity).
    apply NoDup_cons_iff in ND. destruct ND as [N1 N2].
    destruct (IH (A ++ [x]) (kstep p true w)) as (n & X1 & X2 & X3 & X4).
    + rewrite St. cbn [k_keys]. rewrite E, <- app_assoc. reflexivity.
    + rewrite St. cbn [k_pc]. rewrite kset_same, E, <- app_assoc. cbn [app]. rewrite (app_length A [x]). cbn [length]. f_equal. lia.
    + exact N2.
    + intros y Hy. rewrite St. cbn [k_held]. rewrite map_app. intros I. apply in_app_iff in I. destruct I as [I|[I|[]]]; [apply (F y); auto; now right|cbn in I; congruence].
    + exists (S n). cbn [only repeat krun]. fold (only p n). rewrite St in X1, X3, X4. cbn [k_keys k_held k_log] in X1, X3, X4. rewrite <- St in X1, X3, X4. rewrite X1, X3, X4, <- !app_assoc. auto.
Qed.
Lemma solo w p : k_pc w p = KIdle -> (forall x, In x (k_keys w) -> ~ In x (map snd (k_held w))) -> exists n, let w' := krun (only p n) w in
  Permutation (k_keys w) (k_keys w') /\ StronglySorted leS (k_keys w') /\
  ((NoDup (k_keys w) /\ k_pc w' p = KGo /\ k_held w' = k_held w ++ map (pair p) (k_keys w') /\ k_log w' = k_log w ++ map (pair p) (k_keys w')) \/
   (~ NoDup (k_keys w) /\ k_pc w' p = KRepeated /\ k_held w' = k_held w /\ k_log w' = k_log w)).
Proof.
  intros P F.
  assert (S1 : exists R, Permutation (k_keys w) R /\ StronglySorted leS R /\ star (k_keys w, KIdle) (R, enter_chk (length R) 1)).
  { destruct (k_keys w) as [|x B]; [exists []; split; auto; split; [constructor|]; apply star_cons; constructor|].
    destruct (outer B [x] ltac:(discriminate) ltac:(repeat constructor)) as (R & A1 & A2 & A3). exists R. split; auto. split; auto. apply star_cons. exact A3. }
  destruct S1 as (R & A1 & A2 & A3).
  assert (S2 : (NoDup R /\ star (R, enter_chk (length R) 1) (R, enter_lock (length R) 0)) \/ (~ NoDup R /\ star (R, enter_chk (length R) 1) (R, KRepeated))).
  { destruct R as [|x B]; [left; split; constructor|]. apply (check B [] x); auto. repeat constructor. intros []. }
  destruct S2 as [[N S2]|[N S2]].
  - destruct (solo_star p _ _ (star_trans _ _ _ A3 S2) w eq_refl P) as (n1 & B1 & B2 & B3 & B4). cbn [fst snd] in *.
    destruct (solo_lock p R [] (krun (only p n1) w) B1 B2 N) as (n2 & C1 & C2 & C3 & C4).
    { intros x Hx. rewrite B3. apply F. apply (Permutation_in x (Permutation_sym A1) Hx). }
    exists (n1 + n2). rewrite only_plus. cbn zeta. rewrite C1, C2, C3, C4, B1, B3, B4. split; auto. split; auto. left. split; auto. apply (Permutation_NoDup (Permutation_sym A1) N).
  - destruct (solo_star p _ _ (star_trans _ _ _ A3 S2) w eq_refl P) as (n1 & B1 & B2 & B3 & B4). cbn [fst snd] in *.
    exists n1. cbn zeta. rewrite B1, B2, B3, B4. split; auto. split; auto. right. split; auto. intros X. apply N. apply (Permutation_NoDup A1 X).
Qed.

(* ------------------------------------------------------------ any number of runs, any slice *)
Definition held_by (p : nat) (h : list (nat * string)) : list string := map snd (filter (fun x => fst x =? p) h).
Definition place (keys : list string) (n : nat) (c : kpc) (held : nat) : Prop :=
  match c with
  | KIdle => held = 0
  | KCmpA i j | KCmpB i j _ | KSwA i j => j < n /\ held = 0
  | KSwB i j a => j < n /\ In a keys /\ held = 0
  | KSwC i j a b => j < n /\ In a keys /\ In b keys /\ held = 0
  | KSwD i j b => j < n /\ In b keys /\ held = 0
  | KLock k => k < n /\ held = k
  | KGo => held = n
  | KChkA _ | KChkB _ _ | KRepeated | KFailed | KDone => held = 0
  end.
Record kinv (keys : list string) (w : kworld) : Prop := mkKinv {
  ki_len : length (k_keys w) = length keys;
  ki_in : forall x, In x (k_keys w) -> In x keys;
  ki_nodup : NoDup (map snd (k_held w));
  ki_held : forall p x, In (p, x) (k_held w) -> In x keys;
  ki_pc : forall p, place keys (length keys) (k_pc w p) (length (held_by p (k_held w))) }.

Lemma held_by_app p a b : held_by p (a ++ b) = held_by p a ++ held_by p b.
Proof. unfold held_by. now rewrite filter_app, map_app. Qed.
Lemma held_by_back_same p h : held_by p (give_back p h) = [].
Proof. unfold held_by, give_back. induction h as [|[q x] h IH]; auto. cbn. destruct (Nat.eqb_spec q p) as [->|N]; cbn; auto. destruct (Nat.eqb_spec q p); [congruence|auto]. Qed.
Lemma held_by_back_other p q h : q <> p -> held_by q (give_back p h) = held_by q h.
Proof. intros N. unfold held_by, give_back. induction h as [|[r x] h IH]; auto. cbn. destruct (Nat.eqb_spec r p) as [->|M]; cbn. - destruct (Nat.eqb_spec p q); [congruence|auto]. - destruct (Nat.eqb_spec r q); cbn; auto. now f_equal. Qed.
Lemma back_in p q x h : In (q, x) (give_back p h) -> In (q, x) h.
Proof. intros H. apply filter_In in H. apply H. Qed.
Lemma filter_nodup {A} (f : A -> bool) (g : A -> string) l : NoDup (map g l) -> NoDup (map g (filter f l)).
Proof.
  induction l as [|a l IH]; intros H; auto. cbn in *. apply NoDup_cons_iff in H. destruct H as [H1 H2]. destruct (f a); cbn; auto. constructor; auto.
  intros I. apply H1. apply in_map_iff in I. destruct I as (b & E & I). apply filter_In in I. rewrite <- E. apply in_map. apply I.
Qed.
Lemma place_enter_lock keys n k : k <= n -> place keys n (enter_lock n k) k.
Proof. intros L. unfold enter_lock. destruct (Nat.ltb_spec k n); cbn; lia. Qed.
Lemma place_enter_chk keys n k : place keys n (enter_chk n k) 0.
Proof. unfold enter_chk. destruct (k <? n); [reflexivity|apply place_enter_lock; lia]. Qed.
Lemma place_enter_i keys n i : place keys n (enter_i n i) 0.
Proof. unfold enter_i. destruct (Nat.ltb_spec i n); [cbn; auto|apply place_enter_chk]. Qed.
Lemma place_enter_j keys n i j : j < n -> place keys n (enter_j n i j) 0.
Proof. intros L. unfold enter_j. destruct (0 <? j); [cbn; auto|apply place_enter_i]. Qed.

Lemma sort_place keys m c h : length m = length keys -> (forall x, In x m -> In x keys) -> place keys (length keys) c h ->
  match c with KLock _ | KGo => False | _ => True end ->
  let '(m', c') := sort_step m c in length m' = length keys /\ (forall x, In x m' -> In x keys) /\ place keys (length keys) c' h.
Proof.
  intros L I P N. assert (At : forall k, k < length keys -> In (at_ m k) keys) by (intros k K; apply I, at_in; lia).
  assert (Keep : forall c', place keys (length keys) c' h -> length m = length keys /\ (forall x, In x m -> In x keys) /\ place keys (length keys) c' h) by (intros c' X; split; [exact L|split; [exact I|exact X]]).
  rewrite <- L in At, Keep, P |- *. clear L.
  destruct c as [|i j|i j x|i j|i j a|i j a b|i j b|k|k x| |k| | |]; cbn [sort_step]; cbn [place] in P; try contradiction; try (apply Keep; exact P).
  - apply Keep. rewrite P. apply place_enter_i.
  - apply Keep. destruct P as [P ->]. destruct (str_ltb _ _); [cbn; auto|apply place_enter_i].
  - apply Keep. destruct P as [P ->]. cbn. split; auto. split; auto. apply At. lia.
  - apply Keep. destruct P as (P & Q & ->). cbn. split; auto.
  - destruct P as (P & Q & R & ->). rewrite put_length. split; auto. split; [|cbn; auto]. intros x H. apply put_in in H. destruct H as [->|H]; auto.
  - destruct P as (P & Q & ->). rewrite put_length. split; auto. split; [|apply place_enter_j; lia]. intros x H. apply put_in in H. destruct H as [->|H]; auto.
  - apply Keep. rewrite P. destruct (String.eqb _ _); [reflexivity|apply place_enter_chk].
Qed.
Lemma kinv_step keys p ok w : kinv keys w -> kinv keys (kstep p ok w).
Proof.
  intros [L I ND H P]. pose proof (P p) as Pp.
  assert (Sorting : match k_pc w p with KLock _ | KGo => False | _ => True end -> let '(m, c') := sort_step (k_keys w) (k_pc w p) in kinv keys (mkK m (kset (k_pc w) p c') (k_held w) (k_log w))).
  { intros N. pose proof (sort_place keys (k_keys w) (k_pc w p) _ L I Pp N) as X. destruct (sort_step (k_keys w) (k_pc w p)) as [m c']. destruct X as (X1 & X2 & X3). constructor; cbn [k_keys k_pc k_held]; auto.
    intros q. unfold kset. destruct (Nat.eqb_spec q p) as [->|M]; auto. }
  assert (Back : forall c, place keys (length keys) c 0 -> kinv keys (mkK (k_keys w) (kset (k_pc w) p c) (give_back p (k_held w)) (k_log w))).
  { intros c C. constructor; cbn [k_keys k_pc k_held]; auto.
    - now apply filter_nodup.
    - intros q x X. apply (H q). now apply back_in in X.
    - intros q. unfold kset. destruct (Nat.eqb_spec q p) as [->|M]; [now rewrite held_by_back_same|rewrite (held_by_back_other p q _ M); apply P]. }
  assert (W : kinv keys w) by (constructor; auto).
  unfold kstep. destruct (k_pc w p) as [|i j|i j x|i j|i j a|i j a b|i j b|k|k x| |k| | |] eqn:E; auto; try (exact (Sorting Logic.I)).
  - destruct ok; cbn [negb]; [|apply Back; reflexivity]. destruct (existsb _ _) eqn:X; auto. cbn [place] in Pp. destruct Pp as [P1 P2].
    constructor; cbn [k_keys k_pc k_held]; auto.
    + rewrite map_app. cbn. apply (Permutation_NoDup (Permutation_cons_append _ _)). constructor; auto. intros Y. apply in_map_iff in Y. destruct Y as (z & Z1 & Z2).
      assert (T : existsb (fun x => String.eqb (snd x) (at_ (k_keys w) k)) (k_held w) = true) by (apply existsb_exists; exists z; split; auto; now apply String.eqb_eq). congruence.
    + intros q x Y. apply in_app_iff in Y. destruct Y as [Y|[Y|[]]]; [apply (H q x Y)|]. injection Y as <- <-. apply I, at_in. lia.
    + intros q. rewrite held_by_app, app_length. unfold kset. destruct (Nat.eqb_spec q p) as [->|M].
      * unfold held_by at 2. cbn. rewrite Nat.eqb_refl. cbn. rewrite P2, L. replace (k + 1) with (S k) by lia. apply place_enter_lock. lia.
      * unfold held_by at 2. cbn. destruct (Nat.eqb_spec p q); [congruence|]. cbn. rewrite Nat.add_0_r. apply P.
  - apply Back. reflexivity.
Qed.
Lemma kinv_run keys l : forall w, kinv keys w -> kinv keys (krun l w).
Proof. induction l as [|[p ok] l IH]; intros w H; cbn; auto. apply IH. now apply kinv_step. Qed.
Lemma kinv_start keys : kinv keys (kstart keys).
Proof. constructor; cbn; auto; [constructor|intros p x []]. Qed.

Lemma held_by_in p x h : In x (held_by p h) <-> In (p, x) h.
Proof.
  unfold held_by. rewrite in_map_iff. split.
  - intros ((q & y) & <- & H). apply filter_In in H. destruct H as [H E]. apply Nat.eqb_eq in E. cbn in E. now subst.
  - intros H. exists (p, x). split; auto. apply filter_In. split; auto. apply Nat.eqb_refl.
Qed.
Lemma go_holds keys w p : kinv keys w -> k_pc w p = KGo -> forall k, In k keys -> In (p, k) (k_held w).
Proof.
  intros [L I ND H P] G k K. pose proof (P p) as X. rewrite G in X. cbn in X. apply held_by_in.
  apply (NoDup_length_incl (l := held_by p (k_held w)) (l' := keys)); auto.
  - unfold held_by. now apply filter_nodup.
  - lia.
  - intros y Y. apply held_by_in in Y. now apply (H p).
Qed.
Lemma held_once w (ND : NoDup (map snd (k_held w))) p q x : In (p, x) (k_held w) -> In (q, x) (k_held w) -> p = q.
Proof.
  revert ND. generalize (k_held w). intros l. induction l as [|[r y] l IH]; intros ND A B; [destruct A|]. cbn in ND. apply NoDup_cons_iff in ND. destruct ND as [N1 N2].
  destruct A as [A|A], B as [B|B]; [congruence|..|auto].
  - injection A as -> ->. exfalso. apply N1. apply (in_map snd) in B. exact B.
  - injection B as -> ->. exfalso. apply N1. apply (in_map snd) in A. exact A.
Qed.

(* ------------------------------------------------------------ any number of runs, the slice in order *)
Definition calm (keys : list string) (c : kpc) (log : list string) : Prop :=
  let n := length keys in
  match c with
  | KIdle | KRepeated => log = [] /\ c <> KRepeated
  | KCmpA i j => 0 < j < n /\ log = []
  | KCmpB i j x => 0 < j < n /\ x = at_ keys j /\ log = []
  | KChkA k => 0 < k < n /\ log = []
  | KChkB k x => 0 < k < n /\ x = at_ keys k /\ log = []
  | KLock k => k < n /\ log = firstn k keys
  | KGo | KDone => log = keys
  | KFailed => exists k, log = firstn k keys
  | KSwA _ _ | KSwB _ _ _ | KSwC _ _ _ _ | KSwD _ _ _ => False
  end.
Definition locked_by (p : nat) (w : kworld) : list string := map snd (filter (fun x => fst x =? p) (k_log w)).
Lemma sorted_at keys : StronglySorted ltS keys -> forall j, 0 < j -> j < length keys -> ltS (at_ keys (j - 1)) (at_ keys j).
Proof.
  induction keys as [|x keys IH]; intros SO j J L; [cbn in L; lia|]. apply StronglySorted_inv in SO. destruct SO as [SO F]. destruct j as [|[|j]]; [lia| |].
  - cbn in *. rewrite Forall_forall in F. unfold at_. cbn. destruct keys as [|y k]; [cbn in L; lia|]. apply F. now left.
  - cbn [length] in L. specialize (IH SO (S j) ltac:(lia) ltac:(lia)). unfold at_ in *. cbn [nth Nat.sub] in *. replace (j - 0) with j in IH by lia. exact IH.
Qed.
Lemma calm_lock keys k : k <= length keys -> calm keys (enter_lock (length keys) k) (firstn k keys).
Proof. intros L. unfold enter_lock. destruct (Nat.ltb_spec k (length keys)); cbn; auto. apply firstn_all2. lia. Qed.
Lemma calm_chk keys k : 0 < k -> calm keys (enter_chk (length keys) k) [].
Proof. intros L. unfold enter_chk. destruct (Nat.ltb_spec k (length keys)); [cbn; auto|exact (calm_lock keys 0 ltac:(lia))]. Qed.
Lemma calm_i keys i : 0 < i -> calm keys (enter_i (length keys) i) [].
Proof. intros L. unfold enter_i. destruct (Nat.ltb_spec i (length keys)); [cbn; auto|apply calm_chk; lia]. Qed.
Lemma firstn_snoc {A} (d : A) : forall k l, k < length l -> firstn (S k) l = firstn k l ++ [nth k l d].
Proof. induction k as [|k IH]; intros [|x l] H; cbn in H; try lia; [reflexivity|]. cbn [firstn app nth]. rewrite <- (IH l ltac:(lia)). reflexivity. Qed.
Lemma calm_step keys p ok w : StronglySorted ltS keys -> k_keys w = keys -> (forall q, calm keys (k_pc w q) (locked_by q w)) ->
  k_keys (kstep p ok w) = keys /\ forall q, calm keys (k_pc (kstep p ok w) q) (locked_by q (kstep p ok w)).
Proof.
  intros S E C. pose proof (C p) as Cp.
  assert (Keep : forall c h, calm keys c (locked_by p w) -> let w' := mkK keys (kset (k_pc w) p c) h (k_log w) in k_keys w' = keys /\ forall q, calm keys (k_pc w' q) (locked_by q w')).
  { intros c h X. cbn zeta. split; auto. intros q. cbn [k_pc]. unfold kset. destruct (Nat.eqb_spec q p) as [->|N]; [exact X|apply C]. }
  unfold kstep. destruct (k_pc w p) as [|i j|i j x|i j|i j a|i j a b|i j b|k|k x| |k| | |] eqn:P; auto; cbn [calm] in Cp; try contradiction; rewrite ?E.
  - cbn [sort_step]. apply Keep. destruct Cp as [-> _]. apply calm_i. lia.
  - cbn [sort_step]. apply Keep. destruct Cp as [Cp ->]. cbn. auto.
  - cbn [sort_step]. apply Keep. destruct Cp as (Cp & -> & ->). rewrite (str_ltb_antisym _ _ (sorted_at keys S j ltac:(lia) ltac:(lia))). apply calm_i. lia.
  - cbn [sort_step]. apply Keep. destruct Cp as [Cp ->]. cbn. auto.
  - cbn [sort_step]. apply Keep. destruct Cp as (Cp & -> & ->). pose proof (lt_ne _ _ (sorted_at keys S k ltac:(lia) ltac:(lia))) as N. destruct (String.eqb_spec (at_ keys k) (at_ keys (k - 1))); [congruence|apply calm_chk; lia].
  - destruct Cp as [K Lg]. destruct ok; cbn [negb]; [|apply Keep; rewrite Lg; cbn; eauto]. destruct (existsb _ _); [split; auto|]. split; auto. intros q. cbn [k_pc]. unfold locked_by, kset in *. cbn [k_log]. rewrite filter_app, map_app.
    destruct (Nat.eqb_spec q p) as [->|N].
    + rewrite Lg. cbn. rewrite Nat.eqb_refl. cbn. unfold at_. rewrite <- (firstn_snoc "" k keys K). apply calm_lock. lia.
    + cbn. destruct (Nat.eqb_spec p q); [congruence|]. cbn. rewrite app_nil_r. apply C.
  - apply Keep. cbn. exact Cp.
Qed.
Lemma calm_run keys l : StronglySorted ltS keys -> forall w, k_keys w = keys -> (forall q, calm keys (k_pc w q) (locked_by q w)) ->
  k_keys (krun l w) = keys /\ forall q, calm keys (k_pc (krun l w) q) (locked_by q (krun l w)).
Proof. intros S. induction l as [|[p ok] l IH]; intros w E C; cbn; auto. destruct (calm_step keys p ok w S E C) as [X Y]. now apply IH. Qed.

(** Proofs for the shared slice of lock keys: runs sharing an ordered slice can always be finished. *)
From Verif Require Import KeysModel KeysProof KeysProof2.
From Coq Require Import Permutation Sorted.
Local Open Scope string_scope. Local Open Scope list_scope. Local Open Scope nat_scope.

Definition over (c : kpc) : Prop := match c with KDone | KFailed | KRepeated => True | _ => False end.
(** what a run holds is what it locked, as long as it is not over *)
Definition holds_its (w : kworld) (q : nat) : Prop := match k_pc w q with KLock _ | KGo => held_by q (k_held w) = locked_by q w | _ => held_by q (k_held w) = [] end.
Record kord (keys : list string) (w : kworld) : Prop := mkKord { ko_keys : k_keys w = keys; ko_calm : forall q, calm keys (k_pc w q) (locked_by q w); ko_holds : forall q, holds_its w q }.

Lemma holds_lock (n k : nat) (h g : list string) : h = g -> match enter_lock n k with KLock _ | KGo => h = g | _ => h = [] end.
Proof. unfold enter_lock. destruct (k <? n); auto. Qed.
Lemma holds_chk (n k : nat) : match enter_chk n k with KLock _ | KGo => @nil string = [] | _ => @nil string = [] end.
Proof. unfold enter_chk, enter_lock. destruct (k <? n); auto. destruct (0 <? n); auto. Qed.
Lemma holds_i (n k : nat) : match enter_i n k with KLock _ | KGo => @nil string = [] | _ => @nil string = [] end.
Proof. unfold enter_i. destruct (k <? n); auto. apply holds_chk. Qed.

Lemma kord_step keys p ok w : StronglySorted ltS keys -> kord keys w -> kord keys (kstep p ok w).
Proof.
  intros SO [E C H]. destruct (calm_step keys p ok w SO E C) as [E' C']. constructor; auto. clear E' C'.
  pose proof (C p) as Cp. pose proof (H p) as Hp.
  assert (Keep : forall c, match c with KLock _ | KGo => held_by p (k_held w) = locked_by p w | _ => held_by p (k_held w) = [] end -> forall q, holds_its (mkK keys (kset (k_pc w) p c) (k_held w) (k_log w)) q).
  { intros c X q. unfold holds_its, locked_by, kset in *. cbn [k_pc k_held k_log]. destruct (Nat.eqb_spec q p) as [->|N]; [exact X|apply H]. }
  assert (Back : forall c, match c with KLock _ | KGo => False | _ => True end -> forall q, holds_its (mkK keys (kset (k_pc w) p c) (give_back p (k_held w)) (k_log w)) q).
  { intros c X q. unfold holds_its, locked_by, kset in *. cbn [k_pc k_held k_log]. destruct (Nat.eqb_spec q p) as [->|N]; [rewrite held_by_back_same; destruct c; auto; contradiction|rewrite (held_by_back_other p q _ N); apply H]. }
  unfold kstep. unfold holds_its in Hp. destruct (k_pc w p) as [|i j|i j x|i j|i j a|i j a b|i j b|k|k x| |k| | |] eqn:P; auto; cbn [calm] in Cp; try contradiction; rewrite ?E.
  - cbn [sort_step]. apply Keep. destruct Cp as [-> _]. rewrite Hp. apply holds_i.
  - cbn [sort_step]. apply Keep. exact Hp.
  - cbn [sort_step]. apply Keep. destruct Cp as (Cp & -> & ->). rewrite (str_ltb_antisym _ _ (sorted_at keys SO j ltac:(lia) ltac:(lia))), Hp. apply holds_i.
  - cbn [sort_step]. apply Keep. exact Hp.
  - cbn [sort_step]. apply Keep. destruct Cp as (Cp & -> & ->). rewrite Hp. destruct (String.eqb _ _); auto. apply holds_chk.
  - destruct ok; cbn [negb]; [|now apply Back]. destruct (existsb _ _); auto. intros q. unfold holds_its, locked_by, kset in *. cbn [k_pc k_held k_log]. rewrite held_by_app, filter_app, map_app.
    destruct (Nat.eqb_spec q p) as [->|N].
    + apply holds_lock. rewrite Hp. f_equal.
    + unfold held_by at 2 4. unfold held_by at 3. cbn. destruct (Nat.eqb_spec p q); [congruence|]. cbn. rewrite !app_nil_r. apply H.
  - now apply Back.
Qed.
Lemma kord_run keys l : StronglySorted ltS keys -> forall w, kord keys w -> kord keys (krun l w).
Proof. intros SO. induction l as [|[p ok] l IH]; intros w H; cbn; auto. apply IH. now apply kord_step. Qed.
Lemma kord_start keys : kord keys (kstart keys).
Proof. constructor; auto; intros q; cbn; [split; [reflexivity|discriminate]|reflexivity]. Qed.

(** how far a run is from its end, when nothing has to be swapped *)
Definition rank (n : nat) (c : kpc) : nat :=
  match c with
  | KIdle => 6 + 5 * n
  | KCmpA i _ => 5 + 3 * n + 2 * (n - i)
  | KCmpB i _ _ => 4 + 3 * n + 2 * (n - i)
  | KChkA k => 4 + n + 2 * (n - k)
  | KChkB k _ => 3 + n + 2 * (n - k)
  | KLock k => 2 + (n - k)
  | KGo => 1
  | _ => 0
  end.
Lemma rank_lock n k : rank n (enter_lock n k) <= 2 + (n - k).
Proof. unfold enter_lock. destruct (Nat.ltb_spec k n); cbn [rank]; lia. Qed.
Lemma rank_chk n k : 0 < k -> rank n (enter_chk n k) <= Nat.max (2 + n) (if k <? n then 4 + n + 2 * (n - k) else 0).
Proof. intros K. unfold enter_chk. destruct (k <? n); [cbn [rank]; lia|pose proof (rank_lock n 0); lia]. Qed.
Lemma rank_i n i : rank n (enter_i n i) <= Nat.max (2 + 3 * n) (if i <? n then 5 + 3 * n + 2 * (n - i) else 0).
Proof.
  unfold enter_i. destruct (i <? n); [cbn [rank]; lia|]. pose proof (rank_chk n 1 ltac:(lia)) as X. destruct (Nat.ltb_spec 1 n); lia.
Qed.
Definition free (w : kworld) (q : nat) : Prop := match k_pc w q with KLock k => existsb (fun x => String.eqb (snd x) (at_ (k_keys w) k)) (k_held w) = false | _ => True end.
Lemma step_rank keys q w : StronglySorted ltS keys -> kord keys w -> ~ over (k_pc w q) -> free w q -> rank (length keys) (k_pc (kstep q true w) q) < rank (length keys) (k_pc w q).
Proof.
  intros SO [E C H] NO F. pose proof (C q) as Cq. unfold free in F. unfold kstep. destruct (k_pc w q) as [|i j|i j x|i j|i j a|i j a b|i j b|k|k x| |k| | |] eqn:P; cbn [over] in NO; cbn [calm] in Cq; try contradiction; try (exfalso; apply NO; exact Logic.I); rewrite ?E.
  - cbn [sort_step k_pc]. rewrite kset_same. pose proof (rank_i (length keys) 1) as X. cbn [rank]. destruct (Nat.ltb_spec 1 (length keys)); lia.
  - cbn [sort_step k_pc]. rewrite kset_same. cbn [rank]. lia.
  - cbn [sort_step k_pc]. rewrite kset_same. destruct Cq as (Cq & -> & _). rewrite (str_ltb_antisym _ _ (sorted_at keys SO j ltac:(lia) ltac:(lia))). pose proof (rank_i (length keys) (S i)) as X. cbn [rank]. destruct (Nat.ltb_spec (S i) (length keys)); lia.
  - cbn [sort_step k_pc]. rewrite kset_same. cbn [rank]. lia.
  - cbn [sort_step k_pc]. rewrite kset_same. destruct Cq as (Cq & -> & _). destruct (String.eqb _ _); [cbn [rank]; lia|]. pose proof (rank_chk (length keys) (S k) ltac:(lia)) as X. cbn [rank]. destruct (Nat.ltb_spec (S k) (length keys)); lia.
  - cbn [negb]. rewrite E in F. rewrite F. cbn [k_pc]. rewrite kset_same. pose proof (rank_lock (length keys) (S k)). cbn [rank]. lia.
  - cbn [k_pc]. rewrite kset_same. cbn [rank]. lia.
Qed.
Lemma kstep_others p ok w q : q <> p -> k_pc (kstep p ok w) q = k_pc w q.
Proof.
  intros N. unfold kstep. destruct (k_pc w p); auto; try (match goal with |- context [sort_step ?m ?c] => destruct (sort_step m c) as [m' c'] end; cbn [k_pc]; now apply kset_other).
  - destruct ok; cbn [negb]; [destruct (existsb _ _); auto|]; cbn [k_pc]; now apply kset_other.
  - cbn [k_pc]. now apply kset_other.
Qed.
Lemma sorted_nodup keys : StronglySorted ltS keys -> NoDup keys.
Proof.
  induction 1 as [|x l _ IH F]; constructor; auto. intros I. rewrite Forall_forall in F. apply (lt_ne x x); auto.
Qed.
(** whoever waits, somebody can go on *)
Lemma progress keys w : StronglySorted ltS keys -> kord keys w -> forall d p, (forall k, k_pc w p = KLock k -> length keys - k <= d) -> ~ over (k_pc w p) ->
  exists q, ~ over (k_pc w q) /\ free w q /\ (q = p \/ exists x, In (q, x) (k_held w)).
Proof.
  intros SO K. pose proof K as [E C H]. induction d as [|d IH]; intros p D NO.
  - exists p. split; auto. split; auto. unfold free. destruct (k_pc w p) as [| | | | | | | | | |k| | |] eqn:P; auto. pose proof (C p) as X. rewrite P in X. cbn in X. specialize (D k eq_refl). lia.
  - assert (Fd : free w p \/ ~ free w p).
    { unfold free. destruct (k_pc w p); auto. destruct (existsb _ _); [right; discriminate|auto]. }
    destruct Fd as [Fd|Fd]; [exists p; auto|]. unfold free in Fd. destruct (k_pc w p) as [| | | | | | | | | |k| | |] eqn:P; try (exfalso; apply Fd; exact Logic.I). destruct (existsb _ _) eqn:X; [|exfalso; now apply Fd].
    apply existsb_exists in X. destruct X as ((q & y) & Hq & Ey). apply String.eqb_eq in Ey. cbn in Ey. rewrite E in Ey.
    pose proof (H q) as Hh. unfold holds_its in Hh. pose proof (C q) as Cq. pose proof (C p) as Cp. rewrite P in Cp. cbn [calm] in Cp. destruct Cp as [Lk _].
    assert (I : In y (held_by q (k_held w))) by now apply held_by_in.
    assert (Q : (k_pc w q = KGo) \/ exists k', k_pc w q = KLock k' /\ k < k').
    { destruct (k_pc w q) as [| | | | | | | | | |k'| | |] eqn:Pq; auto; try (rewrite Hh in I; destruct I). right. exists k'. split; auto. cbn [calm] in Cq. destruct Cq as [Lk' Cq]. rewrite Hh, Cq in I. destruct (Nat.lt_ge_cases k k') as [L|L]; auto. exfalso.
      apply (In_nth _ _ ""%string) in I. destruct I as (j & J1 & J2). rewrite firstn_length in J1. assert (J3 : nth j keys ""%string = y). { rewrite <- J2. rewrite <- (firstn_skipn k' keys) at 1. apply app_nth1. rewrite firstn_length. lia. }
      pose proof (sorted_nodup keys SO) as ND. rewrite (NoDup_nth _ ""%string) in ND. specialize (ND j k ltac:(lia) ltac:(lia)). unfold at_ in Ey. rewrite J3, Ey in ND. specialize (ND eq_refl). lia. }
    destruct Q as [Q|(k' & Q & L)].
    + exists q. rewrite Q. split; [intros []|]. split; [unfold free; rewrite Q; exact Logic.I|eauto].
    + destruct (IH q) as (r & R1 & R2 & R3).
      * intros k'' Ek. rewrite Q in Ek. injection Ek as <-. specialize (D k eq_refl). pose proof Cq as Z. rewrite Q in Z. cbn in Z. lia.
      * rewrite Q. intros [].
      * exists r. split; auto. split; auto. destruct R3 as [->|R3]; eauto.
Qed.

Definition total_rank (n m : nat) (w : kworld) : nat := list_sum (map (fun p => rank n (k_pc w p)) (seq 0 m)).
Lemma sum_less (f g : nat -> nat) q : forall l, NoDup l -> In q l -> (forall p, p <> q -> f p = g p) -> f q < g q -> list_sum (map f l) < list_sum (map g l).
Proof.
  assert (Eq : forall l, ~ In q l -> (forall p, p <> q -> f p = g p) -> list_sum (map f l) = list_sum (map g l)).
  { induction l as [|a l IH]; intros N O; auto. cbn [map]. change (f a + list_sum (map f l) = g a + list_sum (map g l)). rewrite (O a); [|intros ->; apply N; now left]. rewrite IH; auto. intros I. apply N. now right. }
  induction l as [|a l IH]; intros ND I O L; [destruct I|]. apply NoDup_cons_iff in ND. destruct ND as [N ND]. cbn [map]. change (f a + list_sum (map f l) < g a + list_sum (map g l)). destruct (Nat.eq_dec a q) as [->|M].
  - rewrite (Eq l N O). lia.
  - destruct I as [I|I]; [congruence|]. rewrite (O a M). specialize (IH ND I O L). lia.
Qed.
Lemma over_dec c : over c \/ ~ over c. Proof. destruct c; cbn; auto. Qed.
Lemma all_over_dec w m : (forall p, p < m -> over (k_pc w p)) \/ exists p, p < m /\ ~ over (k_pc w p).
Proof.
  induction m as [|m [IH|(p & A & B)]]; [left; lia| |right; exists p; split; auto; lia].
  destruct (over_dec (k_pc w m)) as [O|O]; [left|right; exists m; auto]. intros p L. destruct (Nat.eq_dec p m) as [->|N]; auto. apply IH. lia.
Qed.
Lemma finish keys m : StronglySorted ltS keys -> forall d w, total_rank (length keys) m w <= d -> kord keys w -> (forall q, m <= q -> k_pc w q = KIdle) ->
  exists later, (forall q ok, In (q, ok) later -> q < m /\ ok = true) /\ forall p, p < m -> over (k_pc (krun later w) p).
Proof.
  intros SO. induction d as [|d IH]; intros w T K Out; (destruct (all_over_dec w m) as [A|(p & L & A)]; [exists []; split; [intros q ok []|exact A]|]);
    (destruct (progress keys w SO K (length keys) p ltac:(intros; lia) A) as (q & Q1 & Q2 & Q3));
    (assert (Lq : q < m) by (destruct Q3 as [->|(x & Hx)]; [exact L|destruct (Nat.lt_ge_cases q m) as [Y|Y]; [exact Y|exfalso; pose proof (ko_holds _ _ K q) as Z; unfold holds_its in Z; rewrite (Out q Y) in Z; apply held_by_in in Hx; rewrite Z in Hx; destruct Hx]]));
    (assert (Ls : total_rank (length keys) m (kstep q true w) < total_rank (length keys) m w) by (apply (sum_less _ _ q); [apply seq_NoDup|apply in_seq; lia|intros r N; now rewrite kstep_others|now apply step_rank])).
  - lia.
  - destruct (IH (kstep q true w)) as (later & X & Y); [lia|now apply kord_step|intros r R; rewrite kstep_others; [now apply Out|lia]|].
    exists ((q, true) :: later). split; [intros r ok [Z|Z]; [injection Z as <- <-; auto|now apply X]|exact Y].
Qed.
Lemma outsiders q l : (forall p ok, In (p, ok) l -> p <> q) -> forall w, k_pc (krun l w) q = k_pc w q.
Proof.
  induction l as [|[p ok] l IH]; intros N w; cbn; auto. rewrite IH; [|intros r o R; apply (N r o); now right]. apply kstep_others. intros ->. apply (N p ok); [now left|reflexivity].
Qed.

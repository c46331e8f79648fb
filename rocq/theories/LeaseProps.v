(** C95: the shipped locks and runs of any length. *)
From Verif Require Import SerialModel SerialSpec SerialProof SerialProps LeaseModel LeaseSpec.
From Coq Require Import Permutation.
Local Open Scope string_scope.
Local Open Scope list_scope.
Local Open Scope nat_scope.

Section L.
  Variable ttl : nat.
  Variable rs : list runp.
  Notation lexec := (lexec ttl rs). Notation lrun := (lrun ttl rs).
  (** a key of run [i] has run out *)
  Definition lapsed (st : lst) (i : nat) : Prop := exists k t, In (i, k, t) (l_got st) /\ t + ttl <= l_now st.
  Lemma lapsed_dec st i : {lapsed st i} + {~ lapsed st i}.
  Proof.
    destruct (existsb (fun x => Nat.eqb (fst (fst x)) i && (snd x + ttl <=? l_now st)) (l_got st)) eqn:E.
    - left. apply existsb_exists in E. destruct E as ([[j k] t] & I & E). cbn in E. apply andb_true_iff in E. destruct E as [E1 E2]. apply Nat.eqb_eq in E1. apply Nat.leb_le in E2. subst j. exists k, t. auto.
    - right. intros (k & t & I & H). assert (X : existsb (fun x => Nat.eqb (fst (fst x)) i && (snd x + ttl <=? l_now st)) (l_got st) = true); [|congruence].
      apply existsb_exists. exists (i, k, t). split; auto. cbn. rewrite Nat.eqb_refl. cbn. now apply Nat.leb_le.
  Qed.
  Definition owns (st : lst) (i : nat) (k : string) : Prop := exists t, In (i, k, t) (l_got st) /\ l_lease st k = Some (i, t + ttl).
  Definition LI (st : lst) : Prop := forall i p, nth_error (l_ph st) i = Some p -> ~ lapsed st i -> NoDup (holds p) /\ forall k, In k (holds p) -> owns st i k.
  Lemma not_live st i k : owns st i k -> l_live st k = false -> lapsed st i.
  Proof. intros (t & I & E) L. unfold l_live in L. rewrite E in L. apply Nat.ltb_ge in L. exists k, t. auto. Qed.
  Lemma lapsed_mono a st i : lapsed st i -> lapsed (lexec a st) i.
  Proof.
    intros (k & t & I & H). exists k, t.
    assert (G : forall x, In x (l_got st) -> In x (l_got (lexec a st))).
    { intros x Hx. destruct a as [n|j|j|j|j|j]; cbn [LeaseModel.lexec]; auto;
      destruct (nth_error (l_ph st) j) as [[|y [|k' t'] held|y held snap buf rest|[|k' t']| |held]|]; auto; try (destruct (nth_error rs j); auto); try (destruct (l_live st k'); auto); try (cbn; apply in_app_iff; auto).
      all: destruct (l_lease st k') as [[j' e]|]; auto; destruct (Nat.eqb j' j); auto. }
    assert (N : l_now st <= l_now (lexec a st)).
    { destruct a as [n|j|j|j|j|j]; cbn [LeaseModel.lexec l_now]; try lia;
      destruct (nth_error (l_ph st) j) as [[|y [|k' t'] held|y held snap buf rest|[|k' t']| |held]|]; cbn; try lia; try (destruct (nth_error rs j); cbn; try lia); try (destruct (l_live st k'); cbn; lia).
      all: destruct (l_lease st k') as [[j' e]|]; cbn; try lia; destruct (Nat.eqb j' j); cbn; lia. }
    split; auto. lia.
  Qed.

  Definition lock_phase (p : phase) : bool := match p with PLock _ (_ :: _) _ | PFree (_ :: _) => true | _ => false end.
  Lemma core_step a i s : (a = SFail i \/ a = SDie i \/ (a = SStep i /\ forall p, nth_error (s_ph s) i = Some p -> lock_phase p = false)) ->
    s_ph (sexec rs a s) = s_ph s \/ exists p p', nth_error (s_ph s) i = Some p /\ s_ph (sexec rs a s) = put i p' (s_ph s) /\ holds p' = holds p.
  Proof.
    intros [-> |[-> |[-> H]]]; cbn [sexec].
    - destruct (nth_error (s_ph s) i) as [[]|] eqn:E; auto; right; eexists _, _; (split; [reflexivity|split; reflexivity]).
    - destruct (nth_error (s_ph s) i) as [p|] eqn:E; auto; right; eexists _, _; (split; [reflexivity|split; reflexivity]).
    - destruct (nth_error rs i) as [r|]; auto. destruct (nth_error (s_ph s) i) as [p|] eqn:E; auto. specialize (H p eq_refl).
      destruct p as [|x [|k t] held|x held snap buf [ok out|q k|rw v k]|[|k t]| |held]; try discriminate H; cbn [step1]; auto; right; eexists _, _; (split; [reflexivity|split; reflexivity]).
  Qed.
  (** the invariant survives a change of phase without new keys *)
  Lemma LI_phase st st' i p p' : LI st -> nth_error (l_ph st) i = Some p -> l_ph st' = put i p' (l_ph st) -> l_lease st' = l_lease st -> l_now st' = l_now st -> l_got st' = l_got st ->
    (NoDup (holds p) -> NoDup (holds p')) -> (forall k, In k (holds p') -> In k (holds p)) -> LI st'.
  Proof.
    intros H E E1 E2 E3 E4 N S j q Hj L. assert (L' : ~ lapsed st j) by (intros (k & t & X & Y); apply L; exists k, t; now rewrite E3, E4).
    rewrite E1 in Hj. unfold owns. rewrite E2, E4. destruct (Nat.eq_dec j i) as [->|X].
    - rewrite (put_eq _ _ _ _ E) in Hj. injection Hj as <-. destruct (H i p E L') as [A B]. split; auto. intros k I. apply B. auto.
    - rewrite put_ne in Hj by auto. now apply H.
  Qed.
  Lemma LI_core st a i : LI st -> (a = SFail i \/ a = SDie i \/ (a = SStep i /\ forall p, nth_error (l_ph st) i = Some p -> lock_phase p = false)) -> LI (with_core st (sexec rs a (core st))).
  Proof.
    intros H C. destruct (core_step a i (core st) C) as [E|(p & p' & E & E1 & E2)].
    - intros j q Hj L. cbn [with_core l_ph] in Hj. rewrite E in Hj. apply H; auto.
    - apply (LI_phase st _ i p p' H E); auto; rewrite E2; auto.
  Qed.
  Lemma lset_eq f k x : lset f k x k = x. Proof. unfold lset. now rewrite String.eqb_refl. Qed.
  Lemma lset_ne f k x k' : k' <> k -> lset f k x k' = f k'. Proof. intros N. unfold lset. destruct (String.eqb_spec k' k); congruence. Qed.
  Lemma LI_step a st : LI st -> LI (lexec a st).
  Proof.
    intros H. destruct a as [n|i|i|i|i|i]; cbn [LeaseModel.lexec].
    - intros j q Hj L. apply H; auto. intros (k & t & X & Y). apply L. exists k, t. cbn. split; auto. lia.
    - destruct (nth_error (l_ph st) i) as [p|] eqn:E; [|apply (LI_core st (SStep i) i H); right; right; split; auto; intros p X; congruence].
      assert (C : lock_phase p = false -> LI (with_core st (sexec rs (SStep i) (core st)))) by (intros X; apply (LI_core st (SStep i) i H); right; right; split; auto; intros q Y; congruence).
      destruct p as [|x [|k t] held|x held snap buf rest|[|k t]| |held]; auto; clear C.
      + destruct (nth_error rs i); auto. destruct (l_live st k) eqn:Lk; [apply (LI_phase st _ i _ (PFree held) H E); auto|].
        intros j q Hj L. cbn [set_got set_lease set_phase l_ph] in Hj.
        assert (L' : ~ lapsed st j) by (intros (k' & t' & X & Y); apply L; exists k', t'; split; auto; cbn; apply in_app_iff; auto).
        assert (O : forall k', owns st j k' -> k' <> k). { intros k' O' ->. apply L'. eapply not_live; eauto. }
        destruct (Nat.eq_dec j i) as [->|X].
        * rewrite (put_eq _ _ _ _ E) in Hj. injection Hj as <-. destruct (H i _ E L') as [A B]. cbn [holds] in *. split.
          -- constructor; auto. intros I. apply (O k); auto.
          -- intros k' [<-|I].
             ++ exists (l_now st). cbn. split; [apply in_app_iff; right; now left|apply lset_eq].
             ++ destruct (B k' I) as (t' & I1 & I2). exists t'. cbn. split; [apply in_app_iff; auto|]. rewrite lset_ne; [assumption|]. apply O, B. assumption.
        * rewrite put_ne in Hj by auto. destruct (H j q Hj L') as [A B]. split; auto. intros k' I. destruct (B k' I) as (t' & I1 & I2). exists t'. cbn. split; [apply in_app_iff; auto|]. rewrite lset_ne; [assumption|]. apply O, B. assumption.
      + destruct (nth_error rs i); auto.
        assert (D : forall ls, (forall j k', k' <> k \/ j <> i -> forall e, l_lease st k' = Some (j, e) -> ls k' = Some (j, e)) -> LI (mkL (l_db st) (put i (PFree t) (l_ph st)) (l_log st) ls (l_now st) (l_got st))).
        { intros ls Hls j q Hj L. cbn [l_ph] in Hj. change (~ lapsed st j) in L. destruct (Nat.eq_dec j i) as [->|X].
          - rewrite (put_eq _ _ _ _ E) in Hj. injection Hj as <-. destruct (H i _ E L) as [A B]. cbn [holds] in *. inversion A as [|? ? A1 A2]; subst. split; auto.
            intros k' I. destruct (B k' (or_intror I)) as (t' & I1 & I2). exists t'. cbn. split; auto. apply Hls; auto. left. intros ->. contradiction.
          - rewrite put_ne in Hj by auto. destruct (H j q Hj L) as [A B]. split; auto. intros k' I. destruct (B k' I) as (t' & I1 & I2). exists t'. cbn. split; auto. }
        destruct (l_lease st k) as [[j e]|] eqn:Le; [destruct (Nat.eqb_spec j i)|]; apply D; auto.
        intros j' k' N e' L'. cbn. destruct (String.eqb_spec k' k) as [->|Nk]; [|rewrite lset_ne; auto]. rewrite Le in L'. injection L' as -> ->. destruct N; congruence.
    - apply (LI_core st (SFail i) i H). auto.
    - destruct (nth_error (l_ph st) i) as [[|x [|k t] held|x held snap buf rest|h| |held]|] eqn:E; auto.
      destruct (l_live st k) eqn:Lk; [apply (LI_phase st _ i _ (PFree held) H E); auto|].
      intros j q Hj L. cbn [set_lease set_phase l_ph] in Hj. assert (L' : ~ lapsed st j) by exact L.
      assert (O : forall k', owns st j k' -> k' <> k). { intros k' O' ->. apply L'. eapply not_live; eauto. }
      assert (W : NoDup (holds q) /\ forall k', In k' (holds q) -> owns st j k').
      { destruct (Nat.eq_dec j i) as [->|X]; [rewrite (put_eq _ _ _ _ E) in Hj; injection Hj as <-; exact (H i _ E L')|rewrite put_ne in Hj by auto; auto]. }
      destruct W as [A B]. split; auto. intros k' I. pose proof (O k' (B k' I)) as N. destruct (B k' I) as (t' & I1 & I2). exists t'. cbn. split; auto. rewrite lset_ne; auto.
    - destruct (nth_error rs i); auto. destruct (nth_error (l_ph st) i) as [[|x [|k t] held|x held snap buf rest|[|k t]| |held]|] eqn:E; auto. apply (LI_phase st _ i _ (PFree t) H E); cbn; auto. intros N. now inversion N.
    - apply (LI_core st (SDie i) i H). auto.
  Qed.

  (** the simulation by SerialModel: a run whose key has run out is taken for dead there *)
  Record R (st : lst) (ss : sst) : Prop := {
    r_db : s_db ss = l_db st; r_log : s_log ss = l_log st;
    r_ph : forall i, nth_error (s_ph ss) i = nth_error (l_ph st) i \/ (lapsed st i /\ nth_error (s_ph ss) i = Some POver /\ nth_error (l_ph st) i <> None) }.
  Lemma srun_app a b s : srun rs (a ++ b) s = srun rs b (srun rs a s).
  Proof. revert s. induction a as [|x t IH]; intros s; cbn; auto. Qed.
  Lemma kill st ss i : R st ss -> lapsed st i -> exists acts, R st (srun rs acts ss) /\ (forall j, j <> i -> nth_error (s_ph (srun rs acts ss)) j = nth_error (s_ph ss) j) /\ forall p, nth_error (s_ph (srun rs acts ss)) i = Some p -> p = POver.
  Proof.
    intros [A B C] L. destruct (nth_error (s_ph ss) i) as [p|] eqn:E.
    - exists [SDie i; SExpire i]. cbn [srun sexec]. rewrite E. cbn [s_ph]. rewrite (put_eq _ _ _ _ E). cbn [s_db s_ph s_log].
      assert (N : forall j, j <> i -> nth_error (put i POver (put i (PDead (holds p)) (s_ph ss))) j = nth_error (s_ph ss) j) by (intros j X; rewrite !put_ne by auto; reflexivity).
      assert (Q : nth_error (put i POver (put i (PDead (holds p)) (s_ph ss))) i = Some POver) by (eapply put_eq, put_eq, E).
      split; [|split; auto; intros q; rewrite Q; congruence].
      split; cbn [s_db s_ph s_log]; auto. intros j. destruct (Nat.eq_dec j i) as [->|X]; [|rewrite N by auto; auto]. right. split; auto. split; auto.
      destruct (C i) as [C1|(_ & _ & C1)]; congruence.
    - exists []. cbn. split; [split; auto|]. split; auto. intros p. congruence.
  Qed.
  Lemma clear_key st ss k : LI st -> R st ss -> l_live st k = false -> forall n, exists acts, R st (srun rs acts ss) /\
    (forall j, n <= j \/ nth_error (s_ph ss) j = nth_error (l_ph st) j /\ ~ lapsed st j -> nth_error (s_ph (srun rs acts ss)) j = nth_error (s_ph ss) j) /\
    (forall j p, j < n -> nth_error (s_ph (srun rs acts ss)) j = Some p -> ~ In k (holds p)).
  Proof.
    intros I H Lk. induction n as [|n (acts & H1 & H2 & H3)].
    - exists []. cbn. split; auto. split; auto. intros. lia.
    - destruct (lapsed_dec st n) as [L|L].
      + destruct (kill _ _ n H1 L) as (a2 & K1 & K2 & K3). exists (acts ++ a2). rewrite srun_app. split; auto. split.
        * intros j [X|[X Y]]; (rewrite K2 by (intros ->; try lia; contradiction)); apply H2; auto. left. lia.
        * intros j p X E. destruct (Nat.eq_dec j n) as [->|N]; [apply K3 in E; subst p; auto|]. rewrite K2 in E by auto. apply (H3 j); auto. lia.
      + exists acts. split; auto. split; [intros j [X|X]; apply H2; [left; lia|auto]|].
        intros j p X E. destruct (Nat.eq_dec j n) as [->|N]; [|apply (H3 j); auto; lia]. intros Ik.
        destruct H1 as [_ _ C]. destruct (C n) as [C1|(C1 & _)]; [|contradiction]. rewrite C1 in E. destruct (I n p E L) as [_ O]. apply L. eapply not_live; eauto.
  Qed.

  (** both take the same change of phase *)
  Lemma R_put st ss st' ss' i p p' : R st ss -> (forall j, lapsed st j -> lapsed st' j) -> nth_error (l_ph st) i = Some p -> nth_error (s_ph ss) i = Some p ->
    l_ph st' = put i p' (l_ph st) -> s_ph ss' = put i p' (s_ph ss) -> s_db ss' = l_db st' -> s_log ss' = l_log st' -> R st' ss'.
  Proof.
    intros [A B C] L E1 E2 P1 P2 D G. split; auto. intros j. rewrite P1, P2. destruct (Nat.eq_dec j i) as [->|N].
    - left. rewrite (put_eq _ _ _ _ E1), (put_eq _ _ _ _ E2). reflexivity.
    - rewrite !put_ne by auto. destruct (C j) as [X|(X & Y & Z)]; auto.
  Qed.
  (** a run that is over in SerialModel goes on here *)
  Lemma R_alone st ss st' i p p' : R st ss -> (forall j, lapsed st j -> lapsed st' j) -> lapsed st i -> nth_error (l_ph st) i = Some p -> nth_error (s_ph ss) i = Some POver ->
    l_ph st' = put i p' (l_ph st) -> l_db st' = l_db st -> l_log st' = l_log st -> R st' ss.
  Proof.
    intros [A B C] L X E1 E2 P1 D G. split; try congruence. intros j. rewrite P1. destruct (Nat.eq_dec j i) as [->|N].
    - right. split; auto. split; auto. rewrite (put_eq _ _ _ _ E1). discriminate.
    - rewrite put_ne by auto. destruct (C j) as [Y|(Y & Z & W)]; auto.
  Qed.
  Lemma R_same st ss st' : R st ss -> (forall j, lapsed st j -> lapsed st' j) -> l_ph st' = l_ph st -> l_db st' = l_db st -> l_log st' = l_log st -> R st' ss.
  Proof. intros [A B C] L P D G. split; try congruence. intros j. rewrite P. destruct (C j) as [Y|(Y & Z & W)]; auto. Qed.
  (** steps that only SerialModel's part of the state takes part in *)
  Lemma R_core st ss a i : R st ss -> (a = SFail i \/ a = SDie i \/ (a = SStep i /\ (forall p, nth_error (l_ph st) i = Some p -> lock_phase p = false) /\ (ending st i -> ~ lapsed st i))) ->
    exists acts, R (with_core st (sexec rs a (core st))) (srun rs acts ss).
  Proof.
    intros H C. assert (M : forall j, lapsed st j -> lapsed (with_core st (sexec rs a (core st))) j) by auto.
    destruct (nth_error (l_ph st) i) as [p|] eqn:E.
    2:{ exists []. cbn [srun]. assert (X : sexec rs a (core st) = core st) by (destruct C as [-> |[-> |[-> _]]]; cbn [sexec core s_ph]; rewrite E; auto; destruct (nth_error rs i); auto).
        apply (R_same st); auto; now rewrite X. }
    destruct (r_ph _ _ H i) as [Es|(L & Es & _)].
    - rewrite E in Es. exists [a]. cbn [srun].
      assert (X : (sexec rs a (core st) = core st /\ sexec rs a ss = ss) \/ exists d' l' p', sexec rs a (core st) = mkSt d' (put i p' (l_ph st)) l' /\ sexec rs a ss = mkSt d' (put i p' (s_ph ss)) l').
      { destruct H as [A B _]. destruct C as [-> |[-> |(-> & K & _)]]; cbn [sexec core s_ph s_db s_log]; rewrite E, Es, ?A, ?B.
        - destruct p; auto; right; eexists _, _, _; split; reflexivity.
        - right; eexists _, _, _; split; reflexivity.
        - specialize (K p eq_refl). destruct (nth_error rs i) as [r|]; auto.
          destruct p as [|x [|k t] held|x held snap buf [ok out|q k|rw v k]|[|k t]| |held]; try discriminate K; cbn [step1 s_db s_ph s_log]; rewrite ?A, ?B; auto; right; eexists _, _, _; split; reflexivity. }
      destruct X as [[X1 X2]|(d' & l' & p' & X1 & X2)].
      + rewrite X2. apply (R_same st); auto; rewrite X1; reflexivity.
      + eapply (R_put st ss _ _ i p p' H M E Es); cbn [with_core l_ph l_db l_log]; rewrite ?X1, ?X2; reflexivity.
    - exists []. cbn [srun].
      assert (X : sexec rs a (core st) = core st \/ exists p', sexec rs a (core st) = mkSt (l_db st) (put i p' (l_ph st)) (l_log st)).
      { destruct C as [-> |[-> |(-> & K & T)]]; cbn [sexec core s_ph s_db s_log]; rewrite E.
        - destruct p; auto; right; eexists; reflexivity.
        - right; eexists; reflexivity.
        - specialize (K p eq_refl). destruct (nth_error rs i) as [r|]; auto.
          destruct p as [|x [|k t] held|x held snap buf [ok out|q k|rw v k]|[|k t]| |held]; try discriminate K; cbn [step1 s_db s_ph s_log]; auto; try (right; eexists; reflexivity).
          exfalso. apply T; auto. exists x, held, snap, buf, ok, out. exact E. }
      destruct X as [X|(p' & X)].
      + apply (R_same st); auto; rewrite X; reflexivity.
      + eapply (R_alone st ss _ i p p' H M L E Es); rewrite X; reflexivity.
  Qed.
  Lemma R_step a st ss : LI st -> R st ss -> (forall i, a = LStep i -> ending st i -> ~ lapsed st i) -> exists acts, R (lexec a st) (srun rs acts ss).
  Proof.
    intros I H T. pose proof (fun j => lapsed_mono a st j) as M. destruct a as [n|i|i|i|i|i]; cbn [LeaseModel.lexec] in *.
    - exists []. apply (R_same st); auto.
    - specialize (T i eq_refl). destruct (nth_error (l_ph st) i) as [p|] eqn:E; [|apply (R_core st ss (SStep i) i H); right; right; split; auto; split; auto; intros p X; congruence].
      assert (C : lock_phase p = false -> exists acts, R (with_core st (sexec rs (SStep i) (core st))) (srun rs acts ss))
        by (intros X; apply (R_core st ss (SStep i) i H); right; right; split; auto; split; auto; intros q Y; congruence).
      destruct p as [|x [|k t] held|x held snap buf rest|[|k t]| |held]; auto; clear C.
      + destruct (nth_error rs i) as [r|] eqn:Er; [|exists []; exact H]. destruct (l_live st k) eqn:Lk.
        * destruct (r_ph _ _ H i) as [Es|(L & Es & _)].
          -- rewrite E in Es. exists [SFail i]. cbn [srun sexec]. rewrite Es. pose proof (r_db _ _ H) as A. pose proof (r_log _ _ H) as B. eapply (R_put st ss _ _ i _ (PFree held) H M E Es); auto.
          -- exists []. eapply (R_alone st ss _ i _ (PFree held) H M L E Es); auto.
        * destruct (lapsed_dec st i) as [L|L].
          -- destruct (kill _ _ i H L) as (acts & K1 & K2 & K3). exists acts. destruct (r_ph _ _ K1 i) as [Es|(_ & Es & _)].
             ++ rewrite E in Es. apply K3 in Es. discriminate Es.
             ++ eapply (R_alone st _ _ i _ (PLock x t (k :: held)) K1 M L E Es); auto.
          -- destruct (clear_key st ss k I H Lk (length (s_ph ss))) as (acts & K1 & K2 & K3). exists (acts ++ [SStep i]). rewrite srun_app. cbn [srun sexec].
             destruct (r_ph _ _ K1 i) as [Es|(X & _)]; [|contradiction]. rewrite E in Es. rewrite Er, Es. cbn [step1].
             assert (Tk : taken k (s_ph (srun rs acts ss)) = false).
             { destruct (taken k (s_ph (srun rs acts ss))) eqn:Q; auto. exfalso. unfold taken in Q. apply existsb_exists in Q. destruct Q as (q & Q1 & Q2). apply existsb_exists in Q2. destruct Q2 as (k' & Q2 & Q3). apply String.eqb_eq in Q3. subst k'.
               apply In_nth_error in Q1. destruct Q1 as [j Q1]. destruct (Nat.lt_ge_cases j (length (s_ph ss))) as [Y|Y]; [exact (K3 j q Y Q1 Q2)|].
               rewrite K2 in Q1 by auto. apply nth_error_None in Y. congruence. }
             rewrite Tk. pose proof (r_db _ _ K1) as A. pose proof (r_log _ _ K1) as B. eapply (R_put st _ _ _ i _ (PLock x t (k :: held)) K1 M E Es); auto.
      + destruct (nth_error rs i) as [r|] eqn:Er; [|exists []; exact H].
        assert (D : forall st', l_ph st' = put i (PFree t) (l_ph st) -> l_db st' = l_db st -> l_log st' = l_log st -> l_now st' = l_now st -> l_got st' = l_got st -> exists acts, R st' (srun rs acts ss)).
        { intros st' E1 E2 E3 E4 E5. assert (M' : forall j, lapsed st j -> lapsed st' j) by (intros j (k' & t' & X & Y); exists k', t'; now rewrite E4, E5).
          destruct (r_ph _ _ H i) as [Es|(L & Es & _)].
          - rewrite E in Es. exists [SStep i]. cbn [srun sexec]. rewrite Er, Es. cbn [step1]. pose proof (r_db _ _ H) as A. pose proof (r_log _ _ H) as B. eapply (R_put st ss _ _ i _ (PFree t) H M' E Es); auto; cbn; congruence.
          - exists []. eapply (R_alone st ss _ i _ (PFree t) H M' L E Es); auto. }
        destruct (l_lease st k) as [[j e]|]; [destruct (Nat.eqb j i)|]; apply D; reflexivity.
    - apply (R_core st ss (SFail i) i H). auto.
    - destruct (nth_error (l_ph st) i) as [[|x [|k t] held|x held snap buf rest|h| |held]|] eqn:E; try (exists []; exact H).
      assert (D : forall st', l_ph st' = put i (PFree held) (l_ph st) -> l_db st' = l_db st -> l_log st' = l_log st -> l_now st' = l_now st -> l_got st' = l_got st -> exists acts, R st' (srun rs acts ss)).
      { intros st' E1 E2 E3 E4 E5. assert (M' : forall j, lapsed st j -> lapsed st' j) by (intros j (k' & t' & X & Y); exists k', t'; now rewrite E4, E5).
        destruct (r_ph _ _ H i) as [Es|(L & Es & _)].
        - rewrite E in Es. exists [SFail i]. cbn [srun sexec]. rewrite Es. pose proof (r_db _ _ H) as A. pose proof (r_log _ _ H) as B. eapply (R_put st ss _ _ i _ (PFree held) H M' E Es); auto; cbn; congruence.
        - exists []. eapply (R_alone st ss _ i _ (PFree held) H M' L E Es); auto. }
      destruct (l_live st k); apply D; reflexivity.
    - destruct (nth_error rs i) as [r|] eqn:Er; [|exists []; exact H].
      destruct (nth_error (l_ph st) i) as [[|x [|k t] held|x held snap buf rest|[|k t]| |held]|] eqn:E; try (exists []; exact H).
      destruct (r_ph _ _ H i) as [Es|(L & Es & _)].
      + rewrite E in Es. exists [SStep i]. cbn [srun sexec]. rewrite Er, Es. cbn [step1]. pose proof (r_db _ _ H) as A. pose proof (r_log _ _ H) as B. eapply (R_put st ss _ _ i _ (PFree t) H M E Es); auto.
      + exists []. eapply (R_alone st ss _ i _ (PFree t) H M L E Es); auto.
    - apply (R_core st ss (SDie i) i H). auto.
  Qed.
End L.

(** Histories in which every transaction ends before its keys run out - whatever the leases, failing and lost lock calls, failing
    UnLocks, deaths, and runs that go on after their keys ran out without ever ending their transaction: the committed database is
    the result of the finished transactions one after the other. *)
Theorem C95_in_time_serializable_partial : forall ttl cov rs d0 ls now acts, protected cov rs -> in_time ttl rs acts (lstart rs d0 ls now) ->
  serial rs (l_log (lrun ttl rs acts (lstart rs d0 ls now))) d0 (l_db (lrun ttl rs acts (lstart rs d0 ls now))).
Proof.
  intros ttl cov rs d0 ls now acts P T.
  assert (G : forall acts st ss, LI ttl st -> R ttl st ss -> in_time ttl rs acts st -> exists sacts, R ttl (lrun ttl rs acts st) (srun rs sacts ss)).
  { clear. induction acts as [|a t IH]; intros st ss I H T; cbn [lrun]; [exists []; exact H|].
    destruct (R_step ttl rs a st ss I H) as (a1 & H1).
    - intros i -> E (k & t' & X & Y). specialize (T [] i t eq_refl E k t' X). cbn in T. lia.
    - destruct (IH (lexec ttl rs a st) (srun rs a1 ss)) as (a2 & H2); auto; [now apply LI_step| |exists (a1 ++ a2); rewrite srun_app; exact H2].
      intros x i y -> E k t' X. apply (T (a :: x) i y eq_refl E k t' X). }
  destruct (G acts (lstart rs d0 ls now) (sstart rs d0)) as (sacts & [A B _]); auto.
  - intros i p E _. cbn in E. apply nth_error_In in E. apply in_map_iff in E. destruct E as (z & <- & _). cbn. split; [constructor|intros k []].
  - split; auto.
  - rewrite <- A, <- B. now apply C87_serializable with (cov := cov).
Qed.
Print Assumptions C95_in_time_serializable_partial.

(** No two runs have a key at the same time that has run out for neither. *)
Theorem C95_no_overlap_in_time_partial : forall ttl rs d0 ls now acts i j pi pj k, let st := lrun ttl rs acts (lstart rs d0 ls now) in
  nth_error (l_ph st) i = Some pi -> In k (holds pi) -> nth_error (l_ph st) j = Some pj -> In k (holds pj) ->
  (forall k' t, In (i, k', t) (l_got st) -> l_now st < t + ttl) -> (forall k' t, In (j, k', t) (l_got st) -> l_now st < t + ttl) -> i = j.
Proof.
  intros ttl rs d0 ls now acts i j pi pj k st Ei Ii Ej Ij Ti Tj.
  assert (G : forall acts st0, LI ttl st0 -> LI ttl (lrun ttl rs acts st0)).
  { clear. induction acts as [|a t IH]; intros st0 H; cbn [lrun]; auto. apply IH. now apply LI_step. }
  assert (I : LI ttl st).
  { unfold st. apply G. intros x p E _. cbn in E. apply nth_error_In in E. apply in_map_iff in E. destruct E as (z & <- & _). cbn. split; [constructor|intros q []]. }
  clearbody st. destruct (I i pi Ei) as [_ A]; [intros (k' & t & X & Y); specialize (Ti k' t X); lia|]. destruct (I j pj Ej) as [_ B]; [intros (k' & t & X & Y); specialize (Tj k' t X); lia|].
  destruct (A k Ii) as (t1 & _ & X). destruct (B k Ij) as (t2 & _ & Y). congruence.
Qed.
Print Assumptions C95_no_overlap_in_time_partial.

(** Refutation: for every ttl, two runs that take the key of the row they change; the first takes longer than the ttl, nothing fails, both
    report success - and the update of the second one is lost.  In between both are inside their transactions with the same key. *)
Definition both : list runp := [bump_run "a" ["a"] true; bump_run "a" ["a"] true].
Definition long_acts (ttl : nat) : list lact :=
  [LStep 0; LStep 0; LStep 0; LStep 0; LTick ttl; LStep 1; LStep 1; LStep 1; LStep 1; LStep 1; LStep 1; LStep 0; LStep 0; LStep 0; LStep 0; LStep 1; LStep 1].
Lemma both_protected : protected (fun r => r) both.
Proof. intros r x [<-|[<-|[]]]; cbn; apply bump_within; cbn; auto. Qed.

Lemma lrun_app ttl rs a b st : lrun ttl rs (a ++ b) st = lrun ttl rs b (lrun ttl rs a st).
Proof. revert st. induction a as [|x a IH]; intros st; cbn [app lrun]; auto. Qed.
Definition long_lease (ttl : nat) : string -> option (nat * nat) := lset (lset (fun _ => None) "a" (Some (0, ttl))) "a" (Some (1, ttl + ttl)).
Lemma long_start ttl : exists p, lrun ttl both (firstn 7 (long_acts ttl)) (lstart both (fun _ => None) (fun _ => None) 0) =
  mkL (fun _ => None) [PRun ("")%string ["a"] (Some (fun _ => None)) [] p; PLock ("")%string [] ["a"]] [] (long_lease ttl) ttl [(0, "a", 0); (1, "a", ttl)] /\
  p = Write "a" (Some ("" ++ "1")%string) (Ret true ""%string).
Proof.
  assert (A : lrun ttl both (firstn 6 (long_acts ttl)) (lstart both (fun _ => None) (fun _ => None) 0) =
    mkL (fun _ => None) [PRun ("")%string ["a"] (Some (fun _ => None)) [] (Write "a" (Some ("" ++ "1")%string) (Ret true ""%string)); PLock ("")%string ["a"] []] [] (lset (fun _ => None) "a" (Some (0, ttl))) ttl [(0, "a", 0)]) by reflexivity.
  eexists. split; [|reflexivity]. change (firstn 7 (long_acts ttl)) with (firstn 6 (long_acts ttl) ++ [LStep 1]). rewrite lrun_app, A.
  assert (B : l_live (mkL (fun _ => None) [PRun ""%string ["a"] (Some (fun _ => None)) [] (Write "a" (Some ("" ++ "1")%string) (Ret true ""%string)); PLock ("")%string ["a"] []] [] (lset (fun _ => None) "a" (Some (0, ttl))) ttl [(0, "a", 0)]) "a" = false) by (unfold l_live; cbn [l_lease l_now]; change (lset (fun _ => None) "a" (Some (0, ttl)) "a") with (Some (0, ttl)); apply Nat.ltb_irrefl).
  cbn [lrun lexec l_ph nth_error both]. rewrite B. reflexivity.
Qed.
Lemma long_end ttl : let st := lrun ttl both (long_acts ttl) (lstart both (fun _ => None) (fun _ => None) 0) in
  map e_run (l_log st) = [1; 0] /\ forallb e_ok (l_log st) = true /\ l_db st "a" = Some "1"%string.
Proof.
  destruct (long_start ttl) as (p & E & ->). change (long_acts ttl) with (firstn 7 (long_acts ttl) ++ skipn 7 (long_acts ttl)). cbn zeta. rewrite lrun_app, E. repeat split; reflexivity.
Qed.
Theorem C95_long_run_loses_update_refuted : forall ttl, let st := lrun ttl both (long_acts ttl) (lstart both (fun _ => None) (fun _ => None) 0) in
  protected (fun r => r) both /\ forallb e_ok (l_log st) = true /\ length (l_log st) = length both /\
  overlap (lrun ttl both (firstn 8 (long_acts ttl)) (lstart both (fun _ => None) (fun _ => None) 0)) "a" /\
  forall l d', Permutation (map e_run l) (map e_run (l_log st)) -> serial both l (fun _ => None) d' -> ~ same d' (l_db st).
Proof.
  intros ttl st. destruct (long_end ttl) as (E1 & E2 & E3). fold st in E1, E2, E3. split; [exact both_protected|]. split; [exact E2|]. split; [rewrite <- (map_length e_run), E1; reflexivity|]. split.
  - unfold overlap. exists 0, 1. destruct (long_start ttl) as (p & E & ->). change (firstn 8 (long_acts ttl)) with (firstn 7 (long_acts ttl) ++ [LStep 1]). rewrite lrun_app, E. do 10 eexists. split; [congruence|]. split; [reflexivity|]. split; [now left|]. split; [reflexivity|now left].
  - clearbody st. intros l d' Pm S X. rewrite E1 in Pm. specialize (X "a"). rewrite E3 in X.
    assert (Ln : length l = 2) by (apply Permutation_length in Pm; rewrite !map_length in Pm; exact Pm). assert (In2 : forall e, In e l -> e_run e = 0 \/ e_run e = 1).
    { intros e He. apply (in_map e_run) in He. apply (Permutation_in _ Pm) in He. destruct He as [He|[He|[]]]; auto. }
    destruct l as [|e1 [|e2 [|e3 l]]]; try discriminate Ln. inversion S as [|? ? ? d1 ? r1 R1 O1 S1]; subst. inversion S1 as [|? ? ? d2 ? r2 R2 O2 S2]; subst. inversion S2 as [? ? S3|]; subst.
    assert (B1 : forall x, r_prog r1 x = bump "a") by (intros x; destruct (In2 e1 (or_introl eq_refl)) as [Z|Z]; rewrite Z in R1; cbn in R1; injection R1 as <-; reflexivity).
    assert (B2 : forall x, r_prog r2 x = bump "a") by (intros x; destruct (In2 e2 (or_intror (or_introl eq_refl))) as [Z|Z]; rewrite Z in R2; cbn in R2; injection R2 as <-; reflexivity).
    rewrite B1 in O1. rewrite B2 in O2. apply bump_one in O1. apply bump_one in O2. cbn in O1. unfold value in O2. rewrite O1 in O2. cbn in O2. rewrite <- (S3 "a"), O2 in X. discriminate X.
Qed.
Print Assumptions C95_long_run_loses_update_refuted.

(** A key is never taken for longer than the ttl: whoever has it - a run that died, a lost answer, a run that takes for ever - when the
    ttl is over and nobody else was given it meanwhile, the next one gets it. *)
Lemma lease_end_step ttl rs a st : (forall k j e, l_lease st k = Some (j, e) -> e <= l_now st + ttl) -> forall k j e, l_lease (lexec ttl rs a st) k = Some (j, e) -> e <= l_now (lexec ttl rs a st) + ttl.
Proof.
  intros H. assert (S : forall k x, (forall j e, x = Some (j, e) -> e <= l_now st + ttl) -> forall k' j e, lset (l_lease st) k x k' = Some (j, e) -> e <= l_now st + ttl).
  { intros k x Hx k' j e E. unfold lset in E. destruct (String.eqb k' k); eauto. }
  assert (S1 : forall k i k' j e, lset (l_lease st) k (Some (i, l_now st + ttl)) k' = Some (j, e) -> e <= l_now st + ttl).
  { intros k i. apply S. intros j e E. injection E as _ <-. lia. }
  assert (S0 : forall k k' j e, lset (l_lease st) k None k' = Some (j, e) -> e <= l_now st + ttl) by (intros k; apply S; intros j e E; discriminate E).
  destruct a as [n|i|i|i|i|i]; cbn [lexec]; try (cbn [with_core l_lease l_now]; exact H).
  - cbn [l_lease l_now]. intros k j e E. specialize (H k j e E). lia.
  - destruct (nth_error (l_ph st) i) as [[|x [|k t] held|x held snap buf rest|[|k t]| |held]|]; try (cbn [with_core l_lease l_now]; exact H).
    + destruct (nth_error rs i); [|exact H]. destruct (l_live st k); [exact H|]. cbn [set_got set_lease set_phase l_lease l_now]. apply S1.
    + destruct (nth_error rs i); [|exact H]. destruct (l_lease st k) as [[j e]|]; [destruct (Nat.eqb j i)|]; try exact H. cbn [set_lease set_phase l_lease l_now]. apply S0.
  - destruct (nth_error (l_ph st) i) as [[|x [|k t] held|x held snap buf rest|[|k t]| |held]|]; try exact H. destruct (l_live st k); [exact H|]. cbn [set_lease set_phase l_lease l_now]. apply S1.
  - destruct (nth_error rs i); [|exact H]. destruct (nth_error (l_ph st) i) as [[|x [|k t] held|x held snap buf rest|[|k t]| |held]|]; exact H.
Qed.
Theorem C95_key_free_after_ttl : forall ttl rs d0 ls now acts k i x t held,
  (forall k j e, ls k = Some (j, e) -> e <= now + ttl) ->
  let st := lrun ttl rs acts (lstart rs d0 ls now) in
  nth_error (l_ph st) i = Some (PLock x (k :: t) held) -> i < length rs ->
  nth_error (l_ph (lrun ttl rs [LTick ttl; LStep i] st)) i = Some (PLock x t (k :: held)).
Proof.
  intros ttl rs d0 ls now acts k i x t held H0 st Ep Hi.
  assert (G : forall acts st0, (forall k j e, l_lease st0 k = Some (j, e) -> e <= l_now st0 + ttl) -> forall k j e, l_lease (lrun ttl rs acts st0) k = Some (j, e) -> e <= l_now (lrun ttl rs acts st0) + ttl).
  { clear. induction acts as [|a acts IH]; intros st0 H; cbn [lrun]; [exact H|]. apply IH. now apply lease_end_step. }
  pose proof (G acts (lstart rs d0 ls now) H0) as E. fold st in E. clearbody st. clear G H0. specialize (E k).
  cbn [lrun lexec l_ph]. rewrite Ep. destruct (nth_error rs i) eqn:Er; [|apply nth_error_None in Er; lia].
  unfold l_live. cbn [l_lease l_now]. destruct (l_lease st k) as [[j e]|].
  - specialize (E j e eq_refl). destruct (Nat.ltb_spec (l_now st + ttl) e); [lia|]. cbn. eapply put_eq; eauto.
  - cbn. eapply put_eq; eauto.
Qed.
Print Assumptions C95_key_free_after_ttl.
(** And a run that gives a key back in time gives it back at once: the next one gets it without waiting. *)
Theorem C95_given_back_is_free : forall ttl rs d0 ls now acts k i j x t t' held,
  let st := lrun ttl rs acts (lstart rs d0 ls now) in
  nth_error (l_ph st) i = Some (PFree (k :: t')) -> (forall k' u, In (i, k', u) (l_got st) -> l_now st < u + ttl) ->
  nth_error (l_ph st) j = Some (PLock x (k :: t) held) -> i < length rs -> j < length rs ->
  nth_error (l_ph (lrun ttl rs [LStep i; LStep j] st)) j = Some (PLock x t (k :: held)).
Proof.
  intros ttl rs d0 ls now acts k i j x t t' held st Ei T Ej Hi Hj.
  assert (G : forall acts st0, LI ttl st0 -> LI ttl (lrun ttl rs acts st0)).
  { clear. induction acts as [|a tl IH]; intros st0 H; cbn [lrun]; auto. apply IH. now apply LI_step. }
  assert (I : LI ttl st).
  { unfold st. apply G. intros z p E _. cbn in E. apply nth_error_In in E. apply in_map_iff in E. destruct E as (z' & <- & _). cbn. split; [constructor|intros q []]. }
  clearbody st. destruct (I i _ Ei) as [_ A]; [intros (k' & u & X & Y); specialize (T k' u X); lia|]. destruct (A k (or_introl eq_refl)) as (u & _ & L).
  assert (N : i <> j) by (intros ->; congruence).
  destruct (nth_error rs i) eqn:Ri; [|apply nth_error_None in Ri; lia]. destruct (nth_error rs j) eqn:Rj; [|apply nth_error_None in Rj; lia].
  cbn [lrun]. unfold lexec at 2. rewrite Ei, Ri, L, Nat.eqb_refl. cbn [lexec set_lease set_phase l_ph]. rewrite put_ne by auto. rewrite Ej, Rj.
  match goal with |- context [l_live ?s k] => assert (F : l_live s k = false) by (unfold l_live; cbn [l_lease l_now set_lease set_phase]; unfold lset; now rewrite String.eqb_refl) end.
  rewrite F. cbn [set_got set_lease set_phase l_ph]. eapply put_eq. rewrite put_ne by auto. exact Ej.
Qed.
Print Assumptions C95_given_back_is_free.

(** Example: the same two runs, ttl 10; the second run's Lock comes after the first one's UnLock, time passing in between; both in time. *)
Definition calm_acts : list lact :=
  [LStep 0; LStep 0; LStep 0; LTick 4; LStep 0; LStep 0; LTick 5; LStep 0; LStep 0; LStep 0; LTick 20; LStep 1; LStep 1; LStep 1; LStep 1; LStep 1; LStep 1; LStep 1; LStep 1].
Fixpoint in_timeb (ttl : nat) (rs : list runp) (acts : list lact) (st : lst) : bool :=
  match acts with
  | [] => true
  | a :: t => match a with
              | LStep i => match nth_error (l_ph st) i with
                           | Some (PRun _ _ _ _ (Ret _ _)) => forallb (fun g : nat * string * nat => negb (fst (fst g) =? i) || (l_now st <? snd g + ttl)) (l_got st)
                           | _ => true
                           end
              | _ => true
              end && in_timeb ttl rs t (lexec ttl rs a st)
  end.
Lemma in_timeb_ok ttl rs acts st : in_timeb ttl rs acts st = true -> in_time ttl rs acts st.
Proof.
  revert st. induction acts as [|a0 acts IH]; intros st H a i b E Hd k t Hin; [destruct a; discriminate E|]. cbn [in_timeb] in H. apply andb_true_iff in H. destruct H as [H1 H2].
  destruct a as [|a1 a]; cbn [app] in E; injection E as -> ->.
  - cbn [lrun] in *. destruct Hd as (x & h & s & bf & ok & out & Hd). rewrite Hd in H1. rewrite forallb_forall in H1. specialize (H1 _ Hin). cbn [fst snd] in H1. rewrite Nat.eqb_refl in H1. cbn [negb orb] in H1. now apply Nat.ltb_lt.
  - cbn [lrun] in *. exact (IH _ H2 a i b eq_refl Hd k t Hin).
Qed.
Example C95_calm_in_time : in_time 10 both calm_acts (lstart both (fun _ => None) (fun _ => None) 0) /\
  exists a i b, calm_acts = a ++ LStep i :: b /\ ending (lrun 10 both a (lstart both (fun _ => None) (fun _ => None) 0)) i /\
    l_got (lrun 10 both a (lstart both (fun _ => None) (fun _ => None) 0)) = [(0, "a", 0)] /\ l_now (lrun 10 both a (lstart both (fun _ => None) (fun _ => None) 0)) = 9.
Proof.
  split; [apply in_timeb_ok; reflexivity|]. exists (firstn 7 calm_acts), 0, (skipn 8 calm_acts). split; [reflexivity|]. split; [|split; reflexivity]. do 6 eexists. reflexivity.
Qed.
Example C95_calm : let st := lrun 10 both calm_acts (lstart both (fun _ => None) (fun _ => None) 0) in
  l_db st "a" = Some "11"%string /\ map e_run (l_log st) = [0; 1] /\ l_now st = 29.
Proof. repeat split. Qed.

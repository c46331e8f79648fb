(** Proofs for SerialProps: what a protected transaction does depends only on its rows; invariant of concurrent runs. *)
From Verif Require Import SerialModel SerialSpec.

Lemma put_eq {A} (x : A) : forall l i p, nth_error l i = Some p -> nth_error (put i x l) i = Some x.
Proof. induction l as [|y l IH]; intros [|i] p H; cbn in *; try discriminate; eauto. Qed.
Lemma put_ne {A} (x : A) : forall l i j, i <> j -> nth_error (put i x l) j = nth_error l j.
Proof. induction l as [|y l IH]; intros [|i] [|j] H; cbn; auto; try congruence. Qed.
Lemma taken_none k ps : taken k ps = false -> forall i p, nth_error ps i = Some p -> ~ In k (holds p).
Proof.
  intros H i p E I. apply nth_error_In in E. assert (X : taken k ps = true); [|congruence]. unfold taken. apply existsb_exists. exists p. split; auto.
  apply existsb_exists. exists k. split; auto. apply String.eqb_refl.
Qed.

Section Cov.
  Variable cov : string -> string.
  Lemma agree_sym K d d' : agree cov K d d' -> agree cov K d' d.
  Proof. intros H r Hr. symmetry. auto. Qed.
  Lemma agree_trans K d1 d2 d3 : agree cov K d1 d2 -> agree cov K d2 d3 -> agree cov K d1 d3.
  Proof. intros H G r Hr. rewrite H; auto. Qed.
  Lemma same_agree K d d' : same d d' -> agree cov K d d'.
  Proof. intros H r _. apply H. Qed.
  Lemma direct_agree K p : within cov K p -> forall d d', agree cov K d d' ->
    fst (direct p d) = fst (direct p d') /\ agree cov K (snd (direct p d)) (snd (direct p d')) /\ forall r, ~ In (cov r) K -> snd (direct p d) r = d r.
  Proof.
    induction 1 as [ok out|q k Hq _ IH|r v k Hr _ IH]; intros d d' A; cbn [direct].
    - auto.
    - rewrite (Hq d d' A). now apply IH.
    - destruct (IH (update d r v) (update d' r v)) as (E1 & E2 & E3).
      + intros r' Hr'. unfold update. destruct (String.eqb r r'); auto.
      + split; auto. split; auto. intros r' N. rewrite (E3 r' N). unfold update. destruct (String.eqb_spec r r') as [<-|]; auto. contradiction.
  Qed.
  Definition bufin (K : list string) (buf : list (string * option string)) : Prop := forall r v, In (r, v) buf -> In (cov r) K.
  Lemma seen_out K buf d r : bufin K buf -> ~ In (cov r) K -> seen buf d r = d r.
  Proof.
    induction buf as [|[r' v] t IH]; intros B N; cbn; auto. destruct (String.eqb_spec r' r) as [->|].
    - exfalso. apply N. apply (B r v). now left.
    - apply IH; auto. intros a b H. apply (B a b). now right.
  Qed.
  Lemma seen_agree K buf d d' : agree cov K d d' -> agree cov K (seen buf d) (seen buf d').
  Proof. intros A r Hr. induction buf as [|[r' v] t IH]; cbn; auto. destruct (String.eqb r' r); auto. Qed.
  (** the point a run has reached is the one it would have reached alone on the present database *)
  Definition reached (p0 rest : prog) (buf : list (string * option string)) (d : dbase) : Prop :=
    fst (direct p0 d) = fst (direct rest (seen buf d)) /\ same (snd (direct p0 d)) (snd (direct rest (seen buf d))).
  Lemma reached_other K p0 rest buf d d' : within cov K p0 -> within cov K rest -> bufin K buf -> agree cov K d d' -> reached p0 rest buf d -> reached p0 rest buf d'.
  Proof.
    intros W0 W B A [E S]. destruct (direct_agree K p0 W0 d' d (agree_sym _ _ _ A)) as (P1 & P2 & P3).
    destruct (direct_agree K rest W (seen buf d') (seen buf d) (seen_agree _ _ _ _ (agree_sym _ _ _ A))) as (Q1 & Q2 & Q3). split; [congruence|].
    intros r. destruct (in_dec string_dec (cov r) K) as [I|N].
    - rewrite (P2 r I), (Q2 r I). apply S.
    - rewrite (P3 r N), (Q3 r N). symmetry. eapply seen_out; eauto.
  Qed.
  Lemma one_same K p d d' ok out d1 : within cov K p -> same d d' -> one p d' ok out d1 -> one p d ok out d1.
  Proof.
    intros W S (dw & E & R). destruct (direct_agree K p W d d' (same_agree K _ _ S)) as (P1 & P2 & P3). destruct (direct_agree K p W d' d (same_agree K _ _ (fun r => eq_sym (S r)))) as (_ & _ & Q3).
    rewrite E in P1, P2, Q3. cbn in *. destruct (direct p d) as [[ok1 out1] dw1] eqn:E1. cbn in *. injection P1 as -> ->. exists dw1. split; [exact E1|]. intros r. rewrite (R r). destruct ok; [|symmetry; apply S].
    destruct (in_dec string_dec (cov r) K) as [I|N]; [symmetry; auto|]. rewrite (P3 r N), (Q3 r N). symmetry. apply S.
  Qed.

  Variable rs : list runp.
  Hypothesis P : protected cov rs.
  Lemma serial_snoc l d0 d e r d1 : serial rs l d0 d -> nth_error rs (e_run e) = Some r -> one (r_prog r (e_init e)) d (e_ok e) (e_out e) d1 -> serial rs (l ++ [e]) d0 d1.
  Proof.
    intros S R O. induction S as [d d' S|e' l d dx d2 r' R' O' S IH]; cbn.
    - econstructor; [exact R| |constructor; intros x; reflexivity]. eapply one_same; eauto. apply P. eapply nth_error_In; eauto.
    - econstructor; eauto.
  Qed.

  Record inv (d0 : dbase) (st : sst) : Prop := {
    n_excl : forall i j p q k, nth_error (s_ph st) i = Some p -> nth_error (s_ph st) j = Some q -> In k (holds p) -> In k (holds q) -> i = j;
    n_lock : forall i r x todo held, nth_error rs i = Some r -> nth_error (s_ph st) i = Some (PLock x todo held) -> forall k, In k (r_keys r x) -> In k todo \/ In k held;
    n_run : forall i r x held snap buf rest, nth_error rs i = Some r -> nth_error (s_ph st) i = Some (PRun x held snap buf rest) ->
              incl (r_keys r x) held /\ within cov (r_keys r x) rest /\ bufin (r_keys r x) buf /\ (forall s, snap = Some s -> agree cov (r_keys r x) s (s_db st)) /\ reached (r_prog r x) rest buf (s_db st);
    n_ser : serial rs (s_log st) d0 (s_db st) }.
  Lemma inv_start d0 : inv d0 (sstart rs d0).
  Proof.
    assert (X : forall i p, nth_error (s_ph (sstart rs d0)) i = Some p -> p = PInit) by (cbn; intros i p H; apply nth_error_In in H; apply in_map_iff in H; destruct H as (? & <- & _); reflexivity).
    constructor.
    - intros i j p q k H _ I _. rewrite (X i p H) in I. contradiction I.
    - intros i r x todo held _ H. apply X in H. discriminate H.
    - intros i r x held snap buf rest _ H. apply X in H. discriminate H.
    - constructor. intros r. reflexivity.
  Qed.
  (** only the phase of run [i] changes, and it holds no more than before and is not (yet) in a new transaction *)
  Lemma inv_phase d0 st i p p' :
    inv d0 st -> nth_error (s_ph st) i = Some p ->
    (forall k, In k (holds p') -> In k (holds p) \/ taken k (s_ph st) = false) ->
    (forall r x todo held, nth_error rs i = Some r -> p' = PLock x todo held -> forall k, In k (r_keys r x) -> In k todo \/ In k held) ->
    (forall r x held snap buf rest, nth_error rs i = Some r -> p' = PRun x held snap buf rest ->
       incl (r_keys r x) held /\ within cov (r_keys r x) rest /\ bufin (r_keys r x) buf /\ (forall s, snap = Some s -> agree cov (r_keys r x) s (s_db st)) /\ reached (r_prog r x) rest buf (s_db st)) ->
    inv d0 (mkSt (s_db st) (put i p' (s_ph st)) (s_log st)).
  Proof.
    intros [A B C D] E H L R. pose proof (put_eq p' _ _ _ E) as Ei.
    assert (X : forall j q, nth_error (put i p' (s_ph st)) j = Some q -> (j = i /\ q = p') \/ (j <> i /\ nth_error (s_ph st) j = Some q)).
    { intros j q Hj. destruct (Nat.eq_dec j i) as [->|N]; [left; split; auto; congruence|right; split; auto]. now rewrite put_ne in Hj by auto. }
    constructor; cbn [s_db s_ph s_log].
    - intros a b pa pb k Ha Hb Ka Kb. destruct (X _ _ Ha) as [[-> ->]|[Na Ha']], (X _ _ Hb) as [[-> ->]|[Nb Hb']]; auto.
      + destruct (H k Ka) as [Y|Y]; [eapply A; eauto|]. exfalso. eapply taken_none; eauto.
      + destruct (H k Kb) as [Y|Y]; [eapply A; eauto|]. exfalso. eapply (taken_none _ _ Y a); eauto.
      + eapply A; eauto.
    - intros j r x todo held Rj Hj. destruct (X _ _ Hj) as [[-> Q]|[N Q]]; eauto.
    - intros j r x held snap buf rest Rj Hj. destruct (X _ _ Hj) as [[-> Q]|[N Q]]; eauto.
    - exact D.
  Qed.
  Lemma inv_step d0 st a : inv d0 st -> inv d0 (sexec rs a st).
  Proof.
    intros I. destruct a as [i|i|i|i]; cbn [sexec].
    - destruct (nth_error rs i) as [r|] eqn:Er; auto. destruct (nth_error (s_ph st) i) as [p|] eqn:Ep; auto.
      destruct p as [|x todo held|x held snap buf rest|held| |held]; cbn [step1].
      + refine (inv_phase d0 st i _ _ I Ep _ _ _); [intros k []| |discriminate]. intros r' x todo held R [= <- <- <-] k Hk. assert (r' = r) by congruence. subst r'. auto.
      + destruct todo as [|k t].
        * refine (inv_phase d0 st i _ _ I Ep _ _ _); [cbn; auto|discriminate|]. intros r' x' held' snap buf rest R [= <- <- <- <- <-]. assert (r' = r) by congruence. subst r'. split.
          -- intros k Hk. destruct (n_lock _ _ I i r x [] held Er Ep k Hk) as [[]|Y]; exact Y.
          -- split; [apply P; eapply nth_error_In; eauto|]. split; [intros ? ? []|]. split; [discriminate|]. split; [reflexivity|intros ?; reflexivity].
        * destruct (taken k (s_ph st)) eqn:Et.
          -- apply (inv_phase d0 st i (PLock x (k :: t) held)); auto; try discriminate.
          -- refine (inv_phase d0 st i _ _ I Ep _ _ _); [|intros r' x' todo held' R [= <- <- <-]|discriminate].
             ++ intros k' [<-|Hk']; auto.
             ++ intros k' Hk'. assert (r' = r) by congruence. subst r'. destruct (n_lock _ _ I i r x (k :: t) held Er Ep k' Hk') as [[<-|Y]|Y]; cbn; auto.
      + destruct (n_run _ _ I i r x held snap buf rest Er Ep) as (K1 & K2 & K3 & K4 & K5). destruct rest as [ok out|q k|rw v k].
        * (* the transaction ends *)
          assert (W0 : within cov (r_keys r x) (r_prog r x)) by (apply P; eapply nth_error_In; eauto).
          set (d1 := if ok then seen buf (s_db st) else s_db st).
          assert (Out : forall rr, ~ In (cov rr) (r_keys r x) -> d1 rr = s_db st rr) by (intros rr N; unfold d1; destruct ok; auto; eapply seen_out; eauto).
          assert (Ser : serial rs (s_log st ++ [mkDone i x ok out]) d0 d1).
          { apply (serial_snoc _ _ (s_db st) _ r); [apply (n_ser _ _ I)|exact Er|]. cbn [e_init e_ok e_out]. destruct K5 as [F S]. cbn in F, S. destruct (direct (r_prog r x) (s_db st)) as [[ok' out'] dw] eqn:Ed. cbn in F, S. injection F as -> ->. exists dw. split; [exact Ed|]. unfold d1. destruct ok; [intros rr; symmetry; apply S|intros rr; reflexivity]. }
          pose proof (inv_phase d0 st i _ (PFree held) I Ep) as J. cbn [holds] in J. assert (J' : inv d0 (mkSt (s_db st) (put i (PFree held) (s_ph st)) (s_log st))) by (apply J; auto; discriminate). clear J.
          destruct J' as [A B C D]. cbn [s_db s_ph s_log] in *. constructor; cbn [s_db s_ph s_log]; auto. fold d1.
          intros j r' x' held' snap' buf' rest' Rj Hj. destruct (Nat.eq_dec j i) as [->|N]; [rewrite (put_eq _ _ _ _ Ep) in Hj; discriminate Hj|].
          rewrite put_ne in Hj by auto. destruct (n_run _ _ I j r' x' held' snap' buf' rest' Rj Hj) as (J1 & J2 & J3 & J4 & J5).
          assert (Ag : agree cov (r_keys r' x') (s_db st) d1).
          { intros rr Hrr. symmetry. apply Out. intros Hi. apply N. apply (n_excl _ _ I j i _ _ (cov rr) Hj Ep); cbn; auto. }
          split; auto. split; auto. split; auto. split; [intros s Es; eapply agree_trans; eauto|]. apply (reached_other (r_keys r' x') _ _ _ (s_db st)); auto. apply P. eapply nth_error_In; eauto.
        * (* query *)
          inversion K2 as [|q' k' Hq Hk|]; subst.
          set (base := match snap with Some d => d | None => s_db st end).
          assert (Ab : agree cov (r_keys r x) base (s_db st)) by (unfold base; destruct snap as [s|]; [apply K4; reflexivity|intros ? _; reflexivity]).
          refine (inv_phase d0 st i _ _ I Ep _ _ _); [cbn; auto|discriminate|]. intros r' x' held' snap' buf' rest' R [= <- <- <- <- <-]. assert (r' = r) by congruence. subst r'.
          split; auto. split; auto. split; auto. split; [destruct (r_snap r); [intros s [= <-]; exact Ab|discriminate]|].
          rewrite (Hq (seen buf base) (seen buf (s_db st)) (seen_agree _ _ _ _ Ab)). exact K5.
        * (* write *)
          inversion K2 as [| |r1 v1 k1 Hr Hk]; subst.
          refine (inv_phase d0 st i _ _ I Ep _ _ _); [cbn; auto|discriminate|]. intros r' x' held' snap' buf' rest' R [= <- <- <- <- <-]. assert (r' = r) by congruence. subst r'.
          split; auto. split; auto. split; [intros a b [[= <- <-]|Y]; [exact Hr|eapply K3; eauto]|]. split; [exact K4|exact K5].
      + destruct held as [|k t]; [apply (inv_phase d0 st i (PFree [])); auto; try discriminate|]. apply (inv_phase d0 st i (PFree (k :: t))); auto; try discriminate. intros k' Hk'. left. now right.
      + auto.
      + auto.
    - destruct (nth_error (s_ph st) i) as [p|] eqn:Ep; auto. destruct p; auto; refine (inv_phase d0 st i _ _ I Ep _ _ _); auto; discriminate || (intros k []).
    - destruct (nth_error (s_ph st) i) as [p|] eqn:Ep; auto. refine (inv_phase d0 st i _ _ I Ep _ _ _); auto; discriminate.
    - destruct (nth_error (s_ph st) i) as [p|] eqn:Ep; auto. destruct p; auto. refine (inv_phase d0 st i _ _ I Ep _ _ _); auto; discriminate || (intros k []).
  Qed.
  Lemma inv_run d0 acts : inv d0 (srun rs acts (sstart rs d0)).
  Proof. assert (G : forall st, inv d0 st -> inv d0 (srun rs acts st)); [|apply G, inv_start]. induction acts as [|a t IH]; intros st I; cbn [srun]; auto. apply IH. now apply inv_step. Qed.
End Cov.

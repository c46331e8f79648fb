(** Effects of event handlers: what every log looks like. *)
From Verif Require Import BusModel BusSpec BusProof BusWorld BusWorldSpec BusWorldProof BusWorldProof2 BusWorldProof4 BusWorldProof5 BusWorldProof6 BusLockProof BusLockProps EffectModel EffectSpec EffectProof.

Definition nil_answers (rs : list (nat * outcome)) : Prop := Forall (fun x => answer (snd x) = None) rs.
(** the handlers called so far in a call that is still going on, or was ended by a failure *)
Definition shape (hl : list nat) (k : nat) (r : option hres) (rs : list (nat * outcome)) : Prop :=
  map fst rs = firstn k hl /\ k <= length hl /\
  match r with
  | None => nil_answers rs
  | Some a => exists rs' h o, rs = rs' ++ [(h, o)] /\ answer o = Some a /\ nil_answers rs'
  end.
Definition ended (hl : list nat) (r : hres) (rs : list (nat * outcome)) : Prop :=
  match r with
  | HOk => map fst rs = hl /\ nil_answers rs
  | _ => exists k, shape hl k (Some r) rs
  end.
Lemma answer_not_ok o : answer o <> Some HOk.
Proof. destruct o; discriminate. Qed.
Lemma firstn_snoc {B} (l : list B) : forall k x, nth_error l k = Some x -> firstn (S k) l = firstn k l ++ [x].
Proof. induction l as [|a t IH]; intros [|k] x H; cbn in *; try discriminate; [injection H as ->; auto|]. now rewrite <- IH. Qed.
Lemma runs_of_none c l : (forall v e h o, ~ In (LRun c v e h o) l) -> runs_of c l = [].
Proof.
  induction l as [|y t IH]; intros H; cbn; auto. assert (IH' : runs_of c t = []) by (apply IH; intros v e h o X; apply (H v e h o); now right).
  destruct y; auto. destruct (Nat.eqb_spec c0 c) as [->|]; auto. destruct (H svc e h o). now left.
Qed.
Lemma runs_of_in c l h o : In (h, o) (runs_of c l) <-> exists v e, In (LRun c v e h o) l.
Proof.
  induction l as [|y t IH]; cbn; [split; [tauto|intros (v & e & [])]|]. destruct y as [c' v' e'|c' v' e' h' o'|c' v' e' r'].
  - rewrite IH. split; intros (v & e & H); exists v, e; auto. destruct H as [H|H]; [discriminate H|auto].
  - destruct (Nat.eqb_spec c' c) as [->|Nc].
    + rewrite in_app_iff, IH. cbn. split.
      * intros [(v & e & H)|[[= -> ->]|[]]]; eauto.
      * intros (v & e & [H|H]); [injection H as -> -> -> ->; auto|left; eauto].
    + rewrite IH. split; intros (v & e & H); exists v, e; auto. destruct H as [H|H]; [injection H as -> -> -> -> ->; contradiction|auto].
  - rewrite IH. split; intros (v & e & H); exists v, e; auto. destruct H as [H|H]; [discriminate H|auto].
Qed.
Lemma effects_in l v e h : In (v, e, h) (effects l) <-> exists c o, In (LRun c v e h o) l /\ committed o = true.
Proof.
  induction l as [|y t IH]; cbn; [split; [tauto|intros (c & o & [] & _)]|]. destruct y as [c' v' e'|c' v' e' h' o'|c' v' e' r'].
  - rewrite IH. split; intros (c & o & H & K); exists c, o; auto. destruct H as [H|H]; [discriminate H|auto].
  - destruct (committed o') eqn:Co.
    + rewrite in_app_iff, IH. cbn. split.
      * intros [(c & o & H & K)|[[= -> -> ->]|[]]]; [exists c, o; auto|exists c', o'; auto].
      * intros (c & o & [H|H] & K); [injection H as -> -> -> -> ->; auto|left; eauto].
    + rewrite IH. split; intros (c & o & H & K); exists c, o; auto. destruct H as [H|H]; [|auto]. injection H as -> -> -> -> ->. congruence.
  - rewrite IH. split; intros (c & o & H & K); exists c, o; auto. destruct H as [H|H]; [discriminate H|auto].
Qed.

Section Inv.
  Context {A : Type}.
  Variable cfgs : nat -> buscfg.
  Variable hs : string -> erow -> list nat.
  Variable eff : string -> erow -> nat -> A -> A.
  Variable app0 : A.
  Notation live := (@live A).

  Record invX (x : xworld A) : Prop := {
    x_len : forall p, length (x_prog x p) = length (in_hand (x_w x) p);
    x_lt : forall p i e g, live x p i e g -> pg_no g < x_next x;
    x_ltc : forall c v e, In (LCall c v e) (x_log x) -> c < x_next x;
    x_uniq : forall p i e g q j e' g', live x p i e g -> live x q j e' g' -> pg_no g = pg_no g' -> p = q /\ i = j;
    x_tag : forall p i e g, live x p i e g -> In (LCall (pg_no g) (c_service (cfgs p)) e) (x_log x);
    x_tagu : forall c v e v' e', In (LCall c v e) (x_log x) -> In (LCall c v' e') (x_log x) -> v = v' /\ e = e';
    x_tagr : forall c v e h o, In (LRun c v e h o) (x_log x) -> In (LCall c v e) (x_log x);
    x_tagd : forall c v e r, In (LRec c v e r) (x_log x) -> In (LCall c v e) (x_log x);
    x_shape : forall p i e g, live x p i e g -> shape (hs (c_service (cfgs p)) e) (pg_count g) (pg_res g) (runs_of (pg_no g) (x_log x));
    x_done : forall c v e r, In (LRec c v e r) (x_log x) -> ended (hs v e) r (runs_of c (x_log x)) /\ forall p i e' g, live x p i e' g -> pg_no g <> c;
    x_hcall : forall c v e, In (LCall c v e) (x_log x) -> exists t s, In (HCall t v e s) (w_hist (x_w x));
    x_hrec : forall v e r, (exists c, In (LRec c v e r) (x_log x)) <-> (exists s s', In (HRec v e s r s') (w_hist (x_w x)));
    x_data : x_app x = apply_all eff (effects (x_log x)) app0 }.

  Lemma live_nil x p i e g : x_prog x p = [] -> ~ live x p i e g.
  Proof. intros E [_ H]. rewrite E in H. destruct i; discriminate. Qed.
  Lemma live_len x p i e g : live x p i e g -> i < length (x_prog x p).
  Proof. intros [_ H]. apply nth_error_Some. rewrite H. discriminate. Qed.
  Lemma live_ex x p i g : (forall p, length (x_prog x p) = length (in_hand (x_w x) p)) -> nth_error (x_prog x p) i = Some g -> exists e, live x p i e g.
  Proof.
    intros L H. assert (Y : i < length (in_hand (x_w x) p)) by (rewrite <- L; apply nth_error_Some; rewrite H; discriminate).
    destruct (nth_error (in_hand (x_w x) p) i) as [[e s]|] eqn:E; [|apply nth_error_None in E; lia]. exists e. split; eauto.
  Qed.

  Lemma invX0 : invX (xworld0 app0).
  Proof.
    constructor; cbn; auto; try (intros; contradiction).
    - intros p i e g H. destruct (live_nil (xworld0 app0) p i e g eq_refl H).
    - intros p i e g q j e' g' H. destruct (live_nil (xworld0 app0) p i e g eq_refl H).
    - intros p i e g H. destruct (live_nil (xworld0 app0) p i e g eq_refl H).
    - intros p i e g H. destruct (live_nil (xworld0 app0) p i e g eq_refl H).
    - intros v e r. split; [intros (c & [])|intros (s & s' & [])].
  Qed.

  (** exec on histories: an action other than the end of a call records nothing *)
  Lemma no_rec b w w' : exec cfgs b w = Some w' -> (forall p i r sv, b <> AEnd p i r sv) -> forall v e s r s', In (HRec v e s r s') (w_hist w') <-> In (HRec v e s r s') (w_hist w).
  Proof.
    intros Ex N. destruct w as [d now po lk js h]. destruct b; cbn [exec] in Ex; try (destruct (N p i r saved eq_refl));
    repeat match goal with
           | E : context [match ?x with _ => _ end] |- _ => match type of E with _ = Some w' => destruct x eqn:? end
           end; try discriminate; injection Ex as <-; cbn [w_hist]; intros; try tauto; split; intros H; auto; try (now right); destruct H as [H|H]; try discriminate H; auto.
  Qed.
  Lemma hist_keeps b w w' y : exec cfgs b w = Some w' -> In y (w_hist w) -> In y (w_hist w').
  Proof. intros Ex H. destruct (hist_grows cfgs b w w' Ex) as [->|(z & ->)]; auto. now right. Qed.

  Lemma apply_snoc l v e h : apply_all eff (l ++ [(v, e, h)]) app0 = eff v e h (apply_all eff l app0).
  Proof. unfold apply_all. now rewrite fold_left_app. Qed.

  Lemma shape_next hl k o h rs : shape hl k None rs -> nth_error hl k = Some h -> shape hl (S k) (answer o) (rs ++ [(h, o)]).
  Proof.
    intros (S1 & S2 & S3) H. split; [rewrite map_app, S1; cbn; symmetry; apply (firstn_snoc hl k h H)|]. split.
    - assert (k < length hl) by (apply nth_error_Some; rewrite H; discriminate). lia.
    - destruct (answer o) eqn:Ea; [exists rs, h, o; auto|]. apply Forall_app. split; auto.
  Qed.
  Lemma shape_end hl g r rs v e : hl = hs v e -> shape hl (pg_count g) (pg_res g) rs -> result_of hs v e g = Some r -> ended hl r rs.
  Proof.
    intros -> (S1 & S2 & S3) H. unfold result_of in H. destruct (pg_res g) as [a|].
    - injection H as ->. destruct S3 as (rs' & h & o & E & Eo & F). destruct r; [destruct (answer_not_ok o Eo)| |]; exists (pg_count g); (split; [auto|split; [auto|exists rs', h, o; auto]]).
    - destruct (Nat.eqb_spec (pg_count g) (length (hs v e))) as [Ec|]; [|discriminate]. injection H as <-. split; auto. rewrite S1, Ec. apply firstn_all.
  Qed.

  Lemma invX_kind a x x' : invX x -> kind cfgs hs eff a x x' -> invX x'.
  Proof.
    intros [Ilen Ilt Iltc Iu It Itu Itr Itd Ish Idn Ihc Ihr Ida] K. destruct K as [b Ex N1 N2 Hh Ha Hp Hn Hl|b p e s Ex Hh Ho Hhist Ha Hp Hn Hl|p i e c k h o Lv Eh Hw Ha Hp Hn Hl|p i e s g r sv Ea Ex Ei Lv Er Hh Ho Hhist Ha Hp Hn Hl|p Ea Ex Hh Ho Hhist Ha Hp Hn Hl].
    - assert (L : forall p i e g, live x' p i e g -> live x p i e g) by (intros p i e g [H1 H2]; split; [now rewrite Hh in H1|now rewrite Hp in H2]).
      constructor; rewrite ?Hl, ?Hn, ?Ha.
      + intros p. rewrite Hp, Hh. auto.
      + intros p i e g H. eauto.
      + exact Iltc.
      + intros p i e g q j e' g' H H' E. eapply Iu; eauto.
      + intros p i e g H. eauto.
      + exact Itu.
      + exact Itr.
      + exact Itd.
      + intros p i e g H. eauto.
      + intros c v e r H. destruct (Idn c v e r H) as [D1 D2]. split; auto. intros p i e' g Lg. eauto.
      + intros c v e H. destruct (Ihc c v e H) as (t & s & X). exists t, s. eapply hist_keeps; eauto.
      + intros v e r. rewrite Ihr. split; intros (s & s' & H); exists s, s'; apply (no_rec b _ _ Ex N1); auto.
      + exact Ida.
    - assert (Fr : forall v e0 h o, ~ In (LRun (x_next x) v e0 h o) (x_log x)) by (intros v e0 h o H; apply Itr, Iltc in H; lia).
      assert (L : forall q i e0 g, live x' q i e0 g -> live x q i e0 g \/ (q = p /\ i = length (x_prog x p) /\ e0 = e /\ g = mkP (x_next x) 0 None)).
      { intros q i e0 g [(s0 & H1) H2]. rewrite Hp in H2. destruct (Nat.eq_dec q p) as [->|Nq].
        - rewrite upd_same in H2. rewrite Hh in H1. destruct (Nat.lt_ge_cases i (length (x_prog x p))) as [Y|Y].
          + left. split; [exists s0|]; [rewrite nth_error_app1 in H1; auto; rewrite <- Ilen; auto|rewrite nth_error_app1 in H2; auto].
          + right. rewrite nth_error_app2 in H2 by auto. rewrite nth_error_app2 in H1 by (rewrite <- Ilen; auto). destruct (i - length (x_prog x p)) as [|[|]] eqn:Z; try discriminate H2.
            assert (i - length (in_hand (x_w x) p) = 0) as Z' by (rewrite <- Ilen; auto). rewrite Z' in H1. injection H1 as -> ->. injection H2 as <-. repeat split; auto. lia.
        - left. rewrite upd_other in H2 by auto. rewrite Ho in H1 by auto. split; eauto. }
      constructor; rewrite ?Hl, ?Hn, ?Ha; cbn [effects].
      + intros q. rewrite Hp. destruct (Nat.eq_dec q p) as [->|Nq]; [rewrite upd_same, Hh, !app_length; cbn; now rewrite Ilen|rewrite upd_other, Ho; auto].
      + intros q i e0 g H. destruct (L q i e0 g H) as [H'|(-> & -> & -> & ->)]; [apply Ilt in H'|cbn]; lia.
      + intros c v e0 [H|H]; [injection H as <- <- <-; lia|apply Iltc in H; lia].
      + intros p1 i e0 g q j e' g' H H' E. destruct (L _ _ _ _ H) as [H1|(-> & -> & -> & ->)], (L _ _ _ _ H') as [H1'|(-> & -> & -> & ->)]; auto.
        * apply (Iu _ _ _ _ _ _ _ _ H1 H1' E).
        * apply Ilt in H1. cbn in E. lia.
        * apply Ilt in H1'. cbn in E. lia.
      + intros q i e0 g H. destruct (L q i e0 g H) as [H'|(-> & -> & -> & ->)]; [right; apply (It _ _ _ _ H')|left; reflexivity].
      + intros c v e0 v' e' [H|H] [H'|H'].
        * injection H as <- <- <-. injection H' as <- <-. auto.
        * injection H as <- <- <-. apply Iltc in H'. lia.
        * injection H' as <- <- <-. apply Iltc in H. lia.
        * eapply Itu; eauto.
      + intros c v e0 h o [H|H]; [discriminate H|right; eauto].
      + intros c v e0 r [H|H]; [discriminate H|right; eauto].
      + intros q i e0 g H. cbn [runs_of]. destruct (L q i e0 g H) as [H'|(-> & -> & -> & ->)]; [apply (Ish _ _ _ _ H')|]. cbn [pg_no pg_count pg_res]. rewrite (runs_of_none _ _ Fr). split; [reflexivity|]. split; [lia|constructor].
      + intros c v e0 r [H|H]; [discriminate H|]. cbn [runs_of]. destruct (Idn c v e0 r H) as [D1 D2]. split; auto. intros q i e' g Lg. destruct (L q i e' g Lg) as [H'|(-> & -> & -> & ->)]; [eauto|]. cbn. apply Itd, Iltc in H. lia.
      + intros c v e0 [H|H]; [injection H as <- <- <-; rewrite Hhist; exists (w_now (x_w x)), s; now left|]. destruct (Ihc c v e0 H) as (t & s0 & X). exists t, s0. rewrite Hhist. now right.
      + intros v e0 r. rewrite Hhist. split.
        * intros (c & [H|H]); [discriminate H|]. destruct (proj1 (Ihr v e0 r)) as (s1 & s2 & X); [eauto|]. exists s1, s2. now right.
        * intros (s1 & s2 & [H|H]); [discriminate H|]. destruct (proj2 (Ihr v e0 r)) as (c & X); [eauto|]. exists c. now right.
      + auto.
    - pose proof (Ish _ _ _ _ Lv) as Sh. cbn [pg_no pg_count pg_res] in Sh.
      assert (Lx : forall q j e0 g, live x' q j e0 g -> exists g0, live x q j e0 g0 /\ pg_no g0 = pg_no g /\ (g0 = g /\ (q <> p \/ j <> i) \/ (q = p /\ j = i /\ e0 = e /\ g = mkP c (S k) (answer o)))).
      { intros q j e0 g [(s0 & H1) H2]. rewrite Hw in H1. rewrite Hp in H2. destruct (Nat.eq_dec q p) as [->|Nq].
        - rewrite upd_same in H2. destruct (Nat.eq_dec i j) as [->|Nj].
          + destruct Lv as [(s1 & V1) V2]. rewrite V1 in H1. injection H1 as -> ->. rewrite (nth_set_same _ _ _ _ V2) in H2. injection H2 as <-. exists (mkP c k None). split; [split; eauto|]. split; auto.
          + rewrite nth_set_other in H2 by auto. exists g. split; [split; eauto|]. split; auto.
        - rewrite upd_other in H2 by auto. exists g. split; [split; eauto|]. split; auto. }
      constructor; rewrite ?Hl, ?Hn, ?Hw.
      + intros q. rewrite Hp. destruct (Nat.eq_dec q p) as [->|Nq]; [rewrite upd_same, set_nth_length; auto|rewrite upd_other; auto].
      + intros q j e0 g H. destruct (Lx _ _ _ _ H) as (g0 & H0 & <- & _). eauto.
      + intros c0 v e0 [H|H]; [discriminate H|eauto].
      + intros p1 j e0 g q j' e' g' H H' E. destruct (Lx _ _ _ _ H) as (g0 & H0 & E0 & _), (Lx _ _ _ _ H') as (g1 & H1 & E1 & _). apply (Iu _ _ _ _ _ _ _ _ H0 H1). congruence.
      + intros q j e0 g H. destruct (Lx _ _ _ _ H) as (g0 & H0 & <- & _). right. eauto.
      + intros c0 v e0 v' e' [H|H] [H'|H']; try discriminate H; try discriminate H'. eapply Itu; eauto.
      + intros c0 v e0 h0 o0 [H|H]; [|right; eauto]. injection H as <- <- <- <- <-. right. apply (It _ _ _ _ Lv).
      + intros c0 v e0 r [H|H]; [discriminate H|right; eauto].
      + intros q j e0 g H. cbn [runs_of]. destruct (Lx _ _ _ _ H) as (g0 & H0 & E0 & [(-> & D)|(-> & -> & -> & ->)]).
        * destruct (Nat.eqb_spec c (pg_no g)) as [Ec|]; [|apply (Ish _ _ _ _ H0)]. exfalso. destruct (Iu _ _ _ _ _ _ _ _ H0 Lv (eq_sym Ec)) as [-> ->]. destruct D; congruence.
        * cbn [pg_no pg_count pg_res]. rewrite Nat.eqb_refl. apply shape_next; auto.
      + intros c0 v e0 r [H|H]; [discriminate H|]. destruct (Idn c0 v e0 r H) as [D1 D2]. cbn [runs_of]. destruct (Nat.eqb_spec c c0) as [->|]; [destruct (D2 _ _ _ _ Lv); reflexivity|]. split; auto.
        intros q j e' g Lg. destruct (Lx _ _ _ _ Lg) as (g0 & H0 & <- & _). eauto.
      + intros c0 v e0 [H|H]; [discriminate H|eauto].
      + intros v e0 r. rewrite <- Ihr. split; intros (c0 & H); exists c0; [destruct H as [H|H]; [discriminate H|auto]|now right].
      + rewrite Ha, Ida. cbn [effects]. destruct (committed o); auto. now rewrite apply_snoc.
    - pose proof (Ish _ _ _ _ Lv) as Sh.
      assert (Lx : forall q j e0 g0, live x' q j e0 g0 -> (q = p -> live x p (shift i j) e0 g0) /\ (q <> p -> live x q j e0 g0)).
      { intros q j e0 g0 [(s0 & H1) H2]. rewrite Hp in H2. split; intros Q.
        - subst q. rewrite upd_same, nth_remove in H2. rewrite Hh, nth_remove in H1. split; eauto.
        - rewrite upd_other in H2 by auto. rewrite Ho in H1 by auto. split; eauto. }
      assert (Ly : forall q j e0 g0, live x' q j e0 g0 -> exists j', live x q j' e0 g0 /\ (q <> p \/ j' <> i)).
      { intros q j e0 g0 H. destruct (Lx _ _ _ _ H) as [X Y]. destruct (Nat.eq_dec q p) as [->|]; [exists (shift i j)|exists j]; split; auto. right. apply shift_ne. }
      assert (Nl : forall q j e0 g0, live x' q j e0 g0 -> pg_no g0 <> pg_no g).
      { intros q j e0 g0 H E. destruct (Ly _ _ _ _ H) as (j' & H' & D). destruct (Iu _ _ _ _ _ _ _ _ H' Lv E) as [-> ->]. destruct D; congruence. }
      assert (InL : forall y, In y (x_log x') <-> (sv = true /\ y = LRec (pg_no g) (c_service (cfgs p)) e r) \/ In y (x_log x)).
      { intros y. rewrite Hl. destruct sv; cbn; [|split; [auto|intros [[? ?]|?]; auto; discriminate]]. split; intros [H|H]; auto. destruct H; auto. }
      assert (Rn : forall c, runs_of c (x_log x') = runs_of c (x_log x)) by (intros c; rewrite Hl; destruct sv; reflexivity).
      assert (Ef : effects (x_log x') = effects (x_log x)) by (rewrite Hl; destruct sv; reflexivity).
      constructor.
      + intros q. rewrite Hp. destruct (Nat.eq_dec q p) as [->|Nq].
        * rewrite upd_same, Hh. rewrite !remove_nth_length; [now rewrite Ilen| |]; [rewrite <- Ilen|]; apply (live_len _ _ _ _ _ Lv).
        * rewrite upd_other, Ho; auto.
      + intros q j e0 g0 H. destruct (Ly _ _ _ _ H) as (j' & H' & _). rewrite Hn. eauto.
      + intros c v e0 H. apply InL in H. destruct H as [[_ H]|H]; [discriminate H|]. rewrite Hn. eauto.
      + intros p1 j e0 g0 q j' e' g' H H' E. destruct (Lx _ _ _ _ H) as [X1 X2], (Lx _ _ _ _ H') as [Y1 Y2].
        destruct (Nat.eq_dec p1 p) as [->|N1], (Nat.eq_dec q p) as [->|N2].
        * destruct (Iu _ _ _ _ _ _ _ _ (X1 eq_refl) (Y1 eq_refl) E) as [_ Z]. split; auto. apply (shift_inj i). auto.
        * destruct (Iu _ _ _ _ _ _ _ _ (X1 eq_refl) (Y2 N2) E) as [Z _]. congruence.
        * destruct (Iu _ _ _ _ _ _ _ _ (X2 N1) (Y1 eq_refl) E) as [Z _]. congruence.
        * apply (Iu _ _ _ _ _ _ _ _ (X2 N1) (Y2 N2) E).
      + intros q j e0 g0 H. destruct (Ly _ _ _ _ H) as (j' & H' & _). apply InL. right. eauto.
      + intros c v e0 v' e' H H'. apply InL in H, H'. destruct H as [[_ H]|H]; [discriminate H|]. destruct H' as [[_ H']|H']; [discriminate H'|]. eauto.
      + intros c v e0 h o H. apply InL in H. destruct H as [[_ H]|H]; [discriminate H|]. apply InL. right. eauto.
      + intros c v e0 r0 H. apply InL in H. apply InL. right. destruct H as [[_ H]|H]; [injection H as -> -> -> ->; apply (It _ _ _ _ Lv)|eauto].
      + intros q j e0 g0 H. rewrite Rn. destruct (Ly _ _ _ _ H) as (j' & H' & _). eauto.
      + intros c v e0 r0 H. apply InL in H. rewrite Rn. destruct H as [[_ H]|H].
        * injection H as -> -> -> ->. split; [apply (shape_end _ g r _ (c_service (cfgs p)) e eq_refl Sh Er)|]. intros q j e' g0 H. apply (Nl _ _ _ _ H).
        * destruct (Idn c v e0 r0 H) as [D1 D2]. split; auto. intros q j e' g0 H'. destruct (Ly _ _ _ _ H') as (j' & H'' & _). eauto.
      + intros c v e0 H. apply InL in H. destruct H as [[_ H]|H]; [discriminate H|]. destruct (Ihc c v e0 H) as (t & s0 & X). exists t, s0. eapply hist_keeps; eauto.
      + intros v e0 r0. split.
        * intros (c & H). apply InL in H. destruct H as [[-> H]|H]; [injection H as -> -> -> ->; rewrite Hhist; eexists _, _; left; reflexivity|].
          destruct (proj1 (Ihr v e0 r0)) as (s1 & s2 & X); [eauto|]. exists s1, s2. eapply hist_keeps; eauto.
        * intros (s1 & s2 & H). rewrite Hhist in H. assert (D : (sv = true /\ HRec (c_service (cfgs p)) e s r (end_event (cfgs p) (w_now (x_w x)) r s) = HRec v e0 s1 r0 s2) \/ In (HRec v e0 s1 r0 s2) (w_hist (x_w x))).
          { destruct sv; cbn in H; tauto. }
          destruct D as [[-> D]|D]; [injection D as <- <- <- <- <-; exists (pg_no g); apply InL; now left|]. destruct (proj2 (Ihr v e0 r0)) as (c & X); [eauto|]. exists c. apply InL. now right.
      + now rewrite Ha, Ef.
    - assert (L : forall q i e g, live x' q i e g -> live x q i e g).
      { intros q i e g [(s0 & H1) H2]. rewrite Hp in H2. destruct (Nat.eq_dec q p) as [->|Nq]; [rewrite upd_same in H2; destruct i; discriminate H2|]. rewrite upd_other in H2 by auto. rewrite Ho in H1 by auto. split; eauto. }
      constructor; rewrite ?Hl, ?Hn, ?Ha, ?Hhist.
      + intros q. rewrite Hp. destruct (Nat.eq_dec q p) as [->|Nq]; [rewrite upd_same, Hh; auto|rewrite upd_other, Ho; auto].
      + intros q i e g H. eauto.
      + exact Iltc.
      + intros p1 i e g q j e' g' H H' E. eapply Iu; eauto.
      + intros q i e g H. eauto.
      + exact Itu.
      + exact Itr.
      + exact Itd.
      + intros q i e g H. eauto.
      + intros c v e r H. destruct (Idn c v e r H) as [D1 D2]. split; auto. intros q i e' g Lg. eauto.
      + exact Ihc.
      + exact Ihr.
      + exact Ida.
  Qed.
  Lemma invX_reach m x : xreach cfgs hs eff m app0 x -> invX x.
  Proof. intros H. induction H as [|x a x' H IH Al Ex]; [apply invX0|]. eapply invX_kind; eauto. eapply kinds; eauto. Qed.

  (** the bus below is a bus *)
  Lemma xreach_bus m x : xreach cfgs hs eff m app0 x -> reachable cfgs m (x_w x).
  Proof.
    intros H. induction H as [|x a x' H IH Al Ex]; [constructor|]. destruct x as [w app pg n lg]. cbn [x_w] in IH. destruct a as [b|p i o|p i sv].
    - assert (E : exists w', exec cfgs b w = Some w' /\ x_w x' = w').
      { destruct b; cbn [xexec] in Ex; try discriminate Ex;
        match type of Ex with match ?z with _ => _ end = _ => destruct z as [w'|] eqn:Z; [|discriminate Ex] end;
        try (injection Ex as <-; exists w'; split; [reflexivity|reflexivity]).
        destruct (nth_error (in_hand w' p) (length (in_hand w p))) as [[e s]|]; injection Ex as <-; exists w'; split; reflexivity. }
      destruct E as (w' & E & ->). econstructor; [exact IH|]. exists b. split; auto.
    - cbn [xexec] in Ex. destruct (nth_error (in_hand w p) i) as [[e s]|]; [|discriminate]. destruct (nth_error (pg p) i) as [[c k [r|]]|]; try discriminate. destruct (nth_error (hs _ _) k) as [h|]; [|discriminate]. injection Ex as <-. exact IH.
    - cbn [xexec] in Ex. destruct (nth_error (in_hand w p) i) as [[e s]|]; [|discriminate]. destruct (nth_error (pg p) i) as [g|]; [|discriminate].
      destruct (result_of hs (c_service (cfgs p)) e g) as [r|]; [|discriminate]. destruct (exec cfgs (AEnd p i r sv) w) as [w'|] eqn:E; [|discriminate]. injection Ex as <-. cbn [x_w].
      econstructor; [exact IH|]. exists (AEnd p i r sv). split; auto.
  Qed.
End Inv.

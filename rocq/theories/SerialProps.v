(** C87, C88: concurrent runs and the data. *)
From Verif Require Import SerialModel SerialSpec SerialProof.
From Coq Require Import Permutation.
Local Open Scope string_scope.
Local Open Scope list_scope.
Local Open Scope nat_scope.

(** For every set of runs, every initial database, and every interleaving of their lock calls, queries and statements,
    failures and deaths included: if each run takes the keys that protect the rows it reads and writes, then the committed
    database is the result of running the finished transactions one after the other, each with the result and output it
    had; a run that is not among them has changed nothing. *)
Theorem C87_serializable : forall cov rs d0 acts, protected cov rs ->
  serial rs (s_log (srun rs acts (sstart rs d0))) d0 (s_db (srun rs acts (sstart rs d0))).
Proof. intros cov rs d0 acts P. exact (n_ser _ _ _ _ (inv_run cov rs P d0 acts)). Qed.
Print Assumptions C87_serializable.

Lemma nodup_snoc {A} (l : list A) x : NoDup l -> ~ In x l -> NoDup (l ++ [x]).
Proof. intros N H. apply (Permutation_NoDup (l := x :: l)); [apply Permutation_cons_append|now constructor]. Qed.
(** Each run is there at most once. *)
Definition ended (p : phase) : Prop := match p with PFree _ | POver | PDead _ => True | _ => False end.
Definition once_inv (st : sst) : Prop := NoDup (map e_run (s_log st)) /\ forall e p, In e (s_log st) -> nth_error (s_ph st) (e_run e) = Some p -> ended p.
Lemma once_step rs a st : once_inv st -> once_inv (sexec rs a st).
Proof.
  intros [N E]. assert (Q : forall i p p', nth_error (s_ph st) i = Some p -> (ended p -> ended p') -> once_inv (mkSt (s_db st) (put i p' (s_ph st)) (s_log st))).
  { intros i p p' Hp H. split; auto. cbn [s_log s_ph]. intros e q He Hq. destruct (Nat.eq_dec (e_run e) i) as [Ei|Ne].
    - rewrite Ei in *. rewrite (put_eq _ _ _ _ Hp) in Hq. injection Hq as <-. apply H. apply (E e); auto. now rewrite Ei.
    - rewrite put_ne in Hq by auto. eauto. }
  destruct a as [i|i|i|i]; cbn [sexec].
  - destruct (nth_error rs i) as [r|]; [|split; auto]. destruct (nth_error (s_ph st) i) as [p|] eqn:Ep; [|split; auto].
    destruct p as [|x [|k t] held|x held snap buf [ok out|q k|rw v k]|[|k t]| |held]; cbn [step1]; try (apply (Q _ _ _ Ep); cbn; tauto); try (split; auto; fail).
    + destruct (taken k (s_ph st)); apply (Q _ _ _ Ep); cbn; tauto.
    + split; cbn [s_log s_ph].
      * rewrite map_app. cbn [map e_run]. apply nodup_snoc; auto. intros Hi. apply in_map_iff in Hi. destruct Hi as (e & <- & He). apply (E e _ He Ep).
      * intros e p He Hp. destruct (Nat.eq_dec (e_run e) i) as [Ei|Ne].
        -- rewrite Ei in Hp. rewrite (put_eq _ _ _ _ Ep) in Hp. injection Hp as <-. exact I.
        -- rewrite put_ne in Hp by auto. apply in_app_iff in He. destruct He as [He|[<-|[]]]; [eauto|]. cbn in Ne. congruence.
  - destruct (nth_error (s_ph st) i) as [p|] eqn:Ep; [|split; auto]. destruct p; try (split; auto; fail); apply (Q _ _ _ Ep); cbn; tauto.
  - destruct (nth_error (s_ph st) i) as [p|] eqn:Ep; [|split; auto]. apply (Q _ _ _ Ep); cbn; tauto.
  - destruct (nth_error (s_ph st) i) as [p|] eqn:Ep; [|split; auto]. destruct p; try (split; auto; fail); apply (Q _ _ _ Ep); cbn; tauto.
Qed.
Theorem C87_each_run_once : forall rs d0 acts, NoDup (map e_run (s_log (srun rs acts (sstart rs d0)))).
Proof.
  intros rs d0 acts. assert (G : forall st, once_inv st -> once_inv (srun rs acts st)); [|apply G; split; [constructor|intros e p []]].
  induction acts as [|a t IH]; intros st I; cbn [srun]; auto. apply IH. now apply once_step.
Qed.
Print Assumptions C87_each_run_once.
(** In the order in which they ended: what ends later comes later. *)
Theorem C87_in_order_of_ending : forall rs d0 acts more, exists l, s_log (srun rs (acts ++ more) (sstart rs d0)) = s_log (srun rs acts (sstart rs d0)) ++ l.
Proof.
  intros rs d0 acts more. generalize (sstart rs d0). assert (G : forall more st, exists l, s_log (srun rs more st) = s_log st ++ l).
  { induction more0 as [|a t IH]; intros st; cbn [srun]; [exists []; now rewrite app_nil_r|]. destruct (IH (sexec rs a st)) as [l E]. rewrite E.
    assert (X : exists l, s_log (sexec rs a st) = s_log st ++ l); [|destruct X as [l' ->]; exists (l' ++ l); now rewrite app_assoc].
    assert (Z : exists l : list done, s_log st = s_log st ++ l) by (exists []; now rewrite app_nil_r).
    destruct a as [i|i|i|i]; cbn [sexec].
    - destruct (nth_error rs i) as [r|]; auto. destruct (nth_error (s_ph st) i) as [p|]; auto. destruct p as [|x [|k t'] held|x held snap buf [ok out|q k|rw v k]|[|k t']| |held]; cbn [step1]; auto; [|cbn; eauto]. destruct (taken k (s_ph st)); auto.
    - destruct (nth_error (s_ph st) i) as [[]|]; auto.
    - destruct (nth_error (s_ph st) i) as [p|]; auto.
    - destruct (nth_error (s_ph st) i) as [[]|]; auto. }
  intros st. revert st. induction acts as [|a t IH]; intros st; cbn [app srun]; auto.
Qed.
Print Assumptions C87_in_order_of_ending.

(** A concrete case: two runs that append a "1" to the row, with the same key, interleaved; the second finds the key taken
    at first.  (Three runs: the third reads another row under another key, in between.) *)
Definition value (r : string) (d : dbase) : string := match d r with Some s => s | None => "" end.
Definition bump (r : string) : prog := Query (value r) (fun s => Write r (Some (s ++ "1")%string) (Ret true s)).
Definition bump_run (r : string) (keys : list string) (snap : bool) : runp := mkRun (fun _ => "") (fun _ => keys) (fun _ => bump r) snap.
Definition three : list runp := [bump_run "a" ["a"] true; bump_run "a" ["a"] false; bump_run "b" ["b"; "c"] true].
Lemma bump_within cov r K : In (cov r) K -> within cov K (bump r).
Proof. intros H. constructor; [intros d d' A; unfold value; now rewrite (A r H)|]. intros a. constructor; auto. constructor. Qed.
Example three_protected : protected (fun r => r) three.
Proof. intros r x [<-|[<-|[<-|[]]]]; cbn; apply bump_within; cbn; auto. Qed.
Definition steps (l : list nat) : list sact := map SStep l.
Definition three_acts : list sact := steps [0; 0; 2; 2; 1; 0; 2; 0; 2; 0; 2; 0; 0; 1; 1; 1; 2; 1; 1; 2; 2].
Example three_result : map e_run (s_log (srun three three_acts (sstart three (fun _ => None)))) = [0; 1; 2] /\ forallb e_ok (s_log (srun three three_acts (sstart three (fun _ => None)))) = true /\
  s_db (srun three three_acts (sstart three (fun _ => None))) "a" = Some "11" /\ s_db (srun three three_acts (sstart three (fun _ => None))) "b" = Some "1".
Proof. repeat split. Qed.

(** ** C88: lost updates *)
Lemma one_still cov K p d ok out d' y : within cov K p -> one p d ok out d' -> ~ In (cov y) K -> d' y = d y.
Proof.
  intros W (dw & E & S) N. rewrite (S y). destruct ok; auto. destruct (direct_agree cov K p W d d (fun r _ => eq_refl)) as (_ & _ & O). rewrite E in O. apply (O y N).
Qed.
Lemma serial_still cov rs l d d' : protected cov rs -> serial rs l d d' -> forall y, still cov rs y -> d y = d' y.
Proof.
  intros P S. induction S as [d d' S|e l d d1 d2 r R O S IH]; intros y Y; auto. rewrite <- (IH y Y). symmetry. pose proof (nth_error_In _ _ R) as I. eapply one_still; eauto.
Qed.
Definition knows (rs : list runp) (d0 : dbase) (st : sst) : Prop :=
  (forall i r, nth_error rs i = Some r -> match nth_error (s_ph st) i with Some (PLock x _ _) | Some (PRun x _ _ _ _) => x = r_init r d0 | _ => True end) /\
  (forall e r, In e (s_log st) -> nth_error rs (e_run e) = Some r -> e_init e = r_init r d0).
Lemma knows_step cov rs d0 st a : protected cov rs -> init_still cov rs -> inv cov rs d0 st -> knows rs d0 st -> knows rs d0 (sexec rs a st).
Proof.
  intros P J I [K L]. assert (Q : forall i p p' l, nth_error (s_ph st) i = Some p -> (forall r, nth_error rs i = Some r -> match p' with PLock x _ _ | PRun x _ _ _ _ => x = r_init r d0 | _ => True end) ->
    (forall e r, In e l -> nth_error rs (e_run e) = Some r -> e_init e = r_init r d0) -> forall d, knows rs d0 (mkSt d (put i p' (s_ph st)) (s_log st ++ l))).
  { intros i p p' l Hp H G d. split; cbn [s_ph s_log].
    - intros j r Rj. destruct (Nat.eq_dec j i) as [->|N]; [rewrite (put_eq _ _ _ _ Hp); exact (H r Rj)|]. rewrite put_ne by auto. now apply K.
    - intros e r He. apply in_app_iff in He. destruct He; eauto. }
  assert (Q0 : forall i p p', nth_error (s_ph st) i = Some p -> (forall r, nth_error rs i = Some r -> match p' with PLock x _ _ | PRun x _ _ _ _ => x = r_init r d0 | _ => True end) -> knows rs d0 (mkSt (s_db st) (put i p' (s_ph st)) (s_log st))).
  { intros i p p' Hp H. rewrite <- (app_nil_r (s_log st)). eapply Q; eauto. intros e r []. }
  destruct a as [i|i|i|i]; cbn [sexec].
  - destruct (nth_error rs i) as [r|] eqn:Er; [|split; auto]. destruct (nth_error (s_ph st) i) as [p|] eqn:Ep; [|split; auto]. pose proof (K i r Er) as Ki. rewrite Ep in Ki.
    destruct p as [|x [|k t] held|x held snap buf [ok out|q k|rw v k]|[|k t]| |held]; cbn [step1]; try (split; auto; fail); try (apply (Q0 _ _ _ Ep); intros r' E'; try congruence; exact I; fail).
    + apply (Q0 _ _ _ Ep). intros r' E'. assert (r' = r) by congruence. subst r'. apply J; [eapply nth_error_In; eauto|]. intros y Y. symmetry. eapply serial_still; eauto. apply (n_ser _ _ _ _ I).
    + destruct (taken k (s_ph st)); apply (Q0 _ _ _ Ep); intros r' E'; [exact Logic.I|congruence].
    + apply (Q _ _ _ _ Ep); [intros r' E'; exact Logic.I|]. intros e r' [<-|[]] E'. cbn in *. congruence.
  - destruct (nth_error (s_ph st) i) as [p|] eqn:Ep; [|split; auto]. destruct p; try (split; auto; fail); apply (Q0 _ _ _ Ep); intros r' E'; exact Logic.I.
  - destruct (nth_error (s_ph st) i) as [p|] eqn:Ep; [|split; auto]. apply (Q0 _ _ _ Ep); intros r' E'; exact Logic.I.
  - destruct (nth_error (s_ph st) i) as [p|] eqn:Ep; [|split; auto]. destruct p; try (split; auto; fail); apply (Q0 _ _ _ Ep); intros r' E'; exact Logic.I.
Qed.
Lemma knows_run cov rs d0 acts : protected cov rs -> init_still cov rs -> knows rs d0 (srun rs acts (sstart rs d0)).
Proof.
  intros P J. assert (G : forall st, inv cov rs d0 st -> knows rs d0 st -> knows rs d0 (srun rs acts st)).
  { induction acts as [|a t IH]; intros st I K; cbn [srun]; auto. apply IH; [now apply inv_step|eapply knows_step; eauto]. }
  apply G; [now apply inv_start|]. split; [|intros e r []]. intros i r _. destruct (nth_error (s_ph (sstart rs d0)) i) as [p|] eqn:E; auto. cbn in E. apply nth_error_In in E. apply in_map_iff in E. destruct E as (z & <- & _). exact I.
Qed.
(** If Init's query reads only rows that nobody writes, the runs are serial with fresh answers of Init. *)
Theorem C88_fresh_init_partial : forall cov rs d0 acts, protected cov rs -> init_still cov rs ->
  serial_fresh rs (s_log (srun rs acts (sstart rs d0))) d0 (s_db (srun rs acts (sstart rs d0))).
Proof.
  intros cov rs d0 acts P J. pose proof (C87_serializable cov rs d0 acts P) as S. destruct (knows_run cov rs d0 acts P J) as [_ L].
  assert (G : forall l d d', serial rs l d d' -> (forall y, still cov rs y -> d y = d0 y) -> (forall e r, In e l -> nth_error rs (e_run e) = Some r -> e_init e = r_init r d0) -> serial_fresh rs l d d').
  { clear -P J. intros l d d' S. induction S as [d d' S|e l d d1 d2 r R O S IH]; intros A L; [now constructor|]. pose proof (nth_error_In _ _ R) as I. econstructor; [exact R| |exact O|].
    - rewrite (L e r (or_introl eq_refl) R). apply J; auto. intros y Y. symmetry. auto.
    - apply IH; [|intros e' r' H; apply L; now right]. intros y Y. rewrite (one_still cov (r_keys r (e_init e)) _ _ _ _ _ y (P r (e_init e) I) O (Y r (e_init e) I)). auto. }
  apply G; auto.
Qed.
Print Assumptions C88_fresh_init_partial.
Example C88_three : init_still (fun r => r) three.
Proof. intros r d d' [<-|[<-|[<-|[]]]] _; reflexivity. Qed.

(** Without a common key the update of one run is lost: both read the row before either commits. *)
Definition apart : list runp := [bump_run "a" ["k1"] true; bump_run "a" ["k2"] true].
Definition apart_acts : list sact := steps [0; 0; 0; 1; 1; 1; 0; 1; 0; 0; 1; 1].
Lemma bump_one r d ok out d' : one (bump r) d ok out d' -> d' r = Some (value r d ++ "1")%string.
Proof. intros (dw & E & S). cbn in E. injection E as <- <- <-. rewrite (S r). unfold update. now rewrite String.eqb_refl. Qed.
Theorem C88_lost_update_refuted : exists rs d0 acts, let st := srun rs acts (sstart rs d0) in
  forallb e_ok (s_log st) = true /\ length (s_log st) = length rs /\
  forall l d', Permutation (map e_run l) (map e_run (s_log st)) -> serial rs l d0 d' -> ~ same d' (s_db st).
Proof.
  exists apart, (fun _ => None), apart_acts. cbn zeta. split; [reflexivity|]. split; [reflexivity|]. intros l d' Pm S X. change (map e_run (s_log _)) with [0; 1] in Pm. specialize (X "a"). change (s_db _ "a") with (Some "1") in X.
  assert (Ln : length l = 2) by (apply Permutation_length in Pm; rewrite !map_length in Pm; exact Pm). assert (In2 : forall e, In e l -> e_run e = 0 \/ e_run e = 1).
  { intros e He. apply (in_map e_run) in He. apply (Permutation_in _ Pm) in He. destruct He as [He|[He|[]]]; auto. }
  destruct l as [|e1 [|e2 [|e3 l]]]; try discriminate Ln. inversion S as [|? ? ? d1 ? r1 R1 O1 S1]; subst. inversion S1 as [|? ? ? d2 ? r2 R2 O2 S2]; subst. inversion S2 as [? ? S3|]; subst.
  assert (B1 : forall x, r_prog r1 x = bump "a") by (intros x; destruct (In2 e1 (or_introl eq_refl)) as [Z|Z]; rewrite Z in R1; cbn in R1; injection R1 as <-; reflexivity).
  assert (B2 : forall x, r_prog r2 x = bump "a") by (intros x; destruct (In2 e2 (or_intror (or_introl eq_refl))) as [Z|Z]; rewrite Z in R2; cbn in R2; injection R2 as <-; reflexivity).
  rewrite B1 in O1. rewrite B2 in O2. apply bump_one in O1. apply bump_one in O2. cbn in O1. unfold value in O2. rewrite O1 in O2. cbn in O2. rewrite <- (S3 "a"), O2 in X. discriminate X.
Qed.
Print Assumptions C88_lost_update_refuted.

(** What Init read may be out of date when the keys are there: with the same key and all other rows protected, two runs
    that write what Init read plus one still lose an update. *)
Definition stale_run : runp := mkRun (value "a") (fun _ => ["a"]) (fun s => Write "a" (Some (s ++ "1")%string) (Ret true s)) true.
Definition stale : list runp := [stale_run; stale_run].
Definition stale_acts : list sact := steps [0; 1; 0; 0; 0; 0; 0; 0; 1; 1; 1; 1; 1; 1].
Example stale_protected : protected (fun r => r) stale.
Proof. intros r x [<-|[<-|[]]]; cbn; (constructor; [cbn; auto|constructor]). Qed.
Theorem C88_init_is_stale_refuted : exists cov rs d0 acts, let st := srun rs acts (sstart rs d0) in
  protected cov rs /\ forallb e_ok (s_log st) = true /\ length (s_log st) = length rs /\
  forall l d', Permutation (map e_run l) (map e_run (s_log st)) -> serial_fresh rs l d0 d' -> ~ same d' (s_db st).
Proof.
  exists (fun r => r), stale, (fun _ => None), stale_acts. cbn zeta. split; [apply stale_protected|]. split; [reflexivity|]. split; [reflexivity|]. intros l d' Pm S X. change (map e_run (s_log _)) with [0; 1] in Pm. specialize (X "a"). change (s_db _ "a") with (Some "1") in X.
  assert (Ln : length l = 2) by (apply Permutation_length in Pm; rewrite !map_length in Pm; exact Pm). assert (In2 : forall e, In e l -> e_run e = 0 \/ e_run e = 1).
  { intros e He. apply (in_map e_run) in He. apply (Permutation_in _ Pm) in He. destruct He as [He|[He|[]]]; auto. }
  destruct l as [|e1 [|e2 [|e3 l]]]; try discriminate Ln. inversion S as [|? ? ? d1 ? r1 R1 F1 O1 S1]; subst. inversion S1 as [|? ? ? d2 ? r2 R2 F2 O2 S2]; subst. inversion S2 as [? ? S3|]; subst.
  assert (B1 : r1 = stale_run) by (destruct (In2 e1 (or_introl eq_refl)) as [Z|Z]; rewrite Z in R1; cbn in R1; injection R1 as <-; reflexivity).
  assert (B2 : r2 = stale_run) by (destruct (In2 e2 (or_intror (or_introl eq_refl))) as [Z|Z]; rewrite Z in R2; cbn in R2; injection R2 as <-; reflexivity).
  subst r1 r2. rewrite F1 in O1. rewrite F2 in O2.
  assert (W : forall d ok out dx, one (r_prog stale_run (r_init stale_run d)) d ok out dx -> dx "a" = Some (value "a" d ++ "1")%string).
  { intros d ok out dx (dw & E & Q). cbn in E. injection E as <- <- <-. exact (Q "a"). }
  apply W in O1. apply W in O2. cbn in O1. unfold value in O2. rewrite O1 in O2. cbn in O2. rewrite <- (S3 "a"), O2 in X. discriminate X.
Qed.
Print Assumptions C88_init_is_stale_refuted.

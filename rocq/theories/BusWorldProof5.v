(** Counting calls; running concrete schedules. *)
From Verif Require Import BusModel BusSpec BusProof BusWorld BusWorldSpec BusWorldProof BusWorldProof2 BusWorldProof4.

(** * Running a schedule of finitely many pollers *)
Definition idleb (ph : poll) : bool := match ph with PIdle => true | _ => false end.
Definition dueb (ph : poll) : bool := match ph with PDue _ _ => true | _ => false end.
Definition actor (a : act) : list nat :=
  match a with APStart p | APOff p | APDue p | APEvents p | ABegin p _ _ | AEnd p _ _ _ | ADie p => [p] | _ => [] end.
Definition allowedb (cfgs : nat -> buscfg) (P : list nat) (m : mode) (w : world) (a : act) : bool :=
  forallb (fun p => memb p P) (actor a) &&
  match a with
  | AInsert _ _ => m_split m
  | AClean _ => m_cleanrace m || forallb (fun q => negb (dueb (w_poll w q))) P
  | APStart p => m_overlap m || forallb (fun q => (q =? p) || negb (String.eqb (c_service (cfgs q)) (c_service (cfgs p))) || idleb (w_poll w q)) P
  | AOper svc _ x => match x with SExpired | SPrecedingFailed => true | _ => false end && (m_overlap m || forallb (fun q => negb (String.eqb (c_service (cfgs q)) svc) || idleb (w_poll w q)) P)
  | AEnd _ _ _ saved => m_loss m || saved
  | ADie _ => m_loss m
  | _ => true
  end.
Fixpoint runc (cfgs : nat -> buscfg) (P : list nat) (m : mode) (l : list act) (w : world) : option world :=
  match l with
  | [] => Some w
  | a :: t => if allowedb cfgs P m w a then match exec cfgs a w with Some w' => runc cfgs P m t w' | None => None end else None
  end.
Definition quiet (P : list nat) (w : world) : Prop := forall q, memb q P = false -> w_poll w q = PIdle.
Lemma idleb_eq ph : idleb ph = true -> ph = PIdle.
Proof. destruct ph; cbn; congruence. Qed.
Lemma allowedb_allowed cfgs P m w a : quiet P w -> allowedb cfgs P m w a = true -> allowed cfgs m w a.
Proof.
  intros Q. unfold allowedb. intros H. apply andb_true_iff in H. destruct H as [_ H]. destruct a; cbn; auto.
  - apply orb_true_iff in H. destruct H as [H|H]; auto. right. intros q N E. destruct (memb q P) eqn:M; [|auto].
    rewrite forallb_forall in H. specialize (H q (proj1 (memb_In q P) M)). apply orb_true_iff in H. destruct H as [H|H]; [|now apply idleb_eq]. exfalso. apply orb_true_iff in H. destruct H as [H|H].
    + apply Nat.eqb_eq in H. auto.
    + rewrite E, String.eqb_refl in H. discriminate.
  - apply orb_true_iff in H. exact H.
  - apply orb_true_iff in H. destruct H as [H|H]; auto. right. intros (q & st & svs & E). destruct (memb q P) eqn:M; [|rewrite (Q q M) in E; discriminate].
    rewrite forallb_forall in H. specialize (H q (proj1 (memb_In q P) M)). rewrite E in H. discriminate.
  - apply andb_true_iff in H. destruct H as [H1 H2]. split; [destruct x; auto; discriminate|]. apply orb_true_iff in H2. destruct H2 as [H2|H2]; auto. right. intros q E. destruct (memb q P) eqn:M; [|auto].
    rewrite forallb_forall in H2. specialize (H2 q (proj1 (memb_In q P) M)). apply orb_true_iff in H2. destruct H2 as [H2|H2]; [|now apply idleb_eq]. rewrite E, String.eqb_refl in H2. discriminate.
Qed.
Lemma quiet_upd P po p ph : memb p P = true -> (forall q, memb q P = false -> po q = PIdle) -> forall q, memb q P = false -> upd po p ph q = PIdle.
Proof. intros M H q Mq. unfold upd. destruct (Nat.eqb_spec q p) as [->|]; auto. congruence. Qed.
Lemma exec_quiet cfgs P m w a w' : quiet P w -> allowedb cfgs P m w a = true -> exec cfgs a w = Some w' -> quiet P w'.
Proof.
  intros Q H. unfold allowedb in H. apply andb_true_iff in H. destruct H as [H _]. rewrite forallb_forall in H. destruct w as [d now po lk js h]. unfold quiet in *. cbn [w_poll] in Q.
  destruct a; cbn [exec actor] in *; intros Ex;
    repeat match goal with
           | E : context [match ?x with _ => _ end] |- _ => match type of E with _ = Some w' => destruct x eqn:? end
           end; try discriminate; injection Ex as <-; cbn [w_poll]; auto; try (apply quiet_upd; auto; apply H; now left).
Qed.
Lemma runc_reach cfgs P m l : forall w w', quiet P w -> reachable cfgs m w -> runc cfgs P m l w = Some w' -> reachable cfgs m w'.
Proof.
  induction l as [|a t IH]; intros w w' Q R E; cbn [runc] in E; [injection E as <-; auto|]. destruct (allowedb cfgs P m w a) eqn:A; [|discriminate]. destruct (exec cfgs a w) as [w1|] eqn:X; [|discriminate].
  apply (IH w1 w'); auto; [eapply exec_quiet; eauto|]. econstructor; [exact R|]. exists a. split; auto. eapply allowedb_allowed; eauto.
Qed.
Lemma run_reachable cfgs P m l w : runc cfgs P m l world0 = Some w -> reachable cfgs m w.
Proof. apply runc_reach; [intros q _; reflexivity|constructor]. Qed.

(** * After a success no further call *)
Definition fresh_call (x : hev) (l : list hev) : Prop := match x with HCall t svc e s => ~ processed l svc e | _ => True end.
Section Count.
  Variable cfgs : nat -> buscfg.

  Lemma pending_unprocessed w s r : inv cfgs w -> invB cfgs w -> In s (b_sv (w_db w)) -> sr_status s = SInit -> sr_event s = er_id r -> ~ processed (w_hist w) (sr_service s) r.
  Proof.
    intros I B Hs Hi He Pr. destruct (b_proc _ _ B _ _ _ Pr Hs eq_refl He) as [Z|(x & Z1 & Z2)]; [congruence|].
    destruct (all_suffix_in _ _ _ (i_good _ _ I) Z1) as (l1 & l2 & El & G & _). cbn in G. rewrite Hi in Z2. subst x. destruct G; discriminate.
  Qed.
  Lemma hist_grows a w w' : exec cfgs a w = Some w' -> w_hist w' = w_hist w \/ exists x, w_hist w' = x :: w_hist w.
  Proof.
    destruct w as [d now po lk js h]. destruct a; cbn [exec]; intros Ex;
    repeat match goal with
           | E : context [match ?x with _ => _ end] |- _ => match type of E with _ = Some w' => destruct x eqn:? end
           end; try discriminate; injection Ex as <-; cbn [w_hist]; eauto.
  Qed.
  Lemma fresh_step m w a w' : m_split m = false -> m_cleanrace m = false -> m_overlap m = false -> inv cfgs w -> invB cfgs w -> all_suffix fresh_call (w_hist w) -> exec cfgs a w = Some w' -> all_suffix fresh_call (w_hist w').
  Proof.
    intros M1 M2 M3 I B F Ex. destruct w as [d now po lk js h]. destruct a; cbn [exec] in Ex.
    11:{ destruct (po p) as [| | | |st todo run] eqn:Ep; try discriminate. destruct todo as [|[e s] todo]; [destruct run; [|discriminate]; injection Ex as <-; auto|].
      destruct (begin_event _ _ _ _ _ _ _) eqn:Bg; injection Ex as <-; auto. cbn [w_hist] in *. split; auto. cbn.
      assert (St : In s (tuples (po p))) by (rewrite Ep; now left). destruct (tuple_mine cfgs (mkW d now po lk js h) p s I St) as [Ms Ini].
      pose proof (b_tab _ _ B p s St) as Hs. rewrite <- Ms. apply (pending_unprocessed (mkW d now po lk js h) s e I B); auto.
      pose proof (i_poll _ _ I p) as Pp. cbn [w_poll] in Pp. rewrite Ep in Pp. destruct Pp as (_ & Pp & _). destruct (Pp e s) as (_ & X & _); auto. now left. }
    all: repeat match goal with
           | E : context [match ?x with _ => _ end] |- _ => match type of E with _ = Some _ => destruct x eqn:? end
           end; try discriminate; injection Ex as <-; cbn [w_hist] in *; cbn; auto.
  Qed.
  Lemma fresh_reach m w : m_split m = false -> m_cleanrace m = false -> m_overlap m = false -> reachable cfgs m w -> all_suffix fresh_call (w_hist w).
  Proof.
    intros M1 M2 M3. unfold reachable. remember world0 as w0. induction 1 as [w|w1 w2 w3 S IH T]; [subst; exact Logic.I|]. pose proof (IH Heqw0) as F. subst w1.
    destruct (invB_reach cfgs m w2 M1 M2 M3 S) as [I B]. destruct T as (a & A & E). exact (fresh_step m w2 a w3 M1 M2 M3 I B F E).
  Qed.
End Count.

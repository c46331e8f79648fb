(** Retries respect the pause of the strategy. *)
From Verif Require Import BusModel BusSpec BusProof BusWorld BusWorldSpec BusWorldProof BusWorldProof2 BusWorldProof4 BusWorldProof5 BusWorldProof6.

Section Pause.
  Variable cfgs : nat -> buscfg.
  Variable svc : string.
  Variable n : nat.
  Variable pause : nat -> nat.
  Hypothesis strat : forall p, c_service (cfgs p) = svc -> grants (c_strategy (cfgs p)) n.
  Hypothesis waits : forall p, c_service (cfgs p) = svc -> pauses (c_strategy (cfgs p)) pause.

  (** what is known about the next run time of a delivery *)
  Definition not_before (h : list hev) (id next : nat) : Prop :=
    forall older t e s, before_last_record h svc id older -> In (HCall t svc e s) older -> er_id e = id -> t + pause (recs older svc id) <= next.
  Record invE (w : world) : Prop := {
    e_due : forall p s, In s (tuples (w_poll w p)) -> sr_next s <= w_now w;
    e_next : forall s, In s (b_sv (w_db w)) -> sr_service s = svc -> sr_status s = SInit -> not_before (w_hist w) (sr_event s) (sr_next s) }.
  Lemma not_before_cons x h id next : is_rec svc id x = false -> not_before h id next -> not_before (x :: h) id next.
  Proof.
    intros H N older t e s (newer & e0 & s0 & r & s0' & E & E1 & E2). destruct newer as [|y newer]; cbn in E; injection E as -> E.
    - cbn in H. rewrite String.eqb_refl, E1, Nat.eqb_refl in H. discriminate.
    - apply N. exists newer, e0, s0, r, s0'. split; auto. split; auto. rewrite recs_cons in E2. lia.
  Qed.
  Lemma not_before_none w id next : inv cfgs w -> b_ne (w_db w) <= id -> not_before (w_hist w) id next.
  Proof.
    intros I L older t e s (newer & e0 & s0 & r & s0' & E & E1 & E2) _ _. exfalso. pose proof (recs_none cfgs svc w id I L) as Z. rewrite E in Z. unfold recs in Z. rewrite filter_app, app_length in Z. cbn in Z.
    rewrite String.eqb_refl, E1, Nat.eqb_refl in Z. cbn in Z. lia.
  Qed.
  Lemma before_here h e s r s' older : before_last_record (HRec svc e s r s' :: h) svc (er_id e) older -> older = h.
  Proof.
    intros (newer & e0 & s0 & r0 & s0' & E & E1 & E2). destruct newer as [|y newer]; cbn in E; injection E; [congruence|]. intros _ <-. exfalso.
    unfold recs in E2. cbn in E2. rewrite String.eqb_refl, Nat.eqb_refl in E2. discriminate.
  Qed.

  Lemma invE_same w w' : invE w -> w_now w <= w_now w' -> (forall s, In s (b_sv (w_db w')) -> In s (b_sv (w_db w)) \/ sr_service s <> svc \/ sr_status s <> SInit) ->
    (forall p s, In s (tuples (w_poll w' p)) -> In s (tuples (w_poll w p)) \/ sr_next s <= w_now w') ->
    (w_hist w' = w_hist w \/ exists x, w_hist w' = x :: w_hist w /\ forall id, is_rec svc id x = false) -> invE w'.
  Proof.
    intros [A B] H1 H2 H3 H4. constructor.
    - intros p s Hs. destruct (H3 p s Hs) as [X|X]; auto. specialize (A p s X). lia.
    - intros s Hs Hv Hi. destruct (H2 s Hs) as [X|[X|X]]; try contradiction. specialize (B s X Hv Hi). destruct H4 as [->|(x & -> & N)]; auto. apply not_before_cons; auto.
  Qed.
  Lemma tuples_same po p ph : (forall s, In s (tuples ph) -> In s (tuples (po p))) -> forall q s, In s (tuples (upd po p ph q)) -> In s (tuples (po q)).
  Proof. intros H q s. unfold upd. destruct (Nat.eqb_spec q p) as [->|]; auto. Qed.

  Lemma invE_step m w a w' : m_split m = false -> m_cleanrace m = false -> m_overlap m = false -> inv cfgs w -> invB cfgs w -> invC svc n w -> invE w -> allowed cfgs m w a -> exec cfgs a w = Some w' -> invE w'.
  Proof.
    intros M1 M2 M3 I B C Q Al Ex. pose proof Q as QQ. destruct QQ as [Q1 Q2]. destruct w as [d now po lk js h].
    pose proof (i_wf _ _ I) as W. cbn [w_db w_now w_poll w_locks w_jobs w_hist] in *.
    destruct a as [k|name|evs|j evs|j|j|p|p|p|p|p lock qok|p i r saved|p|p|v ev x]; cbn [exec] in Ex.
    - injection Ex as <-. apply (invE_same _ _ Q); cbn [w_db w_now w_poll w_hist]; auto. lia.
    - injection Ex as <-. apply (invE_same _ _ Q); cbn [w_db w_now w_poll w_hist]; auto. unfold init_service. destruct (existsb _ _); auto.
    - destruct evs as [|e0 evs]; [discriminate|]. destruct (dispatch_now (e0 :: evs) d) as [rows d'] eqn:E. injection Ex as <-. destruct (dispatch_now_spec _ _ _ _ E) as [D _].
      destruct D as (rows' & dels & E1 & E2 & E3 & E4 & E5 & E6 & E7 & E8 & _). constructor; cbn [w_db w_hist w_poll w_now]; auto.
      intros s Hs Hv Hi. apply not_before_cons; [reflexivity|]. rewrite E5 in Hs. apply in_app_iff in Hs. destruct Hs as [Hs|Hs]; auto. destruct (E8 s Hs) as (F1 & F2 & r & F3 & F4 & _).
      apply (not_before_none (mkW d now po lk js h)); auto. cbn. rewrite <- F4. assert (X : In (er_id r) (map er_id rows')) by now apply in_map. rewrite E3 in X. apply in_seq in X. lia.
    - cbn in Al. congruence.
    - pose proof (i_jobs _ _ I j) as Jb. cbn in Jb. rewrite Jb in Ex. discriminate.
    - pose proof (i_jobs _ _ I j) as Jb. cbn in Jb. rewrite Jb in Ex. discriminate.
    - destruct (po p) eqn:Ep; try discriminate. injection Ex as <-. apply (invE_same _ _ Q); cbn [w_db w_now w_poll w_hist]; auto. intros q s Hs. left. destruct (scan_start _ _ _); auto. eapply tuples_same; [|exact Hs]. cbn. tauto.
    - destruct (po p) eqn:Ep; try discriminate. injection Ex as <-. apply (invE_same _ _ Q); cbn [w_db w_now w_poll w_hist]; auto. intros q s Hs. left. eapply tuples_same; [|exact Hs]. destruct (earliest _ _ _); cbn; tauto.
    - destruct (po p) eqn:Ep; try discriminate. injection Ex as <-. apply (invE_same _ _ Q); cbn [w_db w_now w_poll w_hist]; auto. intros q s Hs. unfold upd in Hs. destruct (Nat.eqb_spec q p) as [->|]; auto.
      right. cbn in Hs. unfold due in Hs. apply firstn_In, order_In, filter_In in Hs. destruct Hs as [_ Hs]. rewrite !andb_true_iff in Hs. destruct Hs as [_ Hs]. now apply Nat.leb_le in Hs.
    - destruct (po p) eqn:Ep; try discriminate. injection Ex as <-. apply (invE_same _ _ Q); cbn [w_db w_now w_poll w_hist]; auto. intros q s Hs. left. eapply tuples_same; [|exact Hs]. rewrite Ep. cbn. rewrite app_nil_r.
      intros y Hy. apply in_map_iff in Hy. destruct Hy as ((e & y') & Ey & Hy). cbn in Ey. subst y'. apply pair_up_In in Hy. apply Hy.
    - (* ABegin *)
      destruct (po p) as [| | | |st todo run] eqn:Ep; try discriminate. destruct todo as [|[e s] todo].
      { destruct run; [|discriminate]. injection Ex as <-. apply (invE_same _ _ Q); cbn [w_db w_now w_poll w_hist]; auto. intros q s Hs. left. eapply tuples_same; [|exact Hs]. cbn. tauto. }
      assert (St : In s (tuples (po p))) by (rewrite Ep; now left).
      destruct (begin_event _ _ _ _ _ _ _) eqn:Bg; injection Ex as <-.
      + apply (invE_same _ _ Q); cbn [w_db w_now w_poll w_hist]; auto. intros q y Hs. left. eapply tuples_same; [|exact Hs]. rewrite Ep. cbn. auto.
      + rewrite (save_same_row s d (wf_sv d W)); [|apply (b_tab _ _ B p s St)]. apply (invE_same _ _ Q); cbn [w_db w_now w_poll w_hist]; auto. intros q y Hs. left. eapply tuples_same; [|exact Hs]. rewrite Ep. cbn. auto.
      + apply (invE_same _ _ Q); cbn [w_db w_now w_poll w_hist]; auto; [|right; eexists; split; [reflexivity|]; reflexivity]. intros q y Hs. left. eapply tuples_same; [|exact Hs]. rewrite Ep. cbn. intros z. rewrite !map_app, !in_app_iff. cbn. tauto.
    - (* AEnd *)
      destruct (po p) as [| | | |st todo run] eqn:Ep; try discriminate. destruct (nth_error run i) as [[e s]|] eqn:En; [|discriminate].
      assert (Tu : forall q y, In y (tuples (upd po p (PRun st todo (remove_nth i run)) q)) -> In y (tuples (po q))).
      { apply tuples_same. rewrite Ep. cbn. intros y. rewrite !map_app, !in_app_iff. intros [H|H]; auto. right. apply in_map_iff in H. destruct H as (z & Ez & Hz). rewrite <- Ez. apply in_map. eapply remove_nth_In; eauto. }
      destruct saved; injection Ex as <-; [|apply (invE_same _ _ Q); cbn [w_db w_now w_poll w_hist]; auto].
      assert (Hin : In (e, s) run) by (eapply nth_error_In; eauto).
      assert (St : In s (tuples (po p))) by (rewrite Ep; cbn; apply (in_map snd _ (e, s)); apply in_app_iff; auto).
      destruct (tuple_mine cfgs (mkW d now po lk js h) p s I St) as [Ms Ini]. pose proof (b_tab _ _ B p s St) as Si. cbn [w_db] in Si.
      assert (Ee : er_id e = sr_event s).
      { pose proof (i_poll _ _ I p) as Pp. cbn [w_poll] in Pp. rewrite Ep in Pp. destruct Pp as (_ & Pp & _). destruct (Pp e s) as (_ & X & _); auto. apply in_app_iff; auto. }
      set (s' := end_event (cfgs p) now r s). destruct (end_event_id (cfgs p) now r s) as (Ks1 & Ks2 & Ks3 & _). fold s' in Ks1, Ks2, Ks3.
      constructor; cbn [w_db w_hist w_poll w_now].
      + intros q y Hy. apply (Q1 q y). auto.
      + intros x Hx Hv Hi. cbn in Hx. apply in_map_iff in Hx. destruct Hx as (y & Ey & Hy). destruct (Nat.eqb_spec (sr_id y) (sr_id s')) as [Eq|Nq].
        * subst x. assert (Hp : c_service (cfgs p) = svc) by congruence. assert (Hs : sr_service s = svc) by congruence.
          rewrite Hp, Ks3, <- Ee. intros older t e1 s1 Bl Hc He. apply before_here in Bl. subst older.
          assert (Tn : t <= now) by (exact (i_time _ _ I t svc e1 s1 Hc)).
          destruct (c_init _ _ _ C s Si Hs Ini) as [R1 R2]. cbn [w_hist] in R1. rewrite Ee, <- R1.
          unfold s', end_event in Hi |- *. destruct r; cbn in Hi; try discriminate; unfold do_retry in *; destruct (strat_next (c_strategy (cfgs p)) (sr_retry s) now) as [[k u]|] eqn:Es; cbn in Hi; try discriminate;
          cbn; rewrite (waits p Hp _ _ _ _ Es); lia.
        * subst y. apply not_before_cons; auto. cbn. destruct (String.eqb_spec (c_service (cfgs p)) svc) as [Hp|]; auto. destruct (Nat.eqb_spec (er_id e) (sr_event x)) as [Hx|]; auto. exfalso. apply Nq. rewrite Ks1. f_equal.
          apply (NoDup_map_inj _ _ _ _ (wf_key d W) Hy Si). congruence.
    - injection Ex as <-. apply (invE_same _ _ Q); cbn [w_db w_now w_poll w_hist]; auto. intros q s Hs. left. eapply tuples_same; [|exact Hs]. cbn. tauto.
    - destruct (existsb _ (b_sv d)); [discriminate|]. injection Ex as <-. apply (invE_same _ _ Q); cbn [w_db w_now w_poll w_hist]; auto. intros s Hs. left. destruct (clean_spec (cfgs p) now d W) as (T1 & _). now apply (taken_out_In _ _ _ s T1).
    - destruct (existsb _ (b_sv d)); [discriminate|]. injection Ex as <-. destruct Al as [Al _]. apply (invE_same _ _ Q); cbn [w_db w_now w_poll w_hist]; auto; [|right; eexists; split; [reflexivity|]; reflexivity].
      intros s Hs. cbn in Hs. apply in_map_iff in Hs. destruct Hs as (y & Ey & Hy). destruct (String.eqb (sr_service y) v && (sr_event y =? ev)); subst; auto. right. right. cbn. destruct Al; congruence.
  Qed.
  Lemma invE_reach m w : m_split m = false -> m_cleanrace m = false -> m_overlap m = false -> reachable cfgs m w -> invE w.
  Proof.
    intros M1 M2 M3. unfold reachable. remember world0 as w0. induction 1 as [w|w1 w2 w3 S IH T]; [subst; constructor; cbn; intros; contradiction|]. pose proof (IH Heqw0) as E. subst w1.
    destruct (invB_reach cfgs m w2 M1 M2 M3 S) as [I B]. pose proof (invC_reach cfgs svc n strat m w2 M1 M2 M3 S) as C. destruct T as (a & A & X). exact (invE_step m w2 a w3 M1 M2 M3 I B C E A X).
  Qed.

  Definition paused (x : hev) (l : list hev) : Prop :=
    match x with HCall t2 v e s => v = svc -> not_before l (er_id e) t2 | _ => True end.
  Lemma paused_step m w a w' : m_split m = false -> m_cleanrace m = false -> m_overlap m = false -> inv cfgs w -> invB cfgs w -> invE w -> all_suffix paused (w_hist w) -> exec cfgs a w = Some w' -> all_suffix paused (w_hist w').
  Proof.
    intros M1 M2 M3 I B Q F Ex. destruct w as [d now po lk js h]. destruct a; cbn [exec] in Ex.
    11:{ destruct (po p) as [| | | |st todo run] eqn:Ep; try discriminate. destruct todo as [|[e s] todo]; [destruct run; [|discriminate]; injection Ex as <-; auto|].
      destruct (begin_event _ _ _ _ _ _ _) eqn:Bg; injection Ex as <-; auto. cbn [w_hist] in *. split; auto. cbn. intros Hv.
      assert (St : In s (tuples (po p))) by (rewrite Ep; now left). destruct (tuple_mine cfgs (mkW d now po lk js h) p s I St) as [Ms Ini].
      pose proof (b_tab _ _ B p s St) as Hs. pose proof (i_poll _ _ I p) as Pp. cbn [w_poll] in Pp. rewrite Ep in Pp. destruct Pp as (_ & Pp & _). destruct (Pp e s) as (_ & X & _); [now left|].
      intros older t e1 s1 H1 H2 H3. pose proof (e_due _ Q p s St) as D. cbn [w_now] in D. rewrite X in *. pose proof (e_next _ Q s Hs (eq_trans Ms Hv) Ini older t e1 s1 H1 H2 H3). lia. }
    all: repeat match goal with
           | E : context [match ?x with _ => _ end] |- _ => match type of E with _ = Some _ => destruct x eqn:? end
           end; try discriminate; injection Ex as <-; cbn [w_hist] in *; cbn; auto.
  Qed.
  Lemma paused_reach m w : m_split m = false -> m_cleanrace m = false -> m_overlap m = false -> reachable cfgs m w -> all_suffix paused (w_hist w).
  Proof.
    intros M1 M2 M3 R. revert R. unfold reachable. remember world0 as w0. induction 1 as [w|w1 w2 w3 S IH T]; [subst; exact Logic.I|]. pose proof (IH Heqw0) as F. subst w1.
    destruct (invB_reach cfgs m w2 M1 M2 M3 S) as [I B]. pose proof (invE_reach m w2 M1 M2 M3 S) as Q. destruct T as (a & A & E). exact (paused_step m w2 a w3 M1 M2 M3 I B Q F E).
  Qed.
End Pause.

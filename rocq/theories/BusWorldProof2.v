(** The invariant holds in every reachable state. *)
From Verif Require Import BusModel BusSpec BusProof BusWorld BusWorldSpec BusWorldProof.

Lemma remove_nth_In {A} (x : A) l : forall i, In x (remove_nth i l) -> In x l.
Proof. induction l as [|a t IH]; intros [|i] H; cbn in *; auto. destruct H as [H|H]; eauto. Qed.
Lemma upd_cases {A} (f : nat -> A) k v q : upd f k v q = f q \/ (q = k /\ upd f k v q = v).
Proof. unfold upd. destruct (Nat.eqb_spec q k); auto. Qed.
Lemma begin_call c lock qok st e s d : begin_event c lock qok st e s d = VCall ->
  lock = true /\ sr_status s = SInit /\ (exists x, In x (b_sv d) /\ sr_id x = sr_id s) /\ (is_fifo (d_type (er_ev e)) = true -> check_preceding c qok e st d = true).
Proof.
  unfold begin_event. destruct (negb (lock && existsb _ (b_sv d))) eqn:E1; [discriminate|]. apply negb_false_iff in E1. apply andb_true_iff in E1. destruct E1 as [-> E1].
  destruct (negb (is_init (sr_status s))) eqn:E2; [discriminate|]. destruct (is_fifo (d_type (er_ev e)) && negb (check_preceding c qok e st d)) eqn:E3; [discriminate|]. intros _.
  split; auto. split; [destruct (sr_status s); cbn in E2; congruence|]. split.
  - apply existsb_exists in E1. destruct E1 as (x & X1 & X2). apply Nat.eqb_eq in X2. eauto.
  - intros X. rewrite X in E3. cbn in E3. now apply negb_false_iff in E3.
Qed.

Section Step.
  Variable cfgs : nat -> buscfg.
  Variable m : mode.
  Hypothesis Hsplit : m_split m = false.
  Hypothesis Hrace : m_cleanrace m = false.
  Notation inv := (inv cfgs).

  Lemma end_same c now r s : same_key (end_event c now r s) s.
  Proof. destruct (end_event_id c now r s) as (A & B & C & _). repeat split; auto. Qed.
  Lemma inv_step w a w' : inv w -> allowed cfgs m w a -> exec cfgs a w = Some w' -> inv w'.
  Proof.
    intros I Al Ex. destruct w as [d now po lk js h]. pose proof I as II. destruct II as [W Jb Po Ev Lt Sv Go Ti Ha Ro St]. cbn [w_db w_now w_poll w_locks w_jobs w_hist] in *.
    destruct a as [n|name|evs|j evs|j|j|p|p|p|p|p lock qok|p i r saved|p|p|svc ev x]; cbn [exec] in Ex.
    - injection Ex as <-. apply (inv_poll_only cfgs (mkW d now po lk js h) 0 PIdle (now + n) po lk I); cbn; auto. lia.
    - injection Ex as <-. assert (E : b_ev (init_service name d) = b_ev d /\ b_sv (init_service name d) = b_sv d /\ b_ne (init_service name d) = b_ne d /\ b_ns (init_service name d) = b_ns d /\ incl (b_svc d) (b_svc (init_service name d))).
      { unfold init_service. destruct (existsb _ _); cbn; repeat split; auto; [apply incl_refl|intros x Hx; apply in_app_iff; auto]. }
      destruct E as (E1 & E2 & E3 & E4 & E5). constructor; cbn; rewrite ?E1, ?E2, ?E3; auto; [now apply init_service_wf| |].
      + intros q. eapply (poll_ok_evolves _ (mkW d now po lk js h)); [| |apply Po].
        * unfold evolves. cbn. rewrite E1, E2, E3, E4. repeat split; auto; [intros x Hx; right; exists x; auto|exists []; auto].
        * left. intros r. cbn. now rewrite E1.
      + intros rows svcs H y Hy. apply E5. eapply Sv; eauto.
    - destruct evs as [|e0 evs]; [discriminate|]. destruct (dispatch_now (e0 :: evs) d) as [rows d'] eqn:E. injection Ex as <-. apply (inv_dispatch cfgs (mkW d now po lk js h) _ _ _ I E).
    - congruence.
    - rewrite Jb in Ex. discriminate.
    - rewrite Jb in Ex. discriminate.
    - (* APStart *)
      specialize (Po p). destruct (po p) eqn:Ep; try discriminate. injection Ex as <-.
      destruct (scan_start (cfgs p) now d) as [st|] eqn:S; [|apply (inv_poll_only cfgs (mkW d now po lk js h) 0 PIdle now po lk I); cbn; auto].
      apply (inv_poll_only cfgs (mkW d now po lk js h) p (PStart st) now _ lk I); cbn; auto; [apply upd_cases|].
      pose proof (scan_start_spec (cfgs p) now d) as X. rewrite S in X. destruct X as [(r & R1 & R2 & R3) X]. split; cbn.
      + specialize (Lt r (Ev r R1)). lia.
      + intros y Hy L. destruct (Nat.le_gt_cases now (er_created y + c_window (cfgs p))) as [Z|Z]; auto. specialize (X y Hy Z). lia.
    - (* APOff *)
      specialize (Po p). destruct (po p) eqn:Ep; try discriminate. injection Ex as <-.
      apply (inv_poll_only cfgs (mkW d now po lk js h) p (match earliest (cfgs p) start d with Some s => POff start (offset start s) | None => PIdle end) now _ lk I); cbn; auto; [apply upd_cases|].
      destruct (earliest (cfgs p) start d); cbn; auto.
    - (* APDue *)
      specialize (Po p). destruct (po p) eqn:Ep; try discriminate. injection Ex as <-.
      apply (inv_poll_only cfgs (mkW d now po lk js h) p (PDue start (due (cfgs p) now off d)) now _ lk I); cbn; auto; [apply upd_cases|].
      assert (N : NoDup (map sr_event (filter (elig (cfgs p) now off) (b_sv d)))) by (apply (keys_of (cfgs p) d W); intros s Hs; apply elig_spec in Hs; apply Hs).
      split; [exact Po|]. split; [unfold due; apply SS_firstn; now apply order_strict|].
      intros s Hs. unfold due in Hs. apply firstn_In, order_In, filter_In in Hs. destruct Hs as [Hs He]. fold (elig (cfgs p) now off s) in He. apply elig_spec in He. destruct He as (H1 & H2 & H3 & H4). split; [|now apply (wf_ref d W)].
      split; auto. split; auto. split; [now apply (wf_svn d W)|]. intros x Hx E. rewrite (NoDup_map_inj _ _ _ _ (wf_sv d W) Hx Hs E). auto.
    - (* APEvents *)
      specialize (Po p). destruct (po p) eqn:Ep; try discriminate. injection Ex as <-. destruct Po as (P1 & P2 & P3).
      apply (inv_poll_only cfgs (mkW d now po lk js h) p (PRun start (pair_up (order_by er_id (filter (fun r => memb (er_id r) (map sr_event svs)) (b_ev d))) svs) []) now _ lk I); cbn; auto; [apply upd_cases|].
      assert (P : map er_id (order_by er_id (filter (fun r => memb (er_id r) (map sr_event svs)) (b_ev d))) = map sr_event svs) by (apply pair_match; auto; intros s Hs; apply P3; auto).
      destruct (pair_up_snd _ _ P) as (_ & _ & P4). split; [exact P1|]. split; [|intros; contradiction]. intros e s H. rewrite app_nil_r in H. specialize (P4 e s H). apply pair_up_In in H. destruct H as [X1 X2]. split; [apply P3; auto|]. split; auto.
      apply Ev. apply order_In, filter_In in X1. apply X1.
    - (* ABegin *)
      pose proof (Po p) as Pp. destruct (po p) as [| | | |st todo run] eqn:Ep; try discriminate. destruct todo as [|[e s] todo].
      { destruct run; [|discriminate]. injection Ex as <-. apply (inv_poll_only cfgs (mkW d now po lk js h) p PIdle now _ lk I); cbn; auto; apply upd_cases. }
      destruct Pp as (P1 & P2 & P3). destruct (P2 e s (or_introl eq_refl)) as (T & Te & Td).
      assert (K : poll_ok (cfgs p) (mkW d now po lk js h) (PRun st todo run)).
      { split; auto. split; auto. intros e' s' H. apply (P2 e' s'). now right. }
      destruct (begin_event _ _ _ _ _ _ _) eqn:B; injection Ex as <-.
      + apply (inv_poll_only cfgs (mkW d now po lk js h) p (PRun st todo run) now _ lk I); cbn; auto; apply upd_cases.
      + rewrite save_is_map. assert (F : forall x, In x (b_sv d) -> same_key (if sr_id x =? sr_id s then s else x) x) by (apply (save_same s (cfgs p) d T); repeat split).
        pose proof (evolves_map (mkW d now po lk js h) (fun x => if sr_id x =? sr_id s then s else x) (upd po p (PRun st todo run)) lk [] F) as [EV KE].
        apply (inv_map cfgs (mkW d now po lk js h) (fun x => if sr_id x =? sr_id s then s else x) (upd po p (PRun st todo run)) lk [] I F); cbn; auto; try (intros; contradiction).
        * intros rows svcs [].
        * intros x Hx Hn. destruct (sr_id x =? sr_id s); [destruct T as (_ & T & _); contradiction|]. now apply St.
        * intros q. eapply poll_ok_evolves; [exact EV|now left|]. destruct (upd_cases po p (PRun st todo run) q) as [->|[-> ->]]; auto.
      + apply begin_call in B. destruct B as (B1 & B2 & (x & B3 & B4) & B5).
        pose proof (evolves_map (mkW d now po lk js h) (fun x => x) (upd po p (PRun st todo (run ++ [(e, s)]))) (sr_id s :: lk) [HCall now (c_service (cfgs p)) e s] (fun s _ => conj eq_refl (conj eq_refl eq_refl))) as [EV KE].
        assert (X : inv (mkW (with_sv d (map (fun x => x) (b_sv d))) now (upd po p (PRun st todo (run ++ [(e, s)]))) (sr_id s :: lk) js ([HCall now (c_service (cfgs p)) e s] ++ h))).
        { apply (inv_map cfgs (mkW d now po lk js h) (fun x => x) (upd po p (PRun st todo (run ++ [(e, s)]))) (sr_id s :: lk) [HCall now (c_service (cfgs p)) e s] I); cbn; auto.
          - intros y _. repeat split.
          - intros rows svcs [X|[]]. discriminate.
          - intros t v e' s' [[= <- <- <- <-]|[]]. auto.
          - intros y Hy Hn. apply (justified_app [HCall now (c_service (cfgs p)) e s]). now apply St.
          - intros q. cbn in EV, KE. destruct (upd_cases po p (PRun st todo (run ++ [(e, s)])) q) as [->|[-> ->]]; [eapply poll_ok_evolves; [exact EV|now left|apply Po]|].
            pose proof (poll_ok_evolves _ _ _ _ EV (or_introl KE) K) as (K1 & K2 & K3). split; [exact K1|]. cbn [w_hist w_db] in *. split.
            + intros e' s' H. rewrite app_assoc in H. apply in_app_iff in H. destruct H as [H|[[= <- <-]|[]]]; [now apply K2|]. split; [exact (tuple_ok_evolves _ _ _ _ EV T)|]. split; auto. now apply disp_cons.
            + intros e' s' H. apply in_app_iff in H. destruct H as [H|[[= <- <-]|[]]]; [now apply K3|]. exists now. now left. }
        rewrite map_id in X. destruct d; exact X.
    - (* AEnd *)
      pose proof (Po p) as Pp. destruct (po p) as [| | | |st todo run] eqn:Ep; try discriminate. destruct (nth_error run i) as [[e s]|] eqn:En; [|discriminate].
      destruct Pp as (P1 & P2 & P3). assert (Hin : In (e, s) run) by (eapply nth_error_In; eauto). destruct (P2 e s) as (T & Te & Td); [apply in_app_iff; auto|]. destruct (P3 e s Hin) as (t0 & T0).
      assert (K : poll_ok (cfgs p) (mkW d now po lk js h) (PRun st todo (remove_nth i run))).
      { split; auto. split; [|intros e' s' H; apply P3; eapply remove_nth_In; eauto]. intros e' s' H. apply P2. apply in_app_iff in H. apply in_app_iff. destruct H as [H|H]; auto. right. eapply remove_nth_In; eauto. }
      destruct saved; injection Ex as <-.
      2:{ apply (inv_poll_only cfgs (mkW d now po lk js h) p (PRun st todo (remove_nth i run)) now _ _ I); cbn; auto; apply upd_cases. }
      set (s' := end_event (cfgs p) now r s). rewrite save_is_map. pose proof (end_same (cfgs p) now r s) as Ks. fold s' in Ks.
      assert (F : forall x, In x (b_sv d) -> same_key (if sr_id x =? sr_id s' then s' else x) x) by (apply (save_same s (cfgs p) d T); auto).
      pose proof (evolves_map (mkW d now po lk js h) (fun x => if sr_id x =? sr_id s' then s' else x) (upd po p (PRun st todo (remove_nth i run))) (filter (fun x => negb (x =? sr_id s)) lk) [HRec (c_service (cfgs p)) e s r s'] F) as [EV KE].
      apply (inv_map cfgs (mkW d now po lk js h) (fun x => if sr_id x =? sr_id s' then s' else x) (upd po p (PRun st todo (remove_nth i run))) (filter (fun x => negb (x =? sr_id s)) lk) [HRec (c_service (cfgs p)) e s r s'] I F); cbn; auto.
      + split; auto. split; eauto. intros ->. reflexivity.
      + intros rows svcs [X|[]]. discriminate.
      + intros t v e' x [X|[]]. discriminate.
      + intros x Hx Hn. destruct (sr_id x =? sr_id s') eqn:Ex; [|apply (justified_app [HRec (c_service (cfgs p)) e s r s']); now apply St].
        left. destruct T as (T1 & T2 & T3 & T4). destruct Ks as (K1 & K2 & K3). rewrite K2, T1, K3. exists e, s, r, s'. split; [now left|]. split; auto. split; auto.
        subst s'. unfold end_event, do_retry in Hn |- *. destruct r; cbn; auto; destruct (strat_next (c_strategy (cfgs p)) (sr_retry s) now) as [[n t]|]; cbn in *; auto; contradiction.
      + intros q. eapply poll_ok_evolves; [exact EV|now left|]. destruct (upd_cases po p (PRun st todo (remove_nth i run)) q) as [->|[-> ->]]; auto.
    - (* ADie *)
      injection Ex as <-. apply (inv_poll_only cfgs (mkW d now po lk js h) p PIdle now _ _ I); cbn; auto; apply upd_cases.
    - (* AClean *)
      destruct (existsb _ (b_sv d)); [discriminate|]. injection Ex as <-. apply (inv_clean cfgs (mkW d now po lk js h) p I). destruct Al as [Al|Al]; [congruence|auto].
    - (* AOper *)
      destruct (existsb _ (b_sv d)); [discriminate|]. injection Ex as <-. destruct Al as [Al _].
      set (f := fun s => if String.eqb (sr_service s) svc && (sr_event s =? ev) then set_status s x else s).
      assert (F : forall s, In s (b_sv d) -> same_key (f s) s) by (intros s _; unfold f; destruct (_ && _); repeat split; auto).
      pose proof (evolves_map (mkW d now po lk js h) f po lk [HOper svc ev x] F) as [EV KE].
      apply (inv_map cfgs (mkW d now po lk js h) f po lk [HOper svc ev x] I F); cbn; auto.
      + intros rows svcs [X|[]]. discriminate.
      + intros t v e' y [X|[]]. discriminate.
      + intros s Hs Hn. unfold f in *. destruct (String.eqb (sr_service s) svc && (sr_event s =? ev)) eqn:E.
        * apply andb_true_iff in E. destruct E as [E1 E2]. apply String.eqb_eq in E1. apply Nat.eqb_eq in E2. right. cbn. rewrite E1, E2. split; auto.
        * apply (justified_app [HOper svc ev x]). now apply St.
      + intros q. eapply poll_ok_evolves; [exact EV|now left|apply Po].
  Qed.
  Lemma inv_reach w : reachable cfgs m w -> inv w.
  Proof.
    unfold reachable. remember world0 as w0. induction 1 as [w|w1 w2 w3 S IH T]; [subst; apply inv0|]. destruct T as (a & A & E). eapply inv_step; eauto.
  Qed.
End Step.

(** Counting the calls for an event. *)
From Verif Require Import BusModel BusSpec BusProof BusWorld BusWorldSpec BusWorldProof BusWorldProof2 BusWorldProof4 BusWorldProof5.

Section Count.
  Variable cfgs : nat -> buscfg.
  Variable svc : string.
  Variable n : nat.
  Hypothesis strat : forall p, c_service (cfgs p) = svc -> grants (c_strategy (cfgs p)) n.

  Record invC (w : world) : Prop := {
    c_init : forall s, In s (b_sv (w_db w)) -> sr_service s = svc -> sr_status s = SInit -> sr_retry s = recs (w_hist w) svc (sr_event s) /\ sr_retry s <= n;
    c_fail : forall s, In s (b_sv (w_db w)) -> sr_service s = svc -> sr_status s = SFailed -> recs (w_hist w) svc (sr_event s) = S n;
    c_all : forall id, recs (w_hist w) svc id <= S n }.
  Lemma invC0 : invC world0.
  Proof. constructor; cbn; try (intros; contradiction). intros. unfold recs. cbn. lia. Qed.
  Lemma recs_cons x h id : recs (x :: h) svc id = (if is_rec svc id x then 1 else 0) + recs h svc id.
  Proof. unfold recs. cbn. destruct (is_rec svc id x); reflexivity. Qed.
  Lemma calls_cons x h id : calls (x :: h) svc id = (if is_call svc id x then 1 else 0) + calls h svc id.
  Proof. unfold calls. cbn. destruct (is_call svc id x); reflexivity. Qed.
  Lemma recs_none w id : inv cfgs w -> b_ne (w_db w) <= id -> recs (w_hist w) svc id = 0.
  Proof.
    intros I L. unfold recs. destruct (filter (is_rec svc id) (w_hist w)) as [|x t] eqn:E; auto. exfalso.
    assert (H : In x (filter (is_rec svc id) (w_hist w))) by (rewrite E; now left). apply filter_In in H. destruct H as [H1 H2]. destruct x as [| |v e s r s'|]; try discriminate. cbn in H2. apply andb_true_iff in H2. destruct H2 as [_ H2]. apply Nat.eqb_eq in H2.
    destruct (all_suffix_in _ _ _ (i_good _ _ I) H1) as (l1 & l2 & El & ((t0 & Z) & _) & G2). destruct (all_suffix_in _ _ _ G2 Z) as (l3 & l4 & El2 & (D & _) & _).
    assert (er_id e < b_ne (w_db w)); [|lia]. apply (i_lt _ _ I). rewrite El. apply (disp_app l1), disp_cons. rewrite El2. apply (disp_app l3). now apply disp_cons.
  Qed.
  Lemma invC_keep w w' : invC w -> (forall s, In s (b_sv (w_db w')) -> In s (b_sv (w_db w))) -> (forall id, recs (w_hist w') svc id = recs (w_hist w) svc id) -> invC w'.
  Proof. intros [A B C] H1 H2. constructor; intros; rewrite ?H2; auto. Qed.

  Lemma invC_step m w a w' : m_split m = false -> m_cleanrace m = false -> m_overlap m = false -> inv cfgs w -> invB cfgs w -> invC w -> allowed cfgs m w a -> exec cfgs a w = Some w' -> invC w'.
  Proof.
    intros M1 M2 M3 I B C Al Ex. pose proof C as CC. destruct CC as [C1 C2 C3]. destruct w as [d now po lk js h].
    pose proof (i_wf _ _ I) as W. cbn [w_db w_now w_poll w_locks w_jobs w_hist] in *.
    destruct a as [k|name|evs|j evs|j|j|p|p|p|p|p lock qok|p i r saved|p|p|v ev x]; cbn [exec] in Ex.
    - injection Ex as <-. apply (invC_keep (mkW d now po lk js h)); auto.
    - injection Ex as <-. apply (invC_keep (mkW d now po lk js h)); auto. cbn. unfold init_service. destruct (existsb _ _); auto.
    - destruct evs as [|e0 evs]; [discriminate|]. destruct (dispatch_now (e0 :: evs) d) as [rows d'] eqn:E. injection Ex as <-. destruct (dispatch_now_spec _ _ _ _ E) as [D _].
      destruct D as (rows' & dels & E1 & E2 & E3 & E4 & E5 & E6 & E7 & E8 & _). constructor; cbn [w_db w_hist]; intros; rewrite ?recs_cons; cbn [is_rec Nat.add]; auto.
      + rewrite E5 in H. apply in_app_iff in H. destruct H as [H|H]; auto. destruct (E8 s H) as (F1 & F2 & r & F3 & F4 & _). rewrite F2. split; [|lia]. symmetry. apply (recs_none (mkW d now po lk js h)); auto. cbn.
        rewrite <- F4. assert (X : In (er_id r) (map er_id rows')) by now apply in_map. rewrite E3 in X. apply in_seq in X. lia.
      + rewrite E5 in H. apply in_app_iff in H. destruct H as [H|H]; auto. destruct (E8 s H) as (F1 & _). congruence.
    - cbn in Al. congruence.
    - pose proof (i_jobs _ _ I j) as Jb. cbn in Jb. rewrite Jb in Ex. discriminate.
    - pose proof (i_jobs _ _ I j) as Jb. cbn in Jb. rewrite Jb in Ex. discriminate.
    - destruct (po p) eqn:Ep; try discriminate. injection Ex as <-. apply (invC_keep (mkW d now po lk js h)); auto.
    - destruct (po p) eqn:Ep; try discriminate. injection Ex as <-. apply (invC_keep (mkW d now po lk js h)); auto.
    - destruct (po p) eqn:Ep; try discriminate. injection Ex as <-. apply (invC_keep (mkW d now po lk js h)); auto.
    - destruct (po p) eqn:Ep; try discriminate. injection Ex as <-. apply (invC_keep (mkW d now po lk js h)); auto.
    - (* ABegin *)
      destruct (po p) as [| | | |st todo run] eqn:Ep; try discriminate. destruct todo as [|[e s] todo]; [destruct run; [|discriminate]; injection Ex as <-; apply (invC_keep (mkW d now po lk js h)); auto|].
      assert (St : In s (tuples (po p))) by (rewrite Ep; now left).
      destruct (begin_event _ _ _ _ _ _ _) eqn:Bg; injection Ex as <-; [apply (invC_keep (mkW d now po lk js h)); auto| |apply (invC_keep (mkW d now po lk js h)); auto].
      rewrite (save_same_row s d (wf_sv d W)); [apply (invC_keep (mkW d now po lk js h)); auto|]. apply (b_tab _ _ B p s St).
    - (* AEnd *)
      destruct (po p) as [| | | |st todo run] eqn:Ep; try discriminate. destruct (nth_error run i) as [[e s]|] eqn:En; [|discriminate].
      destruct saved; injection Ex as <-; [|apply (invC_keep (mkW d now po lk js h)); auto].
      assert (Hin : In (e, s) run) by (eapply nth_error_In; eauto).
      assert (St : In s (tuples (po p))) by (rewrite Ep; cbn; apply (in_map snd _ (e, s)); apply in_app_iff; auto).
      destruct (tuple_mine cfgs (mkW d now po lk js h) p s I St) as [Ms Ini]. pose proof (b_tab _ _ B p s St) as Si. cbn [w_db] in Si.
      assert (Ee : er_id e = sr_event s).
      { pose proof (i_poll _ _ I p) as Pp. cbn [w_poll] in Pp. rewrite Ep in Pp. destruct Pp as (_ & Pp & _). destruct (Pp e s) as (_ & X & _); auto. apply in_app_iff; auto. }
      set (s' := end_event (cfgs p) now r s). destruct (end_event_id (cfgs p) now r s) as (Ks1 & Ks2 & Ks3 & _). fold s' in Ks1, Ks2, Ks3.
      assert (R : forall id, recs (HRec (c_service (cfgs p)) e s r s' :: h) svc id = (if String.eqb (c_service (cfgs p)) svc && (sr_event s =? id) then 1 else 0) + recs h svc id) by (intros id; rewrite recs_cons; cbn; now rewrite Ee).
      assert (K : forall x, In x (b_sv (save_row s' d)) -> (x = s' /\ sr_service s = sr_service x) \/ (In x (b_sv d) /\ (sr_service x <> sr_service s \/ sr_event x <> sr_event s))).
      { intros x Hx. cbn in Hx. apply in_map_iff in Hx. destruct Hx as (y & Ey & Hy). destruct (Nat.eqb_spec (sr_id y) (sr_id s')) as [Eq|Nq]; [left; split; congruence|]. subst y. right. split; auto.
        destruct (String.string_dec (sr_service x) (sr_service s)) as [Ex|Nx]; auto. right. intros Ev. apply Nq. rewrite Ks1. f_equal. apply (NoDup_map_inj _ _ _ _ (wf_key d W) Hy Si). congruence. }
      assert (Rsame : forall x, sr_service x = svc -> sr_service x <> sr_service s \/ sr_event x <> sr_event s -> recs (HRec (c_service (cfgs p)) e s r s' :: h) svc (sr_event x) = recs h svc (sr_event x)).
      { intros x Hx N. rewrite R. destruct (String.eqb_spec (c_service (cfgs p)) svc) as [Es|Es]; cbn; auto. destruct (Nat.eqb_spec (sr_event s) (sr_event x)); auto. exfalso. destruct N as [N|N]; congruence. }
      constructor; cbn [w_db w_hist].
      + intros x Hx Hv Hi. destruct (K x Hx) as [[-> Ev]|[Hy N]]; [|rewrite Rsame; auto]. assert (Hp : c_service (cfgs p) = svc) by congruence. assert (Hs : sr_service s = svc) by congruence. rewrite R, Hp, String.eqb_refl, Ks3, Nat.eqb_refl. cbn.
        destruct (C1 s Si Hs Ini) as [Q1 Q2]. rewrite <- Q1. unfold s', end_event in *. destruct r; cbn in Hi; try discriminate; unfold do_retry in *; destruct (Nat.le_gt_cases n (sr_retry s)) as [L|L].
        1,3: rewrite (proj2 (strat p Hp (sr_retry s) now) L) in Hi; discriminate.
        all: destruct (proj1 (strat p Hp (sr_retry s) now) L) as (t & Et); rewrite Et; cbn; lia.
      + intros x Hx Hv Hf. destruct (K x Hx) as [[-> Ev]|[Hy N]]; [|rewrite Rsame; auto]. assert (Hp : c_service (cfgs p) = svc) by congruence. assert (Hs : sr_service s = svc) by congruence. rewrite R, Hp, String.eqb_refl, Ks3, Nat.eqb_refl. cbn.
        destruct (C1 s Si Hs Ini) as [Q1 Q2]. rewrite <- Q1. unfold s', end_event in *. destruct r; cbn in Hf; try discriminate; unfold do_retry in *; destruct (Nat.le_gt_cases n (sr_retry s)) as [L|L]; try lia.
        all: destruct (proj1 (strat p Hp (sr_retry s) now) L) as (t & Et); rewrite Et in Hf; cbn in Hf; congruence.
      + intros id. rewrite R. destruct (String.eqb_spec (c_service (cfgs p)) svc) as [Hp|Es]; cbn; auto. destruct (Nat.eqb_spec (sr_event s) id); [|apply C3]. subst id. assert (Hs : sr_service s = svc) by congruence. destruct (C1 s Si Hs Ini) as [Q1 Q2]. lia.
    - injection Ex as <-. apply (invC_keep (mkW d now po lk js h)); auto.
    - destruct (existsb _ (b_sv d)); [discriminate|]. injection Ex as <-. apply (invC_keep (mkW d now po lk js h)); auto. intros s Hs. destruct (clean_spec (cfgs p) now d W) as (T1 & _). now apply (taken_out_In _ _ _ s T1).
    - destruct (existsb _ (b_sv d)); [discriminate|]. injection Ex as <-. destruct Al as [Al _]. constructor; cbn [w_db w_hist]; auto.
      + intros s Hs Hv Hi. cbn in Hs. apply in_map_iff in Hs. destruct Hs as (y & Ey & Hy). destruct (String.eqb (sr_service y) v && (sr_event y =? ev)); subst; [cbn in Hi; destruct Al; congruence|]. rewrite recs_cons. cbn [is_rec Nat.add]. auto.
      + intros s Hs Hv Hi. cbn in Hs. apply in_map_iff in Hs. destruct Hs as (y & Ey & Hy). destruct (String.eqb (sr_service y) v && (sr_event y =? ev)); subst; [cbn in Hi; destruct Al; congruence|]. rewrite recs_cons. cbn [is_rec Nat.add]. auto.
  Qed.
  Lemma invC_reach m w : m_split m = false -> m_cleanrace m = false -> m_overlap m = false -> reachable cfgs m w -> invC w.
  Proof.
    intros M1 M2 M3. unfold reachable. remember world0 as w0. induction 1 as [w|w1 w2 w3 S IH T]; [subst; apply invC0|]. pose proof (IH Heqw0) as C. subst w1.
    destruct (invB_reach cfgs m w2 M1 M2 M3 S) as [I B]. destruct T as (a & A & E). exact (invC_step m w2 a w3 M1 M2 M3 I B C A E).
  Qed.

  (** every call is recorded, or in progress *)
  Definition invD (w : world) : Prop :=
    forall id, (in_progress cfgs w svc id -> calls (w_hist w) svc id = S (recs (w_hist w) svc id)) /\ (~ in_progress cfgs w svc id -> calls (w_hist w) svc id = recs (w_hist w) svc id).
  Lemma invD_keep w w' : invD w -> (forall id, recs (w_hist w') svc id = recs (w_hist w) svc id /\ calls (w_hist w') svc id = calls (w_hist w) svc id) -> (forall id, in_progress cfgs w' svc id <-> in_progress cfgs w svc id) -> invD w'.
  Proof. intros D H1 H2 id. destruct (H1 id) as [R C]. rewrite R, C, H2. apply D. Qed.
  Definition running (ph : poll) : list (erow * srow) := match ph with PRun _ _ run => run | _ => [] end.
  Lemma progress_iff w id : in_progress cfgs w svc id <-> exists p e s, c_service (cfgs p) = svc /\ In (e, s) (running (w_poll w p)) /\ er_id e = id.
  Proof.
    split.
    - intros (p & st & todo & run & e & s & H1 & H2 & H3 & H4). exists p, e, s. rewrite H2. auto.
    - intros (p & e & s & H1 & H2 & H3). destruct (w_poll w p) as [| | | |st todo run] eqn:E; try destruct H2; exists p, st, todo, run, e, s; cbn; auto.
  Qed.
  Lemma progress_same w w' : (forall p, running (w_poll w' p) = running (w_poll w p)) -> forall id, in_progress cfgs w' svc id <-> in_progress cfgs w svc id.
  Proof. intros H id. rewrite !progress_iff. split; intros (p & e & s & H1 & H2 & H3); exists p, e, s; rewrite ?H in *; auto. Qed.
  Lemma running_upd po p ph : running ph = running (po p) -> forall q, running (upd po p ph q) = running (po q).
  Proof. intros H q. unfold upd. destruct (Nat.eqb_spec q p) as [->|]; auto. Qed.
  Lemma run_unique w p e s e' s' : inv cfgs w -> invB cfgs w -> In (e, s) (running (w_poll w p)) -> forall q, c_service (cfgs q) = c_service (cfgs p) -> In (e', s') (running (w_poll w q)) -> er_id e' = er_id e -> q = p /\ sr_id s' = sr_id s.
  Proof.
    intros I B H1 q E H2 Ei. assert (Q : q = p). { destruct (Nat.eq_dec q p) as [|N]; auto. exfalso. destruct (b_one _ _ B q p N E) as [X|X]; rewrite X in *; cbn in *; tauto. }
    split; auto. subst q. pose proof (i_poll _ _ I p) as Pp. pose proof (b_tab _ _ B p) as Tp. destruct (w_poll w p) as [| | | |st todo run] eqn:Ep; try destruct H1. cbn in *.
    destruct Pp as (_ & Pp & _). destruct (Pp e s) as ((A1 & _) & A2 & _); [apply in_app_iff; auto|]. destruct (Pp e' s') as ((B1 & _) & B2 & _); [apply in_app_iff; auto|].
    f_equal. apply (NoDup_map_inj _ _ _ _ (wf_key _ (i_wf _ _ I))); [apply Tp; apply (in_map snd _ (e', s')), in_app_iff; auto|apply Tp; apply (in_map snd _ (e, s)), in_app_iff; auto|congruence].
  Qed.
  Lemma invD_step m w a w' : m_split m = false -> m_cleanrace m = false -> m_overlap m = false -> m_loss m = false -> inv cfgs w -> invB cfgs w -> invD w -> allowed cfgs m w a -> exec cfgs a w = Some w' -> invD w'.
  Proof.
    intros M1 M2 M3 M4 I B D Al Ex. destruct w as [d now po lk js h]. pose proof (i_wf _ _ I) as W. cbn [w_db] in W.
    destruct a as [k|name|evs|j evs|j|j|p|p|p|p|p lock qok|p i r saved|p|p|v ev x]; cbn [exec] in Ex.
    - injection Ex as <-. apply (invD_keep (mkW d now po lk js h)); auto; now apply progress_same.
    - injection Ex as <-. apply (invD_keep (mkW d now po lk js h)); auto; now apply progress_same.
    - destruct evs as [|e0 evs]; [discriminate|]. destruct (dispatch_now (e0 :: evs) d) as [rows d'] eqn:E. injection Ex as <-. apply (invD_keep (mkW d now po lk js h)); auto; now apply progress_same.
    - cbn in Al. congruence.
    - pose proof (i_jobs _ _ I j) as Jb. cbn in Jb. rewrite Jb in Ex. discriminate.
    - pose proof (i_jobs _ _ I j) as Jb. cbn in Jb. rewrite Jb in Ex. discriminate.
    - destruct (po p) eqn:Ep; try discriminate. injection Ex as <-. apply (invD_keep (mkW d now po lk js h)); auto; apply progress_same; cbn; intros q. destruct (scan_start _ _ _); auto. apply running_upd. now rewrite Ep.
    - destruct (po p) eqn:Ep; try discriminate. injection Ex as <-. apply (invD_keep (mkW d now po lk js h)); auto; apply progress_same; cbn. apply running_upd. rewrite Ep. destruct (earliest _ _ _); auto.
    - destruct (po p) eqn:Ep; try discriminate. injection Ex as <-. apply (invD_keep (mkW d now po lk js h)); auto; apply progress_same; cbn. apply running_upd. now rewrite Ep.
    - destruct (po p) eqn:Ep; try discriminate. injection Ex as <-. apply (invD_keep (mkW d now po lk js h)); auto; apply progress_same; cbn. apply running_upd. now rewrite Ep.
    - destruct (po p) as [| | | |st todo run] eqn:Ep; try discriminate. destruct todo as [|[e s] todo].
      { destruct run; [|discriminate]. injection Ex as <-. apply (invD_keep (mkW d now po lk js h)); auto; apply progress_same; cbn. apply running_upd. now rewrite Ep. }
      destruct (begin_event _ _ _ _ _ _ _) eqn:Bg; injection Ex as <-.
      1,2: apply (invD_keep (mkW d now po lk js h)); auto; apply progress_same; cbn; apply running_upd; now rewrite Ep.
      intros id. cbn [w_hist]. rewrite calls_cons, recs_cons. cbn [is_rec is_call]. cbn [Nat.add]. rewrite !progress_iff. cbn [w_poll].
      assert (Np : ~ in_progress cfgs (mkW d now po lk js h) (c_service (cfgs p)) (er_id e)).
      { intros X. assert (X' : exists q e' s', c_service (cfgs q) = c_service (cfgs p) /\ In (e', s') (running (po q)) /\ er_id e' = er_id e).
        { destruct X as (q & st' & todo' & run' & e' & s' & H1 & H2 & H3 & H4). cbn in H2. exists q, e', s'. rewrite H2. auto. }
        destruct X' as (q & e' & s' & H1 & H2 & H3). assert (Q : q = p). { destruct (Nat.eq_dec q p) as [|N]; auto. exfalso. destruct (b_one _ _ B q p N H1) as [X'|X']; cbn in X'; rewrite X' in *; [cbn in H2; tauto|discriminate]. }
        subst q. rewrite Ep in H2. cbn in H2. pose proof (i_poll _ _ I p) as Pp. pose proof (b_tab _ _ B p) as Tp. pose proof (b_nodup _ _ B p) as Nd. cbn [w_poll w_db] in *. rewrite Ep in *. destruct Pp as (_ & Pp & _). cbn in Tp, Nd.
        destruct (Pp e s) as ((A1 & _) & A2 & _); [now left|]. destruct (Pp e' s') as ((B1 & _) & B2 & _); [right; apply in_app_iff; auto|]. inversion Nd as [|? ? U V]; subst. apply U. rewrite map_map.
        assert (s' = s) as -> by (apply (NoDup_map_inj _ _ _ _ (wf_key _ W)); [apply Tp; right; apply (in_map snd _ (e', s')), in_app_iff; auto|apply Tp; now left|congruence]).
        apply in_map_iff. exists (e', s). split; auto. apply in_app_iff. auto. }
      destruct (String.eqb_spec (c_service (cfgs p)) svc) as [Es|Es]; cbn [andb].
      + destruct (Nat.eqb_spec (er_id e) id) as [Ei|Ni].
        * subst id. rewrite Es in Np. destruct (D (er_id e)) as [_ D2]. cbn [w_hist] in D2. split; [intros _; rewrite (D2 Np); reflexivity|]. intros X. exfalso. apply X. exists p, e, s. split; auto. split; auto. unfold upd. rewrite Nat.eqb_refl. cbn. apply in_app_iff. right. now left.
        * destruct (D id) as [D1 D2]. cbn [w_hist] in *. rewrite progress_iff in D1, D2. cbn [w_poll] in D1, D2. cbn [Nat.add].
          assert (Q : (exists q e' s', c_service (cfgs q) = svc /\ In (e', s') (running (upd po p (PRun st todo (run ++ [(e, s)])) q)) /\ er_id e' = id) <-> (exists q e' s', c_service (cfgs q) = svc /\ In (e', s') (running (po q)) /\ er_id e' = id)).
          { split; intros (q & e' & s' & H1 & H2 & H3); exists q, e', s'; split; auto; split; auto; unfold upd in *; destruct (Nat.eqb_spec q p) as [->|]; auto.
            - rewrite Ep. cbn in *. apply in_app_iff in H2. destruct H2 as [H2|[H2|[]]]; auto. injection H2 as -> ->. congruence.
            - rewrite Ep in H2. cbn in *. apply in_app_iff. auto. }
          rewrite Q. split; auto.
      + destruct (D id) as [D1 D2]. cbn [w_hist] in *. rewrite progress_iff in D1, D2. cbn [w_poll] in D1, D2. cbn [Nat.add].
          assert (Q : (exists q e' s', c_service (cfgs q) = svc /\ In (e', s') (running (upd po p (PRun st todo (run ++ [(e, s)])) q)) /\ er_id e' = id) <-> (exists q e' s', c_service (cfgs q) = svc /\ In (e', s') (running (po q)) /\ er_id e' = id)).
          { split; intros (q & e' & s' & H1 & H2 & H3); exists q, e', s'; split; auto; split; auto; unfold upd in *; destruct (Nat.eqb_spec q p) as [->|]; auto; contradiction. }
          rewrite Q. split; auto.
    - destruct (po p) as [| | | |st todo run] eqn:Ep; try discriminate. destruct (nth_error run i) as [[e s]|] eqn:En; [|discriminate].
      destruct saved; [|exfalso; cbn in Al; destruct Al; congruence]. injection Ex as <-. assert (Hin : In (e, s) run) by (eapply nth_error_In; eauto).
      intros id. cbn [w_hist]. rewrite calls_cons, recs_cons. cbn [is_rec is_call]. cbn [Nat.add]. rewrite !progress_iff. cbn [w_poll]. destruct (D id) as [D1 D2]. cbn [w_hist] in *. rewrite progress_iff in D1, D2. cbn [w_poll] in D1, D2.
      destruct (String.eqb_spec (c_service (cfgs p)) svc) as [Es|Es]; cbn [andb].
      + destruct (Nat.eqb_spec (er_id e) id) as [Ei|Ni].
        * subst id. assert (Pr : exists p0 e0 s0, c_service (cfgs p0) = svc /\ In (e0, s0) (running (po p0)) /\ er_id e0 = er_id e) by (exists p, e, s; rewrite Ep; auto).
          assert (Nn : ~ exists p0 e0 s0, c_service (cfgs p0) = svc /\ In (e0, s0) (running (upd po p (PRun st todo (remove_nth i run)) p0)) /\ er_id e0 = er_id e).
          { intros (q & e' & s' & H1 & H2 & H3). assert (Hq : In (e', s') (running (po q))). { unfold upd in H2. destruct (Nat.eqb_spec q p) as [->|]; auto. rewrite Ep. cbn in *. eapply remove_nth_In; eauto. }
            assert (Hp : In (e, s) (running (w_poll (mkW d now po lk js h) p))) by (cbn; rewrite Ep; auto).
            destruct (run_unique (mkW d now po lk js h) p e s e' s' I B Hp q (eq_trans H1 (eq_sym Es)) Hq H3) as [-> Hs]. unfold upd in H2. rewrite Nat.eqb_refl in H2. cbn in H2.
            pose proof (b_nodup _ _ B p) as Nd. cbn [w_poll] in Nd. rewrite Ep in Nd. cbn in Nd. rewrite map_map, map_app in Nd. apply NoDup_tail in Nd. exact (nth_remove_NoDup (fun x => sr_id (snd x)) run i (e, s) (e', s') Nd En H2 Hs). }
          split; [intros X; contradiction|]. intros _. rewrite (D1 Pr). reflexivity.
        * assert (Q : (exists q e' s', c_service (cfgs q) = svc /\ In (e', s') (running (upd po p (PRun st todo (remove_nth i run)) q)) /\ er_id e' = id) <-> (exists q e' s', c_service (cfgs q) = svc /\ In (e', s') (running (po q)) /\ er_id e' = id)).
          { split; intros (q & e' & s' & H1 & H2 & H3); exists q, e', s'; split; auto; split; auto; unfold upd in *; destruct (Nat.eqb_spec q p) as [->|]; auto.
            - rewrite Ep. cbn in *. eapply remove_nth_In; eauto.
            - rewrite Ep in H2. cbn in *. clear -En H2 H3 Ni. revert i En. induction run as [|a t IH]; intros [|i] En; cbn in *; try discriminate; destruct H2 as [->|H2]; auto. injection En as -> ->. congruence. }
          rewrite Q. split; auto.
      + assert (Q : (exists q e' s', c_service (cfgs q) = svc /\ In (e', s') (running (upd po p (PRun st todo (remove_nth i run)) q)) /\ er_id e' = id) <-> (exists q e' s', c_service (cfgs q) = svc /\ In (e', s') (running (po q)) /\ er_id e' = id)).
          { split; intros (q & e' & s' & H1 & H2 & H3); exists q, e', s'; split; auto; split; auto; unfold upd in *; destruct (Nat.eqb_spec q p) as [->|]; auto; contradiction. }
          rewrite Q. split; auto.
    - cbn in Al. congruence.
    - destruct (existsb _ (b_sv d)); [discriminate|]. injection Ex as <-. apply (invD_keep (mkW d now po lk js h)); auto; now apply progress_same.
    - destruct (existsb _ (b_sv d)); [discriminate|]. injection Ex as <-. apply (invD_keep (mkW d now po lk js h)); auto; now apply progress_same.
  Qed.
  Lemma invD_reach m w : m_split m = false -> m_cleanrace m = false -> m_overlap m = false -> m_loss m = false -> reachable cfgs m w -> invD w.
  Proof.
    intros M1 M2 M3 M4. unfold reachable. remember world0 as w0. induction 1 as [w|w1 w2 w3 S IH T].
    - subst. intros id. rewrite progress_iff. cbn. split; auto. intros (p & e & s & _ & [] & _).
    - pose proof (IH Heqw0) as C. subst w1. destruct (invB_reach cfgs m w2 M1 M2 M3 S) as [I B]. destruct T as (a & A & E). exact (invD_step m w2 a w3 M1 M2 M3 M4 I B C A E).
  Qed.
End Count.

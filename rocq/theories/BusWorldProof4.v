(** Polls of a service that do not overlap. *)
From Verif Require Import BusModel BusSpec BusProof BusWorld BusWorldSpec BusWorldProof BusWorldProof2.

Definition tuples (ph : poll) : list srow :=
  match ph with PDue _ svs => svs | PRun _ todo run => map snd (todo ++ run) | _ => [] end.

Section Single.
  Variable cfgs : nat -> buscfg.
  Record invB (w : world) : Prop := {
    b_tab : forall p s, In s (tuples (w_poll w p)) -> In s (b_sv (w_db w));
    b_nodup : forall p, NoDup (map sr_id (tuples (w_poll w p)));
    b_one : forall p q, p <> q -> c_service (cfgs p) = c_service (cfgs q) -> w_poll w p = PIdle \/ w_poll w q = PIdle;
    b_proc : forall v r s, processed (w_hist w) v r -> In s (b_sv (w_db w)) -> sr_service s = v -> sr_event s = er_id r -> sr_status s = SSuccess \/ exists x, set_by_hand (w_hist w) v r x /\ sr_status s = x }.
  Lemma invB0 : invB world0.
  Proof. constructor; cbn; try (intros; contradiction); auto. intros. constructor. Qed.

  Lemma tuple_mine w p s : inv cfgs w -> In s (tuples (w_poll w p)) -> sr_service s = c_service (cfgs p) /\ sr_status s = SInit.
  Proof.
    intros I. pose proof (i_poll _ _ I p) as P. destruct (w_poll w p); cbn; try tauto.
    - intros H. destruct P as (_ & _ & P). destruct (P s H) as ((A & B & _) & _). auto.
    - intros H. destruct P as (_ & P & _). apply in_map_iff in H. destruct H as ((e & s') & E & H). cbn in E. subst s'. destruct (P e s H) as ((A & B & _) & _). auto.
  Qed.
  Lemma save_same_row s d : NoDup (map sr_id (b_sv d)) -> In s (b_sv d) -> save_row s d = d.
  Proof.
    intros N H. unfold save_row. destruct d as [ev sv svc tx ne ns nt]; cbn in *. f_equal. clear -N H.
    transitivity (map (fun x => x) sv); [|apply map_id]. apply map_ext_in. intros x Hx. destruct (Nat.eqb_spec (sr_id x) (sr_id s)); auto. symmetry. eapply NoDup_map_inj; eauto.
  Qed.
  Lemma save_other s s' d : In s (b_sv d) -> sr_id s <> sr_id s' -> In s (b_sv (save_row s' d)).
  Proof. intros H N. cbn. apply in_map_iff. exists s. destruct (Nat.eqb_spec (sr_id s) (sr_id s')); [contradiction|auto]. Qed.

  (** only the poll of one poller changes, to one with fewer records or freshly read ones *)
  Lemma invB_poll w p ph now' lk' : invB w -> (forall s, In s (tuples ph) -> In s (b_sv (w_db w))) -> NoDup (map sr_id (tuples ph)) ->
    (ph = PIdle \/ forall q, q <> p -> c_service (cfgs q) = c_service (cfgs p) -> w_poll w q = PIdle) ->
    invB (mkW (w_db w) now' (upd (w_poll w) p ph) lk' (w_jobs w) (w_hist w)).
  Proof.
    intros [T N O P] H1 H2 H3. constructor; cbn; auto.
    - intros q s. unfold upd. destruct (Nat.eqb_spec q p) as [->|E]; auto. apply T.
    - intros q. unfold upd. destruct (Nat.eqb_spec q p) as [->|E]; auto.
    - intros q q' Hq E. unfold upd. destruct (Nat.eqb_spec q p) as [->|E1], (Nat.eqb_spec q' p) as [->|E2]; auto; [contradiction|..].
      + destruct H3 as [->|H3]; auto.
      + destruct H3 as [->|H3]; auto.
  Qed.
  Lemma one_other w p ph : invB w -> w_poll w p = ph -> ph <> PIdle -> forall q, q <> p -> c_service (cfgs q) = c_service (cfgs p) -> w_poll w q = PIdle.
  Proof. intros B E N q Hq Es. destruct (b_one w B q p Hq Es) as [H|H]; auto. congruence. Qed.
  Lemma invB_nop w w' : invB w -> w_db w' = w_db w -> w_poll w' = w_poll w -> w_hist w' = w_hist w -> invB w'.
  Proof. intros [T N O P] E1 E2 E3. constructor; rewrite ?E1, ?E2, ?E3; auto. Qed.
  Lemma NoDup_remove_nth {A B} (f : A -> B) l1 : forall l2 i, NoDup (map f (l1 ++ l2)) -> NoDup (map f (l1 ++ remove_nth i l2)).
  Proof.
    intros l2 i H. revert i. induction l1 as [|a t IH]; cbn in *.
    - induction l2 as [|b u IH]; intros [|i]; cbn in *; auto; [now inversion H|]. inversion H as [|? ? X Y]; subst. constructor; auto. intros Z. apply X. apply in_map_iff in Z. destruct Z as (z & Ez & Hz). rewrite <- Ez. apply in_map. eapply remove_nth_In; eauto.
    - intros i. inversion H as [|? ? X Y]; subst. constructor; auto. intros Z. apply X. rewrite map_app, in_app_iff in *. destruct Z as [Z|Z]; auto. right. apply in_map_iff in Z. destruct Z as (z & Ez & Hz). rewrite <- Ez. apply in_map. eapply remove_nth_In; eauto.
  Qed.
  Lemma nth_remove_NoDup {A B} (f : A -> B) : forall l i x y, NoDup (map f l) -> nth_error l i = Some x -> In y (remove_nth i l) -> f y <> f x.
  Proof.
    induction l as [|a t IH]; intros [|i] x y N E H; cbn in *; try discriminate; inversion N as [|? ? X Y]; subst.
    - injection E as <-. intros Z. apply X. rewrite <- Z. now apply in_map.
    - destruct H as [->|H]; [|eauto]. intros Z. apply X. rewrite Z. apply in_map. eapply nth_error_In; eauto.
  Qed.

  Lemma invB_step m w a w' : m_split m = false -> m_cleanrace m = false -> m_overlap m = false -> inv cfgs w -> inv cfgs w' -> invB w -> allowed cfgs m w a -> exec cfgs a w = Some w' -> invB w'.
  Proof.
    intros M1 M2 M3 I I' B Al Ex. pose proof B as BB. destruct BB as [T N O P]. destruct w as [d now po lk js h].
    pose proof (i_wf _ _ I) as W. cbn [w_db w_now w_poll w_locks w_jobs w_hist] in *.
    destruct a as [n|name|evs|j evs|j|j|p|p|p|p|p lock qok|p i r saved|p|p|svc ev x]; cbn [exec] in Ex.
    - injection Ex as <-. eapply invB_nop; eauto.
    - injection Ex as <-. assert (E : b_sv (init_service name d) = b_sv d) by (unfold init_service; destruct (existsb _ _); auto). constructor; cbn; rewrite ?E; auto.
    - destruct evs as [|e0 evs]; [discriminate|]. destruct (dispatch_now (e0 :: evs) d) as [rows d'] eqn:E. injection Ex as <-. destruct (dispatch_now_spec _ _ _ _ E) as [D _].
      destruct D as (rows' & dels & E1 & E2 & E3 & E4 & E5 & E6 & E7 & E8 & _). constructor; cbn; auto.
      + intros p s H. rewrite E5. apply in_app_iff. left. eapply T; eauto.
      + intros v r s (s1 & s1' & [X|X]) Hs Hv He; [discriminate|]. rewrite E5 in Hs. apply in_app_iff in Hs. destruct Hs as [Hs|Hs].
        * destruct (P v r s (ex_intro _ s1 (ex_intro _ s1' X)) Hs Hv He) as [Z|(y & Z1 & Z2)]; [left; exact Z|right; exists y; split; [now right|exact Z2]].
        * exfalso. pose proof (in_map (fun s => (sr_service s, sr_event s)) _ _ Hs) as Y. cbn in Y. rewrite E6 in Y. apply in_prod_iff in Y. destruct Y as [_ Y]. rewrite E3, in_seq in Y.
          assert (er_id r < b_ne d); [|lia]. apply (i_lt _ _ I). destruct (all_suffix_in _ _ _ (i_good _ _ I) X) as (l1 & l2 & El & ((t0 & Z) & _) & G2). cbn [w_hist] in *. destruct (all_suffix_in _ _ _ G2 Z) as (l3 & l4 & El2 & (D & _) & _).
          rewrite El. apply (disp_app l1). apply disp_cons. rewrite El2. apply (disp_app l3). now apply disp_cons.
    - cbn in Al. congruence.
    - pose proof (i_jobs _ _ I j) as Jb. cbn in Jb. rewrite Jb in Ex. discriminate.
    - pose proof (i_jobs _ _ I j) as Jb. cbn in Jb. rewrite Jb in Ex. discriminate.
    - (* APStart *)
      destruct (po p) eqn:Ep; try discriminate. injection Ex as <-. destruct (scan_start (cfgs p) now d); [|eapply invB_nop; eauto].
      apply (invB_poll (mkW d now po lk js h) p (PStart n) now lk B); cbn; try tauto; [constructor|]. right. destruct Al as [Al|Al]; [congruence|]. exact Al.
    - destruct (po p) eqn:Ep; try discriminate. injection Ex as <-.
      apply (invB_poll (mkW d now po lk js h) p (match earliest (cfgs p) start d with Some s => POff start (offset start s) | None => PIdle end) now lk B); cbn.
      + destruct (earliest (cfgs p) start d); cbn; tauto.
      + destruct (earliest (cfgs p) start d); constructor.
      + right. apply (one_other (mkW d now po lk js h) p (PStart start) B Ep). discriminate.
    - destruct (po p) eqn:Ep; try discriminate. injection Ex as <-.
      apply (invB_poll (mkW d now po lk js h) p (PDue start (due (cfgs p) now off d)) now lk B); cbn.
      + intros s Hs. unfold due in Hs. apply firstn_In, order_In, filter_In in Hs. apply Hs.
      + unfold due. assert (X : forall n l, NoDup (map sr_id l) -> NoDup (map sr_id (firstn n l))).
        { clear. induction n as [|n IH]; intros [|a l] H; cbn; try constructor; inversion H as [|? ? X Y]; subst; auto. intros Z. apply X. apply in_map_iff in Z. destruct Z as (z & Ez & Hz). rewrite <- Ez. apply in_map. eapply firstn_In; eauto. }
        apply X. eapply NoDup_map_perm; [symmetry; apply isort_perm|]. apply NoDup_map_filter. apply W.
      + right. apply (one_other (mkW d now po lk js h) p (POff start off) B Ep). discriminate.
    - destruct (po p) eqn:Ep; try discriminate. injection Ex as <-. pose proof (i_poll _ _ I p) as Pp. cbn [w_poll] in Pp. rewrite Ep in Pp. destruct Pp as (P1 & P2 & P3).
      assert (Pm : map er_id (order_by er_id (filter (fun r => memb (er_id r) (map sr_event svs)) (b_ev d))) = map sr_event svs) by (apply pair_match; auto; intros s Hs; apply P3; auto).
      destruct (pair_up_snd _ _ Pm) as (P4 & _). pose proof (T p) as Tp. pose proof (N p) as Np. rewrite Ep in Tp, Np. cbn in Tp, Np.
      apply (invB_poll (mkW d now po lk js h) p (PRun start (pair_up (order_by er_id (filter (fun r => memb (er_id r) (map sr_event svs)) (b_ev d))) svs) []) now lk B); cbn; rewrite ?app_nil_r, ?P4; auto.
      right. apply (one_other (mkW d now po lk js h) p _ B Ep). discriminate.
    - (* ABegin *)
      destruct (po p) as [| | | |st todo run] eqn:Ep; try discriminate. pose proof (T p) as Tp. pose proof (N p) as Np. rewrite Ep in Tp, Np. cbn [tuples] in Tp, Np. destruct todo as [|[e s] todo].
      { destruct run; [|discriminate]. injection Ex as <-. apply (invB_poll (mkW d now po lk js h) p PIdle now lk B); cbn; try tauto; constructor; auto. }
      assert (Oo : forall q, q <> p -> c_service (cfgs q) = c_service (cfgs p) -> po q = PIdle) by (apply (one_other (mkW d now po lk js h) p _ B Ep); discriminate).
      assert (K1 : forall x, In x (map snd (todo ++ run)) -> In x (b_sv d)) by (intros x Hx; apply Tp; now right).
      assert (K2 : NoDup (map sr_id (map snd (todo ++ run)))) by (now inversion Np).
      assert (Si : In s (b_sv d)) by (apply Tp; now left).
      destruct (begin_event _ _ _ _ _ _ _) eqn:Bg; injection Ex as <-.
      + apply (invB_poll (mkW d now po lk js h) p (PRun st todo run) now lk B); auto.
      + rewrite (save_same_row s d (wf_sv d W) Si). apply (invB_poll (mkW d now po lk js h) p (PRun st todo run) now lk B); auto.
      + assert (X : invB (mkW d now (upd po p (PRun st todo (run ++ [(e, s)]))) (sr_id s :: lk) js h)).
        { apply (invB_poll (mkW d now po lk js h) p (PRun st todo (run ++ [(e, s)])) now (sr_id s :: lk) B); auto; cbn [tuples w_db].
          - intros x Hx. rewrite app_assoc, map_app in Hx. apply in_app_iff in Hx. destruct Hx as [Hx|[<-|[]]]; auto.
          - eapply Permutation_NoDup; [|exact Np]. apply Permutation_map. rewrite app_assoc, (map_app _ (todo ++ run)). apply (Permutation_cons_append (map snd (todo ++ run)) s). }
        destruct X as [X1 X2 X3 X4]. constructor; auto; cbn [w_hist w_db] in *. intros v r s0 (s1 & s1' & [Y|Y]) H1 H2 H3; [discriminate|]. destruct (X4 v r s0 (ex_intro _ s1 (ex_intro _ s1' Y)) H1 H2 H3) as [Z|(y & Z1 & Z2)]; [left; exact Z|right; exists y; split; [now right|exact Z2]].
    - (* AEnd *)
      destruct (po p) as [| | | |st todo run] eqn:Ep; try discriminate. destruct (nth_error run i) as [[e s]|] eqn:En; [|discriminate].
      pose proof (T p) as Tp. pose proof (N p) as Np. rewrite Ep in Tp, Np. cbn [tuples] in Tp, Np.
      assert (Oo : forall q, q <> p -> c_service (cfgs q) = c_service (cfgs p) -> po q = PIdle) by (apply (one_other (mkW d now po lk js h) p _ B Ep); discriminate).
      assert (K1 : forall x, In x (map snd (todo ++ remove_nth i run)) -> In x (b_sv d)).
      { intros x Hx. apply Tp. rewrite map_app, in_app_iff in *. destruct Hx as [Hx|Hx]; auto. right. apply in_map_iff in Hx. destruct Hx as (y & Ey & Hy). rewrite <- Ey. apply in_map. eapply remove_nth_In; eauto. }
      assert (K2 : NoDup (map sr_id (map snd (todo ++ remove_nth i run)))) by (rewrite map_map in *; now apply NoDup_remove_nth).
      destruct saved; injection Ex as <-; [|apply (invB_poll (mkW d now po lk js h) p (PRun st todo (remove_nth i run)) now (filter (fun x => negb (x =? sr_id s)) lk) B); auto].
      set (s' := end_event (cfgs p) now r s). destruct (end_event_id (cfgs p) now r s) as (Ks1 & Ks2 & Ks3 & _). fold s' in Ks1, Ks2, Ks3.
      assert (Hin : In (e, s) run) by (eapply nth_error_In; eauto).
      assert (Si : In s (b_sv d)) by (apply Tp; apply (in_map snd _ (e, s)); apply in_app_iff; auto).
      assert (St : In s (tuples (po p))) by (rewrite Ep; cbn; apply (in_map snd _ (e, s)); apply in_app_iff; auto).
      destruct (tuple_mine (mkW d now po lk js h) p s I St) as [Ms Ini].
      assert (Keep : forall q x, In x (tuples (upd po p (PRun st todo (remove_nth i run)) q)) -> In x (b_sv d) /\ sr_id x <> sr_id s).
      { intros q x. unfold upd. destruct (Nat.eqb_spec q p) as [->|Nq].
        - intros Hx. split; [apply K1; exact Hx|]. cbn [tuples] in Hx. rewrite map_app, in_app_iff in Hx. rewrite map_map in Np. intros E. destruct Hx as [Hx|Hx].
          + apply in_map_iff in Hx. destruct Hx as ((e1 & x1) & E1 & Hx). cbn in E1. subst x1. clear -Np Hin Hx E. induction todo as [|a t IH]; cbn in *; [tauto|]. inversion Np as [|? ? X Y]; subst. destruct Hx as [->|Hx]; auto.
            apply X. cbn. rewrite E. apply (in_map (fun x => sr_id (snd x)) _ (e, s)). apply in_app_iff. auto.
          + apply in_map_iff in Hx. destruct Hx as ((e1 & x1) & E1 & Hx). cbn in E1. subst x1. rewrite map_app in Np. apply NoDup_tail in Np. apply (nth_remove_NoDup (fun x => sr_id (snd x)) run i (e, s) (e1, x) Np En Hx). exact E.
        - intros Hx. pose proof (T q x Hx) as Hd. split; auto. destruct (tuple_mine (mkW d now po lk js h) q x I Hx) as [Mq _]. intros E. assert (x = s) as -> by (eapply NoDup_map_inj; [apply (wf_sv d W)|..]; auto).
          assert (X : po q = PIdle) by (apply Oo; auto; congruence). rewrite X in Hx. destruct Hx. }
      constructor; cbn [w_db w_poll w_hist].
      + intros q x Hx. destruct (Keep q x Hx). apply save_other; auto. congruence.
      + intros q. unfold upd. destruct (Nat.eqb_spec q p) as [->|Nq]; auto.
      + intros q q' Hq E. unfold upd. destruct (Nat.eqb_spec q p) as [->|E1], (Nat.eqb_spec q' p) as [->|E2]; auto; contradiction.
      + intros v r0 x Pr Hx Hv He. cbn in Hx. apply in_map_iff in Hx. destruct Hx as (y & Ey & Hy). destruct (Nat.eqb_spec (sr_id y) (sr_id s')) as [Eq|Nq].
        * subst x. rewrite Ks1 in Eq. assert (y = s) as -> by (eapply NoDup_map_inj; [apply (wf_sv d W)|..]; auto). destruct Pr as (s1 & s1' & [Y|Y]).
          -- injection Y as Y1 Y2 Y3 Y4 Y5. left. unfold s'. rewrite Y4. reflexivity.
          -- exfalso. assert (Hv' : sr_service s = v) by congruence. assert (He' : sr_event s = er_id r0) by congruence. destruct (P v r0 s (ex_intro _ s1 (ex_intro _ s1' Y)) Si Hv' He') as [Z|(z & Z1 & Z2)]; [congruence|].
             destruct (all_suffix_in _ _ _ (i_good _ _ I) Z1) as (l1 & l2 & El & G & _). cbn in G. rewrite Ini in Z2. subst z. destruct G; discriminate.
        * subst y. destruct Pr as (s1 & s1' & [Y|Y]).
          -- exfalso. apply Nq. rewrite Ks1. f_equal. injection Y as Y1 Y2 Y3 Y4 Y5. subst r0 s1. apply (NoDup_map_inj _ _ _ _ (wf_key d W) Hy Si). f_equal; [congruence|]. rewrite He.
             pose proof (i_poll _ _ I p) as Pp. cbn [w_poll] in Pp. rewrite Ep in Pp. destruct Pp as (_ & Pp & _). destruct (Pp e s) as (_ & X & _); auto. apply in_app_iff; auto.
          -- destruct (P v r0 x (ex_intro _ s1 (ex_intro _ s1' Y)) Hy Hv He) as [Z|(z & Z1 & Z2)]; [left; exact Z|right; exists z; split; [now right|exact Z2]].
    - injection Ex as <-. apply (invB_poll (mkW d now po lk js h) p PIdle now _ B); cbn; try tauto; constructor; auto.
    - (* AClean *)
      destruct (existsb _ (b_sv d)); [discriminate|]. injection Ex as <-. destruct (clean_spec (cfgs p) now d W) as (C1 & _). constructor; cbn; auto.
      + intros q s Hs. apply (taken_out_In _ _ _ s C1); [eapply T; eauto|]. intros (_ & F & _). destruct (tuple_mine (mkW d now po lk js h) q s I Hs). congruence.
      + intros v r s Pr Hs. apply P; auto. now apply (taken_out_In _ _ _ s C1).
    - (* AOper *)
      destruct (existsb _ (b_sv d)); [discriminate|]. injection Ex as <-. destruct Al as [Al Ai]. destruct Ai as [Ai|Ai]; [congruence|]. constructor; cbn; auto.
      + intros q s Hs. apply in_map_iff. exists s. split; [|eapply T; eauto]. destruct (tuple_mine (mkW d now po lk js h) q s I Hs) as [Mq _]. destruct (String.eqb_spec (sr_service s) svc) as [E|E]; auto. exfalso.
        assert (Z : po q = PIdle) by (apply (Ai q); congruence). rewrite Z in Hs. destruct Hs.
      + intros v r s (s1 & s1' & [Y|Y]) Hs Hv He; [discriminate|]. apply in_map_iff in Hs. destruct Hs as (y & Ey & Hy).
        destruct (String.eqb (sr_service y) svc && (sr_event y =? ev)) eqn:E.
        * subst s. apply andb_true_iff in E. destruct E as [E1 E2]. apply String.eqb_eq in E1. apply Nat.eqb_eq in E2. right. exists x. cbn in Hv, He |- *. split; auto. left. congruence.
        * subst y. destruct (P v r s (ex_intro _ s1 (ex_intro _ s1' Y)) Hy Hv He) as [Z|(z & Z1 & Z2)]; [left; exact Z|right; exists z; split; [now right|exact Z2]].
  Qed.
  Lemma invB_reach m w : m_split m = false -> m_cleanrace m = false -> m_overlap m = false -> reachable cfgs m w -> inv cfgs w /\ invB w.
  Proof.
    intros M1 M2 M3. unfold reachable. remember world0 as w0. induction 1 as [w|w1 w2 w3 S IH T]; [subst; split; [apply inv0|apply invB0]|]. specialize (IH Heqw0). destruct IH as [I B]. destruct T as (a & A & E).
    assert (I3 : inv cfgs w3) by (apply (inv_step cfgs m M1 M2 w2 a w3 I A E)). split; [exact I3|]. exact (invB_step m w2 a w3 M1 M2 M3 I I3 B A E).
  Qed.
End Single.

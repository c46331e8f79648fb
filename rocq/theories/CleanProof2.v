(** Proofs about concurrent cleaning: records keep their events, no event is left behind, a stopped cleaner leaves one behind. *)
From Verif Require Import CleanModel CleanSpec BusSpec BusProof CleanProof.


(** ** With publications inside transactions the database stays consistent *)
Record inv2 (st : kst) : Prop := {
  j_wf : wf (k_db st);
  j_ds : k_ds st = [];
  j_lt : forall c i, In c (k_cs st) -> In i (cl_todo c ++ cl_hand c) -> i < b_ne (k_db st);
  j_del : forall g gone todo i s, In (CDel g gone todo) (k_cs st) -> In i gone -> In s (b_sv (k_db st)) -> sr_event s <> i }.

Lemma filter_sv_wf d f : wf d -> wf (mkDB (b_ev d) (filter f (b_sv d)) (b_svc d) (b_tx d) (b_ne d) (b_ns d) (b_nt d)).
Proof.
  intros W. constructor; cbn; try apply W; auto.
  - apply NoDup_map_filter. apply W.
  - intros s Hs. apply filter_In in Hs. now apply (wf_svn d W).
  - apply NoDup_map_filter. apply W.
  - intros s Hs. apply filter_In in Hs. now apply (wf_ref d W).
Qed.
Lemma del_events_wf d gone : wf d -> (forall s, In s (b_sv d) -> ~ In (sr_event s) gone) -> wf (del_events gone d).
Proof.
  intros W H. constructor; cbn; try apply W; auto.
  - apply NoDup_map_filter. apply W.
  - intros s Hs. apply filter_In in Hs. now apply (wf_evn d W).
  - intros s Hs. destruct (wf_ref d W s Hs) as (r & Hr & Er). exists r. split; auto. apply filter_In. split; auto. apply Bool.negb_true_iff. apply memb_nIn. rewrite Er. auto.
Qed.
Lemma save_status_wf p id retry s next d : wf d -> wf (save_status p id retry s next d).
Proof.
  intros W. destruct (save_keys p id retry s next d) as [K1 K2]. constructor; try apply W.
  - rewrite K2. apply W.
  - intros x Hx. apply (in_map sr_id) in Hx. rewrite K2 in Hx. apply in_map_iff in Hx. destruct Hx as (y & <- & Hy). now apply (wf_svn d W).
  - fold key. change (NoDup (map key (b_sv (save_status p id retry s next d)))). rewrite K1. apply W.
  - intros x Hx. apply save_in in Hx. destruct Hx as (y & Hy & Ky & _). injection Ky as _ Ky. rewrite Ky. now apply (wf_ref d W).
Qed.
Lemma ref_lt d s : wf d -> In s (b_sv d) -> sr_event s < b_ne d.
Proof. intros W Hs. destruct (wf_ref d W s Hs) as (r & Hr & Er). pose proof (wf_evn d W r Hr). lia. Qed.
Lemma scan_in g now d i : In i (scan_finished g now d) -> exists s, In s (b_sv d) /\ sr_event s = i /\ finished g now s.
Proof.
  unfold scan_finished. intros H. apply in_map_iff in H. destruct H as (s & <- & Hs). apply filter_In in Hs. destruct Hs as [Hs Z].
  apply andb_prop in Z. destruct Z as [Z Z3]. apply andb_prop in Z. destruct Z as [Z1 Z2]. apply String.eqb_eq in Z1. apply Nat.ltb_lt in Z3. exists s. repeat split; auto. destruct (sr_status s); auto; discriminate Z2.
Qed.
Lemma unref_in ids d i : In i (unreferenced ids d) <-> In i ids /\ forall s, In s (b_sv d) -> sr_event s <> i.
Proof.
  unfold unreferenced. rewrite filter_In. rewrite Bool.negb_true_iff. split; intros [H1 H2]; split; auto.
  - intros s Hs E. assert (X : existsb (fun s => sr_event s =? i) (b_sv d) = true) by (apply existsb_exists; exists s; split; auto; now apply Nat.eqb_eq). congruence.
  - destruct (existsb (fun s => sr_event s =? i) (b_sv d)) eqn:E; auto. apply existsb_exists in E. destruct E as (s & Hs & Es). apply Nat.eqb_eq in Es. exfalso. eapply H2; eauto.
Qed.
Lemma clean_step_hand c d c' d' : clean_step c d = (c', d') -> forall i, In i (cl_todo c' ++ cl_hand c') -> In i (cl_todo c ++ cl_hand c).
Proof.
  intros H i Hi. destruct c as [g [|i0 t]|g ids t|g gone t|]; cbn [clean_step] in H.
  - injection H as <- <-. exact Hi.
  - injection H as <- <-. cbn [cl_todo cl_hand] in *. rewrite app_nil_r. change (In i (skipn 10 (i0 :: t) ++ firstn 10 (i0 :: t))) in Hi. rewrite <- (firstn_skipn 10 (i0 :: t)). rewrite in_app_iff in *. tauto.
  - destruct (unreferenced ids d) as [|x l] eqn:E; injection H as <- <-; cbn [cl_todo cl_hand] in *; [rewrite app_nil_r in Hi; apply in_app_iff; auto|].
    rewrite <- E in Hi. rewrite in_app_iff in *. destruct Hi as [Hi|Hi]; auto. apply unref_in in Hi. tauto.
  - injection H as <- <-. cbn [cl_todo cl_hand] in *. rewrite app_nil_r in Hi. apply in_app_iff. auto.
  - injection H as <- <-. exact Hi.
Qed.

Lemma inv2_step a st : no_split a -> inv2 st -> inv2 (kexec a st).
Proof.
  intros NS [W D L X]. destruct st as [d now ds cs]. cbn [k_db k_now k_ds k_cs] in *. subst ds.
  destruct a as [name|t|trans evs outs|trans evs|i|i|id retry s next|id retry s next|g|j|j]; cbn [kexec].
  - constructor; cbn [k_db k_now k_ds k_cs]; auto; [now apply init_service_wf|unfold init_service; destruct (existsb _ _); auto..].
  - constructor; auto.
  - destruct (trans_dispatch trans evs outs d) as [->|Y]; [constructor; auto|]. pose proof (dispatched_wf _ _ _ _ _ W Y (wf_svc d W)) as W'.
    destruct Y as (rows & dels & E1 & E2 & E3 & E4 & E5 & E6 & E7 & E8 & E9 & E10 & E11 & _). constructor; cbn [k_db k_now k_ds k_cs]; auto.
    + intros c i Hc Hi. rewrite E11. specialize (L c i Hc Hi). lia.
    + intros g gone todo i s Hc Hi Hs. rewrite E5 in Hs. apply in_app_iff in Hs. destruct Hs as [Hs|Hs]; [eapply X; eauto|].
      assert (i < b_ne d) by (apply (L _ i Hc); cbn; apply in_app_iff; auto). destruct (E8 s Hs) as (_ & _ & r & Hr & Er & _). apply (in_map er_id) in Hr. rewrite E3, in_seq, Er in Hr. lia.
  - contradiction NS.
  - destruct i; constructor; auto.
  - destruct i; constructor; auto.
  - constructor; cbn [k_db k_now k_ds k_cs]; auto; [now apply save_status_wf|]. intros g gone todo i x Hc Hi Hx. apply save_in in Hx. destruct Hx as (y & Hy & Ky & _). injection Ky as _ Ky. rewrite Ky. eapply X; eauto.
  - constructor; cbn [k_db k_now k_ds k_cs]; auto; [now apply save_status_wf|]. intros g gone todo i x Hc Hi Hx. apply save_in in Hx. destruct Hx as (y & Hy & Ky & _). injection Ky as _ Ky. rewrite Ky. eapply X; eauto.
  - constructor; cbn [k_db k_now k_ds k_cs]; auto.
    + intros c i Hc Hi. apply in_app_iff in Hc. destruct Hc as [Hc|[<-|[]]]; eauto. cbn [cl_todo cl_hand] in Hi. rewrite app_nil_r in Hi. apply scan_in in Hi. destruct Hi as (s & Hs & <- & _). now apply ref_lt.
    + intros g' gone todo i s Hc Hi Hs. apply in_app_iff in Hc. destruct Hc as [Hc|[Hc|[]]]; [eapply X; eauto|discriminate Hc].
  - destruct (nth_error cs j) as [c|] eqn:Ec; [|constructor; auto]. destruct (clean_step c d) as [c' d'] eqn:Es. pose proof (nth_error_In _ _ Ec) as Ic.
    destruct (clean_step_cl c d c' d' Es) as (C1 & C2 & N1 & N2 & N3 & f & C4).
    assert (Sub : forall s, In s (b_sv d') -> In s (b_sv d)) by (intros s; rewrite C4, filter_In; tauto).
    constructor; cbn [k_db k_now k_ds k_cs]; auto.
    + destruct c as [g [|i0 t]|g ids t|g gone t|]; cbn [clean_step] in Es; injection Es as <- <-; auto.
      * now apply filter_sv_wf.
      * apply del_events_wf; auto. intros s Hs Hi. eapply X; eauto.
    + intros q i Hq Hi. rewrite N1. apply in_set in Hq. destruct Hq as [->|Hq]; [|eauto]. apply (L c i Ic). eapply clean_step_hand; eauto.
    + intros g gone todo i s Hq Hi Hs. apply in_set in Hq. destruct Hq as [Hq|Hq]; [|eapply X; eauto]. subst c'.
      destruct c as [g0 [|i0 t]|g0 ids t|g0 gone0 t|]; cbn [clean_step] in Es; try discriminate Es.
      destruct (unreferenced ids d) as [|x l] eqn:E; [discriminate Es|]. injection Es as <- <- <- <-. rewrite <- E in Hi. apply unref_in in Hi. now apply Hi.
  - constructor; cbn [k_db k_now k_ds k_cs]; auto.
    + intros c i Hc Hi. apply in_set in Hc. destruct Hc as [->|Hc]; [contradiction Hi|eauto].
    + intros g gone todo i s Hc. apply in_set in Hc. destruct Hc as [Hc|Hc]; [discriminate Hc|]. intros Hi Hs. eapply X; eauto.
Qed.
Lemma inv2_run acts : forall st, Forall no_split acts -> inv2 st -> inv2 (krun acts st).
Proof. induction acts as [|a t IH]; intros st F I; cbn [krun]; auto. inversion F; subst. apply IH; auto. now apply inv2_step. Qed.
Lemma inv2_start d now : wf d -> inv2 (kstart d now).
Proof. intros W. constructor; cbn; auto; contradiction. Qed.

(** an event row disappears only by a cleaner's second DELETE *)
Lemma event_removed a st r : inv2 st -> In r (b_ev (k_db st)) -> ~ In r (b_ev (k_db (kexec a st))) -> forall s, In s (b_sv (k_db st)) -> sr_event s <> er_id r.
Proof.
  intros I Hr N. destruct st as [d now ds cs]. cbn [k_db k_now] in *.
  destruct a as [name|t|trans evs outs|trans evs|i|i|id retry x next|id retry x next|g|j|j]; cbn [kexec k_db] in N; try (exfalso; apply N; exact Hr).
  - exfalso. apply N. unfold init_service. destruct (existsb (String.eqb name) (b_svc d)); exact Hr.
  - exfalso. apply N. destruct (trans_dispatch trans evs outs d) as [->|X]; auto. destruct X as (rows & dels & E1 & _). rewrite E1. apply in_app_iff. auto.
  - exfalso. apply N. cbn. apply in_app_iff. auto.
  - exfalso. destruct (nth_error ds i) as [p|] eqn:Ep; [|auto]. destruct p as [rows|rows [|v t]|]; cbn in N; auto.
  - destruct (nth_error cs j) as [c|] eqn:Ec; [|exfalso; auto]. pose proof (nth_error_In _ _ Ec) as Ic.
    destruct c as [g [|i0 t]|g ids t|g gone t|]; cbn [clean_step k_db b_ev del_deliveries] in N; try (exfalso; now apply N).
    intros s Hs E. apply N. cbn. apply filter_In. split; auto. apply Bool.negb_true_iff. apply memb_nIn. intros Z. now apply (j_del _ I g gone t (er_id r) s Ic Z Hs).
Qed.

(** ** No event is left behind unless a cleaner stops *)
Definition covered (st : kst) : Prop :=
  b_svc (k_db st) <> [] /\ forall r, In r (b_ev (k_db st)) -> (exists s, In s (b_sv (k_db st)) /\ sr_event s = er_id r) \/ exists j c, nth_error (k_cs st) j = Some c /\ In (er_id r) (cl_hand c).
Lemma covered_step a st : no_split a -> no_stop a -> inv2 st -> covered st -> covered (kexec a st).
Proof.
  intros NS NT [W D _ _] [V C]. destruct st as [d now ds cs]. unfold covered. cbn [k_db k_now k_ds k_cs] in *. subst ds.
  destruct a as [name|t|trans evs outs|trans evs|i|i|id retry s next|id retry s next|g|j|j]; cbn [kexec k_db k_cs].
  - unfold init_service. destruct (existsb (String.eqb name) (b_svc d)); cbn; split; auto. destruct (b_svc d); discriminate.
  - auto.
  - destruct (trans_dispatch trans evs outs d) as [->|Y]; [auto|]. destruct Y as (rows & dels & E1 & E2 & E3 & E4 & E5 & E6 & E7 & E8 & E9 & _). rewrite E9. split; auto.
    intros r Hr. rewrite E1 in Hr. rewrite E5. apply in_app_iff in Hr. destruct Hr as [Hr|Hr].
    + destruct (C r Hr) as [(s & Hs & Es)|Z]; auto. left. exists s. split; auto. apply in_app_iff. auto.
    + left. destruct (b_svc d) as [|v t] eqn:Ev; [congruence|]. assert (X : In (v, er_id r) (map (fun s => (sr_service s, sr_event s)) dels)) by (rewrite E6; apply in_prod; [now left|now apply in_map]).
      apply in_map_iff in X. destruct X as (s & [= _ Es] & Hs). exists s. split; auto. apply in_app_iff. auto.
  - contradiction NS.
  - destruct i; auto.
  - auto.
  - split; auto. intros r Hr. destruct (C r Hr) as [(s0 & Hs & Es)|Z]; auto. left. destruct (save_keys is_init id retry s next d) as [K _].
    assert (X : In (key s0) (map key (b_sv (save_status is_init id retry s next d)))) by (rewrite K; now apply in_map). apply in_map_iff in X. destruct X as (y & [= _ Ey] & Hy). exists y. split; auto. congruence.
  - split; auto. intros r Hr. destruct (C r Hr) as [(s0 & Hs & Es)|Z]; auto. left. destruct (save_keys (fun _ => true) id retry s next d) as [K _].
    assert (X : In (key s0) (map key (b_sv (save_status (fun _ => true) id retry s next d)))) by (rewrite K; now apply in_map). apply in_map_iff in X. destruct X as (y & [= _ Ey] & Hy). exists y. split; auto. congruence.
  - split; auto. intros r Hr. destruct (C r Hr) as [Z|(j & c & Z1 & Z2)]; auto. right. exists j, c. split; auto. rewrite nth_error_app1; auto. apply nth_error_Some. congruence.
  - destruct (nth_error cs j) as [c|] eqn:Ec; [|auto]. destruct (clean_step c d) as [c' d'] eqn:Es. cbn [k_db k_cs]. destruct (clean_step_cl c d c' d' Es) as (_ & _ & _ & _ & N3 & _). rewrite N3. split; auto.
    assert (Evs : forall r, In r (b_ev d') -> In r (b_ev d)).
    { intros r. destruct c as [g [|i0 t]|g ids t|g gone t|]; cbn [clean_step] in Es; injection Es as <- <-; auto. cbn. rewrite filter_In. tauto. }
    intros r Hr. destruct (C r (Evs r Hr)) as [(s & Hs & Er)|(k & q & Hk & Hq)].
    + destruct (in_dec Nat.eq_dec (sr_event s) (map sr_event (b_sv d'))) as [I|I]; [apply in_map_iff in I; destruct I as (y & Ey & Hy); left; exists y; split; auto; congruence|].
      destruct c as [g [|i0 t]|g ids t|g gone t|]; cbn [clean_step] in Es; injection Es as <- <-; try (left; exists s; split; auto; fail).
      right. exists j, (CCount g (firstn 10 (i0 :: t)) (skipn 10 (i0 :: t))). split; [eapply nth_set_same; eauto|]. cbn [cl_hand]. rewrite <- Er.
      destruct (memb (sr_event s) (firstn 10 (i0 :: t))) eqn:Em; [now apply memb_In|]. exfalso. apply I. apply in_map. cbn [del_deliveries b_sv]. apply filter_In. split; auto. apply Bool.negb_true_iff. apply Bool.andb_false_iff. right. exact Em.
    + destruct (Nat.eq_dec j k) as [<-|Nk]; [|right; exists k, q; split; auto; now rewrite nth_set_other].
      rewrite Ec in Hk. injection Hk as <-.
      destruct c as [g [|i0 t]|g ids t|g gone t|]; cbn [cl_hand] in Hq; try contradiction Hq.
      * cbn [clean_step] in Es. assert (d' = d) by (destruct (unreferenced ids d); injection Es as <- <-; auto). subst d'.
        destruct (in_dec Nat.eq_dec (er_id r) (map sr_event (b_sv d))) as [I|I]; [apply in_map_iff in I; destruct I as (y & Ey & Hy); left; exists y; auto|].
        assert (U : In (er_id r) (unreferenced ids d)) by (apply unref_in; split; auto; intros s Hs E; apply I; rewrite <- E; now apply in_map).
        right. exists j, c'. split; [eapply nth_set_same; eauto|]. destruct (unreferenced ids d) as [|x l]; [contradiction U|]. injection Es as <-. exact U.
      * cbn [clean_step] in Es. injection Es as <- <-. cbn in Hr. apply filter_In in Hr. destruct Hr as [_ Hr]. apply Bool.negb_true_iff, memb_nIn in Hr. contradiction.
  - contradiction NT.
Qed.
Lemma covered_run acts : forall st, Forall no_split acts -> Forall no_stop acts -> inv2 st -> covered st -> covered (krun acts st).
Proof. induction acts as [|a t IH]; intros st F1 F2 I C; cbn [krun]; auto. inversion F1; inversion F2; subst. apply IH; auto; [now apply inv2_step|now apply covered_step]. Qed.

(** ** An event nobody refers to and nobody works on stays for ever *)
Record lost (i : nat) (st : kst) : Prop := {
  l_lt : i < b_ne (k_db st);
  l_sv : forall s, In s (b_sv (k_db st)) -> sr_event s <> i;
  l_ds : forall p v, In p (k_ds st) -> ~ pend p v i;
  l_cs : forall c, In c (k_cs st) -> ~ In i (cl_todo c ++ cl_hand c) }.
Lemma lost_step i a st : lost i st -> lost i (kexec a st) /\ forall r, er_id r = i -> In r (b_ev (k_db st)) -> In r (b_ev (k_db (kexec a st))).
Proof.
  intros [L S D C]. destruct st as [d now ds cs]. cbn [k_db k_now k_ds k_cs] in *.
  destruct a as [name|t|trans evs outs|trans evs|j|j|id retry s next|id retry s next|g|j|j]; cbn [kexec].
  - split; [constructor; cbn [k_db k_now k_ds k_cs]; auto; unfold init_service; destruct (existsb _ _); auto|]. cbn [k_db]. intros r _ Hr. unfold init_service. destruct (existsb _ _); auto.
  - split; [constructor; auto|auto].
  - destruct (trans_dispatch trans evs outs d) as [->|Y]; [split; [constructor; auto|auto]|]. destruct Y as (rows & dels & E1 & E2 & E3 & E4 & E5 & E6 & E7 & E8 & E9 & E10 & E11 & _). split.
    + constructor; cbn [k_db k_now k_ds k_cs]; auto; [lia|]. intros s Hs. rewrite E5 in Hs. apply in_app_iff in Hs. destruct Hs as [Hs|Hs]; auto. destruct (E8 s Hs) as (_ & _ & r & Hr & Er & _). apply (in_map er_id) in Hr. rewrite E3, in_seq, Er in Hr. lia.
    + cbn [k_db]. intros r _ Hr. rewrite E1. apply in_app_iff. auto.
  - destruct (new_events_spec trans evs (b_ne d)) as (H1 & H2 & H3 & H4). cbn [insert_events fst snd]. split.
    + constructor; cbn [k_db k_now k_ds k_cs b_ne b_sv]; auto; [lia|]. intros p v Hp. apply in_app_iff in Hp. destruct Hp as [Hp|[<-|[]]]; auto. cbn [pend]. rewrite H2, in_seq. lia.
    + cbn. intros r _ Hr. apply in_app_iff. auto.
  - destruct (nth_error ds j) as [p|] eqn:Ep; [|split; [constructor; auto|auto]]. pose proof (nth_error_In _ _ Ep) as Ip.
    assert (P : forall p' v, (forall v', pend p' v' i -> exists w, pend p w i) -> forall q, In q (set_nth j p' ds) -> ~ pend q v i).
    { intros p' v Hp' q Hq. apply in_set in Hq. destruct Hq as [->|Hq]; [|auto]. intros X. destruct (Hp' v X) as [w Y]. now apply (D p w Ip). }
    destruct p as [rows|rows [|v t]|]; cbn [dispatch_step]; (split; [constructor; cbn [k_db k_now k_ds k_cs]; auto|cbn; auto]).
    + intros q w Hq. apply (P (DTo rows (b_svc d))); auto. cbn. intros v' [_ X]. exists w. exact X.
    + intros q w Hq. apply (P DEnd); auto. intros v' [].  
    + intros s Hs. cbn in Hs. apply in_app_iff in Hs. destruct Hs as [Hs|Hs]; auto. apply key_new in Hs. destruct Hs as [S1 S2]. intros E. apply (D _ v Ip). cbn. rewrite <- E. auto.
    + intros q w Hq. apply (P (DTo rows t)); auto. cbn. intros v' [X Y]. exists v'. auto.
    + intros q w Hq. apply (P DEnd); auto. intros v' [].  
  - split; [|auto]. constructor; cbn [k_db k_now k_ds k_cs]; auto. intros q v Hq. apply in_set in Hq. destruct Hq as [->|Hq]; [cbn; auto|auto].
  - split; [|auto]. constructor; cbn [k_db k_now k_ds k_cs]; auto. intros x Hx. apply save_in in Hx. destruct Hx as (y & Hy & Ky & _). injection Ky as _ Ky. rewrite Ky. auto.
  - split; [|auto]. constructor; cbn [k_db k_now k_ds k_cs]; auto. intros x Hx. apply save_in in Hx. destruct Hx as (y & Hy & Ky & _). injection Ky as _ Ky. rewrite Ky. auto.
  - split; [|auto]. constructor; cbn [k_db k_now k_ds k_cs]; auto. intros c Hc. apply in_app_iff in Hc. destruct Hc as [Hc|[<-|[]]]; auto. cbn [cl_todo cl_hand]. rewrite app_nil_r. intros X. apply scan_in in X. destruct X as (s & Hs & Es & _). now apply (S s Hs).
  - destruct (nth_error cs j) as [c|] eqn:Ec; [|split; [constructor; auto|auto]]. destruct (clean_step c d) as [c' d'] eqn:Es. pose proof (nth_error_In _ _ Ec) as Ic.
    destruct (clean_step_cl c d c' d' Es) as (C1 & C2 & N1 & N2 & N3 & f & C4). split.
    + constructor; cbn [k_db k_now k_ds k_cs]; auto; [lia| |].
      * intros s. rewrite C4, filter_In. intros [Hs _]. auto.
      * intros q Hq. apply in_set in Hq. destruct Hq as [->|Hq]; [|auto]. intros X. apply (C c Ic). eapply clean_step_hand; eauto.
    + cbn [k_db]. intros r Er Hr. destruct c as [g [|i0 t]|g ids t|g gone t|]; cbn [clean_step] in Es; injection Es as <- <-; auto.
      cbn. apply filter_In. split; auto. apply Bool.negb_true_iff, memb_nIn. rewrite Er. intros X. apply (C _ Ic). cbn. apply in_app_iff. auto.
  - split; [|auto]. constructor; cbn [k_db k_now k_ds k_cs]; auto. intros q Hq. apply in_set in Hq. destruct Hq as [->|Hq]; [cbn; auto|auto].
Qed.
Lemma lost_run i acts : forall st, lost i st -> lost i (krun acts st) /\ forall r, er_id r = i -> In r (b_ev (k_db st)) -> In r (b_ev (k_db (krun acts st))).
Proof.
  induction acts as [|a t IH]; intros st H; cbn [krun]; auto. destruct (lost_step i a st H) as [H1 H2]. destruct (IH _ H1) as [H3 H4]. split; auto.
Qed.

(** ** One cleaner alone is [clean_events] *)
Lemma firstn_skipn_loop g : forall ids acc d, length acc < 10 ->
  clean_loop g acc ids d = match acc ++ ids with [] => d | _ => clean_loop g [] (skipn 10 (acc ++ ids)) (delete_batch g (firstn 10 (acc ++ ids)) d) end.
Proof.
  induction ids as [|i t IH]; intros acc d L.
  - rewrite app_nil_r. cbn [clean_loop]. destruct acc as [|x l]; auto. rewrite firstn_all2 by lia. rewrite skipn_all2 by lia. reflexivity.
  - cbn [clean_loop]. destruct (10 <=? length (acc ++ [i])) eqn:E.
    + apply Nat.leb_le in E. rewrite app_length in E. cbn in E. assert (length (acc ++ [i]) = 10) by (rewrite app_length; cbn; lia).
      replace (acc ++ i :: t) with ((acc ++ [i]) ++ t) by now rewrite <- app_assoc. rewrite firstn_app, skipn_app, H. rewrite (firstn_all2 (acc ++ [i])), (skipn_all2 (acc ++ [i])) by lia. change (10 - 10) with 0. rewrite firstn_O, app_nil_r. change (skipn 0 t) with t. cbn [app].
      destruct (acc ++ [i]) as [|y l] eqn:Ea; [discriminate H|]. reflexivity.
    + apply Nat.leb_gt in E. rewrite IH by auto. now rewrite <- app_assoc.
Qed.
Lemma batch_steps g i t d now : exists n, krun (repeat (KClean 0) n) (mkK d now [] [CNext g (i :: t)]) =
  mkK (delete_batch g (firstn 10 (i :: t)) d) now [] [CNext g (skipn 10 (i :: t))].
Proof.
  set (l := i :: t). set (d1 := del_deliveries (c_service g) (firstn 10 l) d). destruct (unreferenced (firstn 10 l) d1) as [|x u] eqn:E.
  - exists 2. cbn [repeat krun kexec nth_error]. change (clean_step (CNext g l) d) with (CCount g (firstn 10 l) (skipn 10 l), d1). cbn [set_nth krun kexec nth_error clean_step]. rewrite E.
    f_equal. change (unreferenced (firstn 10 l) d1) with (filter (fun i => negb (existsb (fun s => sr_event s =? i) (b_sv d1))) (firstn 10 l)) in E. unfold delete_batch. fold (b_sv d1).
    change (filter (fun s => negb (String.eqb (sr_service s) (c_service g) && memb (sr_event s) (firstn 10 l))) (b_sv d)) with (b_sv d1). rewrite E. cbn [memb negb].
    replace (filter (fun _ : erow => true) (b_ev d)) with (b_ev d) by (clear; induction (b_ev d) as [|a q IH]; cbn; congruence). reflexivity.
  - exists 3. cbn [repeat krun kexec nth_error]. change (clean_step (CNext g l) d) with (CCount g (firstn 10 l) (skipn 10 l), d1). cbn [set_nth krun kexec nth_error clean_step]. rewrite E. cbn [set_nth nth_error].
    f_equal. rewrite <- E. reflexivity.
Qed.
Lemma loop_steps g now : forall n todo d, length todo <= n -> exists k, krun (repeat (KClean 0) k) (mkK d now [] [CNext g todo]) = mkK (clean_loop g [] todo d) now [] [CEnd].
Proof.
  induction n as [|n IH]; intros todo d L.
  - destruct todo; [|cbn in L; lia]. exists 1. reflexivity.
  - destruct todo as [|i t]; [exists 1; reflexivity|]. destruct (batch_steps g i t d now) as [k1 E1].
    destruct (IH (skipn 10 (i :: t)) (delete_batch g (firstn 10 (i :: t)) d)) as [k2 E2]; [rewrite skipn_length; cbn [length] in *; lia|].
    exists (k1 + k2). rewrite repeat_app, krun_app, E1, E2. f_equal. rewrite (firstn_skipn_loop g (i :: t) [] d) by (cbn; lia). reflexivity.
Qed.

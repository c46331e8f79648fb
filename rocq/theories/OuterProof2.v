(** Publishing from inside an outer transaction: the invariant is kept by every step. *)
From Verif Require Import BusModel BusSpec BusProof BusWorld BusWorldSpec BusWorldProof BusWorldProof3 BusLiveSpec BusLive BusLive2 BusTxSpec BusTx BusTx2 BusTx3 OuterModel OuterProof.

Lemma not_in_app_find {A} (f : A -> bool) l x : (forall y, In y l -> f y = false) -> f x = true -> find f (l ++ [x]) = Some x.
Proof. intros H Hx. induction l as [|a l IH]; cbn; [now rewrite Hx|]. rewrite (H a (or_introl eq_refl)). apply IH. intros; apply H; now right. Qed.
Lemma written_begin all hs svc timeout now evs sc d o s' d' : txinv all (mkX d hs) -> dispatch_begin svc timeout now evs sc d = (o, s', d') ->
  (d' = d /\ written d d' = None /\ forall t, o <> Val t) \/
  (exists t, written d d' = Some t /\ tr_id t = b_nt d /\ tr_events t = evs /\ In t (b_tx d') /\ b_ev d' = b_ev d /\ incl (b_tx d) (b_tx d') /\ forall u, o = Val u -> u = t).
Proof.
  intros I B. assert (Low : forall y, In y (b_tx d) -> (tr_id y =? b_nt d) = false). { intros y Hy. apply Nat.eqb_neq. pose proof (ti_nt _ _ I y (ti_tx _ _ I y Hy)). cbn in *. lia. }
  destruct (begin_ends _ _ _ _ _ _ _ _ _ B) as [[-> N] | (_ & t & Et & -> & Ou)].
  - left. split; auto. split; auto. unfold written. destruct (find _ _) as [y|] eqn:F; auto. apply find_some in F. destruct F as [F1 F2]. rewrite Low in F2; auto. discriminate.
  - right. exists t. rewrite <- (f_equal tr_id Et : tr_id t = b_nt d). assert (Id : tr_id t = b_nt d) by now rewrite Et. split; [|split; [auto|split; [now rewrite Et|split; [|split; [auto|split; auto]]]]].
    + unfold written. rewrite <- Id. cbn [snd insert_tx b_tx]. rewrite <- Et. apply not_in_app_find; [rewrite Id; auto|apply Nat.eqb_refl].
    + cbn. rewrite <- Et. apply in_app_iff. right. now left.
    + cbn. apply incl_appl, incl_refl.
Qed.
Lemma same_stored id d d' : b_ev d' = b_ev d -> stored id d' = stored id d. Proof. intros E. unfold stored. now rewrite E. Qed.
Lemma some_inj {A} (a b : A) : Some a = Some b -> a = b. Proof. congruence. Qed.
Definition biz_dec (a b : biz) : {a = b} + {a <> b}. Proof. decide equality. Defined.

(** replacing call [k] *)
Lemma oinv_upd answer clean all all' s k x x' d' hs : oinv answer clean all s -> nth_error (o_calls s) k = Some x -> txinv all' (mkX d' hs) -> (clean = false -> once all' d') ->
  call_ok answer clean all' d' x' -> (forall j y, j <> k -> nth_error (o_calls s) j = Some y -> call_ok answer clean all' d' y) ->
  (i_row x' = i_row x \/ forall t, i_row x' = Some t -> forall u, In u all -> tr_id t <> tr_id u) ->
  oinv answer clean all' (upd_call s (mkX d' hs) k x').
Proof.
  intros [V1 V2 V3 V4] E T O Kx Ky R. constructor; auto.
  - intros z Hz. cbn [upd_call o_calls] in Hz. destruct (In_set _ _ _ _ _ E Hz) as [-> | (j & N & Hj)]; eauto.
  - intros i j y z t u. cbn [upd_call o_calls]. rewrite !(nth_set _ _ _ _ E). intros Hi Hj Ht Hu Id.
    destruct (Nat.eqb_spec i k) as [->|Ni], (Nat.eqb_spec j k) as [->|Nj]; auto.
    + injection Hi as <-. destruct R as [R|R]; [rewrite R in Ht; eauto|]. exfalso. apply (R t Ht u); auto. apply (k_row _ _ _ _ _ (V3 z (nth_error_In _ _ Hj)) u Hu).
    + injection Hj as <-. destruct R as [R|R]; [rewrite R in Hu; eauto|]. exfalso. apply (R u Hu t); auto. apply (k_row _ _ _ _ _ (V3 y (nth_error_In _ _ Hi)) t Ht).
    + eauto.
Qed.
Lemma oinv_same answer clean all s k x x' : oinv answer clean all s -> nth_error (o_calls s) k = Some x -> i_row x' = i_row x ->
  call_ok answer clean all (x_db (o_bus s)) x' -> oinv answer clean all (upd_call s (o_bus s) k x').
Proof.
  intros V E R K. pose proof V as [V1 V2 V3 V4]. destruct (o_bus s) as [d hs] eqn:B. eapply oinv_upd; eauto.
  intros j y N Hj. apply nth_error_In in Hj. now apply V3.
Qed.
Lemma ostep_inv answer clean all s a s' : oinv answer clean all s -> allowed answer clean a s -> ostep a s = Some s' -> exists all', oinv answer clean all' s'.
Proof.
  intros V (Al1 & Al2 & Al3) H. pose proof V as [V1 V2 V3 V4]. destruct a; cbn [ostep] in H.
  - injection H as <-. exists all. constructor; auto.
    + intros x Hx. cbn [o_calls] in Hx. apply in_app_iff in Hx. destruct Hx as [Hx|[<-|[]]]; [now apply V3|]. constructor; cbn; try discriminate; auto. intros [X|X]; discriminate.
    + intros i j x y t u Hi Hj Ht Hu. cbn [o_calls] in Hi, Hj.
      assert (G : forall n z w, nth_error (o_calls s ++ [mkI evs PWork BOpen None None]) n = Some z -> i_row z = Some w -> nth_error (o_calls s) n = Some z).
      { intros n z w Hn Hw. destruct (Nat.lt_ge_cases n (length (o_calls s))) as [L|L]; [rewrite nth_error_app1 in Hn; auto|]. rewrite nth_error_app2 in Hn; auto. destruct (n - length (o_calls s)) as [|m]; cbn in Hn; [injection Hn as <-; discriminate|destruct m; discriminate]. }
      eauto.
  - destruct (nth_error (o_calls s) k) as [[evs [| | | |] z c r]|] eqn:E; try discriminate. injection H as <-. exists all. refine (oinv_same answer clean all s k _ _ V E _ _); [reflexivity|].
    destruct (V3 _ (nth_error_In _ _ E)) as [K1 K2 K3 K4 K5 K6 K7 K8 K9 K10 K11 K12]. cbn in *. destruct (K3 eq_refl) as [-> ->]. constructor; cbn; auto; try discriminate. intros [X|X]; discriminate.
  - destruct (nth_error (o_calls s) k) as [[evs [| | | |] z c r]|] eqn:E; try discriminate. destruct (o_bus s) as [d hs] eqn:Bs. cbn [x_db] in *.
    destruct (dispatch_begin svc timeout now evs script d) as [[o sc'] d'] eqn:B. apply some_inj in H. subst s'.
    destruct (step_inv all (mkX d hs) (TBegin svc timeout now evs script) V1) as (all' & A1 & A2 & A3).
    destruct (tx_step (TBegin svc timeout now evs script) (mkX d hs)) as [d2 hs2] eqn:S2.
    assert (d2 = d') as ->. { cbn in S2. rewrite B in S2. destruct o; injection S2 as <- <-; auto. } cbn [x_db] in *.
    exists all'. destruct (V3 _ (nth_error_In _ _ E)) as [K1 K2 K3 K4 K5 K6 K7 K8 K9 K10 K11 K12]. cbn in *. destruct (K3 eq_refl) as [-> ->].
    assert (EvTx : b_ev d' = b_ev d /\ incl (b_tx d) (b_tx d')). { destruct (written_begin _ _ _ _ _ _ _ _ _ _ _ V1 B) as [(-> & _)|(t & _ & _ & _ & _ & X & Y & _)]; auto. split; auto. apply incl_refl. }
    destruct EvTx as [Ev Tx].
    eapply oinv_upd; eauto.
    + destruct (written_begin _ _ _ _ _ _ _ _ _ _ _ V1 B) as [(-> & -> & N)|(t & -> & T1 & T2 & T3 & T4 & T5 & T6)].
      * destruct o as [t| |]; [now destruct (N t)|..]; constructor; cbn; try discriminate; auto; intros [X|X]; discriminate.
      * assert (St : stored (tr_id t) d' = []).
        { rewrite (same_stored _ _ _ Ev), T1. apply stored_rows. unfold rows_of. destruct (filter _ (b_ev d)) as [|e l] eqn:F; auto. exfalso. assert (X : In e (filter (fun r => er_trans r =? b_nt d) (b_ev d))) by (rewrite F; now left).
          apply filter_In in X. destruct X as [X1 X2]. apply Nat.eqb_eq in X2. pose proof (ti_tr _ _ V1 e X1). cbn in *. lia. }
        assert (Ia : In t all') by now apply (ti_tx _ _ A2).
        destruct o as [u| |]; [pose proof (T6 u eq_refl) as ->|..]; constructor; cbn; try discriminate; auto; try (intros [X|X]; discriminate); try (intros w [= <-]; auto; try (intros X; now rewrite St in X)).
        intros _ _ w [= <-] _. auto.
    + intros j y Nj Hj. apply (call_frame answer clean all all' d d' y); auto; [apply V3; eapply nth_error_In; eauto|..].
      * intros t _. rewrite (same_stored _ _ _ Ev). auto.
      * intros _ _ t _ _ [X|X]; [auto|]. right. now rewrite (same_stored _ _ _ Ev).
    + right. intros t Ht u Hu Id. assert (X : i_row (match o with Val t0 => mkI evs (PLeft true) BOpen (Some t0) (written d d') | Err => mkI evs (PLeft false) BOpen None (written d d') | Crash => mkI evs PDead BRolledBack None (written d d') end) = written d d') by (destruct o; auto).
      rewrite X in Ht. destruct (written_begin _ _ _ _ _ _ _ _ _ _ _ V1 B) as [(_ & W & _)|(t' & W & T1 & _)]; [congruence|]. rewrite W in Ht. injection Ht as ->. pose proof (ti_nt _ _ V1 u Hu). cbn in *. lia.
  - destruct (nth_error (o_calls s) k) as [[evs [|[|]| | |] z x r]|] eqn:E; try discriminate; injection H as <-; exists all;
      destruct (V3 _ (nth_error_In _ _ E)) as [K1 K2 K3 K4 K5 K6 K7 K8 K9 K10 K11 K12]; cbn in *.
    + assert (Xn : x <> None) by auto. assert (z = BOpen) as -> by eauto. assert (Sf : forall t, r = Some t -> stored (tr_id t) (x_db (o_bus s)) <> [] -> False) by (intros t X Y; specialize (K11 t X Y); discriminate).
      refine (oinv_same answer clean all s k _ _ V E _ _); [destruct c; reflexivity|].
      destruct c; constructor; cbn; try discriminate; auto; try (intros [X|X]; discriminate); try (intros t X Y; destruct (Sf t X Y)); try (intros A1 A2 t X _; apply (K12 A1 A2 t X); discriminate); try (intros X; destruct (Al2 X)).
    + refine (oinv_same answer clean all s k _ _ V E _ _); [reflexivity|]. constructor; cbn; try discriminate; auto; try (intros [X|X]; discriminate).
      * intros t X Y. specialize (K11 t X Y). rewrite (K5 false eq_refl) in K11. discriminate.
  - destruct (nth_error (o_calls s) k) as [[evs [| |ok| |] z x r]|] eqn:E; try discriminate. destruct (o_bus s) as [d hs] eqn:Bs. cbn [x_db x_handles] in *. injection H as <-. exists all.
    destruct (V3 _ (nth_error_In _ _ E)) as [K1 K2 K3 K4 K5 K6 K7 K8 K9 K10 K11 K12]. cbn in *.
    destruct x as [t|].
    + assert (Hr : r = Some t) by auto. assert (Ht : In t all) by (apply (K1 t Hr)).
      assert (Others : forall j y u, j <> k -> nth_error (o_calls s) j = Some y -> i_row y = Some u -> tr_id u <> tr_id t).
      { intros j y u N Hj Hu X. apply N. eapply V4; eauto. }
      assert (Ctx : forall y u, In y (o_calls s) -> i_ctx y = Some u -> i_row y = Some u) by (intros y u Hy; apply (k_ctx _ _ _ _ _ (V3 y Hy))).
      destruct ok.
      * assert (Z : z = BCommitted) by auto. unfold db_after. pose proof (commit_keeps all hs t d script V1 Ht) as Kp. unfold db_after in Kp. destruct (bus_commit t script d) as [[o1 s1] d1] eqn:B. destruct (commit_ends _ _ _ _ _ _ B) as [Ms _].
        destruct (msteps_inv all hs _ _ d d1 (fun u (X : t = u) => eq_ind t (fun v => In v all) Ht u X) Ms V1) as [I1 O1]. pose proof (msteps_grows _ _ _ _ Ms) as (G1 & _ & _ & _).
        eapply oinv_upd; eauto.
        -- constructor; cbn; try discriminate; auto; try (intros _; apply (K9 _ eq_refl)). intros A1 A2 u [= <-] X. destruct (K12 A1 A2 t eq_refl X) as [Y|Y]; [auto|]. right. revert Y. now apply stored_grows.
        -- intros j y N Hj. assert (Hy : In y (o_calls s)) by (eapply nth_error_In; eauto). apply (call_frame answer clean all all d d1 y); auto; [apply incl_refl|..].
           ++ intros u Hu X. left. intros Y. apply X. apply stored_rows. apply stored_rows in Y. rewrite <- Y. apply (msteps_rows (tr_id u) _ _ _ _ (fun v (Q : t = v) (P : tr_id v = tr_id u) => Others j y u N Hj Hu (eq_sym (eq_trans (f_equal tr_id Q) P))) Ms).
           ++ intros _ _ u _ _ [X|X]; [auto|]. right. revert X. now apply stored_grows.
      * unfold db_after. pose proof (rollback_keeps t d script) as Kp. unfold db_after in Kp. destruct (bus_rollback t script d) as [[o1 s1] d1] eqn:B. destruct (rollback_ends _ _ _ _ _ _ B) as [Ms _].
        destruct (msteps_inv all hs _ _ d d1 (fun u (X : False) => match X with end) Ms V1) as [I1 O1]. pose proof (msteps_grows _ _ _ _ Ms) as (G1 & _ & _ & _).
        assert (Same : forall id, stored id d1 = stored id d) by (intros id; unfold stored; f_equal; apply (msteps_rows id _ _ _ _ (fun v (Q : False) => match Q with end) Ms)).
        eapply oinv_upd; eauto.
        -- constructor; cbn; try discriminate; auto; try (intros _; apply (K9 _ eq_refl)). intros u Hu. rewrite Same. exact (K11 u Hu).
        -- intros j y N Hj. assert (Hy : In y (o_calls s)) by (eapply nth_error_In; eauto). apply (call_frame answer clean all all d d1 y); auto; [apply incl_refl|..].
           ++ intros u _. rewrite Same. auto.
           ++ intros _ _ u Hu _ [X|X]; [|rewrite Same; auto]. left. apply Kp; auto. apply (Others j y u N Hj). auto.
    + eapply oinv_upd; eauto; [|intros j y N Hj; apply V3; eapply nth_error_In; eauto]. constructor; cbn; try discriminate; auto; try (intros _; apply (K9 _ eq_refl)).
  - destruct (nth_error (o_calls s) k) as [[evs p z x r]|] eqn:E; [|discriminate]. destruct (V3 _ (nth_error_In _ _ E)) as [K1 K2 K3 K4 K5 K6 K7 K8 K9 K10 K11 K12]; cbn in *.
    assert (H' : s' = upd_call s (o_bus s) k (mkI evs PDead (match z with BOpen => BRolledBack | _ => z end) x r)) by (destruct p; try discriminate H; injection H; auto). subst s'. exists all.
    refine (oinv_same answer clean all s k _ _ V E _ _); [reflexivity|]. constructor; cbn; try discriminate; auto.
    + intros _. destruct z; discriminate.
    + intros X. destruct z; try discriminate; auto.
    + intros t X Y. specialize (K11 t X Y). subst z; auto.
    + intros A1 A2 t X Y. apply K12; auto. intros ->. now destruct Y.
  - injection H as <-. destruct (step_inv all (o_bus s) o V1) as (all' & A1 & A2 & A3). exists all'.
    assert (Cl : clean = false -> is_clean o = false). { intros X. specialize (Al3 X). destruct o; auto. now destruct Al3. }
    constructor; cbn [o_bus o_calls]; auto. intros x Hx. pose proof (V3 x Hx) as K. apply (call_frame answer clean all all' (x_db (o_bus s)) _ x); auto.
    + intros t Ht X. destruct (biz_dec (i_biz x) BCommitted) as [|Nc]; auto. left. intros Y. apply X. apply stored_rows. apply stored_rows in Y.
      destruct (k_row _ _ _ _ _ K t Ht) as [T1 T2]. pose proof (ti_nt _ _ V1 t T1) as Pos.
      apply incl_l_nil. rewrite <- Y. apply (step_rows all (tr_id t) o (o_bus s) V1); [lia|].
      assert (Eq : forall u, In u all -> tr_id u = tr_id t -> u = t) by (intros u Hu Id; apply (NoDup_map_inj tr_id all); auto; apply (ti_ids _ _ V1)).
      intros [C|(u & U1 & U2 & U3)].
      * destruct o; cbn in C; try contradiction. destruct C as (u & U1 & U2). assert (u = t) as -> by (apply Eq; auto; apply (ti_h _ _ V1); eapply nth_error_In; eauto). cbn in Al1. exact (Al1 x t Hx Ht U1).
      * assert (u = t) as -> by (apply Eq; auto; now apply (ti_tx _ _ V1)). destruct o; cbn in U3; try contradiction.
        -- cbn in Al1. exact (Al1 x t Hx Ht U3).
        -- destruct U3 as (_ & _ & _ & e & rr & Ee & Ec). cbn in Al1. apply Nc. rewrite T2 in Ee. apply (Al1 x e rr Hx Ee). auto.
    + intros B1 B2 t Ht Nr [X|X].
      * apply (step_keeps all); auto. intros D. pose proof (k_ctx _ _ _ _ _ K t Ht) as Hrow. destruct (k_row _ _ _ _ _ K t Hrow) as [T1 T2]. destruct o; cbn in D; try contradiction.
        -- destruct D as (u & U1 & U2). assert (u = t) as ->. { apply (NoDup_map_inj tr_id all); auto; [apply (ti_ids _ _ V1)|]. apply (ti_h _ _ V1). eapply nth_error_In; eauto. } cbn in Al1. exact (Al1 x t Hx Hrow U1).
        -- destruct D as (e & rr & Ee & Ec). rewrite T2 in Ee. apply Nr. cbn in Al1. apply (Al1 x e rr Hx Ee). auto.
      * right. revert X. apply stored_grows. apply (step_ev all); auto.
Qed.
Lemma oreach_inv (A : oact -> ost -> Prop) answer clean s : (forall a s, A a s -> allowed answer clean a s) -> oreach A s -> exists all, oinv answer clean all s.
Proof.
  intros HA R. induction R as [|s a s' R (all & IH) Ha Hs]; [exists []; apply oinv_init|]. eapply ostep_inv; eauto.
Qed.

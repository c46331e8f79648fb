(** Invariants of the bus under every schedule in which dispatches are atomic and cleaning does not run inside a scan. *)
From Verif Require Import BusModel BusSpec BusProof BusWorld BusWorldSpec.

Fixpoint all_suffix (P : hev -> list hev -> Prop) (h : list hev) : Prop := match h with [] => True | x :: t => P x t /\ all_suffix P t end.
Lemma all_suffix_at P h l1 x l2 : all_suffix P h -> h = l1 ++ x :: l2 -> P x l2 /\ all_suffix P l2.
Proof. intros H ->. induction l1 as [|y t IH]; cbn in H; tauto. Qed.
Lemma all_suffix_in P h x : all_suffix P h -> In x h -> exists l1 l2, h = l1 ++ x :: l2 /\ P x l2 /\ all_suffix P l2.
Proof. intros H Hx. apply in_split in Hx. destruct Hx as (l1 & l2 & E). exists l1, l2. split; auto. eapply all_suffix_at; eauto. Qed.

(** the history makes sense *)
Definition good (x : hev) (l : list hev) : Prop :=
  match x with
  | HDisp rows svcs => NoDup (map er_id rows) /\ (forall r r', In r rows -> was_dispatched l r' -> er_id r' < er_id r) /\ (forall rows' svcs', In (HDisp rows' svcs') l -> incl svcs' svcs)
  | HCall t svc e s => was_dispatched l e /\ er_id e = sr_event s /\ forall t' v' e' s', In (HCall t' v' e' s') l -> t' <= t
  | HRec svc e s x s' => (exists t, In (HCall t svc e s) l) /\ (x = HOk -> sr_status s' = SSuccess)
  | HOper svc ev x => x = SExpired \/ x = SPrecedingFailed
  end.

Lemma disp_cons x h r : was_dispatched h r -> was_dispatched (x :: h) r.
Proof. intros (a & b & H1 & H2). exists a, b. split; auto. now right. Qed.
Lemma disp_to_cons x h v r : dispatched_to h v r -> dispatched_to (x :: h) v r.
Proof. intros (a & b & H1 & H2). exists a, b. split; auto. now right. Qed.
Lemma disp_to_disp h v r : dispatched_to h v r -> was_dispatched h r.
Proof. intros (a & b & H1 & H2 & _). exists a, b. auto. Qed.
Lemma disp_app l h r : was_dispatched h r -> was_dispatched (l ++ h) r.
Proof. intros (a & b & H1 & H2). exists a, b. split; auto. apply in_app_iff. auto. Qed.
Lemma disp_uniq h a b : all_suffix good h -> was_dispatched h a -> was_dispatched h b -> er_id a = er_id b -> a = b.
Proof.
  induction h as [|x t IH]; intros H (r1 & s1 & A1 & A2) (r2 & s2 & B1 & B2) E; [destruct A1|]. cbn in H. destruct H as [Hx Ht]. cbn in A1, B1.
  destruct A1 as [->|A1], B1 as [B1|B1].
  - injection B1 as <- <-. destruct Hx as [N _]. eapply NoDup_map_inj; eauto.
  - destruct Hx as (_ & L & _). assert (er_id b < er_id a); [|lia]. apply L; auto. exists r2, s2. auto.
  - subst x. destruct Hx as (_ & L & _). assert (er_id a < er_id b); [|lia]. apply L; auto. exists r1, s1. auto.
  - apply IH; auto; [exists r1, s1|exists r2, s2]; auto.
Qed.
(** what has a smaller id was dispatched earlier *)
Lemma disp_earlier l1 : forall h, all_suffix good (l1 ++ h) -> forall a e v, was_dispatched h e -> dispatched_to (l1 ++ h) v a -> er_id a < er_id e -> dispatched_to h v a.
Proof.
  induction l1 as [|x t IH]; intros h H a e v He Ha L; auto. cbn in H, Ha. destruct H as [Hx Ht]. apply (IH h Ht a e v); auto.
  destruct Ha as (rows & svcs & [->|A] & A2 & A3); [|exists rows, svcs; auto]. exfalso. destruct Hx as (_ & B & _). specialize (B a e A2 (disp_app t h e He)). lia.
Qed.
Lemma disp_mono h a b v : all_suffix good h -> dispatched_to h v a -> was_dispatched h b -> er_id a < er_id b -> dispatched_to h v b.
Proof.
  induction h as [|x t IH]; intros H (r1 & s1 & A1 & A2 & A3) (r2 & s2 & B1 & B2) L; [destruct A1|]. cbn in H, A1, B1. destruct H as [Hx Ht].
  destruct B1 as [->|B1].
  - exists r2, s2. split; [now left|]. split; auto. destruct A1 as [A1|A1]; [injection A1 as -> ->; auto|]. destruct Hx as (_ & _ & I). eapply I; eauto.
  - destruct A1 as [->|A1]; [|apply disp_to_cons; apply IH; auto; [exists r1, s1|exists r2, s2]; auto].
    exfalso. destruct Hx as (_ & I & _). assert (er_id b < er_id a); [|lia]. apply I; auto. exists r2, s2. auto.
Qed.

Section Inv.
  Variable cfgs : nat -> buscfg.

  Definition tuple_ok (c : buscfg) (d : bdb) (s : srow) : Prop :=
    sr_service s = c_service c /\ sr_status s = SInit /\ sr_id s < b_ns d /\ forall x, In x (b_sv d) -> sr_id x = sr_id s -> sr_service x = sr_service s /\ sr_event x = sr_event s.
  Definition start_ok (c : buscfg) (w : world) (st : nat) : Prop :=
    st < b_ne (w_db w) /\ forall r, In r (b_ev (w_db w)) -> er_id r < st -> er_created r + c_window c < w_now w.
  Definition poll_ok (c : buscfg) (w : world) (ph : poll) : Prop :=
    match ph with
    | PIdle => True
    | PStart st | POff st _ => start_ok c w st
    | PDue st svs => start_ok c w st /\ StronglySorted (fun a b => sr_event a < sr_event b) svs /\
        forall s, In s svs -> tuple_ok c (w_db w) s /\ exists r, In r (b_ev (w_db w)) /\ er_id r = sr_event s
    | PRun st todo run => start_ok c w st /\
        (forall e s, In (e, s) (todo ++ run) -> tuple_ok c (w_db w) s /\ er_id e = sr_event s /\ was_dispatched (w_hist w) e) /\
        (forall e s, In (e, s) run -> exists t, In (HCall t (c_service c) e s) (w_hist w))
    end.

  Record inv (w : world) : Prop := {
    i_wf : wf (w_db w);
    i_jobs : forall j, w_jobs w j = None;
    i_poll : forall p, poll_ok (cfgs p) w (w_poll w p);
    i_ev : forall r, In r (b_ev (w_db w)) -> was_dispatched (w_hist w) r;
    i_lt : forall r, was_dispatched (w_hist w) r -> er_id r < b_ne (w_db w);
    i_svcs : forall rows svcs, In (HDisp rows svcs) (w_hist w) -> incl svcs (b_svc (w_db w));
    i_good : all_suffix good (w_hist w);
    i_time : forall t v e s, In (HCall t v e s) (w_hist w) -> t <= w_now w;
    i_has : forall v r, dispatched_to (w_hist w) v r -> (exists s, In s (b_sv (w_db w)) /\ sr_service s = v /\ sr_event s = er_id r) \/ processed (w_hist w) v r;
    i_row : forall s, In s (b_sv (w_db w)) -> exists r, dispatched_to (w_hist w) (sr_service s) r /\ er_id r = sr_event s;
    i_status : forall s, In s (b_sv (w_db w)) -> sr_status s <> SInit ->
      (exists r s1 x s1', In (HRec (sr_service s) r s1 x s1') (w_hist w) /\ er_id r = sr_event s /\ sr_status s1' = sr_status s /\
         ((sr_status s = SSuccess /\ x = HOk) \/ sr_status s = SFailed)) \/
      (In (HOper (sr_service s) (sr_event s) (sr_status s)) (w_hist w) /\ (sr_status s = SExpired \/ sr_status s = SPrecedingFailed)) }.

  Lemma inv0 : inv world0.
  Proof.
    constructor; cbn; auto; try (intros; contradiction).
    - constructor; cbn; try constructor; try lia; intros; contradiction.
    - intros r (rows & svcs & [] & _).
    - intros v r (rows & svcs & [] & _).
  Qed.

  (** how tables may evolve without disturbing a poll *)
  Definition evolves (w w' : world) : Prop :=
    w_now w <= w_now w' /\ b_ne (w_db w) <= b_ne (w_db w') /\ b_ns (w_db w) <= b_ns (w_db w') /\
    (forall r, In r (b_ev (w_db w')) -> In r (b_ev (w_db w)) \/ b_ne (w_db w) <= er_id r) /\
    (forall x, In x (b_sv (w_db w')) -> b_ns (w_db w) <= sr_id x \/ exists y, In y (b_sv (w_db w)) /\ sr_id y = sr_id x /\ sr_service y = sr_service x /\ sr_event y = sr_event x) /\
    (exists l, w_hist w' = l ++ w_hist w).
  Definition keeps_events (w w' : world) : Prop := forall r, In r (b_ev (w_db w)) -> In r (b_ev (w_db w')).
  Lemma tuple_ok_evolves c w w' s : evolves w w' -> tuple_ok c (w_db w) s -> tuple_ok c (w_db w') s.
  Proof.
    intros (E1 & E2 & E3 & E4 & E5 & E6) (T1 & T2 & T3 & T4). repeat split; auto; try lia; destruct (E5 x H) as [X|(y & Y1 & Y2 & Y3 & Y4)]; try lia;
    destruct (T4 y Y1); congruence.
  Qed.
  Lemma start_ok_evolves c w w' st : evolves w w' -> start_ok c w st -> start_ok c w' st.
  Proof.
    intros (E1 & E2 & E3 & E4 & E5 & E6) (T1 & T2). split; [lia|]. intros r Hr L. destruct (E4 r Hr) as [X|X]; [specialize (T2 r X L); lia|lia].
  Qed.
  Lemma poll_ok_evolves c w w' ph : evolves w w' -> (keeps_events w w' \/ forall st svs, ph <> PDue st svs) -> poll_ok c w ph -> poll_ok c w' ph.
  Proof.
    intros E K. destruct ph as [|st|st off|st svs|st todo run]; cbn; auto.
    - now apply start_ok_evolves.
    - now apply start_ok_evolves.
    - intros (H1 & H2 & H3). split; [eapply start_ok_evolves; eauto|]. split; auto. intros s Hs. destruct (H3 s Hs) as (T & r & R1 & R2). split; [eapply tuple_ok_evolves; eauto|].
      exists r. split; auto. destruct K as [K|K]; [auto|]. now destruct (K st svs).
    - intros (H1 & H2 & H3). split; [eapply start_ok_evolves; eauto|]. destruct E as (E1 & E2 & E3 & E4 & E5 & l & El) eqn:EE. split.
      + intros e s Hs. destruct (H2 e s Hs) as (T & I & D). split; [eapply tuple_ok_evolves; eauto|]. split; auto. rewrite El. now apply disp_app.
      + intros e s Hs. destruct (H3 e s Hs) as (t & T). exists t. rewrite El. apply in_app_iff. auto.
  Qed.
  Lemma evolves_refl w : evolves w w.
  Proof. repeat split; auto. - right. eauto 6. - exists []. auto. Qed.
  (** same tables *)
  Lemma evolves_db w w' : w_db w' = w_db w -> w_now w <= w_now w' -> (exists l, w_hist w' = l ++ w_hist w) -> evolves w w' /\ keeps_events w w'.
  Proof. intros E1 E2 E3. split; [|intros r Hr; now rewrite E1]. repeat split; rewrite ?E1; auto. intros x Hx. right. eauto 6. Qed.

  (** nothing in the tables and the history changes, only one poller *)
  Lemma inv_poll_only w p ph now' po' lk' : inv w -> w_now w <= now' -> (forall q, po' q = w_poll w q \/ (q = p /\ po' q = ph)) ->
    poll_ok (cfgs p) w ph -> inv (mkW (w_db w) now' po' lk' (w_jobs w) (w_hist w)).
  Proof.
    intros I L P K. set (w' := mkW (w_db w) now' po' lk' (w_jobs w) (w_hist w)). destruct (evolves_db w w' eq_refl L (ex_intro _ [] eq_refl)) as [E KE].
    destruct I. constructor; cbn; auto.
    - intros q. destruct (P q) as [->|[-> ->]]; (eapply poll_ok_evolves; [exact E|now left|]); auto.
    - intros t v e s H. specialize (i_time0 t v e s H). lia.
  Qed.

  Definition with_sv (d : bdb) (sv : list srow) : bdb := mkDB (b_ev d) sv (b_svc d) (b_tx d) (b_ne d) (b_ns d) (b_nt d).
  Definition same_key (x y : srow) : Prop := sr_id x = sr_id y /\ sr_service x = sr_service y /\ sr_event x = sr_event y.
  Definition no_disp (xs : list hev) : Prop := forall rows svcs, ~ In (HDisp rows svcs) xs.
  Lemma no_disp_was xs h r : no_disp xs -> was_dispatched (xs ++ h) r -> was_dispatched h r.
  Proof. intros N (a & b & H1 & H2). apply in_app_iff in H1. destruct H1 as [H1|H1]; [now destruct (N a b)|]. exists a, b. auto. Qed.
  Lemma no_disp_to xs h v r : no_disp xs -> dispatched_to (xs ++ h) v r -> dispatched_to h v r.
  Proof. intros N (a & b & H1 & H2). apply in_app_iff in H1. destruct H1 as [H1|H1]; [now destruct (N a b)|]. exists a, b. auto. Qed.
  Lemma disp_to_app l h v r : dispatched_to h v r -> dispatched_to (l ++ h) v r.
  Proof. intros (a & b & H1 & H2). exists a, b. split; auto. apply in_app_iff. auto. Qed.
  Lemma processed_app l h v r : processed h v r -> processed (l ++ h) v r.
  Proof. intros (a & b & H). exists a, b. apply in_app_iff. auto. Qed.
  Definition justified (h : list hev) (s : srow) : Prop :=
      (exists r s1 x s1', In (HRec (sr_service s) r s1 x s1') h /\ er_id r = sr_event s /\ sr_status s1' = sr_status s /\
         ((sr_status s = SSuccess /\ x = HOk) \/ sr_status s = SFailed)) \/
      (In (HOper (sr_service s) (sr_event s) (sr_status s)) h /\ (sr_status s = SExpired \/ sr_status s = SPrecedingFailed)).
  Lemma justified_app l h s : justified h s -> justified (l ++ h) s.
  Proof.
    intros [(r & s1 & x & s1' & H1 & H2)|[H1 H2]]; [left; exists r, s1, x, s1'|right]; split; auto; apply in_app_iff; auto.
  Qed.
  Lemma evolves_map w f po' lk' xs : (forall s, In s (b_sv (w_db w)) -> same_key (f s) s) ->
    evolves w (mkW (with_sv (w_db w) (map f (b_sv (w_db w)))) (w_now w) po' lk' (w_jobs w) (xs ++ w_hist w)) /\
    keeps_events w (mkW (with_sv (w_db w) (map f (b_sv (w_db w)))) (w_now w) po' lk' (w_jobs w) (xs ++ w_hist w)).
  Proof.
    intros K. split; [|intros r; auto]. repeat split; auto; cbn; eauto. intros x Hx. apply in_map_iff in Hx. destruct Hx as (y & <- & Hy). right. exists y. destruct (K y Hy) as (A & B & C). auto.
  Qed.
  Lemma inv_map w f po' lk' xs : inv w -> (forall s, In s (b_sv (w_db w)) -> same_key (f s) s) ->
    let w' := mkW (with_sv (w_db w) (map f (b_sv (w_db w)))) (w_now w) po' lk' (w_jobs w) (xs ++ w_hist w) in
    all_suffix good (xs ++ w_hist w) -> no_disp xs -> (forall t v e s, In (HCall t v e s) xs -> t <= w_now w) ->
    (forall s, In s (b_sv (w_db w)) -> sr_status (f s) <> SInit -> justified (xs ++ w_hist w) (f s)) ->
    (forall p, poll_ok (cfgs p) w' (po' p)) -> inv w'.
  Proof.
    intros I K w' G N T J P. destruct I as [W Jb Po Ev Lt Sv Go Ti Ha Ro St]. constructor; cbn; auto.
    - destruct W as [A1 A2 A3 A4 A5 A6 A7 A8]. constructor; cbn; auto.
      + rewrite map_map. erewrite map_ext_in; [exact A3|]. intros s Hs. apply K. auto.
      + intros x Hx. apply in_map_iff in Hx. destruct Hx as (y & <- & Hy). destruct (K y Hy) as (-> & _). auto.
      + rewrite map_map. erewrite map_ext_in; [exact A5|]. intros s Hs. cbn. destruct (K s Hs) as (_ & -> & ->). auto.
      + intros x Hx. apply in_map_iff in Hx. destruct Hx as (y & <- & Hy). destruct (K y Hy) as (_ & _ & ->). auto.
    - intros r Hr. apply disp_app. auto.
    - intros r Hr. apply Lt. eapply no_disp_was; eauto.
    - intros rows svcs H. apply in_app_iff in H. destruct H as [H|H]; [now destruct (N rows svcs)|eauto].
    - intros t v e s H. apply in_app_iff in H. destruct H as [H|H]; eauto.
    - intros v r H. apply no_disp_to in H; auto. destruct (Ha v r H) as [(s & S1 & S2 & S3)|Pr]; [left|right; now apply processed_app].
      exists (f s). destruct (K s S1) as (_ & -> & ->). split; auto. now apply in_map.
    - intros s Hs. apply in_map_iff in Hs. destruct Hs as (y & <- & Hy). destruct (K y Hy) as (_ & -> & ->). destruct (Ro y Hy) as (r & R1 & R2). exists r. split; auto. now apply disp_to_app.
    - intros s Hs Hn. apply in_map_iff in Hs. destruct Hs as (y & <- & Hy). apply J; auto.
  Qed.
  Lemma save_is_map s d : save_row s d = with_sv d (map (fun x => if sr_id x =? sr_id s then s else x) (b_sv d)).
  Proof. reflexivity. Qed.
  Lemma save_same s c d : tuple_ok c d s -> forall s', same_key s' s -> forall x, In x (b_sv d) -> same_key (if sr_id x =? sr_id s' then s' else x) x.
  Proof.
    intros (T1 & T2 & T3 & T4) s' (K1 & K2 & K3) x Hx. destruct (Nat.eqb_spec (sr_id x) (sr_id s')) as [E|E]; [|repeat split; auto].
    rewrite K1 in E. destruct (T4 x Hx E) as [E1 E2]. repeat split; congruence.
  Qed.

  Lemma dispatch_now_spec evs d rows d' : dispatch_now evs d = (rows, d') -> dispatched 0 evs (b_svc d) d d' /\ b_ev d' = b_ev d ++ rows.
  Proof.
    unfold dispatch_now. destruct (insert_events 0 evs d) as [rows0 d1] eqn:E. pose proof (dispatched_start 0 evs d) as [D R]. rewrite E in D, R. cbn in D, R.
    intros [= <- <-].
    assert (X : forall svcs done d2, dispatched 0 evs done d d2 -> b_ev d2 = b_ev d ++ rows0 ->
      dispatched 0 evs (done ++ svcs) d (fold_left (fun d s => snd (insert_deliveries s rows0 d)) svcs d2) /\ b_ev (fold_left (fun d s => snd (insert_deliveries s rows0 d)) svcs d2) = b_ev d ++ rows0).
    { induction svcs as [|v t IH]; intros done d2 D2 R2; cbn [fold_left]; [rewrite app_nil_r; auto|].
      destruct (IH (done ++ [v]) (snd (insert_deliveries v rows0 d2)) (dispatched_more _ _ _ _ _ _ _ D2 R2) R2) as [X Y]. rewrite <- app_assoc in X. auto. }
    assert (E' : b_svc d1 = b_svc d) by (unfold insert_events in E; injection E as <- <-; reflexivity). rewrite E'. apply (X (b_svc d) [] d1 D R).
  Qed.

  Lemma inv_dispatch w evs rows d' : inv w -> dispatch_now evs (w_db w) = (rows, d') -> inv (mkW d' (w_now w) (w_poll w) (w_locks w) (w_jobs w) (HDisp rows (b_svc (w_db w)) :: w_hist w)).
  Proof.
    intros I E. destruct (dispatch_now_spec _ _ _ _ E) as [D R]. set (w' := mkW _ _ _ _ _ _). destruct I as [W Jb Po Ev Lt Sv Go Ti Ha Ro St].
    pose proof (dispatched_wf _ _ _ _ _ W D (wf_svc _ W)) as W'.
    destruct D as (rows' & dels & E1 & E2 & E3 & E4 & E5 & E6 & E7 & E8 & E9 & E10 & E11 & E12 & E13). rewrite E1 in R. apply app_inv_head in R. subst rows'.
    assert (Rid : forall r, In r rows -> b_ne (w_db w) <= er_id r < b_ne (w_db w) + length evs) by (intros r Hr; apply (in_map er_id) in Hr; rewrite E3, in_seq in Hr; lia).
    assert (Did : forall s, In s dels -> b_ns (w_db w) <= sr_id s) by (intros s Hs; apply (in_map sr_id) in Hs; rewrite E7, in_seq in Hs; lia).
    assert (EV : evolves w w' /\ keeps_events w w').
    { split; [|intros r Hr; cbn; rewrite E1; apply in_app_iff; auto]. unfold evolves. cbn. rewrite E11, E12. repeat split; try lia.
      - intros r Hr. rewrite E1 in Hr. apply in_app_iff in Hr. destruct Hr as [Hr|Hr]; auto. right. apply Rid; auto.
      - intros s Hs. rewrite E5 in Hs. apply in_app_iff in Hs. destruct Hs as [Hs|Hs]; [right; exists s; auto|left; auto].
      - exists [HDisp rows (b_svc (w_db w))]. auto. }
    destruct EV as [EV KE]. constructor; cbn; auto.
    - intros p. eapply poll_ok_evolves; [exact EV|now left|auto].
    - intros r Hr. rewrite E1 in Hr. apply in_app_iff in Hr. destruct Hr as [Hr|Hr]; [apply disp_cons; auto|]. exists rows, (b_svc (w_db w)). split; auto. now left.
    - intros r (a & b & [[= <- <-]|H1] & H2).
      + rewrite E11. specialize (Rid r H2). lia.
      + assert (er_id r < b_ne (w_db w)) by (apply Lt; exists a, b; auto). lia.
    - intros a b [[= <- <-]|H]; rewrite E9; [apply incl_refl|eauto].
    - split; auto. split; [rewrite E3; apply seq_NoDup|]. split; [|intros; eauto].
      intros r r' Hr Hr'. specialize (Rid r Hr). specialize (Lt r' Hr'). lia.
    - intros t v e s [X|X]; [discriminate|eauto].
    - intros v r (a & b & [[= <- <-]|H1] & H2 & H3).
      + left. assert (X : In (v, er_id r) (list_prod (b_svc (w_db w)) (map er_id rows))) by (apply in_prod_iff; split; auto; now apply in_map). rewrite <- E6 in X. apply in_map_iff in X. destruct X as (s & [= S1 S2] & S3).
        exists s. rewrite E5. split; [apply in_app_iff|]; auto.
      + destruct (Ha v r) as [(s & S1 & S2)|Pr]; [exists a, b; auto|left; exists s; rewrite E5; split; [apply in_app_iff|]; auto|right]. apply (processed_app [HDisp rows (b_svc (w_db w))]); auto.
    - intros s Hs. rewrite E5 in Hs. apply in_app_iff in Hs. destruct Hs as [Hs|Hs].
      + destruct (Ro s Hs) as (r & R1 & R2). exists r. split; auto. now apply disp_to_cons.
      + pose proof (in_map (fun s => (sr_service s, sr_event s)) _ _ Hs) as X. cbn in X. rewrite E6 in X. apply in_prod_iff in X. destruct X as [X1 X2]. apply in_map_iff in X2. destruct X2 as (r & X2 & X3).
        exists r. split; auto. exists rows, (b_svc (w_db w)). split; [now left|auto].
    - intros s Hs Hn. rewrite E5 in Hs. apply in_app_iff in Hs. destruct Hs as [Hs|Hs]; [|destruct (E8 s Hs); contradiction]. apply (justified_app [HDisp rows (b_svc (w_db w))]). now apply St.
  Qed.

  Lemma inv_clean w p : inv w -> ~ busy w -> inv (mkW (clean_events (cfgs p) (w_now w) (w_db w)) (w_now w) (w_poll w) (w_locks w) (w_jobs w) (w_hist w)).
  Proof.
    intros I NB. set (w' := mkW _ _ _ _ _ _). destruct I as [W Jb Po Ev Lt Sv Go Ti Ha Ro St].
    destruct (clean_spec (cfgs p) (w_now w) (w_db w) W) as (C1 & C2 & C3 & C4 & C5 & C6 & C7). pose proof (clean_wf (cfgs p) (w_now w) (w_db w) W) as W'.
    assert (S1 : forall s, In s (b_sv (clean_events (cfgs p) (w_now w) (w_db w))) -> In s (b_sv (w_db w))) by (intros s; apply (taken_out_In _ _ _ s C1)).
    assert (S2 : forall r, In r (b_ev (clean_events (cfgs p) (w_now w) (w_db w))) -> In r (b_ev (w_db w))) by (intros r; apply (taken_out_In _ _ _ r C2)).
    assert (EV : evolves w w').
    { unfold evolves. cbn. rewrite C5, C6. split; auto. split; auto. split; auto. split; auto. split; [|exists []; auto]. intros x Hx. right. exists x. auto. }
    constructor; cbn; rewrite ?C3, ?C5; auto.
    - intros q. eapply poll_ok_evolves; [exact EV| |auto]. right. intros st svs E. apply NB. exists q, st, svs. auto.
    - intros v r H. destruct (Ha v r H) as [(s & T1 & T2 & T3)|Pr]; auto.
      assert (X : finished (cfgs p) (w_now w) s \/ ~ finished (cfgs p) (w_now w) s).
      { destruct (fin (cfgs p) (w_now w) s) eqn:F; [left; now apply fin_spec|right; intros X; apply fin_spec in X; congruence]. }
      destruct X as [F|F]; [right|left; exists s; split; auto; now apply (taken_out_In _ _ _ s C1)].
      destruct F as (F1 & F2 & F3). assert (Hn : sr_status s <> SInit) by congruence. destruct (St s T1 Hn) as [(r' & s1 & x & s1' & R1 & R2 & R3 & R4)|[R1 R2]]; [|rewrite F2 in R2; destruct R2; discriminate].
      destruct R4 as [[R4 ->]|R4]; [|congruence]. rewrite T2 in R1. exists s1, s1'. assert (r' = r) as <-; auto.
      apply (disp_uniq (w_hist w)); auto; [|eapply disp_to_disp; eauto|congruence].
      destruct (all_suffix_in _ _ _ Go R1) as (l1 & l2 & El & ((t & X) & _) & G2). destruct (all_suffix_in _ _ _ G2 X) as (l3 & l4 & El2 & (X1 & _) & _). rewrite El. apply (disp_app l1). apply disp_cons. rewrite El2. apply (disp_app l3). now apply disp_cons.
  Qed.
End Inv.

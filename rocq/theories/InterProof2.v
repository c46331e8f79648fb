(** Interleaved event transactions: the log and the tables; settled transactions. *)
From Verif Require Import InterModel InterSpec BusSpec BusProof InterProof.

Lemma logged_app i a b : logged i (a ++ b) = logged i a ++ logged i b.
Proof. unfold logged. apply flat_map_app. Qed.
Lemma logged_quiet i l : Forall quiet l -> logged i l = [].
Proof. induction 1 as [|e t Q _ IH]; auto. cbn. destruct e; cbn in *; try contradiction; auto. Qed.
(** [rows] is a complete copy of the events of [t] in the table *)
Definition copy_of (d : bdb) (h : list hev) (t : trow) (rows : list erow) : Prop := In (HStored (tr_id t) (tr_events t)) h /\ incl rows (b_ev d) /\ map er_ev rows = tr_events t /\ forall r, In r rows -> er_trans r = tr_id t.
Record iw (d : bdb) (ps : list pproc) (h : list hev) : Prop := {
  w_log : forall i, i <> 0 -> tabled i d = logged i h;
  w_row : forall p t rows, In p ps -> (p = PList t rows \/ exists l, p = PTo t rows l) -> copy_of d h t rows;
  w_del : forall i v ids, In (HDelivered i v ids) h -> (forall x, In x ids -> exists s, In s (b_sv d) /\ sr_service s = v /\ sr_event s = x) /\
            exists t rows, tr_id t = i /\ copy_of d h t rows /\ ids = map er_id rows }.
Lemma copy_more d d' h l t rows : copy_of d h t rows -> incl (b_ev d) (b_ev d') -> copy_of d' (h ++ l) t rows.
Proof. intros (A & B & C & D) I. split; [apply in_app_iff; auto|]. split; auto. intros x Hx. auto. Qed.
(** the tables grow (events only with other transaction ids), the log by entries that say nothing *)
Lemma iw_more d d' ps ps' h l : iw d ps h -> (forall i, i <> 0 -> tabled i d' = tabled i d) -> incl (b_ev d) (b_ev d') -> incl (b_sv d) (b_sv d') ->
  (forall p t rows, In p ps' -> (p = PList t rows \/ exists l, p = PTo t rows l) -> In p ps \/ copy_of d' h t rows) ->
  Forall (fun e => match e with HStored _ _ | HDelivered _ _ _ => False | _ => True end) l -> iw d' ps' (h ++ l).
Proof.
  intros [A B C] T I1 I2 P Q. rewrite Forall_forall in Q. constructor.
  - intros i Ni. rewrite (T i Ni), (A i Ni), logged_app. replace (logged i l) with (@nil devent); [now rewrite app_nil_r|]. clear -Q. unfold logged. induction l as [|e t IH]; auto. cbn. rewrite <- IH by (intros x Hx; apply Q; now right). specialize (Q e (or_introl eq_refl)). destruct e; auto. contradiction.
  - intros p t rows Hp Ep. destruct (P p t rows Hp Ep) as [X|X]; [eapply copy_more; eauto|]. eapply copy_more; eauto. apply incl_refl.
  - intros i v ids X. apply in_app_iff in X. destruct X as [X|X]; [|specialize (Q _ X); contradiction]. destruct (C i v ids X) as (C1 & t & rows & C2 & C3 & C4). split.
    + intros x Hx. destruct (C1 x Hx) as (s & S1 & S2). eauto.
    + exists t, rows. split; auto. split; auto. eapply copy_more; eauto.
Qed.
Lemma tabled_insert i t evs d : tabled i (snd (insert_events t evs d)) = tabled i d ++ (if t =? i then evs else []).
Proof.
  unfold tabled. cbn. rewrite filter_app, map_app. f_equal. destruct (new_events_spec t evs (b_ne d)) as (E1 & _ & _ & E4). destruct (t =? i) eqn:Et.
  - rewrite <- E1 at 2. f_equal. assert (X : forall r, In r (new_events (b_ne d) t evs) -> (er_trans r =? i) = true) by (intros r Hr; now rewrite (E4 r Hr)). clear -X. induction (new_events (b_ne d) t evs) as [|r l IH]; auto. cbn. rewrite (X r (or_introl eq_refl)). f_equal. apply IH. intros x Hx. apply X. now right.
  - assert (X : forall r, In r (new_events (b_ne d) t evs) -> (er_trans r =? i) = false) by (intros r Hr; now rewrite (E4 r Hr)). clear -X. induction (new_events (b_ne d) t evs) as [|r l IH]; auto. cbn. rewrite (X r (or_introl eq_refl)). apply IH. intros x Hx. apply X. now right.
Qed.
Lemma iw_stored d ps h t : iw d ps h -> iw (snd (insert_events (tr_id t) (tr_events t) d)) ps (h ++ [HStored (tr_id t) (tr_events t)]) /\
  copy_of (snd (insert_events (tr_id t) (tr_events t) d)) (h ++ [HStored (tr_id t) (tr_events t)]) t (fst (insert_events (tr_id t) (tr_events t) d)).
Proof.
  intros [A B C]. assert (I : incl (b_ev d) (b_ev (snd (insert_events (tr_id t) (tr_events t) d)))) by (cbn; apply incl_appl, incl_refl). split.
  - constructor.
    + intros i Ni. rewrite tabled_insert, logged_app, (A i Ni). cbn. destruct (tr_id t =? i); [now rewrite app_nil_r|reflexivity].
    + intros p t' rows Hp Ep. eapply copy_more; eauto.
    + intros i v ids X. apply in_app_iff in X. destruct X as [X|[X|[]]]; [|discriminate X]. destruct (C i v ids X) as (C1 & t' & rows & C2 & C3 & C4). split; auto. exists t', rows. split; auto. split; auto. eapply copy_more; eauto.
  - destruct (new_events_spec (tr_id t) (tr_events t) (b_ne d)) as (E1 & _ & _ & E4). cbn. split; [apply in_app_iff; right; now left|]. split; [apply incl_appr, incl_refl|auto].
Qed.
Lemma iw_deliver d ps h t v rows : iw d ps h -> copy_of d h t rows -> iw (snd (insert_deliveries v rows d)) ps (h ++ [HDelivered (tr_id t) v (map er_id rows)]).
Proof.
  intros [A B C] K. constructor.
  - intros i Ni. rewrite logged_app. cbn. rewrite app_nil_r. apply (A i Ni).
  - intros p t' rows' Hp Ep. apply (copy_more d _ h). apply (B p t' rows' Hp Ep). apply incl_refl.
  - intros i w ids X. apply in_app_iff in X. cbn [snd insert_deliveries b_sv b_ev]. destruct X as [X|[X|[]]].
    + destruct (C i w ids X) as (C1 & t' & rows' & C2 & C3 & C4). split; [|exists t', rows'; split; auto; split; auto; apply (copy_more d _ h); [exact C3|apply incl_refl]]. intros x Hx. destruct (C1 x Hx) as (s & S1 & S2). exists s. split; auto. apply in_app_iff. auto.
    + injection X as <- <- <-. split; [|exists t, rows; split; auto; split; auto; apply (copy_more d _ h); [exact K|apply incl_refl]]. intros x Hx. destruct (new_deliveries_spec v rows (b_ns d)) as (_ & Kn & _).
      assert (Y : In (v, x) (map (fun s => (sr_service s, sr_event s)) (new_deliveries (b_ns d) v rows))) by (rewrite Kn; now apply in_map).
      apply in_map_iff in Y. destruct Y as (s & [= S1 S2] & Hs). exists s. split; [apply in_app_iff; auto|auto].
Qed.
Lemma iw_deliver_to t rows : forall svcs d d' l ps h, deliver_to (tr_id t) svcs rows d = (d', l) -> iw d ps h -> copy_of d h t rows -> iw d' ps (h ++ l).
Proof.
  induction svcs as [|v r IH]; intros d d' l ps h H W K; cbn [deliver_to] in H.
  - injection H as <- <-. now rewrite app_nil_r.
  - destruct (deliver_to (tr_id t) r rows (snd (insert_deliveries v rows d))) as [d1 l1] eqn:E. injection H as <- <-.
    replace (h ++ HDelivered (tr_id t) v (map er_id rows) :: l1) with ((h ++ [HDelivered (tr_id t) v (map er_id rows)]) ++ l1) by (now rewrite <- app_assoc).
    eapply IH; eauto; [now apply iw_deliver|]. apply (copy_more d _ h); auto. apply incl_refl.
Qed.
Lemma iw_tx d d' ps h : iw d ps h -> b_ev d' = b_ev d -> b_sv d' = b_sv d -> iw d' ps h.
Proof. intros [A B C] E1 E2. unfold copy_of, tabled in *. constructor; unfold copy_of, tabled in *; rewrite ?E1, ?E2; auto. Qed.
Lemma iw_quiet d ps h l : iw d ps h -> Forall (fun e => match e with HStored _ _ | HDelivered _ _ _ => False | _ => True end) l -> iw d ps (h ++ l).
Proof. intros W Q. apply (iw_more d d ps ps h l); auto; apply incl_refl. Qed.
Lemma iw_check_one snap t a d d' l ps h : check_one snap t a d = (d', l) -> iw d ps h -> iw d' ps (h ++ l).
Proof.
  intros H W. destruct a as [|del|n del]; cbn [check_one] in H.
  - injection H as <- <-. now rewrite app_nil_r.
  - injection H as <- <-. apply (iw_tx d); [|destruct del; reflexivity..]. apply iw_quiet; auto.
  - destruct (memb (tr_id t) snap); [injection H as <- <-; apply iw_quiet; auto|]. destruct n as [k|]; [|injection H as <- <-; apply iw_quiet; auto].
    destruct (deliver_to (tr_id t) (firstn k (b_svc d)) (fst (insert_events (tr_id t) (tr_events t) d)) (snd (insert_events (tr_id t) (tr_events t) d))) as [d1 l1] eqn:E.
    injection H as <- <-. apply (iw_tx d1); [|destruct ((length (b_svc d) <=? k) && del); reflexivity..].
    replace (h ++ HAsked (tr_id t) :: HStored (tr_id t) (tr_events t) :: l1) with (((h ++ [HAsked (tr_id t)]) ++ [HStored (tr_id t) (tr_events t)]) ++ l1) by (rewrite <- !app_assoc; reflexivity).
    destruct (iw_stored d ps (h ++ [HAsked (tr_id t)]) t) as [W1 W2]; [apply iw_quiet; auto|]. eapply iw_deliver_to; eauto.
Qed.
Lemma iw_check_list snap trs : forall as_ d d' l ps h, check_list snap trs as_ d = (d', l) -> iw d ps h -> iw d' ps (h ++ l).
Proof.
  induction trs as [|t r IH]; intros as_ d d' l ps h H V; [injection H as <- <-; now rewrite app_nil_r|].
  destruct as_ as [|a ar]; [injection H as <- <-; now rewrite app_nil_r|]. cbn [check_list] in H. destruct (check_one snap t a d) as [d1 l1] eqn:E1. destruct (check_list snap r ar d1) as [d2 l2] eqn:E2. injection H as <- <-.
  rewrite app_assoc. eapply IH; eauto. eapply iw_check_one; eauto.
Qed.
Lemma iw_step a st : no_removal a -> iw (i_db st) (i_pub st) (i_log st) -> iw (i_db (iexec a st)) (i_pub (iexec a st)) (i_log (iexec a st)).
Proof.
  destruct st as [d now ps ks h]. intros NR W. cbn [i_db i_pub i_log] in W.
  assert (Same : forall ps' l, (forall p t rows, In p ps' -> (p = PList t rows \/ exists l, p = PTo t rows l) -> In p ps \/ copy_of d h t rows) -> Forall (fun e => match e with HStored _ _ | HDelivered _ _ _ => False | _ => True end) l -> iw d ps' (h ++ l)) by (intros ps' l P Q; apply (iw_more d d ps); auto; apply incl_refl).
  destruct a as [name|n|evs outs|ids|svc timeout evs|i|i|i|i|svc|j|j answers|j]; cbn [iexec]; try exact W.
  - cbn [i_db i_pub i_log]. unfold init_service. destruct (existsb (String.eqb name) (b_svc d)); auto. now apply (iw_tx d).
  - cbn [i_db i_pub i_log]. destruct (dispatch 0 evs outs d) as [[o s'] d'] eqn:E. cbn [snd]. destruct (proj1 (dispatch_ends _ _ _ _ _ _ _ E)) as [->|(k & X)]; auto.
    destruct X as (rows & dels & E1 & E2 & E3 & E4 & E5 & _). rewrite <- (app_nil_r h). apply (iw_more d d' ps); auto.
    + intros i Ni. unfold tabled. rewrite E1, filter_app, map_app. replace (filter (fun r => er_trans r =? i) rows) with (@nil erow); [now rewrite app_nil_r|]. clear -E4 Ni. induction rows as [|r l IH]; auto. cbn. rewrite (E4 r (or_introl eq_refl)). replace (0 =? i) with false by (symmetry; apply Nat.eqb_neq; lia). apply IH. intros x Hx. apply E4. now right.
    + rewrite E1. apply incl_appl, incl_refl.
    + rewrite E5. apply incl_appl, incl_refl.
  - contradiction NR.
  - destruct evs as [|e0 er]; auto. cbn [insert_tx i_db i_pub i_log]. apply (iw_tx d); auto. apply Same; [|repeat constructor]. intros p t rows Hp Ep. apply in_app_iff in Hp. destruct Hp as [Hp|[<-|[]]]; auto. destruct Ep as [Ep|[l Ep]]; discriminate Ep.
  - destruct (nth_error ps i) as [p|] eqn:Ep; auto. destruct p as [t|t|t|t rows|t rows l|t|t|]; auto. cbn [i_db i_pub i_log]. apply Same; [|repeat constructor]. intros q t' rows Hq Eq. apply in_set in Hq. destruct Hq as [->|Hq]; auto. destruct Eq as [Eq|[l Eq]]; discriminate Eq.
  - destruct (nth_error ps i) as [p|] eqn:Ep; auto. destruct p as [t|t|t|t rows|t rows l|t|t|]; auto. cbn [i_db i_pub i_log]. apply Same; [|repeat constructor]. intros q t' rows Hq Eq. apply in_set in Hq. destruct Hq as [->|Hq]; auto. destruct Eq as [Eq|[l Eq]]; discriminate Eq.
  - destruct (nth_error ps i) as [p|] eqn:Ep; auto. destruct (pub_step ks p d) as [[p' d'] l] eqn:Es. cbn [i_db i_pub i_log]. pose proof (nth_error_In _ _ Ep) as Ip.
    assert (Go : forall q, (forall t rows, q = PList t rows \/ (exists l, q = PTo t rows l) -> copy_of d h t rows) -> forall l, Forall (fun e => match e with HStored _ _ | HDelivered _ _ _ => False | _ => True end) l -> iw d (set_nth i q ps) (h ++ l)).
    { intros q Hq l0 Q. apply Same; auto. intros x t rows Hx Ex. apply in_set in Hx. destruct Hx as [->|Hx]; auto. }
    destruct p as [t|t|t|t rows|t rows sv|t|t|]; cbn [pub_step] in Es.
    + injection Es as <- <- <-. apply Go; auto. intros t' rows [X|[l X]]; discriminate X.
    + destruct (fst (find_trans (tr_id t) d)); injection Es as <- <- <-; (apply Go; [intros t' rows [X|[l X]]; discriminate X|repeat constructor]).
    + injection Es as <- <- <-. destruct (iw_stored d ps h t W) as [[A B C] K]. constructor; auto. intros q t' rows Hq Eq. apply in_set in Hq. destruct Hq as [->|Hq]; [|eauto]. destruct Eq as [Eq|[l Eq]]; [|discriminate Eq]. injection Eq as <- <-. exact K.
    + injection Es as <- <- <-. apply Go; [|repeat constructor]. intros t' rows' [X|[l X]]; [discriminate X|]. injection X as <- <- _. apply (w_row _ _ _ W _ t rows Ip). auto.
    + destruct sv as [|v r]; injection Es as <- <- <-.
      * apply Go; [|repeat constructor]. intros t' rows' [X|[l X]]; discriminate X.
      * assert (K : copy_of d h t rows) by (apply (w_row _ _ _ W _ t rows Ip); eauto). destruct (iw_deliver d ps h t v rows W K) as [A B C]. constructor; auto.
        intros q t' rows' Hq Eq. apply in_set in Hq. destruct Hq as [->|Hq]; [|eauto]. destruct Eq as [Eq|[l Eq]]; [discriminate Eq|]. injection Eq as <- <- _. apply (copy_more d _ h); [exact K|apply incl_refl].
    + destruct (locked ks t); injection Es as <- <- <-; [apply Go; auto; intros t' rows [X|[l X]]; discriminate X|].
      apply (iw_tx d); auto. apply Go; [intros t' rows [X|[l X]]; discriminate X|repeat constructor].
    + destruct (locked ks t); injection Es as <- <- <-; [apply Go; auto; intros t' rows [X|[l X]]; discriminate X|].
      apply (iw_tx d); auto. apply Go; [intros t' rows [X|[l X]]; discriminate X|repeat constructor].
    + injection Es as <- <- <-. apply Go; auto. intros t' rows [X|[l X]]; discriminate X.
  - cbn [i_db i_pub i_log]. rewrite <- (app_nil_r h). apply Same; auto. intros q t' rows Hq Eq. apply in_set in Hq. destruct Hq as [->|Hq]; auto. destruct Eq as [Eq|[l Eq]]; discriminate Eq.
  - destruct (existsb (locked ks) (due_rows svc now d)); exact W.
  - destruct (nth_error ks j) as [k|] eqn:Ek; auto. destruct k; exact W.
  - destruct (nth_error ks j) as [k|] eqn:Ek; auto. destruct k as [trs|trs snap|]; auto. destruct (check_list snap trs answers d) as [d' l] eqn:Ec. cbn [i_db i_pub i_log]. eapply iw_check_list; eauto.
Qed.
Lemma iw_reach acts : Forall no_removal acts -> forall st, iw (i_db st) (i_pub st) (i_log st) -> iw (i_db (irun acts st)) (i_pub (irun acts st)) (i_log (irun acts st)).
Proof. induction 1 as [|a t N _ IH]; intros st W; cbn [irun]; auto. apply IH. now apply iw_step. Qed.
Lemma iw_start : iw (i_db istart) (i_pub istart) (i_log istart).
Proof. constructor; cbn; contradiction || auto. Qed.

(** ** Settled transactions stay as they are *)
Lemma check_settled snap i t a d d' l : check_one snap t a d = (d', l) -> tr_id t <> i -> copies i l = 0 /\ b_nt d' = b_nt d /\ incl (b_tx d') (b_tx d).
Proof.
  intros H N. assert (X : forall d, incl (b_tx (snd (delete_tx t d))) (b_tx d)) by (intros d0 x; cbn; rewrite filter_In; tauto).
  destruct a as [|del|n del]; cbn [check_one] in H.
  - injection H as <- <-. repeat split; auto. apply incl_refl.
  - injection H as <- <-. split; [reflexivity|split; [destruct del; reflexivity|destruct del; [apply X|apply incl_refl]]].
  - destruct (memb (tr_id t) snap); [injection H as <- <-; repeat split; auto; apply incl_refl|]. destruct n as [k|]; [|injection H as <- <-; repeat split; auto; apply incl_refl].
    destruct (deliver_to (tr_id t) (firstn k (b_svc d)) (fst (insert_events (tr_id t) (tr_events t) d)) (snd (insert_events (tr_id t) (tr_events t) d))) as [d1 l1] eqn:E.
    destruct (deliver_to_spec _ _ _ _ _ _ E) as (S1 & S2 & S3 & S4 & S5 & S6). injection H as <- <-. cbn in S1, S2. repeat split.
    + destruct (quiet_cnt i l1 S5) as [Q _]. unfold copies in *. cbn. replace (tr_id t =? i) with false by (symmetry; now apply Nat.eqb_neq). exact Q.
    + destruct ((length (b_svc d) <=? k) && del); cbn; auto.
    + intros x Hx. destruct ((length (b_svc d) <=? k) && del); [apply X in Hx|]; congruence.
Qed.
Lemma check_list_settled snap i : forall trs as_ d d' l, check_list snap trs as_ d = (d', l) -> (forall t, In t trs -> tr_id t <> i) -> copies i l = 0 /\ b_nt d' = b_nt d /\ incl (b_tx d') (b_tx d).
Proof.
  induction trs as [|t r IH]; intros as_ d d' l H N; [injection H as <- <-; repeat split; auto; apply incl_refl|].
  destruct as_ as [|a ar]; [injection H as <- <-; repeat split; auto; apply incl_refl|]. cbn [check_list] in H. destruct (check_one snap t a d) as [d1 l1] eqn:E1. destruct (check_list snap r ar d1) as [d2 l2] eqn:E2. injection H as <- <-.
  destruct (check_settled _ i _ _ _ _ _ E1 (N t (or_introl eq_refl))) as (A1 & A2 & A3). destruct (IH _ _ _ _ E2 (fun t' Ht' => N t' (or_intror Ht'))) as (B1 & B2 & B3).
  rewrite copies_app, A1, B1, B2, A2. repeat split. intros x Hx. auto.
Qed.
Lemma settled_step i a st : settled i st -> settled i (iexec a st) /\ copies i (i_log (iexec a st)) = copies i (i_log st).
Proof.
  destruct st as [d now ps ks h]. intros (L & T & P & K). unfold settled. cbn [i_db i_pub i_chk i_log] in *.
  destruct a as [name|n|evs outs|ids|svc timeout evs|k|k|k|k|svc|j|j answers|j]; cbn [iexec]; try (cbn [i_db i_pub i_chk i_log]; auto; fail).
  - cbn [i_db i_pub i_chk i_log]. unfold init_service. destruct (existsb (String.eqb name) (b_svc d)); cbn; auto.
  - cbn [i_db i_pub i_chk i_log]. destruct (dispatch 0 evs outs d) as [[o s'] d'] eqn:E. cbn [snd]. destruct (proj1 (dispatch_ends _ _ _ _ _ _ _ E)) as [->|(q & X)]; auto.
    destruct X as (rows & dels & E1 & E2 & E3 & E4 & E5 & E6 & E7 & E8 & E9 & E10 & E11 & E12 & E13). rewrite E10, E13. auto.
  - destruct evs as [|e0 er]; [cbn [i_db i_pub i_chk i_log]; auto|]. cbn [insert_tx i_db i_pub i_chk i_log b_nt b_tx]. split; [|rewrite copies_app; cbn; lia]. repeat split; auto.
    + intros t Ht. apply in_app_iff in Ht. destruct Ht as [Ht|[<-|[]]]; auto. cbn. lia.
    + intros p Hp. apply in_app_iff in Hp. destruct Hp as [Hp|[<-|[]]]; [apply P; auto|]. cbn. lia.
  - destruct (nth_error ps k) as [p|] eqn:Ep; [|cbn [i_db i_pub i_chk i_log]; auto]. pose proof (P p (nth_error_In _ _ Ep)) as Pp. destruct p as [t|t|t|t rows|t rows l|t|t|]; cbn [i_db i_pub i_chk i_log]; auto.
    split; [|rewrite copies_app; cbn; lia]. repeat split; auto. intros q Hq. apply in_set in Hq. destruct Hq as [->|Hq]; auto. apply P; auto.
  - destruct (nth_error ps k) as [p|] eqn:Ep; [|cbn [i_db i_pub i_chk i_log]; auto]. pose proof (P p (nth_error_In _ _ Ep)) as Pp. destruct p as [t|t|t|t rows|t rows l|t|t|]; cbn [i_db i_pub i_chk i_log]; auto.
    split; [|rewrite copies_app; cbn; lia]. repeat split; auto. intros q Hq. apply in_set in Hq. destruct Hq as [->|Hq]; auto. apply P; auto.
  - destruct (nth_error ps k) as [p|] eqn:Ep; [|cbn [i_db i_pub i_chk i_log]; auto]. pose proof (P p (nth_error_In _ _ Ep)) as Pp.
    destruct (pub_step ks p d) as [[p' d'] l] eqn:Es. cbn [i_db i_pub i_chk i_log].
    assert (X : b_nt d' = b_nt d /\ incl (b_tx d') (b_tx d) /\ copies i l = 0 /\ match p' with PHave t | PFind t | PIns t => tr_id t <> i | _ => True end).
    { assert (Y : forall t, incl (b_tx (snd (delete_tx t d))) (b_tx d)) by (intros t x; cbn; rewrite filter_In; tauto).
      destruct p as [t|t|t|t rows|t rows sv|t|t|]; cbn [pub_step] in Es.
      - injection Es as <- <- <-. repeat split; auto. apply incl_refl.
      - destruct (fst (find_trans (tr_id t) d)); injection Es as <- <- <-; repeat split; auto; apply incl_refl.
      - injection Es as <- <- <-. repeat split; auto; [apply incl_refl|]. unfold copies. cbn. now replace (tr_id t =? i) with false by (symmetry; now apply Nat.eqb_neq).
      - injection Es as <- <- <-. repeat split; auto. apply incl_refl.
      - destruct sv; injection Es as <- <- <-; repeat split; auto; apply incl_refl.
      - destruct (locked ks t); injection Es as <- <- <-; repeat split; auto; [apply incl_refl|apply (Y t)].
      - destruct (locked ks t); injection Es as <- <- <-; repeat split; auto; [apply incl_refl|apply (Y t)].
      - injection Es as <- <- <-. repeat split; auto. apply incl_refl. }
    destruct X as (X1 & X2 & X3 & X4). rewrite X1, copies_app, X3. split; [|lia]. repeat split; auto. intros q Hq. apply in_set in Hq. destruct Hq as [->|Hq]; auto. apply P; auto.
  - cbn [i_db i_pub i_chk i_log]. split; auto. repeat split; auto. intros q Hq. apply in_set in Hq. destruct Hq as [->|Hq]; auto. apply P; auto.
  - destruct (existsb (locked ks) (due_rows svc now d)); cbn [i_db i_pub i_chk i_log]; auto. split; auto. repeat split; auto. intros k t Hk Ht. apply in_app_iff in Hk. destruct Hk as [Hk|[<-|[]]]; [eauto|]. cbn in Ht. apply filter_In in Ht. apply T. tauto.
  - destruct (nth_error ks j) as [k|] eqn:Ek; [|cbn [i_db i_pub i_chk i_log]; auto]. destruct k as [trs|trs snap|]; cbn [i_db i_pub i_chk i_log]; auto. split; auto. repeat split; auto. intros k t Hk Ht. apply in_set in Hk. destruct Hk as [->|Hk]; [|eauto]. apply (K (KHold trs)); auto. eapply nth_error_In; eauto.
  - destruct (nth_error ks j) as [k|] eqn:Ek; [|cbn [i_db i_pub i_chk i_log]; auto]. destruct k as [trs|trs snap|]; [cbn [i_db i_pub i_chk i_log]; auto| |cbn [i_db i_pub i_chk i_log]; auto].
    destruct (check_list snap trs answers d) as [d' l] eqn:Ec. cbn [i_db i_pub i_chk i_log]. destruct (check_list_settled snap i trs answers d d' l Ec) as (A1 & A2 & A3); [intros t Ht; apply (K (KSnap trs snap)); auto; eapply nth_error_In; eauto|].
    rewrite A2, copies_app, A1. split; [|lia]. repeat split; auto. intros k t Hk Ht. apply in_set in Hk. destruct Hk as [->|Hk]; [contradiction Ht|eauto].
  - cbn [i_db i_pub i_chk i_log]. split; auto. repeat split; auto. intros k t Hk Ht. apply in_set in Hk. destruct Hk as [->|Hk]; [contradiction Ht|eauto].
Qed.
Lemma settled_run i acts : forall st, settled i st -> settled i (irun acts st) /\ copies i (i_log (irun acts st)) = copies i (i_log st).
Proof. induction acts as [|a t IH]; intros st S; cbn [irun]; auto. destruct (settled_step i a st S) as [S1 C1]. destruct (IH _ S1) as [S2 C2]. split; auto. congruence. Qed.
Lemma irun_app a b st : irun (a ++ b) st = irun b (irun a st).
Proof. revert st. induction a as [|x t IH]; intros st; cbn; auto. Qed.

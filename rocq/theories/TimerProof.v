(** The timer: invariant of every interleaving. *)
From Verif Require Import TimerModel.
From Verif Require BusProof.

Section Inv.
  Variable parse : string -> option (nat -> nat).
  Variable zero_ok : bool.
  Variable svcs : nat -> string.
  (** the next activation lies after the given time *)
  Hypothesis later : forall e f t, parse e = Some f -> t < f t.

  Notation texec := (texec parse zero_ok svcs).
  Definition same_job (a b : tjob) : Prop := j_id a = j_id b /\ j_service a = j_service b /\ j_key a = j_key b /\ j_cron a = j_cron b /\ j_payload a = j_payload b.
  Record tinv (w : tworld) : Prop := {
    v_pos : 1 <= t_nid (tw_db w);
    v_ids : NoDup (map j_id (t_rows (tw_db w)));
    v_nid : forall x, In x (t_rows (tw_db w)) -> 1 <= j_id x < t_nid (tw_db w);
    v_keys : NoDup (map j_key (t_rows (tw_db w)));
    v_run : forall p todo j, tw_poll w p = TPRun todo (Some j) -> In j (t_rows (tw_db w)) /\ In (j_id j) (tw_locks w) /\ is_due (svcs p) (tw_now w) j = true;
    v_one : forall p q tp tq j j', tw_poll w p = TPRun tp (Some j) -> tw_poll w q = TPRun tq (Some j') -> j_id j = j_id j' -> p = q;
    v_lk : forall i, In i (tw_locks w) -> exists p todo j, tw_poll w p = TPRun todo (Some j) /\ j_id j = i;
    v_saved : forall t p j j', In (TSaved t p j j') (tw_hist w) -> t <= tw_now w /\ j' = job_after parse t j /\ j_next j <= t /\
       forall x, In x (t_rows (tw_db w)) -> j_id x = j_id j -> j_status x <> TToRun \/ (j_cron j <> ""%string /\ j_next j < j_next x);
    v_call : forall t p j, In (TCall t p j) (tw_hist w) -> j_id j < t_nid (tw_db w) /\ t <= tw_now w /\ is_due (svcs p) t j = true /\
       (forall x, In x (t_rows (tw_db w)) -> j_id x = j_id j -> same_job x j /\ j_next j <= j_next x) /\
       ((exists todo, tw_poll w p = TPRun todo (Some j)) \/ (exists t' j', In (TSaved t' p j j') (tw_hist w)) \/ In (TLost p j) (tw_hist w));
    v_sc : forall t p j j', In (TSaved t p j j') (tw_hist w) -> exists t', In (TCall t' p j) (tw_hist w);
    v_runc : forall p todo j, tw_poll w p = TPRun todo (Some j) -> exists t, In (TCall t p j) (tw_hist w);
    v_cron : forall x, In x (t_rows (tw_db w)) -> j_cron x <> ""%string -> parse (j_cron x) <> None;
    v_reg : forall r q j, tw_reg w r = Some (q, j) -> j_cron j <> ""%string -> parse (j_cron j) <> None }.

  Lemma job_after_spec now j : (j_cron j <> ""%string -> parse (j_cron j) <> None) ->
    same_job (job_after parse now j) j /\ (j_cron j = ""%string -> j_status (job_after parse now j) = TFinished /\ j_next (job_after parse now j) = j_next j) /\
    (j_cron j <> ""%string -> j_status (job_after parse now j) = TToRun /\ now < j_next (job_after parse now j)).
  Proof.
    intros H. unfold job_after, job_reset. destruct (String.eqb_spec (j_cron j) "") as [E|E].
    - split; [repeat split; auto|]. split; [cbn; auto|intros X; contradiction].
    - destruct (parse (j_cron j)) as [f|] eqn:P; [|now destruct (H E)]. split; [repeat split; auto|]. split; [intros X; contradiction|]. intros _. cbn. split; auto. eapply later; eauto.
  Qed.
  Lemma job_lock_spec svc now id d x : job_lock svc now id d = Some x -> In x (t_rows d) /\ j_id x = id /\ is_due svc now x = true.
  Proof. unfold job_lock. intros H. apply find_some in H. destruct H as [A B]. apply andb_true_iff in B. destruct B as [B C]. apply Nat.eqb_eq in C. auto. Qed.
  Lemma is_due_spec svc now j : is_due svc now j = true <-> j_service j = svc /\ j_next j <= now /\ j_status j = TToRun.
  Proof.
    unfold is_due. rewrite !andb_true_iff, String.eqb_eq, Nat.leb_le. split.
    - intros [[A B] C]. split; auto. split; auto. destruct (j_status j); auto; discriminate.
    - intros (A & B & C). rewrite C. auto.
  Qed.
  Lemma is_due_mono svc now n j : is_due svc now j = true -> is_due svc (now + n) j = true.
  Proof. rewrite !is_due_spec. intros (A & B & C). repeat split; auto. lia. Qed.
  Lemma updf_eq {A} (f : nat -> A) k v : updf f k v k = v. Proof. unfold updf. now rewrite Nat.eqb_refl. Qed.
  Lemma updf_neq {A} (f : nat -> A) k v x : x <> k -> updf f k v x = f x. Proof. unfold updf. intros H. now rewrite (proj2 (Nat.eqb_neq x k) H). Qed.
  Lemma updf_cases {A} (f : nat -> A) k v x : (x = k /\ updf f k v x = v) \/ (x <> k /\ updf f k v x = f x).
  Proof. destruct (Nat.eq_dec x k) as [->|N]; [left|right]; auto using updf_eq, updf_neq. Qed.

  (** steps that touch neither rows nor locks nor the history, and start no handler *)
  Lemma keep_quiet d now po lk rg h now' po' rg' :
    tinv (mkTW d now po lk rg h) -> now <= now' ->
    (forall p todo j, po' p = TPRun todo (Some j) <-> po p = TPRun todo (Some j)) ->
    (forall r q j, rg' r = Some (q, j) -> j_cron j <> ""%string -> parse (j_cron j) <> None) ->
    forall extra, (forall x, In x extra -> exists a b c e, x = TReg a b c e) -> tinv (mkTW d now' po' lk rg' (extra ++ h)).
  Proof.
    intros [V0 V1 V2 V3 V4 V5 V6 V7 V8 V9 V10 V11 V12] L P R extra X. cbn [tw_db tw_now tw_poll tw_locks tw_reg tw_hist] in *.
    assert (O : forall x, In x (extra ++ h) -> (exists a b c e, x = TReg a b c e) \/ In x h) by (intros x Hx; apply in_app_iff in Hx; destruct Hx; auto).
    constructor; cbn [tw_db tw_now tw_poll tw_locks tw_reg tw_hist]; auto; try (rewrite ?Nid; lia).
    - intros p todo j H. apply P in H. destruct (V4 p todo j H) as (A & B & C). split; auto. split; auto. apply is_due_spec. apply is_due_spec in C. destruct C as (C1 & C2 & C3). repeat split; auto. lia.
    - intros p q tp tq j j' A B. apply P in A. apply P in B. eapply V5; eauto.
    - intros i Hi. destruct (V6 i Hi) as (p & todo & j & A & B). exists p, todo, j. split; auto. now apply P.
    - intros t p j j' H. destruct (O _ H) as [(a & b & c & e & Y)|Y]; [discriminate|]. destruct (V7 t p j j' Y) as (A & B & C & D). split; [lia|auto].
    - intros t p j H. destruct (O _ H) as [(a & b & c & e & Y)|Y]; [discriminate|]. destruct (V8 t p j Y) as (A & B & C & D & E). split; auto. split; [lia|]. split; auto. split; auto.
      destruct E as [(todo & E)|[(t' & j' & E)|E]]; [left; exists todo; now apply P|right; left; exists t', j'; apply in_app_iff; auto|right; right; apply in_app_iff; auto].
    - intros t p j j' H. destruct (O _ H) as [(a & b & c & e & Y)|Y]; [discriminate|]. destruct (V9 t p j j' Y) as (t' & Z). exists t'. apply in_app_iff; auto.
    - intros p todo j H. apply P in H. destruct (V10 p todo j H) as (t & Z). exists t. apply in_app_iff; auto.
  Qed.
  Lemma map_save_ids j d : map j_id (map (fun x => if j_id x =? j_id j then j else x) (t_rows d)) = map j_id (t_rows d).
  Proof. rewrite map_map. apply map_ext. intros x. destruct (Nat.eqb_spec (j_id x) (j_id j)); auto. Qed.
  Lemma in_save x j rows : In x (map (fun x => if j_id x =? j_id j then j else x) rows) -> (x = j /\ exists y, In y rows /\ j_id y = j_id j) \/ (In x rows /\ j_id x <> j_id j).
  Proof. intros H. apply in_map_iff in H. destruct H as (y & E & Hy). destruct (Nat.eqb_spec (j_id y) (j_id j)) as [Ey|Ey]; subst x; eauto. Qed.

  Lemma end_inv d now po lk rg h p todo j d' ok : tinv (mkTW d now po lk rg h) -> po p = TPRun todo (Some j) ->
    (d' = d /\ ok = false \/ ok = true /\ d' = mkTD (map (fun x => if j_id x =? j_id (job_after parse now j) then job_after parse now j else x) (t_rows d)) (t_nid d)) ->
    forall after, (after = TPIdle \/ after = TPRun todo None) ->
    tinv (mkTW d' now (updf po p after) (filter (fun i => negb (i =? j_id j)) lk) rg ((if ok then TSaved now p j (job_after parse now j) else TLost p j) :: h)).
  Proof.
    intros V Pp D after Af. destruct V as [V0 V1 V2 V3 V4 V5 V6 V7 V8 V9 V10 V11 V12]. cbn [tw_db tw_now tw_poll tw_locks tw_reg tw_hist] in *.
    destruct (V4 p todo j Pp) as (Jr & Jl & Jd). apply is_due_spec in Jd. destruct Jd as (Jd1 & Jd2 & Jd3).
    destruct (job_after_spec now j (V11 j Jr)) as ((S1 & S2 & S3 & S4 & S5) & A1 & A2). set (j' := job_after parse now j) in *.
    assert (Run : forall q tq x, updf po p after q = TPRun tq (Some x) -> q <> p /\ po q = TPRun tq (Some x) /\ j_id x <> j_id j).
    { intros q tq x H. destruct (updf_cases po p after q) as [[-> E]|[N E]]; rewrite E in H; [destruct Af; subst; discriminate|]. split; auto. split; auto. intros Ei. apply N. eapply (V5 q p); eauto. }
    (* rows of the new table *)
    assert (Nx : j_next j <= j_next j'). { destruct (String.eqb_spec (j_cron j) "") as [E|E]; [destruct (A1 E); lia|destruct (A2 E); lia]. }
    assert (Rows : forall x, In x (t_rows d') -> (x = j' /\ ok = true) \/ (In x (t_rows d) /\ (ok = true -> j_id x <> j_id j))).
    { intros x Hx. destruct D as [[-> ->]|[-> ->]]; [right; split; auto; discriminate|]. cbn [t_rows] in Hx. apply in_save in Hx. rewrite S1 in Hx. destruct Hx as [[-> _]|[Hx Hn]]; auto. }
    assert (Old : forall x, In x (t_rows d') -> exists y, In y (t_rows d) /\ same_job x y /\ j_next y <= j_next x).
    { intros x Hx. destruct (Rows x Hx) as [[-> _]|[Hx' _]]; [exists j; split; auto; split; auto; repeat split; auto|exists x; split; auto; split; auto; repeat split; auto]. }
    assert (Nid : t_nid d' = t_nid d) by (destruct D as [[-> _]|[_ ->]]; auto).
    constructor; cbn [tw_db tw_now tw_poll tw_locks tw_reg tw_hist]; auto; try (rewrite ?Nid; lia).
    - destruct D as [[-> _]|[_ ->]]; auto. cbn [t_rows]. now rewrite map_save_ids.
    - intros x Hx. rewrite Nid. destruct (Old x Hx) as (y & Hy & (E & _) & _). rewrite E. auto.
    - destruct D as [[-> _]|[_ ->]]; auto. cbn [t_rows]. rewrite map_map. erewrite map_ext_in; [exact V3|]. intros x Hx. cbn. destruct (Nat.eqb_spec (j_id x) (j_id j')) as [E|E]; auto. rewrite S3. f_equal. apply (BusProof.NoDup_map_inj j_id (t_rows d)); auto. congruence.
    - intros q tq x H. destruct (Run q tq x H) as (N1 & N2 & N3). destruct (V4 q tq x N2) as (B1 & B2 & B3). split; [|split; auto].
      + destruct D as [[-> _]|[_ ->]]; auto. cbn [t_rows]. apply in_map_iff. exists x. split; auto. rewrite S1. now rewrite (proj2 (Nat.eqb_neq _ _) N3).
      + apply filter_In. split; auto. now rewrite (proj2 (Nat.eqb_neq _ _) N3).
    - intros q1 q2 t1 t2 x x' H1 H2. destruct (Run _ _ _ H1) as (_ & B & _). destruct (Run _ _ _ H2) as (_ & C & _). eapply V5; eauto.
    - intros i Hi. apply filter_In in Hi. destruct Hi as [Hi Hn]. destruct (Nat.eqb_spec i (j_id j)) as [->|Ne]; [discriminate|]. destruct (V6 i Hi) as (q & tq & x & Q1 & Q2). exists q, tq, x. split; auto. rewrite updf_neq; auto. intros ->. congruence.
    - intros t q x x' Hin. assert (Case : (ok = true /\ t = now /\ q = p /\ x = j /\ x' = j') \/ In (TSaved t q x x') h). { destruct Hin as [Hin|Hin]; auto. destruct ok; [injection Hin as <- <- <- <-; auto 7|discriminate]. }
      destruct Case as [(Ok & -> & -> & -> & ->)|Hin'].
      + split; auto. split; auto. split; auto. intros x Hx Ex. destruct (Rows x Hx) as [[-> _]|[_ X]]; [|now destruct (X Ok)].
        destruct (String.eqb_spec (j_cron j) "") as [E|E]; [left; destruct (A1 E) as [-> _]; discriminate|right; split; auto; destruct (A2 E); lia].
      + destruct (V7 t q x x' Hin') as (B1 & B2 & B3 & B4). split; auto. split; auto. split; auto. intros y Hy Ey. destruct (Rows y Hy) as [[-> Ok]|[Hy' _]]; auto.
        destruct (B4 j Jr (eq_trans (eq_sym S1) Ey)) as [Z|[Z1 Z2]]; [contradiction|]. destruct (String.eqb_spec (j_cron j) "") as [E|E]; [left; destruct (A1 E) as [-> _]; discriminate|right; split; auto; lia].
    - intros t q x Hin. assert (Hin' : In (TCall t q x) h) by (destruct Hin as [Hin|Hin]; auto; destruct ok; discriminate).
      destruct (V8 t q x Hin') as (B1 & B2 & B3 & B4 & B5). split; [lia|]. split; auto. split; auto. split.
      + intros y Hy Ey. destruct (Old y Hy) as (z & Hz & (E1 & E2 & E3 & E4 & E5) & E6). destruct (B4 z Hz (eq_trans (eq_sym E1) Ey)) as ((F1 & F2 & F3 & F4 & F5) & F6). split; [repeat split; congruence|lia].
      + destruct B5 as [(tq & B5)|[(t' & x' & B5)|B5]]; [|right; left; exists t', x'; now right|right; right; now right].
        destruct (Nat.eq_dec q p) as [->|N]; [|left; exists tq; now rewrite updf_neq]. assert (x = j) by congruence. subst x. destruct ok; [right; left; exists now, j'; now left|right; right; now left].
    - intros t q x x' Hin. destruct Hin as [Hin|Hin].
      + destruct ok; [injection Hin as <- <- <- <-|discriminate]. destruct (V10 p todo j Pp) as (t & Z). exists t. now right.
      + destruct (V9 _ _ _ _ Hin) as (t' & Z). exists t'. now right.
    - intros q tq x H. destruct (Run q tq x H) as (_ & N2 & _). destruct (V10 q tq x N2) as (t & Z). exists t. now right.
    - intros x Hx. destruct (Old x Hx) as (y & Hy & (_ & _ & _ & E & _) & _). rewrite E. auto.
  Qed.

  Lemma step_tinv w a w' : tinv w -> texec a w = Some w' -> tinv w'.
  Proof.
    destruct w as [d now po lk rg h]. intros V H. destruct a; cbn [TimerModel.texec] in H.
    - injection H as <-. apply (keep_quiet d now po lk rg h (now + n) po rg V) with (extra := []); [lia|intros; tauto|apply (v_reg _ V)|intros ? []].
    - destruct (rg r) as [?|]; [discriminate|]. destruct (new_job parse svc key q payload now) as [e|j] eqn:Ej.
      + injection H as <-. apply (keep_quiet d now po lk rg h now po rg V) with (extra := [TReg svc key q e]); auto; try (intros; tauto); [apply (v_reg _ V)|]. intros x [<-|[]]. eauto.
      + assert (Cr : j_cron j <> ""%string -> parse (j_cron j) <> None).
        { unfold new_job in Ej. destruct q as [e|t]; [|destruct (t <? now); [discriminate|injection Ej as <-; cbn; tauto]]. unfold job_reset in Ej. cbn in Ej. destruct (String.eqb_spec e "") as [->|N]; [injection Ej as <-; cbn; tauto|]. destruct (parse e) as [f|] eqn:P; [injection Ej as <-; cbn; congruence|discriminate]. }
        destruct (job_found svc key d).
        * injection H as <-. apply (keep_quiet d now po lk rg h now po rg V) with (extra := [TReg svc key q RNil]); auto; try (intros; tauto); [apply (v_reg _ V)|]. intros x [<-|[]]. eauto.
        * injection H as <-. apply (keep_quiet d now po lk rg h now po _ V) with (extra := []); auto; try (intros; tauto); try (now intros ? []). intros r' q' j' Hr. destruct (updf_cases rg r (Some (q, j)) r') as [[-> E]|[N E]]; rewrite E in Hr; [injection Hr as <- <-; auto|]. exact (v_reg _ V r' q' j' Hr).
    - destruct (rg r) as [[q j]|] eqn:Er; [|discriminate].
      assert (Rg : forall r' q' j', updf rg r None r' = Some (q', j') -> j_cron j' <> ""%string -> parse (j_cron j') <> None).
      { intros r' q' j' Hr. destruct (updf_cases rg r None r') as [[-> E]|[N E]]; rewrite E in Hr; [discriminate|]. exact (v_reg _ V r' q' j' Hr). }
      destruct (if ok then job_insert zero_ok j d else None) as [d'|] eqn:Ei.
      + destruct ok; [|discriminate]. unfold job_insert in Ei. destruct (existsb _ (t_rows d)) eqn:Ex; [discriminate|]. destruct (_ && _); [discriminate|]. injection Ei as <-. injection H as <-.
        pose proof (v_reg _ V r q j Er) as Cj. pose proof (keep_quiet d now po lk rg h now po _ V (le_n _) (fun p t j => iff_refl _) Rg [TReg (j_service j) (j_key j) q RNil] ltac:(intros x [<-|[]]; eauto)) as K.
        destruct K as [V0 V1 V2 V3 V4 V5 V6 V7 V8 V9 V10 V11 V12]. cbn [tw_db tw_now tw_poll tw_locks tw_reg tw_hist app] in *. set (n := mkJ _ _ _ _ _ _ _).
        assert (In1 : forall x, In x (t_rows d ++ [n]) -> In x (t_rows d) \/ x = n) by (intros x Hx; apply in_app_iff in Hx; destruct Hx as [Hx|[<-|[]]]; auto).
        constructor; cbn [tw_db tw_now tw_poll tw_locks tw_reg tw_hist t_rows t_nid]; auto; try lia.
        * rewrite map_app. apply BusProof.NoDup_app_intro; auto; [constructor; [intros []|constructor]|]. intros x Hx [<-|[]]. apply in_map_iff in Hx. destruct Hx as (y & E & Hy). specialize (V2 y Hy). cbn in E. lia.
        * intros x Hx. destruct (In1 x Hx) as [Hy| ->]; [specialize (V2 x Hy); lia|]. cbn. lia.
        * rewrite map_app. apply BusProof.NoDup_app_intro; auto; [constructor; [intros []|constructor]|]. intros x Hx [<-|[]]. apply in_map_iff in Hx. destruct Hx as (y & E & Hy). rewrite <- not_true_iff_false in Ex. apply Ex. apply existsb_exists. exists y. split; auto. apply String.eqb_eq. auto.
        * intros p todo x Hx. destruct (V4 p todo x Hx) as (A & B & C). split; auto. apply in_app_iff; auto.
        * intros t p x x' Hx. destruct (V7 t p x x' Hx) as (A & B & C & D). split; auto. split; auto. split; auto. intros y Hy Ey. destruct (In1 y Hy) as [Hz| ->]; auto. exfalso. destruct (V9 t p x x' Hx) as (t' & Z). destruct (V8 t' p x Z) as (W & _). cbn in Ey. lia.
        * intros t p x Hx. destruct (V8 t p x Hx) as (A & B & C & D & E). split; [lia|]. split; auto. split; auto. split; auto. intros y Hy Ey. destruct (In1 y Hy) as [Hz| ->]; auto. cbn in Ey. lia.
        * intros x Hx. destruct (In1 x Hx) as [Hy| ->]; auto.
      + injection H as <-. apply (keep_quiet d now po lk rg h now po _ V) with (extra := [TReg (j_service j) (j_key j) q RSql]); auto; try (intros; tauto). intros x [<-|[]]. eauto.
    - destruct (existsb _ (t_rows d)) eqn:Ex; [discriminate|]. injection H as <-. unfold timer_cancel. destruct (String.eqb key ""); auto.
      destruct V as [V0 V1 V2 V3 V4 V5 V6 V7 V8 V9 V10 V11 V12]. cbn [tw_db tw_now tw_poll tw_locks tw_reg tw_hist] in *.
      assert (Sub : forall x, In x (filter (fun j => negb (String.eqb (j_key j) key)) (t_rows d)) -> In x (t_rows d)) by (intros x Hx; apply filter_In in Hx; tauto).
      constructor; cbn [tw_db tw_now tw_poll tw_locks tw_reg tw_hist t_rows t_nid]; auto; try lia.
      + now apply BusProof.NoDup_map_filter.
      + now apply BusProof.NoDup_map_filter.
      + intros p todo j Hj. destruct (V4 p todo j Hj) as (A & B & C). split; auto. apply filter_In. split; auto. destruct (String.eqb (j_key j) key) eqn:E; auto. exfalso. rewrite <- not_true_iff_false in Ex. apply Ex. apply existsb_exists. exists j. split; auto. rewrite E. cbn. now apply memb_In.
      + intros t p j j' Hj. destruct (V7 t p j j' Hj) as (A & B & C & D). auto 6.
      + intros t p j Hj. destruct (V8 t p j Hj) as (A & B & C & D & E). auto 7.
    - destruct (po p) as [|todo run] eqn:Ep; [|discriminate]. injection H as <-. apply (keep_quiet d now po lk rg h now _ rg V) with (extra := []); auto; try (now intros ? []); [|apply (v_reg _ V)].
      intros p' todo j. destruct (updf_cases po p (TPRun (due_jobs (svcs p) now d) None) p') as [[-> E]|[N E]]; rewrite E; [rewrite Ep; split; discriminate|tauto].
    - destruct (po p) as [|[|j todo] [run|]] eqn:Ep; try discriminate.
      + injection H as <-. apply (keep_quiet d now po lk rg h now _ rg V) with (extra := []); auto; try (now intros ? []); [|apply (v_reg _ V)].
        intros p' todo j. destruct (updf_cases po p TPIdle p') as [[-> E]|[N E]]; rewrite E; [rewrite Ep; split; discriminate|tauto].
      + assert (Skip : tinv (mkTW d now (updf po p (TPRun todo None)) lk rg h)).
        { apply (keep_quiet d now po lk rg h now _ rg V) with (extra := []); auto; try (now intros ? []); [|apply (v_reg _ V)].
          intros p' todo' j'. destruct (updf_cases po p (TPRun todo None) p') as [[-> E]|[N E]]; rewrite E; [rewrite Ep; split; discriminate|tauto]. }
        destruct (negb ok || memb (j_id j) lk) eqn:El; [injection H as <-; auto|]. destruct (job_lock (svcs p) now (j_id j) d) as [x|] eqn:Ej; [|injection H as <-; auto]. injection H as <-.
        apply job_lock_spec in Ej. destruct Ej as (Xr & Xi & Xd). apply orb_false_iff in El. destruct El as [_ El]. apply memb_nIn in El. rewrite <- Xi in El.
        destruct V as [V0 V1 V2 V3 V4 V5 V6 V7 V8 V9 V10 V11 V12]. cbn [tw_db tw_now tw_poll tw_locks tw_reg tw_hist] in *.
        assert (Run : forall q tq y, updf po p (TPRun todo (Some x)) q = TPRun tq (Some y) -> (q = p /\ y = x) \/ (q <> p /\ po q = TPRun tq (Some y) /\ j_id y <> j_id x)).
        { intros q tq y Hy. destruct (updf_cases po p (TPRun todo (Some x)) q) as [[-> E]|[N E]]; rewrite E in Hy; [injection Hy as <- <-; auto|]. right. split; auto. split; auto. intros Ei. apply El. rewrite <- Ei. apply (V4 q tq y Hy). }
        constructor; cbn [tw_db tw_now tw_poll tw_locks tw_reg tw_hist]; auto; try (rewrite ?Nid; lia).
        * intros q tq y Hy. destruct (Run q tq y Hy) as [[-> ->]|(A & B & C)]; [split; auto; split; auto; now left|]. destruct (V4 q tq y B) as (D & E & F). split; auto. split; auto. now right.
        * intros q1 q2 t1 t2 y y' H1 H2 E. destruct (Run _ _ _ H1) as [[-> ->]|(A & B & C)], (Run _ _ _ H2) as [[-> ->]|(A' & B' & C')]; auto; try congruence. eapply V5; eauto.
        * intros i [<-|Hi]; [exists p, todo, x; split; auto; apply updf_eq|]. destruct (V6 i Hi) as (q & tq & y & Q1 & Q2). exists q, tq, y. split; auto. rewrite updf_neq; auto. intros ->. congruence.
        * intros t q y y' [Hy|Hy]; [discriminate|]. now apply V7 in Hy.
        * intros t q y Hy. assert (Case : (t = now /\ q = p /\ y = x) \/ In (TCall t q y) h) by (destruct Hy as [Hy|Hy]; auto; injection Hy as <- <- <-; auto). destruct Case as [(-> & -> & ->)|Hin].
          -- split; [apply V2; auto|]. split; auto. split; auto. split.
             ++ intros z Hz Ez. assert (z = x) as -> by (apply (BusProof.NoDup_map_inj j_id (t_rows d)); auto). split; auto. repeat split.
             ++ left. exists todo. apply updf_eq.
          -- destruct (V8 t q y Hin) as (B1 & B2 & B3 & B4 & B5). split; auto. split; auto. split; auto. split; auto. destruct B5 as [(tq & B5)|[(t' & y' & B5)|B5]]; [|right; left; exists t', y'; now right|right; right; now right].
             left. exists tq. rewrite updf_neq; auto. intros ->. congruence.
        * intros t q y y' [Hy|Hy]; [discriminate|]. destruct (V9 _ _ _ _ Hy) as (t' & Z). exists t'. now right.
        * intros q tq y Hy. destruct (Run q tq y Hy) as [[-> ->]|(A & B & C)]; [exists now; now left|]. destruct (V10 q tq y B) as (t & Z). exists t. now right.
    - destruct (po p) as [|todo [j|]] eqn:Ep; try discriminate. destruct (if ok then job_save zero_ok (job_after parse now j) d else None) as [d'|] eqn:Es.
      + destruct ok; [|discriminate]. injection H as <-. unfold job_save in Es. destruct (_ && _); [discriminate|]. injection Es as <-. apply (end_inv d now po lk rg h p todo j _ true V Ep); auto.
      + injection H as <-. apply (end_inv d now po lk rg h p todo j d false V Ep); auto.
    - destruct (po p) as [|todo [j|]] eqn:Ep; injection H as <-.
      + apply (keep_quiet d now po lk rg h now _ rg V) with (extra := []); auto; try (now intros ? []); [|apply (v_reg _ V)]. intros p' todo j. destruct (updf_cases po p TPIdle p') as [[-> E]|[N E]]; rewrite E; [rewrite Ep; split; discriminate|tauto].
      + apply (end_inv d now po lk rg h p todo j d false V Ep); auto.
      + apply (keep_quiet d now po lk rg h now _ rg V) with (extra := []); auto; try (now intros ? []); [|apply (v_reg _ V)]. intros p' todo' j. destruct (updf_cases po p TPIdle p') as [[-> E]|[N E]]; rewrite E; [rewrite Ep; split; discriminate|tauto].
  Qed.
End Inv.

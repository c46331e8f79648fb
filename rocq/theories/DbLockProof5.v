(** Single calls of the database lock; an executable scheduler for examples. *)
From Verif Require Export DbLockProof4.

Section Calls.
  Variable ttl : nat.
  Lemma lock1_split key K tr r : calls (lock1 ttl key K) tr r -> exists tr1 r1 tr2, tr = tr1 ++ tr2 /\ calls (lock1 ttl key (fun x => Ret x)) tr1 r1 /\ calls (K r1) tr2 r /\
    length (filter is_select tr1) = 1.
  Proof.
    unfold lock1. intros H. inversion H as [|? id t1 ? H1 Ef| |]; subst. inversion H1 as [| | |? ? y t2 ? H2]; subst.
    assert (L : exists tr1 r1 tr2, t2 = tr1 ++ tr2 /\ calls (match y with
      | RNone => Now (fun ts => Stmt (QInsert key id ts) (fun r => match r with RCount _ => Ret (LOk (mkH key id)) | RDup => Ret LLocked | _ => Ret LErr end))
      | RRow row => Now (fun t => if t - lr_upd row <? ttl then Ret LLocked else Now (fun ts => Stmt (QUpdate key (lr_id row) id ts) (fun r =>
                     match r with RCount 0 => Ret LLocked | RCount (S _) => Ret (LOk (mkH key id)) | _ => Ret LErr end)))
      | _ => Ret LErr end) tr1 r1 /\ calls (K r1) tr2 r /\ length (filter is_select tr1) = 0).
    { destruct y as [| |row| |n].
      - exists [], LErr, t2. split; [|split; [|split]]; auto. constructor.
      - inversion H2 as [| |? ts t3 ? H3|]; subst. inversion H3 as [| | |? ? z t4 ? H4]; subst.
        exists [INow ts; IStmt (QInsert key id ts) z], (match z with RCount _ => LOk (mkH key id) | RDup => LLocked | _ => LErr end), t4.
        split; [|split; [|split]]; auto; [constructor; constructor|]; destruct z; try constructor; exact H4.
      - inversion H2 as [| |? t t3 ? H3|]; subst. destruct (t - lr_upd row <? ttl) eqn:E.
        + exists [INow t], LLocked, t3. split; [|split; [|split]]; auto. constructor. rewrite E. constructor.
        + inversion H3 as [| |? ts t4 ? H4|]; subst. inversion H4 as [| | |? ? z t5 ? H5]; subst.
          exists [INow t; INow ts; IStmt (QUpdate key (lr_id row) id ts) z], (match z with RCount 0 => LLocked | RCount (S _) => LOk (mkH key id) | _ => LErr end), t5.
          split; [|split; [|split]]; auto; [constructor; rewrite E; constructor; constructor|]; destruct z as [| | | |[|n]]; try constructor; exact H5.
      - exists [], LErr, t2. split; [|split; [|split]]; auto. constructor.
      - exists [], LErr, t2. split; [|split; [|split]]; auto. constructor. }
    destruct L as (tr1 & r1 & tr2 & -> & L1 & L2 & L3). exists (IId id :: IStmt (QSelect key) y :: tr1), r1, tr2. split; auto. split; [constructor; constructor; exact L1|]. split; auto.
    cbn. now rewrite L3.
  Qed.
  Lemma retry_split n key : forall tr r, calls (retry_do ttl n key) tr r -> exists atts,
    tr = concat (map fst atts) /\ Forall (fun x => calls (lock1 ttl key (fun y => Ret y)) (fst x) (snd x)) atts /\ length (filter is_select tr) = length atts /\
    1 <= length atts <= S n /\ (exists init t, atts = init ++ [(t, r)] /\ Forall (fun x => snd x = LLocked) init) /\ (length atts = S n \/ r <> LLocked).
  Proof.
    induction n as [|n IH]; intros tr r H; cbn [retry_do] in H; apply lock1_split in H; destruct H as (tr1 & r1 & tr2 & -> & H1 & H2 & H3).
    - inversion H2. subst. exists [(tr1, r)]. cbn. rewrite !app_nil_r. repeat split; auto. exists [], tr1. split; auto.
    - destruct r1 as [h| |].
      + inversion H2. subst. exists [(tr1, LOk h)]. cbn. rewrite !app_nil_r. repeat split; auto; try lia. { exists [], tr1. split; auto. } right. discriminate.
      + apply IH in H2. destruct H2 as (atts & -> & F & C & [L1 L2] & (init & t & E & I) & X). exists ((tr1, LLocked) :: atts). cbn. rewrite filter_app, app_length, H3, C. repeat split; auto; try lia.
        * exists ((tr1, LLocked) :: init), t. rewrite E. split; auto.
        * destruct X; auto.
      + inversion H2. subst. exists [(tr1, LErr)]. cbn. rewrite !app_nil_r. repeat split; auto; try lia. { exists [], tr1. split; auto. } right. discriminate.
  Qed.

  Lemma solo_stmt {R} c w q (f : reply -> prog R) w'' r : solo c w (Stmt q f) w'' r -> exists d,
    solo c (mkW (sql_effect q (w_tab w)) (w_now w + d) (w_next w) (w_cl w) (w_hist w ++ [mkEv c q (sql_reply q (w_tab w)) true (w_now w + d)])) (f (sql_reply q (w_tab w))) w'' r.
  Proof. intros H. inversion H as [|? ? d p' w' ? ? _ Ho Hs]; subst. cbn in Ho. injection Ho as <- <-. exists d. exact Hs. Qed.
  Lemma solo_now {R} c w (f : nat -> prog R) w'' r : solo c w (Now f) w'' r -> exists d, solo c (later d w) (f (w_now w + d)) w'' r.
  Proof. intros H. inversion H as [|? ? d p' w' ? ? _ Ho Hs]; subst. cbn in Ho. injection Ho as <- <-. exists d. exact Hs. Qed.
  Lemma solo_id {R} c w (f : nat -> prog R) w'' r : solo c w (NewID f) w'' r -> exists d, solo c (mkW (w_tab w) (w_now w + d) (S (w_next w)) (w_cl w) (w_hist w)) (f (w_next w)) w'' r.
  Proof. intros H. inversion H as [|? ? d p' w' ? ? _ Ho Hs]; subst. cbn in Ho. injection Ho as <- <-. exists d. exact Hs. Qed.
  Lemma solo_done {R} c w (x : R) w'' r : solo c w (Ret x) w'' r -> w'' = w /\ r = x.
  Proof. intros H. inversion H; subst; auto. discriminate. Qed.
  Lemma solo_later {R} c w (p : prog R) w' r : solo c w p w' r -> w_now w <= w_now w'.
  Proof.
    induction 1 as [|w p d p' w' w'' r Hr Ho Hs IH]; auto. assert (w_now w + d = w_now w'); [|lia].
    destruct p; cbn in Ho; injection Ho as <- <-; reflexivity.
  Qed.
  (** one attempt, alone *)
  Lemma lock1_solo c w key K w' r : solo c w (lock1 ttl key K) w' r -> exists x w1, solo c w1 (K x) w' r /\ w_now w <= w_now w1 /\
    match w_tab w key with
    | None => exists h ts, x = LOk h /\ h_key h = key /\ w_now w <= ts <= w_now w1 /\ w_tab w1 = tset (w_tab w) key (Some (mkRow (h_id h) ts))
    | Some row => exists t, w_now w <= t <= w_now w1 /\
        ((t - lr_upd row < ttl /\ x = LLocked /\ w_tab w1 = w_tab w) \/
         (ttl <= t - lr_upd row /\ exists h ts, x = LOk h /\ h_key h = key /\ w_now w <= ts <= w_now w1 /\ w_tab w1 = tset (w_tab w) key (Some (mkRow (h_id h) ts))))
    end.
  Proof.
    unfold lock1. intros H. apply solo_id in H. destruct H as (d1 & H). apply solo_stmt in H. destruct H as (d2 & H). cbn [w_tab w_now w_next w_cl w_hist sql_reply sql_effect] in H.
    destruct (w_tab w key) as [row|] eqn:E.
    - apply solo_now in H. destruct H as (d3 & H). cbn [w_tab w_now later] in H. destruct (w_now w + d1 + d2 + d3 - lr_upd row <? ttl) eqn:El.
      + apply Nat.ltb_lt in El. exists LLocked. eexists. split; [exact H|]. cbn. split; [lia|]. exists (w_now w + d1 + d2 + d3). split; [lia|]. left. auto.
      + apply Nat.ltb_ge in El. apply solo_now in H. destruct H as (d4 & H). apply solo_stmt in H. destruct H as (d5 & H). cbn [w_tab w_now w_next w_cl w_hist sql_reply sql_effect later] in H.
        rewrite E, Nat.eqb_refl in H. exists (LOk (mkH key (w_next w))). eexists. split; [exact H|]. cbn. split; [lia|]. exists (w_now w + d1 + d2 + d3). split; [lia|]. right. split; auto.
        exists (mkH key (w_next w)). eexists. split; [auto|]. split; auto. split; [|reflexivity]. lia.
    - apply solo_now in H. destruct H as (d3 & H). apply solo_stmt in H. destruct H as (d4 & H). cbn [w_tab w_now w_next w_cl w_hist sql_reply sql_effect later] in H. rewrite E in H.
      exists (LOk (mkH key (w_next w))). eexists. split; [exact H|]. cbn. split; [lia|]. exists (mkH key (w_next w)). eexists. split; [auto|]. split; auto. split; [|reflexivity]. lia.
  Qed.
  Lemma Lock_cases retry key : (Lock ttl retry key = lock1 ttl key (fun r => Ret r)) \/ Lock ttl retry key = retry_do ttl 4 key.
  Proof. destruct retry; auto. Qed.
  Lemma kont_ok n key h c w w' r : solo c w (match n with 0 => Ret (LOk h) | S n' => match LOk h with LLocked => retry_do ttl n' key | _ => Ret (LOk h) end end) w' r -> w' = w /\ r = LOk h.
  Proof. destruct n; intros H; apply solo_done in H; exact H. Qed.

  Lemma lock_free retry c w key w' r : solo c w (Lock ttl retry key) w' r -> w_tab w key = None ->
    exists h ts, r = LOk h /\ h_key h = key /\ w_now w <= ts /\ w_tab w' = tset (w_tab w) key (Some (mkRow (h_id h) ts)).
  Proof.
    intros H E. destruct (Lock_cases retry key) as [L|L]; rewrite L in H; [|cbn [retry_do] in H]; apply lock1_solo in H; destruct H as (x & w1 & H & _ & D); rewrite E in D; destruct D as (h & ts & -> & Hk & Ht & T).
    - apply solo_done in H. destruct H as [-> ->]. exists h, ts. repeat split; auto; lia.
    - apply solo_done in H. destruct H as [-> ->]. exists h, ts. repeat split; auto; lia.
  Qed.
  Lemma lock_expired retry c w key w' r row : solo c w (Lock ttl retry key) w' r -> w_tab w key = Some row -> lr_upd row + ttl <= w_now w ->
    exists h ts, r = LOk h /\ h_key h = key /\ w_now w <= ts /\ w_tab w' = tset (w_tab w) key (Some (mkRow (h_id h) ts)).
  Proof.
    intros H E Hx. destruct (Lock_cases retry key) as [L|L]; rewrite L in H; [|cbn [retry_do] in H]; apply lock1_solo in H; destruct H as (x & w1 & H & _ & D); rewrite E in D;
      destruct D as (t & Ht & [(D & _)|(_ & h & ts & -> & Hk & Hts & T)]); try lia.
    - apply solo_done in H. destruct H as [-> ->]. exists h, ts. repeat split; auto; lia.
    - apply solo_done in H. destruct H as [-> ->]. exists h, ts. repeat split; auto; lia.
  Qed.
  Lemma lock_refused retry c w key w' r row : solo c w (Lock ttl retry key) w' r -> w_tab w key = Some row -> w_now w' < lr_upd row + ttl -> lr_upd row <= w_now w ->
    r = LLocked /\ w_tab w' = w_tab w.
  Proof.
    intros H E Hx Hu.
    assert (R : forall n w, solo c w (retry_do ttl n key) w' r -> w_tab w key = Some row -> lr_upd row <= w_now w -> r = LLocked /\ w_tab w' = w_tab w).
    { induction n as [|n IH]; intros v Hv Ev Hv'; cbn [retry_do] in Hv; apply lock1_solo in Hv; destruct Hv as (x & w1 & Hv & Hle & D); rewrite Ev in D; destruct D as (t & Ht & D);
        pose proof (solo_later _ _ _ _ _ Hv); (destruct D as [(D & -> & T)|(D & _)]; [|lia]).
      - apply solo_done in Hv. destruct Hv as [-> ->]. auto.
      - destruct (IH w1 Hv) as [-> T']; [congruence|lia|]. split; auto. congruence. }
    destruct (Lock_cases retry key) as [L|L]; rewrite L in H; [|eauto].
    apply lock1_solo in H. destruct H as (x & w1 & H & Hle & D). rewrite E in D. destruct D as (t & Ht & D). pose proof (solo_later _ _ _ _ _ H).
    destruct D as [(D & -> & T)|(D & _)]; [|lia]. apply solo_done in H. destruct H as [-> ->]. auto.
  Qed.
End Calls.

(** * An executable scheduler *)
Inductive act := ATick (d : nat) | ACall (c : nat) (key : string) | ALock (c : nat) | AUnCall (c : nat) | AUn (c : nat) | ARenCall (c : nat) | ARen (c : nat) | ACrash (c : nat).
Definition act_cl (x : act) : option nat := match x with ATick _ => None | ACall c _ | ALock c | AUnCall c | AUn c | ARenCall c | ARen c | ACrash c => Some c end.
Definition do_act (ttl : nat) (retry runs : bool) (x : act) (w : world) : option world :=
  match x with
  | ATick d => Some (mkW (w_tab w) (w_now w + d) (w_next w) (w_cl w) (w_hist w))
  | ACall c key => match c_ph (w_cl w c) with PIdle => Some (upd_cl w c (mkC (PLock (Lock ttl retry key)) None)) | _ => None end
  | ALock c => match c_ph (w_cl w c) with PLock p => let '(p', w') := op c OOk p w in Some (upd_cl w' c (mkC (settle_lock p') (c_ren (w_cl w c)))) | _ => None end
  | AUnCall c => match c_ph (w_cl w c) with PHeld h => Some (upd_cl w c (mkC (PUnlock h (UnLock h)) (c_ren (w_cl w c)))) | _ => None end
  | AUn c => match c_ph (w_cl w c) with PUnlock h p => let '(p', w') := op c OOk p w in Some (upd_cl w' c (mkC (settle_unlock h p') (c_ren (w_cl w c)))) | _ => None end
  | ARenCall c => match runs, c_ph (w_cl w c), c_ren (w_cl w c) with true, PHeld h, None => Some (upd_cl w c (mkC (PHeld h) (Some (update h)))) | _, _, _ => None end
  | ARen c => match c_ren (w_cl w c) with Some p => let '(p', w') := op c OOk p w in Some (upd_cl w' c (mkC (c_ph (w_cl w c)) (settle_ren p'))) | _ => None end
  | ACrash c => Some (upd_cl w c (mkC PDead None))
  end.
Lemma do_act_step ttl retry runs x w w' : do_act ttl retry runs x w = Some w' -> step ttl retry runs w w'.
Proof.
  destruct x; cbn.
  - intros [= <-]. constructor.
  - destruct (c_ph (w_cl w c)) eqn:E; try discriminate. intros [= <-]. now constructor.
  - destruct (c_ph (w_cl w c)) eqn:E; try discriminate. destruct (op c OOk p w) as [p' w''] eqn:Eo. intros [= <-]. econstructor; eauto.
  - destruct (c_ph (w_cl w c)) eqn:E; try discriminate. intros [= <-]. now constructor.
  - destruct (c_ph (w_cl w c)) eqn:E; try discriminate. destruct (op c OOk p w) as [p' w''] eqn:Eo. intros [= <-]. econstructor; eauto.
  - destruct runs; try discriminate. destruct (c_ph (w_cl w c)) eqn:E; try discriminate. destruct (c_ren (w_cl w c)) eqn:Er; try discriminate. intros [= <-]. now constructor.
  - destruct (c_ren (w_cl w c)) eqn:E; try discriminate. destruct (op c OOk p w) as [p' w''] eqn:Eo. intros [= <-]. econstructor; eauto.
  - intros [= <-]. constructor.
Qed.
Lemma op_cl {R} c o (p : prog R) w p' w' : op c o p w = (p', w') -> w_cl w' = w_cl w.
Proof. destruct p; cbn; intros [= <- <-]; reflexivity. Qed.
Lemma do_act_cl ttl retry runs x w w' d : do_act ttl retry runs x w = Some w' -> act_cl x <> Some d -> w_cl w' d = w_cl w d.
Proof.
  intros H N. destruct x; cbn in H, N; repeat match type of H with
    | context [match c_ph ?a with _ => _ end] => destruct (c_ph a); try discriminate
    | context [match c_ren ?a with _ => _ end] => destruct (c_ren a); try discriminate
    | context [let '(_, _) := op ?c ?o ?p ?w in _] => destruct (op c o p w) as [p' w1] eqn:Eo; apply op_cl in Eo
    | context [if runs then _ else _] => destruct runs; try discriminate
    end; injection H as <-; cbn; auto; rewrite ?Eo; destruct (Nat.eqb_spec d c); congruence.
Qed.
(** runs a schedule of the clients below [n], checking [chk] at every state *)
Fixpoint sched (ttl : nat) (retry runs : bool) (chk : world -> bool) (n : nat) (xs : list act) (w : world) : option world :=
  if chk w then
    match xs with
    | [] => Some w
    | x :: t => if match act_cl x with Some c => c <? n | None => true end then
                match do_act ttl retry runs x w with Some w' => sched ttl retry runs chk n t w' | None => None end else None
    end
  else None.
Lemma sched_steps ttl retry runs chk (P : world -> Prop) n : (forall w, chk w = true -> (forall c, n <= c -> w_cl w c = mkC PIdle None) -> P w) ->
  forall xs w w', sched ttl retry runs chk n xs w = Some w' -> (forall c, n <= c -> w_cl w c = mkC PIdle None) ->
  forall w0, (w0 = w /\ P w \/ exists w1, steps_in ttl retry runs P w0 w1 /\ step ttl retry runs w1 w) -> steps_in ttl retry runs P w0 w' /\ (forall c, n <= c -> w_cl w' c = mkC PIdle None).
Proof.
  intros HP. induction xs as [|x t IH]; intros w w' H I w0 Hb; cbn [sched] in H; destruct (chk w) eqn:Ec; try discriminate.
  - injection H as <-. split; auto. destruct Hb as [[-> Hp]|(w1 & H1 & H2)]; [now constructor|]. econstructor; eauto.
  - destruct (match act_cl x with Some c => c <? n | None => true end) eqn:En; [|discriminate]. destruct (do_act ttl retry runs x w) as [w2|] eqn:Ed; [|discriminate].
    assert (I2 : forall c, n <= c -> w_cl w2 c = mkC PIdle None).
    { intros c Hc. rewrite (do_act_cl _ _ _ _ _ _ c Ed); auto. intros E. rewrite E in En. apply Nat.ltb_lt in En. lia. }
    apply (IH w2 w' H I2). right. exists w. split; [|eapply do_act_step; eauto]. destruct Hb as [[-> Hp]|(w1 & H1 & H2)]; [now constructor|]. econstructor; eauto.
Qed.
Lemma steps_in_steps ttl retry runs P w w' : steps_in ttl retry runs P w w' -> steps ttl retry runs w w'.
Proof. induction 1; econstructor; eauto. Qed.

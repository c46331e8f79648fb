(** Invariants of the database lock over all schedules. *)
From Verif Require Export DbLockModel DbLockSpec.

(** * The places a Lock call can be at *)
Inductive stg := T0 | T1 (id : nat) | T2 (id : nat) | T3 (id ts : nat) | T4 (id : nat) (row : lrow) | T5 (id : nat) (row : lrow) | T6 (id : nat) (row : lrow) (ts : nat).
Section Stages.
  Variable ttl : nat.
  Definition sp (K : lockres -> prog lockres) (key : string) (s : stg) : prog lockres :=
    match s with
    | T0 => lock1 ttl key K
    | T1 id => Stmt (QSelect key) (fun r =>
      match r with
      | RNone => Now (fun ts => Stmt (QInsert key id ts) (fun r =>
                   match r with RCount _ => K (LOk (mkH key id)) | RDup => K LLocked | _ => K LErr end))
      | RRow row => Now (fun t =>
                   if t - lr_upd row <? ttl then K LLocked
                   else Now (fun ts => Stmt (QUpdate key (lr_id row) id ts) (fun r =>
                     match r with RCount 0 => K LLocked | RCount (S _) => K (LOk (mkH key id)) | _ => K LErr end)))
      | _ => K LErr
      end)
    | T2 id => Now (fun ts => Stmt (QInsert key id ts) (fun r =>
                   match r with RCount _ => K (LOk (mkH key id)) | RDup => K LLocked | _ => K LErr end))
    | T3 id ts => Stmt (QInsert key id ts) (fun r =>
                   match r with RCount _ => K (LOk (mkH key id)) | RDup => K LLocked | _ => K LErr end)
    | T4 id row => Now (fun t =>
                   if t - lr_upd row <? ttl then K LLocked
                   else Now (fun ts => Stmt (QUpdate key (lr_id row) id ts) (fun r =>
                     match r with RCount 0 => K LLocked | RCount (S _) => K (LOk (mkH key id)) | _ => K LErr end)))
    | T5 id row => Now (fun ts => Stmt (QUpdate key (lr_id row) id ts) (fun r =>
                     match r with RCount 0 => K LLocked | RCount (S _) => K (LOk (mkH key id)) | _ => K LErr end))
    | T6 id row ts => Stmt (QUpdate key (lr_id row) id ts) (fun r =>
                     match r with RCount 0 => K LLocked | RCount (S _) => K (LOk (mkH key id)) | _ => K LErr end)
    end.
  (** the continuations that occur: no retry, or [n] retries left *)
  Inductive okK (key : string) : (lockres -> prog lockres) -> Prop :=
  | okK_ret : okK key (fun r => Ret r)
  | okK_retry n : okK key (fun r => match n with 0 => Ret r | S n' => match r with LLocked => retry_do ttl n' key | _ => Ret r end end).
  Lemma Lock_at retry key : exists K, okK key K /\ Lock ttl retry key = sp K key T0.
  Proof. destruct retry; [exists (fun r => match 4 with 0 => Ret r | S n' => match r with LLocked => retry_do ttl n' key | _ => Ret r end end); split; [exact (okK_retry key 4)|reflexivity]|eexists; split; [constructor|reflexivity]]. Qed.

  (** * Views of clients *)
  Inductive view := V0 | VL (key : string) (s : stg) | VH (h : handle) | VU (h : handle).
  Inductive sees : phase -> view -> Prop :=
  | sees_idle : sees PIdle V0
  | sees_failed r : sees (PFailed r) V0
  | sees_done b : sees (PDone b) V0
  | sees_dead : sees PDead V0
  | sees_lock K key s : okK key K -> sees (PLock (sp K key s)) (VL key s)
  | sees_held h : sees (PHeld h) (VH h)
  | sees_unlock h : sees (PUnlock h (UnLock h)) (VU h).
  Inductive rview := R0 | R1 (h : handle) | R2 (h : handle) (ts : nat).
  Inductive rsees : option (prog bool) -> rview -> Prop :=
  | rsees_none : rsees None R0
  | rsees_now h : rsees (Some (update h)) (R1 h)
  | rsees_stmt h ts : rsees (Some (Stmt (QUpdate (h_key h) (h_id h) (h_id h) ts) (fun r => match r with RCount (S _) => Ret true | _ => Ret false end))) (R2 h ts).

  Lemma settle_locked key K r : okK key K -> (forall h, r <> LOk h) -> exists v, sees (settle_lock (K r)) v /\ (v = V0 \/ v = VL key T0).
  Proof.
    intros HK Hr. destruct HK as [|n].
    - exists V0. cbn. destruct r; [now destruct (Hr h)|..]; split; auto; constructor.
    - destruct n as [|n']; [exists V0; cbn; destruct r; [now destruct (Hr h)|..]; split; auto; constructor|].
      destruct r; [now destruct (Hr h)| |exists V0; split; auto; constructor].
      exists (VL key T0). split; auto. destruct n' as [|m]; [exact (sees_lock _ key T0 (okK_retry key 0))|exact (sees_lock _ key T0 (okK_retry key (S m)))].
  Qed.
  Lemma settle_ok key K h : okK key K -> settle_lock (K (LOk h)) = PHeld h.
  Proof. intros [|[|n]]; reflexivity. Qed.

  (** * The abstract machine *)
  Record aw := mkA { a_tab : ltable; a_now : nat; a_next : nat; a_v : nat -> view; a_r : nat -> rview; a_hist : list levent }.
  Definition fset {A} (f : nat -> A) (c : nat) (x : A) : nat -> A := fun c' => if Nat.eqb c' c then x else f c'.
  (** a statement is executed by [c] with outcome [o]; the new views are [v], [r] *)
  Definition rep_of (o : outc) (q : sqlq) (t : ltable) : reply := match o with OOk => sql_reply q t | _ => RErr end.
  Definition eff_of (o : outc) (q : sqlq) (t : ltable) : ltable := match o with OFail => t | _ => sql_effect q t end.
  Definition done_of (o : outc) : bool := match o with OFail => false | _ => true end.
  Definition a_exec (a : aw) (c : nat) (o : outc) (q : sqlq) (v : nat -> view) (r : nat -> rview) : aw :=
    mkA (eff_of o q (a_tab a)) (a_now a) (a_next a) v r (a_hist a ++ [mkEv c q (rep_of o q (a_tab a)) (done_of o) (a_now a)]).
  Definition a_local (a : aw) (v : nat -> view) (r : nat -> rview) : aw := mkA (a_tab a) (a_now a) (a_next a) v r (a_hist a).
  Definition retried (key : string) (v : view) : Prop := v = V0 \/ v = VL key T0.

  Inductive astep (runs : bool) (a : aw) : aw -> Prop :=
  | a_tick d : astep runs a (mkA (a_tab a) (a_now a + d) (a_next a) (a_v a) (a_r a) (a_hist a))
  | a_call c key : a_v a c = V0 -> astep runs a (a_local a (fset (a_v a) c (VL key T0)) (fset (a_r a) c R0))
  | a_t0 c key : a_v a c = VL key T0 ->
      astep runs a (mkA (a_tab a) (a_now a) (S (a_next a)) (fset (a_v a) c (VL key (T1 (a_next a)))) (a_r a) (a_hist a))
  | a_t1 c key id o v : a_v a c = VL key (T1 id) ->
      match rep_of o (QSelect key) (a_tab a) with RNone => v = VL key (T2 id) | RRow row => v = VL key (T4 id row) | _ => retried key v end ->
      astep runs a (a_exec a c o (QSelect key) (fset (a_v a) c v) (a_r a))
  | a_t2 c key id : a_v a c = VL key (T2 id) -> astep runs a (a_local a (fset (a_v a) c (VL key (T3 id (a_now a)))) (a_r a))
  | a_t3 c key id ts o v : a_v a c = VL key (T3 id ts) ->
      match rep_of o (QInsert key id ts) (a_tab a) with RCount _ => v = VH (mkH key id) | _ => retried key v end ->
      astep runs a (a_exec a c o (QInsert key id ts) (fset (a_v a) c v) (a_r a))
  | a_t4_fail c key id row v : a_v a c = VL key (T4 id row) -> a_now a - lr_upd row < ttl -> retried key v ->
      astep runs a (a_local a (fset (a_v a) c v) (a_r a))
  | a_t4_ok c key id row : a_v a c = VL key (T4 id row) -> ttl <= a_now a - lr_upd row ->
      astep runs a (a_local a (fset (a_v a) c (VL key (T5 id row))) (a_r a))
  | a_t5 c key id row : a_v a c = VL key (T5 id row) -> astep runs a (a_local a (fset (a_v a) c (VL key (T6 id row (a_now a)))) (a_r a))
  | a_t6 c key id row ts o v : a_v a c = VL key (T6 id row ts) ->
      match rep_of o (QUpdate key (lr_id row) id ts) (a_tab a) with RCount (S _) => v = VH (mkH key id) | _ => retried key v end ->
      astep runs a (a_exec a c o (QUpdate key (lr_id row) id ts) (fset (a_v a) c v) (a_r a))
  | a_unlock_call c h : a_v a c = VH h -> astep runs a (a_local a (fset (a_v a) c (VU h)) (a_r a))
  | a_unlock c h o : a_v a c = VU h -> astep runs a (a_exec a c o (QDelete (h_key h) (h_id h)) (fset (a_v a) c V0) (a_r a))
  | a_ren_call c h : runs = true -> a_v a c = VH h -> a_r a c = R0 -> astep runs a (a_local a (a_v a) (fset (a_r a) c (R1 h)))
  | a_ren1 c h : a_r a c = R1 h -> astep runs a (a_local a (a_v a) (fset (a_r a) c (R2 h (a_now a))))
  | a_ren2 c h ts o : a_r a c = R2 h ts -> astep runs a (a_exec a c o (QUpdate (h_key h) (h_id h) (h_id h) ts) (a_v a) (fset (a_r a) c R0))
  | a_crash c : astep runs a (a_local a (fset (a_v a) c V0) (fset (a_r a) c R0)).

  Definition rel (w : world) (a : aw) : Prop :=
    w_tab w = a_tab a /\ w_now w = a_now a /\ w_next w = a_next a /\ w_hist w = a_hist a /\
    (forall c, sees (c_ph (w_cl w c)) (a_v a c)) /\ (forall c, rsees (c_ren (w_cl w c)) (a_r a c)).
  Lemma sees_upd w c x v : (forall c, sees (c_ph (w_cl w c)) (v c)) -> forall y, sees (c_ph x) y ->
    forall c', sees (c_ph (w_cl (upd_cl w c x) c')) (fset v c y c').
  Proof. intros H y Hy c'. unfold fset. cbn. destruct (Nat.eqb c' c); auto. Qed.
  Lemma rsees_upd w c x v : (forall c, rsees (c_ren (w_cl w c)) (v c)) -> forall y, rsees (c_ren x) y ->
    forall c', rsees (c_ren (w_cl (upd_cl w c x) c')) (fset v c y c').
  Proof. intros H y Hy c'. unfold fset. cbn. destruct (Nat.eqb c' c); auto. Qed.
  Lemma rsees_same w c x v : (forall c, rsees (c_ren (w_cl w c)) (v c)) -> c_ren x = c_ren (w_cl w c) ->
    forall c', rsees (c_ren (w_cl (upd_cl w c x) c')) (v c').
  Proof. intros H E c'. cbn. destruct (Nat.eqb c' c) eqn:Ec; auto. apply Nat.eqb_eq in Ec. subst. now rewrite E. Qed.
  Lemma sees_same w c x v : (forall c, sees (c_ph (w_cl w c)) (v c)) -> c_ph x = c_ph (w_cl w c) ->
    forall c', sees (c_ph (w_cl (upd_cl w c x) c')) (v c').
  Proof. intros H E c'. cbn. destruct (Nat.eqb c' c) eqn:Ec; auto. apply Nat.eqb_eq in Ec. subst. now rewrite E. Qed.

  Lemma op_stmt {R} c o q (f : reply -> prog R) w p' w' : op c o (Stmt q f) w = (p', w') ->
    p' = f (rep_of o q (w_tab w)) /\ w' = mkW (eff_of o q (w_tab w)) (w_now w) (w_next w) (w_cl w) (w_hist w ++ [mkEv c q (rep_of o q (w_tab w)) (done_of o) (w_now w)]).
  Proof. cbn. intros [= <- <-]. destruct o; auto. Qed.

  Lemma simulates retry runs w w' a : step ttl retry runs w w' -> rel w a -> exists a', astep runs a a' /\ rel w' a'.
  Proof.
    intros H (Et & En & Ex & Eh & S & RS). destruct H.
    - eexists. split; [apply (a_tick runs a d)|]. do 4 (split; [cbn; congruence|]). auto.
    - eexists. split; [apply (a_call runs a c key)|].
      + specialize (S c). rewrite H in S. now inversion S.
      + do 4 (split; [cbn; congruence|]). split; [|apply rsees_upd; auto; constructor]. apply sees_upd; auto. cbn.
        destruct (Lock_at retry key) as (K & HK & ->). now constructor.
    - pose proof (S c) as Sc. rewrite H in Sc. inversion Sc as [| | | |K key s HK Ep Ev| |]. subst p. symmetry in Ev.
      assert (SL : forall v q0, sees (settle_lock p') v -> w_cl w' = w_cl w -> a_v q0 = fset (a_v a) c v -> a_r q0 = a_r a ->
                   w_tab w' = a_tab q0 -> w_now w' = a_now q0 -> w_next w' = a_next q0 -> w_hist w' = a_hist q0 ->
                   rel (upd_cl w' c (mkC (settle_lock p') (c_ren (w_cl w c)))) q0).
      { intros v q0 Hv Ecl Eqv Eqr E1 E2 E3 E4. do 4 (split; [cbn; auto|]). rewrite Eqv, Eqr. split.
        - apply sees_upd; auto. now rewrite Ecl.
        - apply rsees_same; [now rewrite Ecl|]. cbn. now rewrite Ecl. }
      destruct s; cbn [sp] in *.
      + cbn in H0. injection H0 as <- <-. eexists. split; [eapply (a_t0 runs a c key Ev)|]. eapply SL with (v := VL key (T1 (a_next a))); cbn; auto; try congruence.
        rewrite Ex. exact (sees_lock K key (T1 (a_next a)) HK).
      + apply op_stmt in H0. destruct H0 as [-> ->]. rewrite Et in *.
        assert (exists v, sees (settle_lock match rep_of o (QSelect key) (a_tab a) with
            | RNone => sp K key (T2 id) | RRow row => sp K key (T4 id row) | _ => K LErr end) v /\
            match rep_of o (QSelect key) (a_tab a) with RNone => v = VL key (T2 id) | RRow row => v = VL key (T4 id row) | _ => retried key v end) as (v & Hv & Hm).
        { destruct (rep_of o (QSelect key) (a_tab a)); try (apply (settle_locked key K LErr HK); discriminate).
          - eexists. split; [exact (sees_lock K key (T2 id) HK)|auto].
          - eexists. split; [exact (sees_lock K key (T4 id r) HK)|auto]. }
        eexists. split; [eapply (a_t1 runs a c key id o v Ev Hm)|]. eapply SL with (v := v); [exact Hv|..]; cbn; auto; try congruence.
      + cbn in H0. injection H0 as <- <-. eexists. split; [eapply (a_t2 runs a c key id Ev)|]. eapply SL with (v := VL key (T3 id (a_now a))); cbn; auto.
        rewrite En. exact (sees_lock K key (T3 id (a_now a)) HK).
      + apply op_stmt in H0. destruct H0 as [-> ->]. rewrite Et in *.
        assert (exists v, sees (settle_lock match rep_of o (QInsert key id ts) (a_tab a) with
            | RCount _ => K (LOk (mkH key id)) | RDup => K LLocked | _ => K LErr end) v /\
            match rep_of o (QInsert key id ts) (a_tab a) with RCount _ => v = VH (mkH key id) | _ => retried key v end) as (v & Hv & Hm).
        { destruct (rep_of o (QInsert key id ts) (a_tab a)); try (apply (settle_locked key K LErr HK); discriminate); [apply (settle_locked key K LLocked HK); discriminate|].
          eexists. split; [|reflexivity]. rewrite (settle_ok key K _ HK). constructor. }
        eexists. split; [eapply (a_t3 runs a c key id ts o v Ev Hm)|]. eapply SL with (v := v); [exact Hv|..]; cbn; auto; try congruence.
      + cbn [op] in H0. injection H0 as <- <-. destruct (w_now w - lr_upd row <? ttl) eqn:E.
        * apply Nat.ltb_lt in E. destruct (settle_locked key K LLocked HK) as (v & Hv & Hm); [discriminate|].
          eexists. split; [eapply (a_t4_fail runs a c key id row v Ev); auto; congruence|]. eapply SL with (v := v); [exact Hv|..]; cbn; auto; try congruence.
        * apply Nat.ltb_ge in E. eexists. split; [eapply (a_t4_ok runs a c key id row Ev); congruence|]. eapply SL with (v := VL key (T5 id row)); cbn; auto.
          exact (sees_lock K key (T5 id row) HK).
      + cbn in H0. injection H0 as <- <-. eexists. split; [eapply (a_t5 runs a c key id row Ev)|]. eapply SL with (v := VL key (T6 id row (a_now a))); cbn; auto.
        rewrite En. exact (sees_lock K key (T6 id row (a_now a)) HK).
      + apply op_stmt in H0. destruct H0 as [-> ->]. rewrite Et in *.
        assert (exists v, sees (settle_lock match rep_of o (QUpdate key (lr_id row) id ts) (a_tab a) with
            | RCount 0 => K LLocked | RCount (Datatypes.S _) => K (LOk (mkH key id)) | _ => K LErr end) v /\
            match rep_of o (QUpdate key (lr_id row) id ts) (a_tab a) with RCount (Datatypes.S _) => v = VH (mkH key id) | _ => retried key v end) as (v & Hv & Hm).
        { destruct (rep_of o (QUpdate key (lr_id row) id ts) (a_tab a)); try (apply (settle_locked key K LErr HK); discriminate).
          destruct n; [apply (settle_locked key K LLocked HK); discriminate|].
          eexists. split; [|reflexivity]. rewrite (settle_ok key K _ HK). constructor. }
        eexists. split; [eapply (a_t6 runs a c key id row ts o v Ev Hm)|]. eapply SL with (v := v); [exact Hv|..]; cbn; auto; try congruence.
    - pose proof (S c) as Sc. rewrite H in Sc. inversion Sc as [| | | | |h' E1 E2|]. subst h'. symmetry in E2.
      eexists. split; [eapply (a_unlock_call runs a c h E2)|]. do 4 (split; [cbn; congruence|]). split; [|now apply rsees_same].
      apply sees_upd; auto. cbn. constructor.
    - pose proof (S c) as Sc. rewrite H in Sc. inversion Sc as [| | | | | |h' E1 E2]. subst h' p. symmetry in E2.
      unfold UnLock in H0. apply op_stmt in H0. destruct H0 as [-> ->]. rewrite Et.
      eexists. split; [eapply (a_unlock runs a c h o E2)|]. do 4 (split; [cbn; congruence|]). split.
      + apply sees_upd; auto. cbn [c_ph]. destruct (rep_of o (QDelete (h_key h) (h_id h)) (a_tab a)) as [| | | |[|n]]; constructor.
      + apply rsees_same; auto.
    - pose proof (S c) as Sc. rewrite H0 in Sc. inversion Sc as [| | | | |h' E1 E2|]. subst h'. symmetry in E2.
      pose proof (RS c) as Rc. rewrite H1 in Rc. inversion Rc as [E3| |].
      eexists. split; [eapply (a_ren_call runs a c h); auto|]. do 4 (split; [cbn; congruence|]). split.
      + apply sees_same; auto.
      + apply rsees_upd; auto. constructor.
    - pose proof (RS c) as Rc. rewrite H in Rc. inversion Rc as [|h E1 E2|h ts E1 E2]; subst p; symmetry in E2.
      + cbn in H0. injection H0 as <- <-. eexists. split; [eapply (a_ren1 runs a c h E2)|]. do 4 (split; [cbn; congruence|]). split.
        * apply sees_same; auto.
        * apply rsees_upd; auto. cbn. rewrite En. constructor.
      + apply op_stmt in H0. destruct H0 as [-> ->]. rewrite Et. eexists. split; [eapply (a_ren2 runs a c h ts o E2)|]. do 4 (split; [cbn; congruence|]). split.
        * apply sees_same; auto.
        * apply rsees_upd; auto. cbn [c_ren]. destruct (rep_of o (QUpdate (h_key h) (h_id h) (h_id h) ts) (a_tab a)) as [| | | |[|n]]; constructor.
    - eexists. split; [eapply (a_crash runs a c)|]. do 4 (split; [cbn; congruence|]). split; [apply sees_upd|apply rsees_upd]; auto; constructor.
  Qed.
End Stages.

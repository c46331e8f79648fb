(** C70: the Redis lock. *)
From Verif Require Import RedisModel RedisSpec.
Local Open Scope string_scope.
Local Open Scope list_scope.
Local Open Scope nat_scope.

Section Inv.
  Variable ttl : nat -> nat.
  Definition token_of (x : client) : option nat := match x with CIdle => None | CTrying _ t _ _ _ => Some t | CHolding _ t _ => Some t | CReleasing _ t => Some t end.
  Record rinv (w : rworld) : Prop := {
    v_fresh : forall c t, token_of (rw_cl w c) = Some t -> t < rw_tok w;
    v_uniq : forall c c' t, token_of (rw_cl w c) = Some t -> token_of (rw_cl w c') = Some t -> c = c';
    v_hold : forall c k t s, rw_cl w c = CHolding k t s -> s <= rw_now w /\ (rw_now w < s + ttl c -> rw_db w k = Some (mkRE t (s + ttl c)));
    v_own : forall c k t s e, rw_cl w c = CHolding k t s -> rw_db w k = Some e -> re_tok e = t -> re_exp e = s + ttl c;
    v_wait : forall c k t s l a, rw_cl w c = CTrying k t s l a -> l <= 30 /\ s + (30 - l) * 100 <= a;
    v_db : forall k e, rw_db w k = Some e -> exists t c, was_set (rw_hist w) t c k /\ re_exp e = t + ttl c;
    v_locked : forall s t c k, In (ELock s t c k LLocked) (rw_hist w) -> s + 3000 <= t }.
  Lemma rinv0 : rinv rworld0.
  Proof. constructor; cbn; try discriminate; tauto. Qed.
  Lemma set_cl_eq cl c x : set_cl cl c x c = x.
  Proof. unfold set_cl. now rewrite Nat.eqb_refl. Qed.
  Lemma was_set_cons x h t c k : was_set h t c k -> was_set (x :: h) t c k.
  Proof. intros [(s & H)|H]; [left; exists s|right]; now right. Qed.

  (** a client moves to a state without a new token; the database is as before *)
  Lemma rinv_client db now cl tk h c x h' : rinv (mkRW db now cl tk h) -> (forall t, token_of x = Some t -> token_of (cl c) = Some t) ->
    (forall k t s, x <> CHolding k t s) -> (forall k t s l a, x = CTrying k t s l a -> l <= 30 /\ s + (30 - l) * 100 <= a) ->
    (forall t c k, was_set h t c k -> was_set h' t c k) -> (forall s t c k, In (ELock s t c k LLocked) h' -> In (ELock s t c k LLocked) h \/ s + 3000 <= t) ->
    rinv (mkRW db now (set_cl cl c x) tk h').
  Proof.
    intros [F U H O W D L] T1 T2 T3 T4 T5. cbn in *.
    assert (Tk : forall c' t, token_of (set_cl cl c x c') = Some t -> token_of (cl c') = Some t) by (intros c' t; unfold set_cl; destruct (Nat.eqb_spec c' c) as [->|]; auto).
    constructor; cbn; eauto.
    - intros c' k t s E. unfold set_cl in E. destruct (Nat.eqb_spec c' c) as [->|]; eauto. exfalso. eapply T2; eauto.
    - intros c' k t s e E. unfold set_cl in E. destruct (Nat.eqb_spec c' c) as [->|]; eauto. exfalso. eapply T2; eauto.
    - intros c' k t s l a E. unfold set_cl in E. destruct (Nat.eqb_spec c' c) as [->|]; eauto.
    - intros k e E. destruct (D k e E) as (t & c' & X & Y). eauto.
    - intros s t c' k X. destruct (T5 s t c' k X); eauto.
  Qed.
  (** the server's key is replaced or deleted by the client with its own token, while no other client's valid key is there *)
  Lemma rinv_db db now cl tk h k c tok x h' y : rinv (mkRW db now cl tk h) -> token_of (cl c) = Some tok ->
    (match live (mkRW db now cl tk h) k with None => True | Some t => t = tok end) ->
    (forall t, token_of y = Some t -> t = tok) ->
    (forall k' t s, y = CHolding k' t s -> k' = k /\ s <= now /\ x = Some (mkRE t (s + ttl c))) ->
    (forall k' t s l a, y = CTrying k' t s l a -> l <= 30 /\ s + (30 - l) * 100 <= a) ->
    (forall t c k, was_set h t c k -> was_set h' t c k) -> (forall s t c k, In (ELock s t c k LLocked) h' -> In (ELock s t c k LLocked) h) ->
    (forall e, x = Some e -> re_tok e = tok /\ exists t c, was_set h' t c k /\ re_exp e = t + ttl c) ->
    rinv (mkRW (set_key db k x) now (set_cl cl c y) tk h').
  Proof.
    intros [F U H O W D L] T0 T1 T2 T3 T4 T5 T6 T7. cbn [rw_db rw_now rw_cl rw_tok rw_hist] in *.
    assert (Tk : forall c' t, token_of (set_cl cl c y c') = Some t -> token_of (cl c') = Some t) by (intros c' t; unfold set_cl; destruct (Nat.eqb_spec c' c) as [->|]; auto; intros E; rewrite (T2 t E); auto).
    constructor; cbn; eauto.
    - intros c' k' t s E. unfold set_cl in E. destruct (Nat.eqb_spec c' c) as [->|N].
      + destruct (T3 k' t s E) as (-> & E1 & E2). split; auto. intros X. unfold set_key. rewrite String.eqb_refl. auto.
      + destruct (H c' k' t s E) as [H1 H2]. split; auto. intros X. unfold set_key. destruct (String.eqb_spec k' k) as [->|]; auto. exfalso. specialize (H2 X). unfold live in T1. cbn [rw_db rw_now] in T1. rewrite H2 in T1. cbn [re_exp re_tok] in T1.
        apply Nat.ltb_lt in X. rewrite X in T1. subst t. apply N. apply (U c' c tok); auto. now rewrite E.
    - intros c' k' t s e E Ed Et. unfold set_cl in E. unfold set_key in Ed. destruct (Nat.eqb_spec c' c) as [->|N].
      + destruct (T3 k' t s E) as (-> & E1 & E2). rewrite String.eqb_refl, E2 in Ed. injection Ed as <-. auto.
      + destruct (String.eqb_spec k' k) as [->|]; eauto. exfalso. destruct (T7 e Ed) as [X _]. apply N. apply (U c' c tok); auto. rewrite E. cbn. congruence.
    - intros c' k' t s l a E. unfold set_cl in E. destruct (Nat.eqb_spec c' c) as [->|]; eauto.
    - intros k' e E. unfold set_key in E. destruct (String.eqb_spec k' k) as [->|]; [apply T7; auto|]. destruct (D k' e E) as (t & c' & X & Y). eauto.
  Qed.
  Lemma set_same cl (c : nat) : forall c', set_cl cl c (cl c) c' = cl c'.
  Proof. intros c'. unfold set_cl. destruct (Nat.eqb_spec c' c) as [->|]; auto. Qed.
  Lemma rinv_ext db now cl cl' tk h : (forall c, cl' c = cl c) -> rinv (mkRW db now cl tk h) -> rinv (mkRW db now cl' tk h).
  Proof. intros X [F U H O W D L]. constructor; cbn in *; intros; rewrite ?X in *; eauto. Qed.

  Lemma rinv_step w a w' : rinv w -> rexec ttl a w = Some w' -> rinv w'.
  Proof.
    intros I Ex. pose proof I as II. destruct w as [db now cl tk h]. destruct II as [F U H O W D L]. cbn [rw_db rw_now rw_cl rw_tok rw_hist] in *.
    destruct a as [n|c key|c a|c|c a|c]; cbn [rexec] in Ex.
    - injection Ex as <-. constructor; cbn; eauto. intros c k t s E. destruct (H c k t s E) as [H1 H2]. split; [lia|]. intros X. apply H2. lia.
    - destruct (cl c) eqn:Ec; try discriminate. injection Ex as <-.
      assert (Tk : forall c' t, token_of (set_cl cl c (CTrying key tk now 30 now) c') = Some t -> (c' = c /\ t = tk) \/ (c' <> c /\ token_of (cl c') = Some t)).
      { intros c' t. unfold set_cl. destruct (Nat.eqb_spec c' c) as [->|]; cbn; auto. intros [= <-]. auto. }
      constructor; cbn; eauto.
      + intros c' t E. destruct (Tk c' t E) as [[_ ->]|[_ X]]; [lia|]. specialize (F c' t X). lia.
      + intros c1 c2 t E1 E2. destruct (Tk c1 t E1) as [[-> ->]|[N1 X1]], (Tk c2 _ E2) as [[-> X]|[N2 X2]]; auto; [specialize (F c2 _ X2); lia|subst t; specialize (F c1 _ X1); lia|eauto].
      + intros c' k t s E. unfold set_cl in E. destruct (Nat.eqb_spec c' c) as [->|]; [discriminate|eauto].
      + intros c' k t s e E. unfold set_cl in E. destruct (Nat.eqb_spec c' c) as [->|]; [discriminate|eauto].
      + intros c' k t s l a E. unfold set_cl in E. destruct (Nat.eqb_spec c' c) as [->|]; [|eauto]. injection E as <- <- <- <- <-. lia.
    - destruct (cl c) as [|key tok start lf at_| |] eqn:Ec; try discriminate. destruct (Nat.ltb_spec now at_) as [|Le]; [discriminate|].
      destruct (W c key tok start lf at_ Ec) as [W1 W2].
      assert (Er : forall h0, (forall s t c k, In (ELock s t c k LLocked) h0 -> In (ELock s t c k LLocked) h) -> (forall t c k, was_set h t c k -> was_set h0 t c k) -> rinv (mkRW db now (set_cl cl c CIdle) tk (ELock start now c key LErr :: h0))).
      { intros h0 X Y. apply (rinv_client db now cl tk h); auto; cbn; try discriminate.
        - intros t c' k S. apply was_set_cons. auto.
        - intros s t c' k [E|E]; [discriminate|auto]. }
      assert (Go : match a with AFail => False | _ => True end ->
        (if ttl c =? 0 then Some (mkRW db now (set_cl cl c CIdle) tk (ELock start now c key LErr :: h)) else
          if can_set (mkRW db now cl tk h) key tok then
                  match a with
                  | AOk => Some (mkRW (set_key db key (Some (mkRE tok (now + ttl c)))) now (set_cl cl c (CHolding key tok now)) tk (ELock start now c key LGot :: h))
                  | ALost => Some (mkRW (set_key db key (Some (mkRE tok (now + ttl c)))) now (set_cl cl c CIdle) tk (ELock start now c key LErr :: ESet now c key :: h))
                  | _ => Some (mkRW (set_key db key (Some (mkRE tok (now + ttl c)))) now cl tk (ESet now c key :: h))
                  end
          else match a with
                  | AOk => match lf with
                           | O => Some (mkRW db now (set_cl cl c CIdle) tk (ELock start now c key LLocked :: h))
                           | S lf' => Some (mkRW db now (set_cl cl c (CTrying key tok start lf' (now + 100))) tk h)
                           end
                  | ALost => Some (mkRW db now (set_cl cl c CIdle) tk (ELock start now c key LErr :: h))
                  | _ => Some (mkRW db now cl tk h)
                  end) = Some w' -> rinv w').
      { intros _ E. destruct (ttl c =? 0); [injection E as <-; apply Er; auto|]. destruct (can_set _ key tok) eqn:Cs.
        - assert (Lv : match live (mkRW db now cl tk h) key with None => True | Some t => t = tok end) by (unfold can_set in Cs; destruct (live _ key); auto; now apply Nat.eqb_eq).
          assert (To : token_of (cl c) = Some tok) by now rewrite Ec.
          destruct a; injection E as <-.
          + apply (rinv_ext _ _ (set_cl cl c (CTrying key tok start lf at_))); [intros c'; unfold set_cl; destruct (Nat.eqb_spec c' c) as [->|]; auto|].
            apply (rinv_db db now cl tk h key c tok); auto; cbn; try discriminate; try (intros; congruence).
          + apply (rinv_db db now cl tk h key c tok); auto; cbn; try discriminate; try (intros; congruence).
            * intros k' t s [= <- <- <-]. auto.
            * intros t c' k S. now apply was_set_cons.
            * intros s t c' k [X|X]; [discriminate|auto].
            * intros e [= <-]. split; auto. exists now, c. split; auto. left. exists start. now left.
          + apply (rinv_db db now cl tk h key c tok); auto; cbn; try discriminate; try (intros; congruence).
            * intros t c' k S. now do 2 apply was_set_cons.
            * intros s t c' k [X|[X|X]]; [discriminate|discriminate|auto].
            * intros e [= <-]. split; auto. exists now, c. split; auto. right. right. now left.
          + apply (rinv_ext _ _ (set_cl cl c (CTrying key tok start lf at_))); [intros c'; unfold set_cl; destruct (Nat.eqb_spec c' c) as [->|]; auto|].
            apply (rinv_db db now cl tk h key c tok); auto; cbn; try discriminate; try (intros; congruence).
            * intros k' t s l a [= <- <- <- <- <-]. auto.
            * intros t c' k S. now apply was_set_cons.
            * intros s t c' k [X|X]; [discriminate|auto].
            * intros e [= <-]. split; auto. exists now, c. split; auto. right. now left.
        - destruct a; [injection E as <-; exact I| |injection E as <-; apply Er; auto|injection E as <-; exact I].
          destruct lf as [|lf]; injection E as <-.
          + apply (rinv_client db now cl tk h); auto; cbn; try discriminate.
            * intros t c' k S. now apply was_set_cons.
            * intros s t c' k [X|X]; [injection X as <- <- _ _; right; lia|auto].
          + apply (rinv_client db now cl tk h); auto; cbn [token_of]; try discriminate.
            * intros t [= <-]. now rewrite Ec.
            * intros k t s l a [= <- <- <- <- <-]. lia. }
      destruct a; [injection Ex as <-; apply Er; auto| | |]; (apply Go; [exact Logic.I|]); exact Ex.
    - destruct (cl c) as [|key tok start lf at_| |] eqn:Ec; try discriminate. injection Ex as <-. apply (rinv_client db now cl tk h); auto; cbn; try discriminate.
      + intros t c' k S. now apply was_set_cons.
      + intros s t c' k [X|X]; [discriminate|auto].
    - destruct (match cl c with CHolding key tok _ => Some (key, tok) | CReleasing key tok => Some (key, tok) | _ => None end) as [[key tok]|] eqn:Ec; [|discriminate].
      assert (To : token_of (cl c) = Some tok) by (destruct (cl c); try discriminate; injection Ec as _ ->; auto).
      assert (Er : forall b, rinv (mkRW db now (set_cl cl c CIdle) tk (EUnlock now c key b :: h))).
      { intros b. apply (rinv_client db now cl tk h); auto; cbn; try discriminate.
        - intros t c' k S. now apply was_set_cons.
        - intros s t c' k [X|X]; [discriminate|auto]. }
      assert (Re : rinv (mkRW db now (set_cl cl c (CReleasing key tok)) tk h)).
      { apply (rinv_client db now cl tk h); auto; cbn; try discriminate. intros t [= <-]. auto. }
      destruct (match live (mkRW db now cl tk h) key with Some t => t =? tok | None => false end) eqn:Mi.
      + assert (Lv : match live (mkRW db now cl tk h) key with None => True | Some t => t = tok end) by (destruct (live _ key); auto; now apply Nat.eqb_eq).
        assert (Dn : forall y h0, (forall t, token_of y = Some t -> t = tok) -> (forall k t s, y <> CHolding k t s) -> (forall k t s l a, y <> CTrying k t s l a) -> (h0 = h \/ exists b, h0 = EUnlock now c key b :: h) -> rinv (mkRW (set_key db key None) now (set_cl cl c y) tk h0)).
        { intros y h0 Y1 Y2 Y3 Y4. apply (rinv_db db now cl tk h key c tok); auto; try discriminate; try (intros; exfalso; eapply Y2; eauto; fail); try (intros; exfalso; eapply Y3; eauto; fail).
          - intros t c' k S. destruct Y4 as [->|(b & ->)]; auto. now apply was_set_cons.
          - intros s t c' k X. destruct Y4 as [->|(b & ->)]; auto. destruct X as [X|X]; [discriminate|auto]. }
        destruct a; injection Ex as <-; auto; apply Dn; cbn; try discriminate; eauto. intros t [= <-]. auto.
      + destruct a; injection Ex as <-; auto.
    - injection Ex as <-. apply (rinv_client db now cl tk h); auto; cbn; try discriminate.
  Qed.
  Lemma rinv_reach w : rreach ttl w -> rinv w.
  Proof. induction 1; [apply rinv0|eapply rinv_step; eauto]. Qed.
End Inv.

(** Two processes whose locks on a key are both younger than their ttl are the same process: in every schedule, with crashes,
    failing and lost requests. *)
Theorem C70_exclusive_within_ttl :
  forall ttl w c1 c2 key t1 t2, rreach ttl w -> holds w c1 key t1 -> holds w c2 key t2 -> rw_now w < t1 + ttl c1 -> rw_now w < t2 + ttl c2 -> c1 = c2.
Proof.
  intros ttl w c1 c2 key t1 t2 R (k1 & H1) (k2 & H2) L1 L2. destruct (rinv_reach ttl w R) as [F U H _ _ _ _].
  destruct (H c1 key k1 t1 H1) as [_ A]. destruct (H c2 key k2 t2 H2) as [_ B]. specialize (A L1). specialize (B L2). rewrite A in B. injection B as -> _. apply (U c1 c2 k2); [now rewrite H1|now rewrite H2].
Qed.
Print Assumptions C70_exclusive_within_ttl.
(** While a process holds a lock younger than its ttl, nothing another process does - its own UnLock, also of the same key, a
    new Lock - takes the lock away: no Lock on the key returns it to anybody. *)
Theorem C70_others_cannot_take_it :
  forall ttl w a w' c key t, rreach ttl w -> rexec ttl a w = Some w' -> holds w c key t -> rw_now w' < t + ttl c ->
    (forall x, a <> RUnlock c x) -> a <> RDie c ->
    holds w' c key t /\ (exists tok, live w' key = Some tok) /\ forall new, rw_hist w' = new ++ rw_hist w -> forall start now c', ~ In (ELock start now c' key LGot) new.
Proof.
  intros ttl w a w' c key t R E (tok & H) L N1 N2. pose proof (rinv_reach ttl w R) as I. pose proof (rinv_step ttl w a w' I E) as I'.
  assert (Hc : rw_cl w' c = CHolding key tok t /\ rw_now w <= rw_now w').
  { destruct w as [db now cl tk h]. cbn in H. destruct a as [n|c0 k0|c0 x|c0|c0 x|c0]; cbn [rexec] in E.
    - injection E as <-. cbn. split; [auto|lia].
    - destruct (cl c0) eqn:E0; try discriminate. injection E as <-. cbn. unfold set_cl. destruct (Nat.eqb_spec c c0); [congruence|auto].
    - destruct (cl c0) as [|k1 t1 s1 l1 a1| |] eqn:E0; try discriminate. assert (c <> c0) by congruence.
      repeat match goal with X : context [match ?y with _ => _ end] |- _ => match type of X with _ = Some w' => destruct y end end; try discriminate; injection E as <-; cbn; unfold set_cl; destruct (Nat.eqb_spec c c0); try contradiction; auto.
    - destruct (cl c0) eqn:E0; try discriminate. injection E as <-. cbn. unfold set_cl. destruct (Nat.eqb_spec c c0); [congruence|auto].
    - assert (c <> c0) by (intros ->; eapply N1; reflexivity).
      destruct (match cl c0 with CHolding key tok _ => Some (key, tok) | CReleasing key tok => Some (key, tok) | _ => None end) as [[k1 t1]|]; [|discriminate].
      destruct x; injection E as <-; cbn; unfold set_cl; destruct (Nat.eqb_spec c c0); try contradiction; auto.
    - assert (c <> c0) by (intros ->; now apply N2). injection E as <-. cbn. unfold set_cl. destruct (Nat.eqb_spec c c0); try contradiction; auto. }
  destruct Hc as [Hc Hn]. destruct (v_hold _ _ I' c key tok t Hc) as [_ Hd]. specialize (Hd L). split; [exists tok; auto|]. split.
  { exists tok. unfold live. rewrite Hd. cbn [re_exp re_tok]. apply Nat.ltb_lt in L. now rewrite L. }
  intros new Hnew start now' c' Hin.
  destruct (v_hold _ _ I c key tok t H) as [_ Hd0]. assert (L0 : rw_now w < t + ttl c) by lia. specialize (Hd0 L0).
  destruct w as [db now cl tk h]. cbn [rw_db rw_now rw_cl rw_hist] in *.
  assert (Live : live (mkRW db now cl tk h) key = Some tok) by (unfold live; cbn [rw_db rw_now]; rewrite Hd0; cbn [re_exp re_tok]; apply Nat.ltb_lt in L0; now rewrite L0).
  assert (N : forall l, rw_hist w' = l ++ h -> ~ In (ELock start now' c' key LGot) l -> False). { intros l E1 E2. rewrite E1 in Hnew. apply app_inv_tail in Hnew. subst l. contradiction. }
  destruct a as [n|c0 k0|c0 x|c0|c0 x|c0]; cbn [rexec] in E.
  - injection E as <-. now apply (N []).
  - destruct (cl c0) eqn:E0; try discriminate. injection E as <-. now apply (N []).
  - destruct (cl c0) as [|k1 t1 s1 l1 a1| |] eqn:E0; try discriminate. destruct (now <? a1); [discriminate|].
    assert (Nc : c <> c0) by congruence. assert (Nt : tok <> t1). { intros ->. apply Nc. apply (v_uniq _ _ I c c0 t1); cbn; [now rewrite H|now rewrite E0]. }
    assert (Cs : k1 = key -> can_set (mkRW db now cl tk h) k1 t1 = false). { intros ->. unfold can_set. rewrite Live. now apply Nat.eqb_neq. }
    assert (Er : rw_hist w' = ELock s1 now c0 k1 LErr :: h -> False). { intros E1. apply (N [ELock s1 now c0 k1 LErr]); auto. intros [X|[]]. discriminate. }
    destruct x.
    + injection E as <-. now apply Er.
    + destruct (ttl c0 =? 0); [injection E as <-; now apply Er|]. destruct (can_set _ k1 t1) eqn:Cq.
      * injection E as <-. apply (N [ELock s1 now c0 k1 LGot]); auto. intros [X|[]]. injection X as _ _ _ Ek. specialize (Cs Ek). congruence.
      * destruct l1; injection E as <-; [|now apply (N [])]. apply (N [ELock s1 now c0 k1 LLocked]); auto. intros [X|[]]. discriminate.
    + destruct (ttl c0 =? 0); [injection E as <-; now apply Er|]. destruct (can_set _ k1 t1) eqn:Cq; injection E as <-; [|now apply Er].
      apply (N [ELock s1 now c0 k1 LErr; ESet now c0 k1]); auto. intros [X|[X|[]]]; discriminate.
    + destruct (ttl c0 =? 0); [injection E as <-; now apply Er|]. destruct (can_set _ k1 t1) eqn:Cq; injection E as <-; [|now apply (N [])].
      apply (N [ESet now c0 k1]); auto. intros [X|[]]; discriminate.
  - destruct (cl c0) as [|k1 t1 s1 l1 a1| |] eqn:E0; try discriminate. injection E as <-. apply (N [ELock s1 now c0 k1 LErr]); auto. intros [X|[]]; discriminate.
  - destruct (match cl c0 with CHolding key tok _ => Some (key, tok) | CReleasing key tok => Some (key, tok) | _ => None end) as [[k1 t1]|]; [|discriminate].
    assert (Eu : forall b, rw_hist w' = EUnlock now c0 k1 b :: h -> False). { intros b E1. apply (N [EUnlock now c0 k1 b]); auto. intros [X|[]]. discriminate. }
    destruct x; injection E as <-; try (eapply Eu; reflexivity). now apply (N []).
  - injection E as <-. now apply (N []).
Qed.
Print Assumptions C70_others_cannot_take_it.
(** Lock reports "locked" no sooner than three seconds after it was called. *)
Theorem C70_waits_before_locked :
  forall ttl w start now c key, rreach ttl w -> In (ELock start now c key LLocked) (rw_hist w) -> start + 3000 <= now.
Proof. intros ttl w start now c key R H. exact (v_locked _ _ (rinv_reach ttl w R) start now c key H). Qed.
Print Assumptions C70_waits_before_locked.

(** An attempt the server answers obtains a key that is not there. *)
Lemma free_obtained ttl w c key : live w key = None -> tries w c key -> 0 < ttl c -> exists w', rexec ttl (RTry c AOk) w = Some w' /\ holds w' c key (rw_now w).
Proof.
  intros Lv (tok & start & lf & at_ & Ec & Le) T. destruct w as [db now cl tk h]. cbn [rw_cl rw_now] in *. cbn [rexec]. rewrite Ec.
  destruct (Nat.ltb_spec now at_); [lia|]. destruct (Nat.eqb_spec (ttl c) 0); [lia|]. unfold can_set. rewrite Lv. eexists. split; [reflexivity|]. exists tok. cbn [rw_cl]. apply set_cl_eq.
Qed.
(** When the ttl of everybody who ever set the key has passed - whoever crashed, gave up or never released - a call of Lock whose
    attempt is due and answered obtains it. *)
Theorem C70_free_after_ttl :
  forall ttl w c key, rreach ttl w -> (forall t c', was_set (rw_hist w) t c' key -> t + ttl c' <= rw_now w) -> tries w c key -> 0 < ttl c ->
    exists w', rexec ttl (RTry c AOk) w = Some w' /\ holds w' c key (rw_now w).
Proof.
  intros ttl w c key R H T P. apply free_obtained; auto. unfold live. destruct (rw_db w key) as [e|] eqn:E; auto. destruct (v_db _ _ (rinv_reach ttl w R) key e E) as (t & c' & S & X).
  specialize (H t c' S). destruct (Nat.ltb_spec (rw_now w) (re_exp e)); auto. lia.
Qed.
Print Assumptions C70_free_after_ttl.

(** UnLock within the ttl reports nil, and the key is free at once: the next due and answered attempt of anybody obtains it. *)
Theorem C70_release_frees :
  forall ttl w w' c key t, rreach ttl w -> holds w c key t -> rw_now w < t + ttl c -> rexec ttl (RUnlock c AOk) w = Some w' ->
    In (EUnlock (rw_now w) c key true) (rw_hist w') /\ ~ (exists t', holds w' c key t') /\
    forall c', tries w' c' key -> 0 < ttl c' -> exists w'', rexec ttl (RTry c' AOk) w' = Some w'' /\ holds w'' c' key (rw_now w).
Proof.
  intros ttl w w' c key t R (tok & H) L E. destruct (v_hold _ _ (rinv_reach ttl w R) c key tok t H) as [_ D]. specialize (D L). destruct w as [db now cl tk h]. cbn [rw_cl rw_db rw_now rw_hist] in *.
  assert (Lv : live (mkRW db now cl tk h) key = Some tok). { unfold live. cbn [rw_db rw_now]. rewrite D. cbn [re_exp re_tok]. apply Nat.ltb_lt in L. now rewrite L. }
  cbn [rexec] in E. rewrite H, Lv, Nat.eqb_refl in E. injection E as <-. cbn [rw_hist rw_cl rw_now]. split; [now left|]. split.
  - intros (t' & tok' & X). cbn [rw_cl] in X. rewrite set_cl_eq in X. discriminate.
  - intros c' T P. eapply free_obtained; [|exact T|exact P]. unfold live. cbn [rw_db rw_now]. unfold set_key. now rewrite String.eqb_refl.
Qed.
Print Assumptions C70_release_frees.

(** UnLock after the ttl reports an error and leaves every key on the server as it is - also the one somebody else has in the
    meantime obtained. *)
Theorem C70_late_release_harmless :
  forall ttl w w' c key t x, rreach ttl w -> holds w c key t -> t + ttl c <= rw_now w -> rexec ttl (RUnlock c x) w = Some w' ->
    (forall k, live w' k = live w k) /\ (forall c' k t', c' <> c -> holds w c' k t' -> holds w' c' k t') /\ (forall new, rw_hist w' = new ++ rw_hist w -> forall e, In e new -> e = EUnlock (rw_now w) c key false).
Proof.
  intros ttl w w' c key t x R (tok & H) L E. pose proof (v_own _ _ (rinv_reach ttl w R) c key tok t) as D. destruct w as [db now cl tk h]. cbn [rw_cl rw_db rw_now rw_hist] in *.
  assert (Lv : (match live (mkRW db now cl tk h) key with Some t0 => t0 =? tok | None => false end) = false).
  { unfold live. cbn [rw_db rw_now]. destruct (db key) as [e|]; auto. destruct (Nat.ltb_spec now (re_exp e)); auto. apply Nat.eqb_neq. intros X. specialize (D e H eq_refl X). lia. }
  cbn [rexec] in E. rewrite H, Lv in E.
  assert (C : forall y, cl c = y -> forall c' k t', c' <> c -> holds (mkRW db now cl tk h) c' k t' -> forall z h', holds (mkRW db now (set_cl cl c z) tk h') c' k t').
  { intros y _ c' k t' N (tok' & X) z h'. exists tok'. cbn [rw_cl] in *. unfold set_cl. destruct (Nat.eqb_spec c' c); [contradiction|auto]. }
  assert (N1 : forall new, EUnlock now c key false :: h = new ++ h -> forall e, In e new -> e = EUnlock now c key false).
  { intros new X e He. change (EUnlock now c key false :: h) with ([EUnlock now c key false] ++ h) in X. apply app_inv_tail in X. subst new. destruct He as [<-|[]]. auto. }
  destruct x; injection E as <-; (split; [reflexivity|]; split; [intros; eapply C; eauto|]); cbn [rw_hist]; try exact N1.
  intros new X e He. change h with ([] ++ h) in X at 1. apply app_inv_tail in X. subst new. destruct He.
Qed.
Print Assumptions C70_late_release_harmless.

(** Lock on a key that stays taken gives up after 31 attempts with ErrEntityLocked. *)
Fixpoint retries (c n : nat) : list ract := match n with O => [] | S n' => RTick 100 :: RTry c AOk :: retries c n' end.
Lemma stays_taken ttl c key tok start e : 0 < ttl c -> re_tok e <> tok -> forall n db now cl tk h, db key = Some e -> cl c = CTrying key tok start n (now + 100) -> now + S n * 100 < re_exp e ->
  exists w', rrun ttl (retries c (S n)) (mkRW db now cl tk h) = Some w' /\ rw_hist w' = ELock start (now + S n * 100) c key LLocked :: h /\ rw_now w' = now + S n * 100.
Proof.
  intros P Ne. induction n as [|n IH]; intros db now cl tk h Ed Ec Le.
  - cbn [retries rrun rexec]. rewrite Ec. destruct (Nat.ltb_spec (now + 100) (now + 100)); [lia|]. destruct (Nat.eqb_spec (ttl c) 0); [lia|].
    unfold can_set, live. cbn [rw_db rw_now]. rewrite Ed. destruct (Nat.ltb_spec (now + 100) (re_exp e)); [|lia]. destruct (Nat.eqb_spec (re_tok e) tok); [contradiction|].
    eexists. split; [reflexivity|]. cbn [rw_hist rw_now]. split; [repeat f_equal; lia|lia].
  - change (retries c (S (S n))) with (RTick 100 :: RTry c AOk :: retries c (S n)). cbn [rrun rexec]. rewrite Ec. destruct (Nat.ltb_spec (now + 100) (now + 100)); [lia|]. destruct (Nat.eqb_spec (ttl c) 0); [lia|].
    unfold can_set, live. cbn [rw_db rw_now]. rewrite Ed. destruct (Nat.ltb_spec (now + 100) (re_exp e)); [|lia]. destruct (Nat.eqb_spec (re_tok e) tok); [contradiction|].
    destruct (IH db (now + 100) (set_cl cl c (CTrying key tok start n (now + 100 + 100))) tk h Ed (set_cl_eq _ _ _)) as (w' & E1 & E2 & E3); [lia|]. exists w'. split; [exact E1|].
    replace (now + S (S n) * 100) with (now + 100 + S n * 100) by lia. auto.
Qed.
Theorem C70_gives_up_after_31_attempts :
  forall ttl w w1 c c' key t, rreach ttl w -> holds w c' key t -> rw_now w + 3000 < t + ttl c' -> 0 < ttl c -> rexec ttl (RLock c key) w = Some w1 ->
    exists w', rrun ttl (RTry c AOk :: retries c 30) w1 = Some w' /\ rw_hist w' = ELock (rw_now w) (rw_now w + 3000) c key LLocked :: rw_hist w.
Proof.
  intros ttl w w1 c c' key t R (tok & H) L P E. pose proof (rinv_reach ttl w R) as I. destruct (v_hold _ _ I c' key tok t H) as [_ D]. pose proof (v_fresh _ _ I c' tok) as F. destruct w as [db now cl tk h]. cbn [rw_cl rw_db rw_now rw_hist rw_tok] in *.
  rewrite H in F. specialize (F eq_refl). cbn [rexec] in E. destruct (cl c) eqn:Ec; try discriminate. injection E as <-. assert (D1 : db key = Some (mkRE tok (t + ttl c'))) by (apply D; lia).
  cbn [rrun rexec]. rewrite set_cl_eq. destruct (Nat.ltb_spec now now); [lia|]. destruct (Nat.eqb_spec (ttl c) 0); [lia|].
  unfold can_set, live. cbn [rw_db rw_now]. rewrite D1. cbn [re_exp re_tok]. destruct (Nat.ltb_spec now (t + ttl c')); [|lia]. destruct (Nat.eqb_spec tok tk); [lia|].
  destruct (stays_taken ttl c key tk now (mkRE tok (t + ttl c')) P n0 29 db now (set_cl (set_cl cl c (CTrying key tk now 30 now)) c (CTrying key tk now 29 (now + 100))) (S tk) h D1 (set_cl_eq _ _ _)) as (w' & E1 & E2 & E3); [cbn [re_exp]; lia|].
  exists w'. auto.
Qed.
Print Assumptions C70_gives_up_after_31_attempts.

(** Refutation: nothing renews the key while a process works, so a process that works longer than the ttl no longer excludes
    others: two processes hold the same key. *)
Theorem C70_not_protected_beyond_ttl :
  exists ttl w c1 c2 key t1 t2, rreach ttl w /\ c1 <> c2 /\ holds w c1 key t1 /\ holds w c2 key t2.
Proof.
  pose (acts := [RLock 1 "order-1"; RTry 1 AOk; RTick 1000; RLock 2 "order-1"; RTry 2 AOk]).
  assert (R : forall ttl l w w', rreach ttl w -> rrun ttl l w = Some w' -> rreach ttl w').
  { intros ttl l. induction l as [|a l IH]; cbn; intros w w' Rw E; [now injection E as <-|]. destruct (rexec ttl a w) as [w1|] eqn:E1; [|discriminate]. apply (IH w1 w'); auto. eapply rr_step; eauto. }
  destruct (rrun (fun _ => 1000) acts rworld0) as [w|] eqn:E; [|vm_compute in E; discriminate]. exists (fun _ => 1000), w, 1, 2, "order-1", 0, 1000.
  split; [exact (R _ acts _ _ (rr_start _) E)|]. split; [lia|]. cbv in E. injection E as <-. split; [exists 0|exists 1]; reflexivity.
Qed.
Print Assumptions C70_not_protected_beyond_ttl.

(** A run of two processes: 1 obtains the key, its answer being lost once; 2 has to wait and obtains it when 1 releases. *)
Definition c70_acts : list ract := [RLock 1 "order-1"; RTry 1 AResend; RTry 1 AOk; RTick 5; RLock 2 "order-1"; RTry 2 AOk; RTick 100; RTry 2 AOk; RTick 60; RUnlock 1 AOk; RTick 40; RTry 2 AOk].
Example C70_example :
  option_map (fun w => (rw_hist w, rw_cl w 1, rw_cl w 2)) (rrun (fun _ => 1000) c70_acts rworld0) =
    Some ([ELock 5 205 2 "order-1" LGot; EUnlock 165 1 "order-1" true; ELock 0 0 1 "order-1" LGot; ESet 0 1 "order-1"], CIdle, CHolding "order-1" 1 205).
Proof. vm_compute. reflexivity. Qed.

(** Proofs about loading. *)
From Verif Require Import BuildSpec.

Section Proof.
  Variable zero : nat -> bval.
  Variable e2m : bval -> option bval -> err + model.
  Variable query : model -> err + list model.
  Variable m2e : model -> bval -> bval * option err.
  Hypothesis H : honest e2m query m2e.
  Notation build_entity := (build_entity e2m query m2e).
  Notation build_rows := (build_rows zero m2e).
  Notation build_slice := (build_slice zero e2m query m2e).
  Notation build_child := (build_child zero e2m query m2e).
  Notation build_children := (build_children zero e2m query m2e).
  Notation found := (found e2m query).
  Notation child_loaded := (child_loaded zero e2m query m2e).

  Lemma kept_refl s l t : others_kept s s t l.
  Proof using. repeat split; auto. Qed.

  (** one entity *)
  Lemma entity_cases p par s o s' : build_entity p par s = (o, s') ->
    (o = Some ENotFound /\ s' = s /\ found (b_heap s p) (option_map (b_heap s) par) []) \/
    (exists e, o = Some e /\ is_notfound e = false) \/
    (o = None /\ exists m ms, found (b_heap s p) (option_map (b_heap s) par) (m :: ms) /\ m2e m (b_heap s p) = (b_heap s' p, None) /\ s' = set_heap s p (b_heap s' p)).
  Proof using H.
    destruct H as (H1 & H2 & H3). unfold BuildModel.build_entity, BuildSpec.found. intros E.
    destruct (e2m (b_heap s p) (option_map (b_heap s) par)) as [e|q] eqn:E1; [injection E as <- <-; right; left; eauto|].
    destruct (query q) as [e|[|m ms]] eqn:E2; [injection E as <- <-; right; left; eauto|injection E as <- <-; left; eauto 10|].
    destruct (m2e m (b_heap s p)) as [v [e|]] eqn:E3; injection E as <- <-; [right; left; eauto|].
    right; right. split; [reflexivity|]. exists m, ms. cbn. rewrite Nat.eqb_refl. split; [eauto|]. auto.
  Qed.

  (** rows of a slice *)
  Lemma rows_ok ty : forall ms acc s l s', build_rows ty ms acc s = (inr l, s') ->
    exists l', l = acc ++ l' /\ Forall2 (fun m p => m2e m (zero ty) = (b_heap s' p, None)) ms l' /\ NoDup l' /\
      (forall p, In p l' -> b_next s <= p < b_next s') /\ (forall q, q < b_next s -> b_heap s' q = b_heap s q) /\
      b_slices s' = b_slices s /\ b_ptrs s' = b_ptrs s /\ b_next s <= b_next s'.
  Proof using.
    induction ms as [|m ms IH]; intros acc s l s' E; cbn [BuildModel.build_rows] in E.
    - injection E as <- <-. exists []. rewrite app_nil_r. repeat split; auto; try constructor; now intros.
    - cbn [alloc] in E. cbn [b_heap] in E. rewrite Nat.eqb_refl in E. destruct (m2e m (zero ty)) as [v [e|]] eqn:Em; [discriminate|].
      set (s2 := set_heap _ (b_next s) v) in E. destruct (IH _ _ _ _ E) as (l' & El & F & D & B & K & S1 & S2 & N).
      assert (N2 : b_next s2 = S (b_next s)) by reflexivity.
      exists (b_next s :: l'). split; [rewrite El, <- app_assoc; reflexivity|]. repeat split.
      + constructor; [|assumption]. rewrite K by lia. cbn. rewrite Nat.eqb_refl. exact Em.
      + constructor; [|assumption]. intros X. apply B in X. lia.
      + destruct H0 as [<-|X]; [lia|apply B in X; lia].
      + destruct H0 as [<-|X]; [lia|apply B in X; lia].
      + intros q Hq. rewrite K by lia. cbn. destruct (Nat.eqb_spec q (b_next s)); [lia|reflexivity].
      + rewrite S1. reflexivity.
      + rewrite S2. reflexivity.
      + lia.
  Qed.

  Lemma child_ok parent a s s' : build_child parent a s = (None, s') -> parent < b_next s ->
    NoDup (parent :: targets s a) -> (forall p, In p (targets s a) -> p < b_next s) ->
    child_loaded s s' (b_heap s parent) a /\ others_kept s s' (targets s a) [a].
  Proof using H.
    intros E P D B. destruct a as [x ty| |x ty|p|]; cbn [BuildModel.build_child] in E; try discriminate.
    - (* slice *)
      unfold BuildModel.build_slice in E. destruct (e2m (zero ty) (Some (b_heap s parent))) as [e|q] eqn:E1; [discriminate|].
      destruct (query q) as [e|ms] eqn:E2; [discriminate|].
      assert (F : found (zero ty) (Some (b_heap s parent)) ms) by (exists q; auto).
      destruct ms as [|m ms].
      + injection E as <-. split; [|apply kept_refl].
        cbn. exists [], []. rewrite app_nil_r. repeat split; auto; try constructor. now intros.
      + destruct (build_rows ty (m :: ms) (b_slices s x) s) as [[e|l] s2] eqn:E3; [discriminate|]. injection E as <-.
        destruct (rows_ok ty _ _ _ _ _ E3) as (l' & El & F2 & D2 & B2 & K & S1 & S2 & N). subst l. split.
        * exists (m :: ms), l'. cbn. rewrite Nat.eqb_refl. repeat split; auto; match goal with X : In _ l' |- _ => apply B2 in X; lia end.
        * cbn. split; [|split; [|split]]; cbn.
          -- intros q0 Hq _. now apply K.
          -- intros y Hy. destruct (Nat.eqb_spec y x) as [->|]; [elim Hy; now left|]. now rewrite S1.
          -- intros y _. now rewrite S2.
          -- assumption.
    - (* pointer field *)
      destruct (b_ptrs s x) as [p|] eqn:Ex.
      + assert (Tg : targets s (ArgPtr x ty) = [p]) by (cbn; now rewrite Ex). rewrite Tg in D, B |- *.
        assert (Np : p <> parent) by (inversion D as [|? ? D1 D2]; subst; intros ->; apply D1; now left).
        assert (Bp : p < b_next s) by (apply B; now left).
        destruct (build_entity p (Some parent) s) as [o s2] eqn:Eb. destruct (entity_cases _ _ _ _ _ Eb) as [(-> & -> & F)|[(e & -> & Hn)|(-> & m & ms & F & Em & Es)]].
        * cbn in E. injection E as <-. split.
          -- exists []. cbn. rewrite Ex, Nat.eqb_refl. auto.
          -- repeat split; cbn; auto. intros y Hy. destruct (Nat.eqb_spec y x) as [->|]; [elim Hy; now left|reflexivity].
        * rewrite Hn in E. discriminate.
        * injection E as ->. split.
          -- exists (m :: ms). cbn. rewrite Ex. split; [exact F|]. exists p. assert (Ep : b_ptrs s' x = Some p) by (rewrite Es; exact Ex). auto.
          -- rewrite Es. repeat split; cbn; auto. intros q Hq Hnq. destruct (Nat.eqb_spec q p) as [->|]; [elim Hnq; now left|reflexivity].
      + assert (Tg : targets s (ArgPtr x ty) = []) by (cbn; now rewrite Ex). rewrite Tg in *.
        cbn [alloc] in E. set (s1 := set_ptr _ x (Some (b_next s))) in E. cbn [alloc] in E.
        assert (Hz : b_heap s1 (b_next s) = zero ty) by (cbn; now rewrite Nat.eqb_refl).
        assert (Hp : b_heap s1 parent = b_heap s parent) by (cbn; destruct (Nat.eqb_spec parent (b_next s)); [lia|reflexivity]).
        destruct (build_entity (b_next s) (Some parent) s1) as [o s2] eqn:Eb. destruct (entity_cases _ _ _ _ _ Eb) as [(-> & -> & F)|[(e & -> & Hn)|(-> & m & ms & F & Em & Es)]].
        * cbn [is_notfound] in E. injection E as <-. cbn [option_map] in F. rewrite Hz, Hp in F. split.
          -- exists []. cbn. rewrite Ex, Nat.eqb_refl. auto.
          -- repeat split; cbn; auto.
             ++ intros q Hq _. destruct (Nat.eqb_spec q (b_next s)); [lia|reflexivity].
             ++ intros y Hy. destruct (Nat.eqb_spec y x) as [->|]; [elim Hy; now left|]. reflexivity.
        * rewrite Hn in E. discriminate.
        * injection E as ->. cbn [option_map] in F. rewrite Hz in F, Em. rewrite Hp in F. split.
          -- exists (m :: ms). cbn. rewrite Ex. split; [exact F|]. exists (b_next s). split; [rewrite Es; cbn; now rewrite Nat.eqb_refl|]. split; [right; split; [reflexivity|rewrite Es; cbn; lia]|exact Em].
          -- rewrite Es. repeat split; cbn; auto.
             ++ intros q Hq _. destruct (Nat.eqb_spec q (b_next s)); [lia|reflexivity].
             ++ intros y Hy. destruct (Nat.eqb_spec y x) as [->|]; [elim Hy; now left|reflexivity].
    - (* entity *)
      cbn [targets] in *. destruct (build_entity p (Some parent) s) as [o s2] eqn:Eb.
      destruct (entity_cases _ _ _ _ _ Eb) as [(-> & -> & F)|[(e & -> & Hn)|(-> & m & ms & F & Em & Es)]].
      + cbn in E. injection E as <-. split; [|apply kept_refl]. exists []. auto.
      + rewrite Hn in E. discriminate.
      + injection E as ->. split.
        * exists (m :: ms). auto.
        * rewrite Es. repeat split; cbn; auto. intros q Hq Hnq. destruct (Nat.eqb_spec q p) as [->|]; [elim Hnq; now left|reflexivity].
  Qed.

  Lemma loaded_ext parent s s1 s' par a : child_loaded s1 s' par a -> parent < b_next s ->
    (forall x, In x (slice_of a) -> b_slices s1 x = b_slices s x) -> (forall x, In x (field_of a) -> b_ptrs s1 x = b_ptrs s x) ->
    (forall p, In p (targets s a) -> b_heap s1 p = b_heap s p) -> b_next s <= b_next s1 -> child_loaded s s' par a.
  Proof using.
    intros C P S F T N. destruct a as [x ty| |x ty|p|]; cbn in *; try contradiction.
    - destruct C as (ms & l & A & B & Cc & D & E). exists ms, l. rewrite <- S by auto. repeat split; auto; match goal with X : In _ l |- _ => apply E in X; lia end.
    - rewrite F in C by auto. destruct C as (ms & A & B). exists ms.
      assert (Eo : match b_ptrs s x with Some p => b_heap s1 p | None => zero ty end = match b_ptrs s x with Some p => b_heap s p | None => zero ty end).
      { destruct (b_ptrs s x) as [p|]; [|reflexivity]. apply T. now left. }
      rewrite Eo in A, B. split; [assumption|]. destruct ms as [|m ms]; [assumption|]. destruct B as (p & B1 & B2 & B3). exists p. repeat split; auto.
      destruct B2 as [B2|(B2 & B4)]; [now left|right; split; [assumption|lia]].
    - destruct C as (ms & A & B). exists ms. rewrite <- T by auto. auto.
  Qed.
  Lemma loaded_later s s1 s' par a l T : child_loaded s s1 par a -> others_kept s1 s' T l ->
    (forall x, In x (slice_of a) -> ~ In x (flat_map slice_of l)) -> (forall x, In x (field_of a) -> ~ In x (flat_map field_of l)) ->
    (forall p, In p (targets s a) -> p < b_next s /\ ~ In p T) -> (forall p, In p T -> p < b_next s) -> b_next s <= b_next s1 -> child_loaded s s' par a.
  Proof using.
    intros C (K1 & K2 & K3 & K4) S F A B N. destruct a as [x ty| |x ty|p|]; cbn in *; try contradiction.
    - destruct C as (ms & ps & C1 & C2 & C3 & C4 & C5). exists ms, ps. rewrite K2 by auto. split; [assumption|]. split; [assumption|]. split; [|split; [assumption|]].
      + assert (Hp : forall p, In p ps -> b_heap s' p = b_heap s1 p).
        { intros p Hp. apply C5 in Hp. apply K1; [lia|]. intros X. apply B in X. lia. }
        clear C4 C5 C2 C1. induction C3 as [|m p ms ps E _ IH]; constructor; [rewrite Hp by (now left); assumption|apply IH; intros; apply Hp; now right].
      + intros p Hp. apply C5 in Hp. lia.
    - destruct C as (ms & C1 & C2). exists ms. split; [assumption|]. rewrite K3 by auto. destruct ms as [|m ms]; [assumption|]. destruct C2 as (p & C2 & C3 & C4).
      exists p. split; [assumption|]. split; [destruct C3 as [|(? & ?)]; [now left|right; split; [assumption|lia]]|].
      rewrite K1; [assumption| |].
      + destruct C3 as [C3|(_ & C3)]; [|lia]. rewrite C3 in A. destruct (A p (or_introl eq_refl)). lia.
      + destruct C3 as [C3|(_ & C3)]; [rewrite C3 in A; now destruct (A p (or_introl eq_refl))|]. intros X. apply B in X. lia.
    - destruct C as (ms & C1 & C2). exists ms. split; [assumption|]. destruct (A p (or_introl eq_refl)) as (A1 & A2). rewrite K1 by (auto; lia). assumption.
  Qed.
  Lemma nodup_app_l {A} (a b : list A) : NoDup (a ++ b) -> NoDup a /\ NoDup b /\ forall x, In x a -> ~ In x b.
  Proof using.
    induction a as [|x a IH]; cbn; intros D; [repeat split; auto; constructor|]. inversion D as [|? ? D1 D2]; subst. destruct (IH D2) as (A1 & A2 & A3).
    split; [constructor; [intros X; apply D1, in_or_app; now left|assumption]|]. split; [assumption|]. intros y [<-|Hy]; [intros X; apply D1, in_or_app; now right|now apply A3].
  Qed.
  Lemma children_ok parent : forall l s s', build_children parent l s = (None, s') -> separate s parent l ->
    (forall a, In a l -> child_loaded s s' (b_heap s parent) a) /\ others_kept s s' (flat_map (targets s) l) l.
  Proof using H.
    induction l as [|a l IH]; intros s s' E S; cbn [BuildModel.build_children] in E.
    - injection E as <-. split; [intros a []|apply kept_refl].
    - destruct (build_child parent a s) as [[e|] s1] eqn:Ea; [discriminate|]. destruct S as (S1 & S2 & S3 & S4). cbn [flat_map] in S1, S2, S3, S4.
      assert (Hp : parent < b_next s) by (apply S2; now left).
      inversion S1 as [|? ? P1 P2]; subst. destruct (nodup_app_l _ _ P2) as (Q1 & Q2 & Q3). destruct (nodup_app_l _ _ S3) as (_ & R2 & R3). destruct (nodup_app_l _ _ S4) as (_ & U2 & U3).
      destruct (child_ok parent a s s1 Ea Hp) as (C & (K1 & K2 & K3 & K4)).
      { constructor; [|assumption]. intros X. apply P1, in_or_app. now left. }
      { intros p Hp2. apply S2. right. apply in_or_app. now left. }
      cbn [flat_map] in K2, K3. rewrite app_nil_r in K2, K3.
      assert (Tg : forall b, In b l -> targets s1 b = targets s b).
      { intros [x ty| |x ty|p|] Hb; try reflexivity. cbn. rewrite K3; [reflexivity|]. intros X. apply (U3 x X). apply in_flat_map. eexists. split; [exact Hb|]. now left. }
      assert (Tl : flat_map (targets s1) l = flat_map (targets s) l).
      { clear - Tg. induction l as [|b l IHl]; cbn; [reflexivity|]. rewrite Tg by now left. f_equal. apply IHl. intros; apply Tg; now right. }
      assert (Hpar : b_heap s1 parent = b_heap s parent) by (apply K1; [assumption|intros X; apply P1, in_or_app; now left]).
      destruct (IH s1 s' E) as (A & B).
      { split; [|split; [|split]]; auto.
        - rewrite Tl. constructor; [|assumption]. intros X. apply P1, in_or_app. now right.
        - rewrite Tl. intros p [<-|Hp2]; [lia|]. assert (p < b_next s) by (apply S2; right; apply in_or_app; now right). lia. }
      rewrite Hpar, Tl in *. split.
      + intros b [<-|Hb].
        * eapply loaded_later; eauto.
          -- intros p Hp2. split; [apply S2; right; apply in_or_app; now left|now apply Q3].
          -- intros p Hp2. apply S2. right. apply in_or_app. now right.
        * apply (loaded_ext parent s s1); auto.
          -- intros x Hx. apply K2. intros X. apply (R3 x X). apply in_flat_map. eauto.
          -- intros x Hx. apply K3. intros X. apply (U3 x X). apply in_flat_map. eauto.
          -- intros p Hp2. assert (In p (flat_map (targets s) l)) by (apply in_flat_map; eauto). apply K1.
             ++ apply S2. right. apply in_or_app. now right.
             ++ intros X. now apply (Q3 p X).
      + destruct B as (B1 & B2 & B3 & B4). cbn [flat_map]. split; [|split; [|split]].
        * intros q Hq X. rewrite in_app_iff in X. rewrite B1 by (auto; lia). apply K1; auto.
        * intros x X. cbn [flat_map] in X. rewrite in_app_iff in X. rewrite B2 by auto. apply K2; auto.
        * intros x X. cbn [flat_map] in X. rewrite in_app_iff in X. rewrite B3 by auto. apply K3; auto.
        * lia.
  Qed.
End Proof.

(** One persist: its phases, its calls, the ids it gives, the hooks it calls. *)
From Verif Require Export EngineProof9.
From Verif Require Import EngineModel.

Definition same_types (h : heap) (ty : ptr -> nat) : Prop := forall p, e_type (h p) = ty p.

(** Everything but heap and trace (and the walk counter) stays. *)
Record same_rest (s s' : st) : Prop := mkSameRest {
  sr_cont : s_cont s' = s_cont s; sr_pool : s_pool s' = s_pool s; sr_out : s_output s' = s_output s;
  sr_ctx : s_evctx s' = s_evctx s; sr_errs : s_errs s' = s_errs s; sr_acts : s_actions s' = s_actions s }.
Lemma same_rest_refl s : same_rest s s. Proof. now split. Qed.
Lemma same_rest_trans a b c : same_rest a b -> same_rest b c -> same_rest a c.
Proof. intros [] []. split; congruence. Qed.

(** The outcome of a sequence of calls that stops at the first bad answer. *)
Inductive calls_out (cs : list call) : list (call * resp) -> out (option err) -> Prop :=
| co_all d : map fst d = cs -> Forall ans_ok d -> calls_out cs d (Done None)
| co_err d c r e : Forall ans_ok d -> r_ans r = AErr e -> (exists rest, cs = map fst d ++ c :: rest) ->
    calls_out cs (d ++ [(c, r)]) (Done (Some e))
| co_panic d c r : Forall ans_ok d -> r_ans r = APanic -> (exists rest, cs = map fst d ++ c :: rest) ->
    calls_out cs (d ++ [(c, r)]) Panic.
Lemma calls_out_cons c cs r d o : r_ans r = AOk -> calls_out cs d o -> calls_out (c :: cs) ((c, r) :: d) o.
Proof.
  intros Hr [d1 H1 H2|d1 c1 r1 e H1 H2 (rest & ->)|d1 c1 r1 H1 H2 (rest & ->)].
  - apply co_all; [cbn; congruence|now constructor].
  - apply (co_err _ ((c, r) :: d1)); [now constructor|auto|exists rest; reflexivity].
  - apply (co_panic _ ((c, r) :: d1)); [now constructor|auto|exists rest; reflexivity].
Qed.
Lemma calls_out_prefix cs d o : calls_out cs d o -> exists rest, cs = map fst d ++ rest.
Proof.
  intros [d1 <- H2|d1 c1 r1 e H1 H2 (rest & ->)|d1 c1 r1 H1 H2 (rest & ->)].
  - exists []. now rewrite app_nil_r.
  - exists rest. rewrite map_app. cbn. now rewrite <- app_assoc.
  - exists rest. rewrite map_app. cbn. now rewrite <- app_assoc.
Qed.
Lemma calls_out_ok cs d o : calls_out cs d o -> (Forall ans_ok d <-> o = Done None) /\ (o = Done None -> map fst d = cs).
Proof.
  assert (X : forall l c r, r_ans r <> AOk -> ~ Forall ans_ok (l ++ [(c, r)])).
  { intros l c r Hr H. apply Forall_app in H. destruct H as [_ H]. inversion H as [|? ? Hy]; subst. unfold ans_ok in Hy. cbn in Hy. congruence. }
  intros [d1 H1 H2|d1 c1 r1 e H1 H2 H3|d1 c1 r1 H1 H2 H3].
  - split; [split; auto|auto].
  - split; [|discriminate]. split; [|discriminate]. intros H. exfalso. eapply X; [|exact H]. cbn. congruence.
  - split; [|discriminate]. split; [|discriminate]. intros H. exfalso. eapply X; [|exact H]. cbn. congruence.
Qed.

Section Persist.
  Variable cfg : config.
  Definition calls (cs : list call) : M (option err) := each (ecall_err cfg) cs.
  Definition after_calls (h : heap) (d : list (call * resp)) : heap :=
    fold_left (fun h c => if mutates (fst c) then r_heap (snd c) h else h) d h.

  Lemma ecall_inv c s o s' : ecall cfg c s = (o, s') ->
    exists r, r = c_oracle cfg (length (s_trace s)) /\ s_trace s' = s_trace s ++ [(c, r)] /\
      s_heap s' = (if mutates c then r_heap r (s_heap s) else s_heap s) /\ same_rest s s' /\
      ((r_ans r <> APanic /\ o = Done r) \/ (r_ans r = APanic /\ o = Panic)).
  Proof.
    unfold ecall. intros H. eexists. split; [reflexivity|]. set (r := c_oracle cfg _) in *.
    destruct (r_ans r) eqn:E; injection H as <- <-; destruct (mutates c); cbn;
      (do 2 (split; [reflexivity|]); split; [split; reflexivity|]);
      first [left; split; congruence|right; split; congruence].
  Qed.
  Lemma calls_spec cs : forall s o s', calls cs s = (o, s') ->
    exists d, s_trace s' = s_trace s ++ d /\ calls_out cs d o /\ same_rest s s' /\
      s_heap s' = after_calls (s_heap s) d /\ (forall c, In c d -> exists n, snd c = c_oracle cfg n) /\ s_tick s' = s_tick s.
  Proof.
    induction cs as [|c t IH]; cbn; intros s o s' H.
    { injection H as <- <-. exists []. rewrite app_nil_r. split; auto. split; [now apply co_all|]. split; [apply same_rest_refl|].
      split; [reflexivity|]. split; [intros c []|auto]. }
    unfold andthen, ecall_err in H.
    assert (Hk : forall s1 r, ecall cfg c s = (Done r, s1) -> s_tick s1 = s_tick s).
    { intros s1 r. unfold ecall. destruct (r_ans _); intros [= _ <-]; destruct (mutates c); reflexivity. }
    assert (Hkp : forall s1, ecall cfg c s = (Panic, s1) -> s_tick s1 = s_tick s).
    { intros s1. unfold ecall. destruct (r_ans _); intros [= <-]; destruct (mutates c); reflexivity. }
    destruct (bind_inv _ _ _ _ _ H) as [(e & s1 & H1 & H2)|[[H1 ->]|[H1 ->]]]; clear H.
    - apply bind_done in H1. destruct H1 as (r & s1' & H0 & [= <- <-]).
      destruct (ecall_inv _ _ _ _ H0) as (r' & Er & T & Hh & Sr & [[Hp [= ->]]|[_ Hx]]); [|discriminate].
      unfold err_of in H2. destruct (r_ans r') eqn:Ea; [| |congruence].
      + apply IH in H2. destruct H2 as (d & T2 & O2 & S2 & G2 & A2 & K2). exists ((c, r') :: d).
        split; [rewrite T2, T, <- app_assoc; reflexivity|]. split; [now apply calls_out_cons|]. split; [eapply same_rest_trans; eauto|].
        split; [rewrite G2, Hh; reflexivity|]. split; [|rewrite K2; eapply Hk; eauto].
        intros x [<-|Hx]; [cbn; eauto|auto].
      + injection H2 as <- <-. exists [(c, r')]. split; auto. split.
        { apply (co_err _ []); auto. exists t. reflexivity. }
        split; auto. split; [rewrite Hh; reflexivity|]. split; [|eapply Hk; eauto]. intros x [<-|[]]. cbn. eauto.
    - apply bind_inv in H1. destruct H1 as [(r & s1' & H0 & H1)|[[H1 _]|[_ H1]]]; [discriminate| |discriminate].
      destruct (ecall_inv _ _ _ _ H1) as (r' & Er & T & Hh & Sr & [[Hp [=]]|[Hx _]]).
      exists [(c, r')]. split; auto. split.
      { apply (co_panic _ []); auto. exists t. reflexivity. }
      split; auto. split; [rewrite Hh; reflexivity|]. split; [|eapply Hkp; eauto]. intros x [<-|[]]. cbn. eauto.
    - apply bind_inv in H1. destruct H1 as [(r & s1' & H0 & H1)|[[_ H1]|[H1 _]]]; [discriminate|discriminate|].
      destruct (ecall_inv _ _ _ _ H1) as (r' & Er & T & Hh & Sr & [[Hp [=]]|[Hx [=]]]).
  Qed.

  (* -------------------------------------------------------------- flattening of nested loops *)
  Lemma andthen_assoc a b c s : andthen (andthen a b) c s = andthen a (andthen b c) s.
  Proof. unfold andthen, bind, ret. destruct (a s) as [[[e|]| |] s1]; auto. Qed.
  Lemma andthen_ext a a' b b' s : a s = a' s -> (forall s, b s = b' s) -> andthen a b s = andthen a' b' s.
  Proof. intros H1 H2. unfold andthen, bind. rewrite H1. destruct (a' s) as [[[e|]| |] s1]; auto. Qed.
  Lemma andthen_ret a s : andthen (ret None) a s = a s.
  Proof. reflexivity. Qed.
  Lemma each_app {A} (f : A -> M (option err)) l1 l2 s : each f (l1 ++ l2) s = andthen (each f l1) (each f l2) s.
  Proof.
    revert s. induction l1 as [|x t IH]; intros s; cbn; [reflexivity|]. rewrite andthen_assoc. apply andthen_ext; auto.
  Qed.
  Lemma each_ext {A} (f g : A -> M (option err)) l s : (forall x s, f x s = g x s) -> each f l s = each g l s.
  Proof. intros H. revert s. induction l as [|x t IH]; intros s; cbn; [reflexivity|]. apply andthen_ext; auto. Qed.
  Lemma each_flat {A B} (f : B -> M (option err)) (g : A -> list B) l s :
    each (fun x => each f (g x)) l s = each f (flat_map g l) s.
  Proof.
    revert s. induction l as [|x t IH]; intros s; cbn; [reflexivity|]. rewrite each_app. apply andthen_ext; auto.
  Qed.

  (* -------------------------------------------------------------- hooks *)
  Definition hook_of (ty : ptr -> nat) (t : change_type) (b : bool) (p : ptr) : list call :=
    match t with
    | CClear => []
    | _ => if c_hooks cfg (ty p) t b then [KHook p t b] else []
    end.
  Definition hook_calls (ty : ptr -> nat) (b : bool) (chs : list change) : list call :=
    flat_map (fun ch => flat_map (hook_of ty (ch_type ch) b) (ch_kids ch)) chs.

  Lemma after_calls_types d : keeps_types cfg -> (forall c, In c d -> exists n, snd c = c_oracle cfg n) -> forall h p, e_type (after_calls h d p) = e_type (h p).
  Proof.
    intros Hk. induction d as [|[c r] t IH]; intros Ha h p; cbn; [reflexivity|]. unfold after_calls in IH. rewrite IH by (intros x Hx; apply Ha; now right).
    destruct (mutates c); auto. destruct (Ha (c, r) (or_introl eq_refl)) as (n & Hn). cbn in *. rewrite Hn. apply Hk.
  Qed.
  Lemma hooks_calls ty b chs : keeps_types cfg -> forall s, same_types (s_heap s) ty -> hooks cfg b chs s = calls (hook_calls ty b chs) s.
  Proof.
    intros Hk.
    assert (Hi : forall (items : list (change_type * ptr)) s, same_types (s_heap s) ty ->
       each (fun i => execHook cfg (fst i) b (snd i)) items s = calls (flat_map (fun i => hook_of ty (fst i) b (snd i)) items) s).
    { induction items as [|[t p] u IH]; intros s Hs; [reflexivity|]. cbn [each flat_map fst snd]. unfold calls in *. rewrite each_app.
      assert (E1 : execHook cfg t b p s = each (ecall_err cfg) (hook_of ty t b p) s).
      { unfold execHook, hook_of, bind at 1, get. rewrite (Hs p).
        destruct t; try reflexivity; (destruct (c_hooks cfg (ty p) _ b); [|reflexivity]); cbn;
          unfold andthen, bind; destruct (ecall_err cfg _ s) as [[[e|]| |] s1]; reflexivity. }
      unfold andthen, bind. rewrite E1. destruct (each (ecall_err cfg) (hook_of ty t b p) s) as [[[e|]| |] s1] eqn:E; auto.
      apply IH. destruct (calls_spec _ _ _ _ E) as (d & _ & _ & _ & G & A & _). intros q. rewrite G, after_calls_types; auto. }
    intros s Hs. unfold hooks.
    rewrite (each_ext _ (fun ch => each (fun i => execHook cfg (fst i) b (snd i)) (map (fun p => (ch_type ch, p)) (ch_kids ch)))).
    2:{ intros ch s1. generalize (ch_kids ch). intros l. revert s1. induction l as [|p t IH]; intros s1; cbn; [reflexivity|]. apply andthen_ext; auto. }
    rewrite each_flat, Hi by auto. f_equal. unfold hook_calls. clear. induction chs as [|ch t IH]; [reflexivity|]. cbn. rewrite flat_map_app, IH. f_equal.
    induction (ch_kids ch) as [|p u IHu]; cbn; [reflexivity|]. now rewrite IHu.
  Qed.

  (* -------------------------------------------------------------- ids *)
  Lemma putNewID_kids chs s : putNewID cfg chs s = each (putID cfg) (kids_of CNew chs) s.
  Proof.
    unfold putNewID, kids_of. revert s. induction chs as [|ch t IH]; intros s; cbn; [reflexivity|].
    destruct (ch_type ch) eqn:E; cbn; try apply IH.
    rewrite each_app. apply andthen_ext; auto.
  Qed.
  (** heaps that differ only in ids *)
  Definition only_ids (h h' : heap) : Prop := forall p, h' p = set_id (h p) (e_id (h' p)).
  Lemma only_ids_refl h : only_ids h h. Proof. intros p. now destruct (h p). Qed.
  Lemma only_ids_trans a b c : only_ids a b -> only_ids b c -> only_ids a c.
  Proof. intros H1 H2 p. rewrite (H2 p), (H1 p). destruct (a p); reflexivity. Qed.

  Record ids_given (h h' : heap) (l : list ptr) (ps : list ptr) (d : list (call * resp)) : Prop := mkIdsGiven {
    ig_only : only_ids h h';
    ig_calls : Forall2 (fun p c => fst c = KNewID /\ e_id (h p) = ""%string /\ e_id (h' p) = r_id (snd c)) ps d;
    ig_nodup : NoDup ps;
    ig_from : forall p, In p ps -> In p l;
    ig_other : forall p, ~ In p ps -> e_id (h' p) = e_id (h p) }.

  Lemma putIDs_spec l : ids_nonempty cfg -> forall s s', each (putID cfg) l s = (Done None, s') ->
    exists ps d, s_trace s' = s_trace s ++ d /\ Forall ans_ok d /\ same_rest s s' /\ s_tick s' = s_tick s /\
      ids_given (s_heap s) (s_heap s') l ps d /\ (forall p, In p l -> e_id (s_heap s' p) <> ""%string).
  Proof.
    intros Hne. induction l as [|p t IH]; cbn; intros s s' H.
    { injection H as <-. exists [], []. rewrite app_nil_r. do 4 (split; auto using same_rest_refl).
      split; [|intros p []]. split; auto using only_ids_refl; try constructor. }
    unfold andthen in H. apply bind_done in H. destruct H as (e & s1 & H1 & H2).
    destruct e as [e|]; [discriminate|]. apply IH in H2. destruct H2 as (ps & d & T2 & A2 & S2 & K2 & G2 & N2). clear IH.
    unfold putID in H1. unfold bind at 1, get in H1. destruct (String.eqb_spec (e_id (s_heap s p)) "") as [E|E].
    - apply bind_done in H1. destruct H1 as (r & s1' & H0 & H1). 
      assert (Hr : r = c_oracle cfg (length (s_trace s)) /\ s1' = with_trace s (s_trace s ++ [(KNewID, r)]) /\ r_ans r <> APanic).
      { unfold ecall in H0. cbn in H0. destruct (r_ans _) eqn:Ea; try discriminate; injection H0 as <- <-; (do 2 (split; auto)); congruence. }
      destruct Hr as (Er & -> & Hp). destruct (r_ans r) eqn:Ea; [|discriminate|congruence].
      injection H1 as <-. cbn [s_trace s_heap s_cont s_pool s_output s_evctx s_errs s_tick s_actions with_heap with_trace] in *.
      set (h := s_heap s) in *. set (h1 := hset h p (set_id (h p) (r_id r))) in *.
      assert (Eid : r_id r <> ""%string) by (rewrite Er; apply Hne).
      destruct G2 as [O2 C2 D2 F2 X2].
      assert (Hnp : ~ In p ps).
      { intros Hp'. clear - C2 Hp' Eid. revert Hp'. induction C2 as [|q c ps d Hq _ IH]; [intros []|]. intros [->|Hp]; auto.
        destruct Hq as (_ & Hq & _). subst h1. unfold hset in Hq. rewrite Nat.eqb_refl in Hq. cbn in Hq. contradiction. }
      assert (Ep : e_id (s_heap s' p) = r_id r).
      { rewrite X2 by auto. subst h1. unfold hset. now rewrite Nat.eqb_refl. }
      exists (p :: ps), ((KNewID, r) :: d). split; [rewrite T2, <- app_assoc; reflexivity|].
      split; [constructor; auto|]. split.
      { destruct S2. split; cbn in *; auto. }
      split; [exact K2|]. split; [split|].
      + intros q. rewrite (O2 q). subst h1. unfold hset. destruct (Nat.eqb_spec q p) as [->|]; [|reflexivity]. destruct (h p); reflexivity.
      + constructor; [cbn; auto|]. clear - C2 Hnp. induction C2 as [|q c ps d (H1 & H2 & H3) _ IH]; constructor.
        * split; auto. split; auto. subst h1. unfold hset in H2. destruct (Nat.eqb_spec q p) as [->|]; [|auto]. exfalso. apply Hnp. now left.
        * apply IH. intros Hx. apply Hnp. now right.
      + constructor; auto.
      + intros q [<-|Hq]; [now left|right; auto].
      + intros q Hq. rewrite X2 by (intros Hx; apply Hq; now right). subst h1. unfold hset.
        destruct (Nat.eqb_spec q p) as [->|]; [|reflexivity]. exfalso. apply Hq. now left.
      + intros q [<-|Hq]; [now rewrite Ep|auto].
    - injection H1 as <-. exists ps, d. do 4 (split; auto). split.
      + destruct G2 as [O2 C2 D2 F2 X2]. split; auto. intros q Hq. right. auto.
      + intros q [<-|Hq]; [|auto]. destruct G2 as [O2 C2 D2 F2 X2].
        destruct (in_dec Nat.eq_dec p ps) as [Hp|Hp]; [|now rewrite X2].
        exfalso. clear - C2 Hp E. induction C2 as [|q c ps d (_ & H2 & _) _ IH]; [destruct Hp|]. destruct Hp as [->|Hp]; auto.
  Qed.
  (** in any case: only id requests *)
  Lemma putIDs_calls l : forall s o s', each (putID cfg) l s = (o, s') ->
    exists d, s_trace s' = s_trace s ++ d /\ Forall (fun c => fst c = KNewID) d /\ same_rest s s' /\ s_tick s' = s_tick s /\
      only_ids (s_heap s) (s_heap s') /\ o <> Crash /\ (o = Done None -> Forall ans_ok d) /\ (Forall ans_ok d -> o = Done None).
  Proof.
    induction l as [|p t IH]; cbn; intros s o s' H.
    { injection H as <- <-. exists []. rewrite app_nil_r. split; auto. split; auto. split; [apply same_rest_refl|]. split; auto.
      split; [apply only_ids_refl|]. split; [discriminate|]. auto. }
    unfold andthen in H.
    assert (Hp : forall o1 s1, putID cfg p s = (o1, s1) -> exists d, s_trace s1 = s_trace s ++ d /\ Forall (fun c => fst c = KNewID) d /\
       same_rest s s1 /\ s_tick s1 = s_tick s /\ only_ids (s_heap s) (s_heap s1) /\ o1 <> Crash /\ (o1 = Done None -> Forall ans_ok d) /\ (Forall ans_ok d -> o1 = Done None)).
    { intros o1 s1 H1. unfold putID in H1. unfold bind at 1, get in H1. destruct (String.eqb_spec (e_id (s_heap s p)) "").
      - unfold bind, ecall in H1. cbn in H1. exists [(KNewID, c_oracle cfg (length (s_trace s)))].
        set (r := c_oracle cfg (length (s_trace s))) in *. destruct (r_ans r) eqn:Ea.
        + unfold bind, upd, ret in H1. cbn in H1. rewrite Ea in H1. injection H1 as <- <-. cbn. split; auto. split; [repeat constructor|]. split; [split; reflexivity|]. split; auto.
          split; [|split; [discriminate|split; [|auto]]].
          * intros q. unfold hset. destruct (Nat.eqb_spec q p) as [->|]; [reflexivity|]. now destruct (s_heap s q).
          * intros _. constructor; auto.
        + cbn in H1. rewrite Ea in H1. injection H1 as <- <-. cbn. split; auto. split; [repeat constructor|]. split; [split; reflexivity|]. split; auto.
          split; [apply only_ids_refl|]. split; [discriminate|]. split; [discriminate|].
          intros Hx. inversion Hx as [|? ? Hy]; subst. unfold ans_ok in Hy. cbn in Hy. congruence.
        + injection H1 as <- <-. cbn. split; auto. split; [repeat constructor|]. split; [split; reflexivity|]. split; auto.
          split; [apply only_ids_refl|]. split; [discriminate|]. split; [discriminate|].
          intros Hx. inversion Hx as [|? ? Hy]; subst. unfold ans_ok in Hy. cbn in Hy. congruence.
      - injection H1 as <- <-. exists []. rewrite app_nil_r. split; auto. split; auto. split; [apply same_rest_refl|]. split; auto.
        split; [apply only_ids_refl|]. split; [discriminate|]. auto. }
    destruct (bind_inv _ _ _ _ _ H) as [(e & s1 & H1 & H2)|[[H1 ->]|[H1 ->]]]; clear H.
    - destruct (Hp _ _ H1) as (d1 & T1 & F1 & S1 & K1 & O1 & C1 & A1 & B1). destruct e as [e|].
      + injection H2 as <- <-. exists d1. do 5 (split; [assumption|]). split; [discriminate|]. split; [discriminate|].
        intros Hx. specialize (B1 Hx). discriminate.
      + apply IH in H2. destruct H2 as (d2 & T2 & F2 & S2 & K2 & O2 & C2 & A2 & B2). exists (d1 ++ d2).
        split; [rewrite T2, T1, app_assoc; auto|]. split; [apply Forall_app; auto|]. split; [eapply same_rest_trans; eauto|].
        split; [congruence|]. split; [eapply only_ids_trans; eauto|]. split; auto. split.
        * intros Ho. apply Forall_app. auto.
        * intros Hx. apply Forall_app in Hx. destruct Hx as [_ Hx]. auto.
    - destruct (Hp _ _ H1) as (d1 & X). exists d1. exact X.
    - destruct (Hp _ _ H1) as (d1 & _ & _ & _ & _ & _ & X & _). congruence.
  Qed.

End Persist.

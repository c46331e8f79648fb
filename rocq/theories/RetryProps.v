(** C94: repeating a creation that failed, with the same objects. *)
From Verif Require Import EngineModel EventSpec EngineProps ActionSpec SyncSpec RetrySpec SaveProps EngineProof8 SyncProof2 RepoProof RepoProps EngineProof1 EngineProof11 EngineProof13 GraphProof5 AgainProps.
Local Open Scope string_scope. Local Open Scope list_scope. Local Open Scope nat_scope.

Lemma kept_refl h : kept h h. Proof. intros p. auto. Qed.
Lemma kept_trans h1 h2 h3 : kept h1 h2 -> kept h2 h3 -> kept h1 h3.
Proof.
  intros A B p. destruct (A p) as (A1 & A2 & A3 & A4), (B p) as (B1 & B2 & B3 & B4). split; [congruence|]. split; [congruence|]. split; [congruence|].
  intros N. rewrite <- (A4 N). apply B4. now rewrite A4.
Qed.
Lemma kept_kids h h' roots : kept h h' -> forall p, findChildren h' roots p = findChildren h roots p.
Proof. intros K p. unfold findChildren. destruct (Nat.eqb p meta); auto. unfold findChildren_ent. destruct (K p) as (_ & -> & -> & _). reflexivity. Qed.

(** What holds of every external call and every new id, holds of a whole creation. *)
Section Keeps.
  Variable cfg : config.
  Variable RK : st -> st -> Prop.
  Hypothesis rk_refl : forall s, RK s s.
  Hypothesis rk_trans : forall s1 s2 s3, RK s1 s2 -> RK s2 s3 -> RK s1 s3.
  Hypothesis rk_same : forall s s', s_heap s' = s_heap s -> s_trace s' = s_trace s -> RK s s'.
  Notation P := (pres RK).
  Hypothesis k_call : forall c, P (ecall cfg c).
  Hypothesis k_putID : forall p, P (putID cfg p).
  Lemma k_ret {A} (a : A) : P (ret a). Proof. apply pres_ret, rk_refl. Qed.
  Lemma k_bind {A B} (m : M A) (f : A -> M B) : P m -> (forall a, P (f a)) -> P (bind m f). Proof. apply pres_bind, rk_trans. Qed.
  Lemma k_then m n : P m -> P n -> P (andthen m n). Proof. apply pres_andthen; auto; eapply rk_trans; eauto. Qed.
  Lemma k_each {A} (f : A -> M (option err)) l : (forall x, P (f x)) -> P (each f l). Proof. intros. apply pres_each; auto. Qed.
  Lemma k_get : P get. Proof. apply pres_get, rk_refl. Qed.
  Lemma k_crash {A} : P (@crash A). Proof. apply pres_crash, rk_refl. Qed.
  Lemma k_panic {A} : P (@panic A). Proof. apply pres_panic, rk_refl. Qed.
  Lemma k_upd f : (forall s, RK s (f s)) -> P (upd f). Proof. apply pres_upd. Qed.
  Lemma k_finally {A} (m : M A) f : P m -> P f -> P (finally m f).
  Proof.
    intros Hm Hf s o s' H. unfold finally in H. destruct (m s) as [o1 s1] eqn:E. apply Hm in E.
    destruct o1; [| |injection H as _ <-; exact E]; destruct (f s1) as [o2 s2] eqn:E2; apply Hf in E2; destruct o2; injection H as _ <-; eapply rk_trans; eauto.
  Qed.
  Lemma k_on_panic {A} (m : M A) f : P m -> P f -> P (on_panic m f).
  Proof.
    intros Hm Hf s o s' H. unfold on_panic in H. destruct (m s) as [o1 s1] eqn:E. apply Hm in E.
    destruct o1; [injection H as _ <-; exact E| |injection H as _ <-; exact E]. destruct (f s1) as [o2 s2] eqn:E2; apply Hf in E2; destruct o2; injection H as _ <-; eapply rk_trans; eauto.
  Qed.
  Ltac v := repeat first
    [ apply k_ret | apply k_get | apply k_crash | apply k_panic
    | apply k_bind; [|intros ?] | apply k_then | apply k_each; intros ?
    | apply k_call
    | apply k_upd; intros ?; apply rk_same; reflexivity
    | progress unfold ecall_err, ignore_err, bus_call
    | match goal with
      | |- P (match ?x with _ => _ end) => destruct x
      | |- P (if ?x then _ else _) => destruct x
      end ].
  Lemma k_walk_from p : P (walk_from cfg p). Proof. unfold walk_from. v. Qed.
  Lemma k_changed : P (changed cfg). Proof. unfold changed. v. Qed.
  Lemma k_hooks b chs : P (hooks cfg b chs). Proof. unfold hooks, execHook. v. Qed.
  Lemma k_putNewID chs : P (putNewID cfg chs).
  Proof. unfold putNewID. apply k_each. intros c. destruct (ch_type c); try apply k_ret. apply k_each. intros. apply k_putID. Qed.
  Lemma k_makeActions chs : P (makeActions cfg chs).
  Proof. unfold makeActions. apply k_bind; [v|intros s]. destruct (make_actions _ _ _ _) as [[] ?]; v. Qed.
  Lemma k_exec acts : P (exec cfg acts). Proof. unfold exec. v. Qed.
  Lemma k_recycle chs : P (recycle chs). Proof. unfold recycle. v. Qed.
  Lemma k_persist : P (persist cfg).
  Proof.
    unfold persist. apply k_bind; [apply k_changed|intros [e|chs]]; [apply k_ret|].
    apply k_then; [apply k_hooks|]. apply k_then; [apply k_putNewID|].
    apply k_bind; [apply k_makeActions|intros [e|acts]]; [apply k_ret|].
    apply k_then; [apply k_exec|]. apply k_then; [apply k_hooks|]. apply k_bind; [apply k_recycle|intros; apply k_ret].
  Qed.
  Lemma k_collect : P (collectEvents cfg).
  Proof.
    assert (W : forall ps, P (walk_all cfg ps)) by (induction ps as [|p t IH]; cbn [walk_all]; [v|]; apply k_bind; [apply k_walk_from|intros l]; apply k_bind; [exact IH|intros; v]).
    unfold collectEvents. apply k_bind; [apply k_walk_from|intros l]. apply k_bind; [v|intros s]. apply k_bind; [apply W|intros d]. v.
  Qed.
  Lemma k_meta_add p : P (meta_add p). Proof. unfold meta_add. v. Qed.
  Lemma k_repo_add l : P (repo_add l).
  Proof. unfold repo_add, append_err. apply k_bind; [apply k_each; intros r; apply k_bind; [v|intros s]; destruct (has_snapshot s r); [v|apply k_meta_add]|intros [e|]; v]. Qed.
  Lemma k_dispatch evs : P (dispatchEvents cfg evs).
  Proof. unfold dispatchEvents. v. Qed.
  Lemma k_publish evs : P (publish cfg evs).
  Proof.
    unfold publish. destruct evs; [v|]. apply k_bind.
    - destruct (c_persist cfg); [|v]. destruct (persist_models _ _); [v|]. apply k_bind; [apply k_exec|intros; v].
    - intros [r|]; [v|]. destruct (c_bus cfg); [v| |]; (apply k_bind; [apply k_dispatch|intros; v]).
  Qed.
  Lemma k_do roots : P (do_ cfg (BAdd roots (BRet None))).
  Proof.
    unfold do_. apply k_bind.
    - cbn [run_body]. apply k_bind; [apply k_repo_add|intros; v].
    - intros [e|]; [v|]. apply k_bind; [v|intros s]. destruct (repo_error s); [v|]. apply k_bind; [apply k_persist|intros [e|]]; [v|].
      apply k_bind; [apply k_collect|intros; apply k_publish].
  Qed.
  Lemma k_in_tx f : P f -> P (in_tx cfg f).
  Proof.
    intros Hf. unfold in_tx. apply k_bind; [v|intros [e|]]; [v|]. apply k_on_panic; [|v]. apply k_bind; [exact Hf|intros r]. v.
  Qed.
  Lemma k_acquire ks : forall got, P (acquire cfg ks got).
  Proof. induction ks as [|k t IH]; intros got; cbn [acquire]; [v|]. apply k_bind; [v|intros [e|]]; [v|apply IH]. Qed.
  Lemma k_release ls : P (release cfg ls).
  Proof. induction ls as [|l t IH]; cbn [release]; [v|]. apply k_bind; [v|intros; apply IH]. Qed.
  Lemma k_post n : forall i, P (post_hooks cfg n i).
  Proof. induction n as [|n IH]; intros i; cbn [post_hooks]; [v|]. apply k_bind; [v|intros; apply IH]. Qed.
  Lemma k_save keys roots : P (save cfg keys (BAdd roots (BRet None))).
  Proof.
    unfold save. apply k_bind.
    - assert (F : P (if c_tx cfg then in_tx cfg (do_ cfg (BAdd roots (BRet None))) else do_ cfg (BAdd roots (BRet None)))) by (destruct (c_tx cfg); [apply k_in_tx|]; apply k_do).
      destruct keys; [exact F|]. unfold on_lock. destruct (adj_repeat _); [v|]. apply k_bind; [apply k_acquire|intros [got e]]. apply k_finally; [destruct e; [v|exact F]|apply k_release].
    - intros r. destruct (res_err r); [v|]. apply k_bind; [apply k_post|intros; v].
  Qed.
End Keeps.


Definition RKept (s s' : st) : Prop := kept (s_heap s) (s_heap s').
Lemma k_creation cfg : hooks_keep cfg -> forall keys roots h o s, creation cfg keys roots h = (o, s) -> kept h (s_heap s).
Proof.
  intros HK keys roots h o s H. change (RKept (new_stage h) s). revert H. unfold creation. generalize (new_stage h) as s0. intros s0 H. revert H.
  apply (k_save cfg RKept).
  - intros s1. apply kept_refl.
  - intros s1 s2 s3. apply kept_trans.
  - intros s1 s2 E _. unfold RKept. rewrite E. apply kept_refl.
  - intros c s1 o1 s2 H. unfold ecall in H. destruct (mutates c), (r_ans _); injection H as _ <-; unfold RKept; cbn; try apply HK; apply kept_refl.
  - intros p s1 o1 s2 H. unfold putID in H. unfold bind at 1, get at 1 in H. destruct (String.eqb_spec (e_id (s_heap s1 p)) "") as [E|]; [|injection H as _ <-; apply kept_refl].
    unfold bind, ecall in H. cbn [mutates] in H. set (r := c_oracle cfg _) in *. clearbody r.
    destruct (r_ans r) eqn:Er.
    + rewrite Er in H. injection H as _ <-. intros q. cbn [with_heap s_heap with_trace]. unfold hset. destruct (Nat.eqb_spec q p); [subst q|now auto]. cbn [set_id e_type e_custom e_fields e_id].
      repeat split; auto. intros X. contradiction.
    + rewrite Er in H. injection H as _ <-. exact (kept_refl _).
    + injection H as _ <-. exact (kept_refl _).
Qed.
Definition RQuiet (s s' : st) : Prop := exists d, s_trace s' = s_trace s ++ d /\ (Forall (fun c => touches (fst c) = false) d -> s_heap s' = s_heap s).
Lemma q_creation cfg keys roots h o s : creation cfg keys roots h = (o, s) -> (forall c x, In (c, x) (s_trace s) -> touches c = false) -> s_heap s = h.
Proof.
  intros H Q. assert (X : RQuiet (new_stage h) s).
  2:{ destruct X as (d & T & E). apply E. cbn in T. rewrite <- T. apply Forall_forall. intros [c x] I. exact (Q c x I). }
  revert H. unfold creation. generalize (new_stage h) as s0. intros s0. apply (k_save cfg RQuiet); clear.
  - intros s. exists []. rewrite app_nil_r. auto.
  - intros s1 s2 s3 (d1 & T1 & E1) (d2 & T2 & E2). exists (d1 ++ d2). split; [rewrite T2, T1, <- app_assoc; reflexivity|]. intros F. apply Forall_app in F. destruct F as [F1 F2]. rewrite E2, E1; auto.
  - intros s s' E T. exists []. rewrite T, app_nil_r. auto.
  - intros c s o s' H. unfold ecall in H. set (r := c_oracle cfg _) in *. clearbody r. exists [(c, r)].
    assert (T : s_trace s' = s_trace s ++ [(c, r)]) by (destruct (mutates c), (r_ans r); injection H as _ <-; reflexivity). split; [exact T|].
    intros F. inversion F as [|? ? F1 _]; subst. cbn in F1. assert (Z : mutates c = false) by (destruct c; try reflexivity; discriminate F1). rewrite Z in H. destruct (r_ans r); injection H as _ <-; reflexivity.
  - intros p s o s' H. unfold putID in H. unfold bind at 1, get at 1 in H. destruct (String.eqb_spec (e_id (s_heap s p)) "") as [E|]; [|injection H as _ <-; exists []; rewrite app_nil_r; auto].
    unfold bind, ecall in H. cbn [mutates] in H. set (r := c_oracle cfg _) in *. clearbody r. exists [(KNewID, r)].
    split; [destruct (r_ans r) eqn:Er; try rewrite Er in H; injection H as _ <-; reflexivity|]. intros F. inversion F as [|? ? F1 _]; subst. discriminate F1.
Qed.

(* ---------------------------------------------------------------- the body *)
Definition add_one (r : ptr) : M (option err) := bind get (fun s => if has_snapshot s r then ret (Some EMustBeNew) else meta_add r).
Lemma add_all ps : forall s o s', s_pool s = (fun _ => None) -> each add_one ps s = (o, s') ->
  s_pool s' = (fun _ => None) /\ s_heap s' = s_heap s /\ s_errs s' = s_errs s /\ s_trace s' = s_trace s /\
  match o with
  | Done None => ct_roots (s_cont s') = ct_roots (s_cont s) ++ ps
  | Done (Some _) => True | _ => False
  end.
Proof.
  induction ps as [|p t IH]; intros s o s' E H; cbn [each] in H.
  - injection H as <- <-. rewrite app_nil_r. auto 6.
  - unfold andthen, bind at 1 in H. unfold add_one, bind at 1, get at 1 in H. unfold has_snapshot in H. rewrite E in H.
    unfold meta_add in H. unfold bind at 1, get at 1 in H. unfold cont_add in H. destruct (memb p (ct_roots (s_cont s))).
    + injection H as <- <-. auto 6.
    + cbn [bind upd ret] in H. unfold bind, upd, ret in H. apply IH in H; [|exact E]. cbn [with_cont s_pool s_heap s_errs s_trace s_cont ct_roots] in H.
      destruct H as (A & B & C & D & F). do 4 (split; [assumption|]). destruct o as [[x|]| |]; auto. rewrite F, <- app_assoc. reflexivity.
Qed.
Lemma add_body cfg roots h tr s1 : run_body cfg (BAdd roots (BRet (@None err))) (with_trace (new_stage h) tr) = (Done None, s1) -> s_errs s1 = [] ->
  s_pool s1 = (fun _ => None) /\ s_heap s1 = h /\ s_trace s1 = tr /\ ct_roots (s_cont s1) = roots.
Proof.
  cbn [run_body]. unfold repo_add. fold add_one. intros H He. unfold bind at 1 2 in H. destruct (each add_one roots (with_trace (new_stage h) tr)) as [o s2] eqn:E.
  apply add_all in E; [|reflexivity]. destruct E as (A & B & C & D & F). destruct o as [[x|]| |]; try contradiction.
  - unfold append_err, upd, ret in H. injection H as <-. cbn [with_errs s_errs] in He. destruct (s_errs s2); discriminate He.
  - unfold ret in H. injection H as <-. auto.
Qed.

Lemma empty_must_save cfg s t par k p : s_pool s = (fun _ => None) -> must_save cfg s t par k p <-> t = CNew /\ reach (kids_now s) meta par /\ now_child (kids_now s) par k p.
Proof.
  intros E. assert (W : forall q k c, ~ was_child (s_pool s) q k c) by (intros q k0 c (sn & l & X & _); rewrite E in X; discriminate X).
  unfold must_save, expected_final, expected_change. split.
  - intros [X|(_ & _ & _ & d & p0 & k0 & (((_ & _ & Z & _) & _) & _))]; [|destruct (W _ _ _ Z)].
    destruct t.
    + destruct X as ((R & N & _) & _). auto.
    + destruct X as [(_ & _ & Z & _)|(_ & p' & k' & _ & _ & Z & _)]; destruct (W _ _ _ Z).
    + destruct X as ((_ & _ & Z & _) & _). destruct (W _ _ _ Z).
    + contradiction.
  - intros (-> & R & N). left. split; [split; [exact R|split; [exact N|apply W]]|]. intros p' k' (_ & _ & Z & _). exact (W _ _ _ Z).
Qed.

Lemma reach_ext A B : (forall q k c, now_child A q k c <-> now_child B q k c) -> forall p q, reach A p q -> reach B p q.
Proof. intros N p q X. induction X as [p|p k c q X1 X2 IH]; [apply reach_refl|]. eapply reach_step; [apply N; exact X1|exact IH]. Qed.

(* ---------------------------------------------------------------- counting *)
Lemma kinds_count (cs : list contrib) : forall ks : list (op * nat), NoDup ks ->
  list_sum (map (fun k => length (filter (same_kind (fst k) (snd k)) cs)) ks) <= length cs.
Proof.
  induction cs as [|c t IH]; intros ks N.
  - cbn. induction ks as [|k r IHk]; cbn; auto. apply IHk. now inversion N.
  - cbn [length filter]. specialize (IH ks N).
    enough (X : list_sum (map (fun k => length (if same_kind (fst k) (snd k) c then c :: filter (same_kind (fst k) (snd k)) t else filter (same_kind (fst k) (snd k)) t)) ks) <=
                S (list_sum (map (fun k => length (filter (same_kind (fst k) (snd k)) t)) ks))) by lia.
    clear IH. induction ks as [|k r IHk]; cbn [map list_sum fold_right]; [lia|]. inversion N as [|? ? N1 N2]; subst.
    change (list_sum ?l) with (fold_right plus 0 l) in *. cbn [fold_right].
    destruct (same_kind (fst k) (snd k) c) eqn:E.
    + cbn [length]. assert (Z : map (fun k => length (if same_kind (fst k) (snd k) c then c :: filter (same_kind (fst k) (snd k)) t else filter (same_kind (fst k) (snd k)) t)) r =
                             map (fun k => length (filter (same_kind (fst k) (snd k)) t)) r).
      { apply map_ext_in. intros k' I. destruct (same_kind (fst k') (snd k') c) eqn:E'; auto. exfalso. apply N1.
        unfold same_kind in E, E'. apply andb_true_iff in E, E'. destruct E as [E1 E2], E' as [E3 E4]. apply Nat.eqb_eq in E2, E4.
        assert (op_eqb_eq : forall a b, op_eqb a b = true -> a = b) by (intros [] [] X; try reflexivity; discriminate X).
        apply op_eqb_eq in E1, E3. destruct k, k'. cbn in *. subst. exact I. }
      rewrite Z. lia.
    + specialize (IHk N2). lia.
Qed.
Lemma contributions_count cfg h pl chs : length (contributions cfg h pl chs) <= length (flat_map ch_kids chs).
Proof.
  unfold contributions. induction chs as [|c t IH]; cbn [flat_map]; [auto|]. rewrite !app_length. apply Nat.add_le_mono; auto.
  clear. induction (ch_kids c) as [|x l IH]; cbn [flat_map length]; [auto|]. rewrite app_length. destruct (c_conv _ _ _ _ _); cbn [length]; lia.
Qed.

(* ---------------------------------------------------------------- C94 *)
(** The first attempt ended in any way whatever (error, break, panic, even success).  The second attempt, with the same objects,
    reports success.  Then every entity of the aggregates, as they were built before the first attempt, was inserted by the second
    attempt; nothing but inserts was executed, and not more rows than there are entities; and every id that an object had after
    the first attempt is the id it was stored with. *)
Theorem C94_repeated_creation_stores : forall cfg1 keys1 cfg2 keys2 h roots o1 s1 r2 s2,
  hooks_keep cfg1 -> hooks_keep cfg2 -> orders_ok cfg2 -> c_dry cfg2 = false -> c_recursive cfg2 = false -> c_persist cfg2 = None -> go_maps h (fun _ => None) ->
  creation cfg1 keys1 roots h = (o1, s1) ->
  creation cfg2 keys2 roots (s_heap s1) = (Done r2, s2) -> no_error r2 -> after_unread cfg2 (s_trace s2) ->
  (forall par p m, part_of h roots par p -> c_conv cfg2 (s_heap s2) p (Some par) OpInsert = CModel m -> executed (s_trace s2) OpInsert m) /\
  (forall p, e_id (s_heap s1 p) <> "" -> e_id (s_heap s2 p) = e_id (s_heap s1 p)) /\
  (forall a x, In (KExec a, x) (s_trace s2) -> a_op a = OpInsert) /\
  exists ps, NoDup ps /\ (forall p, In p ps <-> exists par, part_of h roots par p) /\ length (flat_map a_models (execs (s_trace s2))) <= length ps.
Proof.
  intros cfg1 keys1 cfg2 keys2 h roots o1 s1 r2 s2 K1 K2 Ho Hd Hr Hp Hm H1 H2 Hn Ha.
  pose proof (k_creation cfg1 K1 _ _ _ _ _ H1) as KH1. pose proof (k_creation cfg2 K2 _ _ _ _ _ H2) as KH2.
  assert (Ht : keeps_types cfg2) by (intros n g p; apply K2).
  assert (Hg : bad r2 = false) by (destruct Hn as [E B]; unfold bad; now rewrite E).
  unfold creation in H2. destruct (save_do cfg2 keys2 _ _ _ _ H2) as [[_ N]|(a & d & b & of & sx & Hdo & Ts & -> & Fa & Fb & Fw & _ & _ & _ & Hof)]; [rewrite (N r2 eq_refl) in Hg; discriminate|].
  specialize (Hof r2 eq_refl Hg). subst of. destruct (do_success cfg2 _ _ r2 sx Hdo Hg) as (sb & sp & evs & s3 & B1 & Be & B2 & B3 & B4).
  destruct (add_body cfg2 roots _ _ _ B1 Be) as (Pl & Hh & Tb & Rt).
  destruct (collect_quiet cfg2 _ _ _ B3) as (dc & Tc & Ec). destruct (publish_quiet cfg2 evs Hp _ _ _ B4) as (dp & Tp & Ep).
  assert (Kd : forall q, kids_now sb q = findChildren h roots q) by (intros q; unfold kids_now; rewrite Hh, Rt; now apply kept_kids).
  assert (Hm' : go_maps (s_heap sb) (s_pool sb)).
  { rewrite Hh, Pl. destruct Hm as [M1 M2]. split; [|discriminate]. intros p m X. destruct (KH1 p) as (_ & Y & _). rewrite Y in X. eauto. }
  assert (MS : forall t par k p, must_save cfg2 sb t par k p <-> t = CNew /\ reach (findChildren h roots) meta par /\ now_child (findChildren h roots) par k p).
  { intros t par k p. rewrite (empty_must_save _ _ _ _ _ _ Pl). assert (Nx : forall q k c, now_child (kids_now sb) q k c <-> now_child (findChildren h roots) q k c) by (intros q k0 c; unfold now_child; now rewrite Kd).
    assert (Rx : forall q, reach (kids_now sb) meta q <-> reach (findChildren h roots) meta q).
    { intros q. split; apply reach_ext; intros; [apply Nx|symmetry; apply Nx]. }
    rewrite Rx, Nx. reflexivity. }
  assert (Eb : execs b = []). { clear - Fw. induction Fw as [|[c x] t Hc _ IH]; [reflexivity|]. unfold execs in *. cbn in *. rewrite IH. destruct c; auto; discriminate. }
  assert (Ea : execs a = []). { clear - Fa. induction Fa as [|[c x] t [_ Hc] _ IH]; [reflexivity|]. unfold execs in *. cbn in *. rewrite IH. destruct c; auto; discriminate. }
  destruct (C16_actions_homogeneous_complete_ordered cfg2 sb _ sp Ht Hm' Ho B2) as (dd & Td & X). specialize (X (or_intror eq_refl)).
  destruct X as (chs & hx & acts & RP & ND & AF & _ & EX). specialize (EX eq_refl Hd). specialize (ND Hr).
  assert (TT : s_trace (with_trace sx (a ++ d ++ b)) = s_trace sp ++ dc ++ dp ++ b).
  { cbn [with_trace s_trace]. rewrite app_assoc, <- Ts, Tp, Tc, <- !app_assoc. reflexivity. }
  assert (EE : execs (s_trace (with_trace sx (a ++ d ++ b))) = acts).
  { rewrite TT, Td, Tb, !execs_app, Ea, Ec, Ep, Eb, !app_nil_r. exact EX. }
  assert (Hs : s_heap sp = s_heap sx).
  { apply (collect_spec _ Ho) in B3. destruct B3 as (C1 & _). rewrite <- C1. symmetry.
    destruct evs as [|e t].
    - unfold publish, bind, get, ret in B4. injection B4 as _ <-. reflexivity.
    - destruct (publish_shape cfg2 (e :: t) s3 _ sx ltac:(discriminate) B4) as (dp' & ddx & n & T & _ & _ & _ & E1 & _). exact E1. }
  assert (CN : forall c, In c (contributions cfg2 hx (s_pool sb) chs) -> cb_op c = OpInsert).
  { intros c I. unfold contributions in I. apply in_flat_map in I. destruct I as (ch & I1 & I2). apply in_flat_map in I2. destruct I2 as (q & I2 & I3).
    assert (Y : ch_type ch = CNew) by (apply (MS _ (ch_parent ch) (ch_key ch) q), RP; exists ch; auto 10).
    destruct (c_conv _ _ _ _ _); try (destruct I3 as [<-|[]]); try contradiction I3. cbn. now rewrite Y. }
  split; [|split; [|split]].
  - intros par p m (k & R & N) C.
    assert (Z : executed (s_trace sp) (change_op CNew) m).
    { eapply persist_executes; try exact B2; eauto.
      - intros q t y Hy. apply (Ha q t y). rewrite TT. apply in_app_iff. auto.
      - apply MS. eauto.
      - rewrite Hs. exact C. }
    destruct Z as (ac & x & I & Z). exists ac, x. split; auto. rewrite TT. apply in_app_iff. auto.
  - intros p N. apply (KH2 p). exact N.
  - intros ac x I. assert (J : In ac acts). { rewrite <- EE. unfold execs. apply in_flat_map. eexists. split; [exact I|]. now left. }
    destruct (af_exact _ _ AF ac J) as (NE & _ & _). destruct (filter _ _) as [|c l] eqn:F; [congruence|].
    assert (JJ : In c (filter (same_kind (a_op ac) (action_type ac)) (contributions cfg2 hx (s_pool sb) chs))) by (rewrite F; now left). apply filter_In in JJ. destruct JJ as [J1 J2].
    apply CN in J1. unfold same_kind in J2. rewrite J1 in J2. apply andb_true_iff in J2. destruct (a_op ac); destruct J2 as [J2 _]; try discriminate J2; reflexivity.
  - exists (flat_map ch_kids chs). split; [exact ND|]. split.
    + intros p. split.
      * intros I. apply in_flat_map in I. destruct I as (ch & I1 & I2). assert (Y : must_save cfg2 sb (ch_type ch) (ch_parent ch) (ch_key ch) p) by (apply RP; exists ch; auto 10).
        apply MS in Y. destruct Y as (_ & R & N). exists (ch_parent ch), (ch_key ch). auto.
      * intros (par & k & R & N). assert (Y : must_save cfg2 sb CNew par k p) by (apply MS; auto). apply RP in Y. destruct Y as (ch & I & _ & _ & _ & J). apply in_flat_map. eauto.
    + rewrite EE. eapply Nat.le_trans; [|apply (contributions_count cfg2 hx (s_pool sb) chs)].
      eapply Nat.le_trans; [|apply (kinds_count _ (map (fun a => (a_op a, action_type a)) acts)); apply (af_once _ _ AF)].
      rewrite map_map. cbn [fst snd]. pose proof (af_exact _ _ AF) as X. clear - X.
      induction acts as [|ac t IH]; cbn; auto. rewrite app_length. apply Nat.add_le_mono.
      * destruct (X ac (or_introl eq_refl)) as (_ & -> & _). rewrite map_length. auto.
      * apply IH. intros a I. apply X. now right.
Qed.
Print Assumptions C94_repeated_creation_stores.

(* ---------------------------------------------------------------- when the objects are as before *)
(** An attempt that got no further than the locks, or whose transaction could not begin, or in which no hook ran and no id was made,
    leaves the objects as they were: repeating it is the same as a first attempt. *)
Theorem C94_early_failure_changes_nothing : forall cfg1 keys1 h roots o1 s1,
  creation cfg1 keys1 roots h = (o1, s1) ->
  ((forall c x, In (c, x) (s_trace s1) -> touches c = false) \/ (c_tx cfg1 = true /\ forall x, In (KBegin, x) (s_trace s1) -> r_ans x <> AOk)) ->
  s_heap s1 = h /\ forall cfg2 keys2, creation cfg2 keys2 roots (s_heap s1) = creation cfg2 keys2 roots h.
Proof.
  intros cfg1 keys1 h roots o1 s1 H Q. assert (E : s_heap s1 = h); [|split; [exact E|now rewrite E]].
  apply (q_creation _ _ _ _ _ _ H). destruct Q as [Q|[T Q]]; [exact Q|]. unfold creation in H.
  destruct (save_tx_run _ _ _ _ _ _ T H) as (tr & R & Tr). cbn [new_stage s_trace app] in Tr. rewrite Tr in *.
  destruct R as [tr o F _|pre rb d tl post of s2 oo o _ _ Hb _ _ _ _ _].
  - rewrite Forall_forall in F. intros c x I. destruct (F _ I) as [X|[X _]]; cbn in X; [destruct c; try discriminate X; reflexivity|subst c; reflexivity].
  - exfalso. apply (Q rb); [|exact Hb]. apply in_app_iff. right. now left.
Qed.
Print Assumptions C94_early_failure_changes_nothing.

(* ---------------------------------------------------------------- events of the failed attempt *)
(** Refutation: an event raised by a hook of the failed attempt stays on the object, and the repeated run publishes it along with the
    event its own hook raises.  Here AfterCreate raises an event; the first COMMIT fails, so the entity the event
    speaks of was not created; the event is sent by the second attempt, twice as it were: two creation events for one entity. *)
Definition evA : event := ex_ev "a" SendTx 5.
Definition evB : event := ex_ev "b" SendTx 9.
Definition c94_hook (e : event) (h : heap) : heap := hset h 1 (let x := h 1 in mkEnt (e_id x) (e_dirty x) (e_type x) (e_custom x) (e_fields x) (e_events x ++ [e]) (e_data x)).
Definition c94_oracle (e : event) (bad : nat) : nat -> resp := fun n =>
  mkResp (if Nat.eqb n bad then AErr (EUser 7) else AOk) (c94_hook e) "gen" true.
Definition c94_cfg (e : event) (bad : nat) : config :=
  mkConfig true false false BusTx None 0 ex_conv (fun ty t b => match ty, t, b with 1, CNew, false => true | _, _, _ => false end) (fun _ => ord_id) (fun _ l => l) 20 (c94_oracle e bad).
Definition c94_heap : heap := fun p => match p with 1 => ex_ent "" 1 [2] [] ["v"] | 2 => ex_ent "c" 2 [] [] ["w"] | _ => ex_ent "" 0 [] [] [] end.
Definition c94_obs (x : out result * st) : option (option err * bool * list call * string) :=
  match fst x with Done r => Some (res_err r, res_break r, map fst (s_trace (snd x)), e_id (s_heap (snd x) 1)) | _ => None end.
Notation c94_first := (creation (c94_cfg evA 6) [] [1] c94_heap).
Notation c94_second := (creation (c94_cfg evB 99) [] [1] (s_heap (snd c94_first))).
Definition c94_m1 := mkModel 1 "gen" ["v"].
Definition c94_inserts := [KExec (mkAction OpInsert [c94_m1] []); KExec (mkAction OpInsert [m_c] [])].
Lemma c94_first_calls : c94_obs c94_first = Some (Some (EUser 7), false,
  [KBegin; KNewID] ++ c94_inserts ++ [KHook 1 CNew false; KDispatchBegin [evA]; KCommit], "gen").
Proof. vm_compute. reflexivity. Qed.
Lemma c94_second_calls : c94_obs c94_second = Some (None, false,
  [KBegin] ++ c94_inserts ++ [KHook 1 CNew false; KDispatchBegin [evA; evB]; KCommit; KBusCommit], "gen").
Proof. vm_compute. reflexivity. Qed.
Lemma c94_second_trace : s_trace (snd c94_second) =
  combine ([KBegin] ++ c94_inserts ++ [KHook 1 CNew false; KDispatchBegin [evA; evB]; KCommit; KBusCommit]) (map (c94_oracle evB 99) [0; 1; 2; 3; 4; 5; 6]).
Proof. vm_compute. reflexivity. Qed.
Lemma c94_first_commit : map (fun c => (fst c, r_ans (snd c))) (filter (fun c => match fst c with KCommit => true | _ => false end) (s_trace (snd c94_first))) = [(KCommit, AErr (EUser 7))].
Proof. vm_compute. reflexivity. Qed.
Lemma c94_none : forall p, e_events (c94_heap p) = []. Proof. intros [|[|[|p]]]; reflexivity. Qed.
Theorem C94_events_of_failed_attempt_refuted :
  ~ (forall cfg1 keys1 cfg2 keys2 h roots e1 r1 s1 r2 s2 e,
     creation cfg1 keys1 roots h = (Done r1, s1) -> res_err r1 = Some e1 -> ~ commit_ok (s_trace s1) ->
     creation cfg2 keys2 roots (s_heap s1) = (Done r2, s2) -> no_error r2 ->
     In e (published (s_trace s2)) -> (exists p, In e (e_events (h p))) \/ raised_by_hook (s_trace s2) e).
Proof.
  intros H.
  pose proof c94_first_calls as A. pose proof c94_second_calls as B. pose proof c94_second_trace as T. pose proof c94_first_commit as C.
  revert A B T C.
  destruct (creation (c94_cfg evA 6) [] [1] c94_heap) as [o1 s1] eqn:E1. cbn [snd].
  destruct (creation (c94_cfg evB 99) [] [1] (s_heap s1)) as [o2 s2] eqn:E2. intros A B T C. cbn [snd] in T. unfold c94_obs in A, B. cbn [fst snd] in A, B.
    destruct o1 as [r1| |]; try discriminate A. destruct o2 as [r2| |]; try discriminate B.
    injection A as A1 _ _ _. injection B as B1 B2 _ _.
    specialize (H (c94_cfg evA 6) [] (c94_cfg evB 99) [] c94_heap [1] (EUser 7) r1 s1 r2 s2 evA E1 A1). clear E1. 
    assert (NC : ~ commit_ok (s_trace s1)).
    { intros (r & I & O). assert (J : In (KCommit, r) (filter (fun c => match fst c with KCommit => true | _ => false end) (s_trace s1))) by (apply filter_In; auto).
      apply (in_map (fun c => (fst c, r_ans (snd c)))) in J. rewrite C in J. cbn in J. destruct J as [J|[]]. congruence. }
    specialize (H NC E2 (conj B1 B2)). clear E2. rewrite T in H. assert (P : In evA (published (combine ([KBegin] ++ c94_inserts ++ [KHook 1 CNew false; KDispatchBegin [evA; evB]; KCommit; KBusCommit]) (map (c94_oracle evB 99) [0; 1; 2; 3; 4; 5; 6])))) by (cbn; auto).
    destruct (H P) as [[p X]|(p & t & b & x & g & q & X & Y & Z)]; clear H.
    + rewrite c94_none in X. destruct X.
    + cbn in X. repeat (destruct X as [X|X]; [try discriminate X; injection X as _ _ _ <-|]); [|destruct X].
      apply Z. cbn [c94_oracle r_heap] in Y. unfold c94_hook, hset in Y. destruct (Nat.eqb_spec q 1) as [Eq|Nq]; [|exact Y]. rewrite Eq. cbn [e_events] in Y.
      apply in_app_iff in Y. destruct Y as [Y|[Y|[]]]; [exact Y|discriminate Y].
Qed.
Print Assumptions C94_events_of_failed_attempt_refuted.
(** The same two runs meet the hypotheses of [C94_repeated_creation_stores]. *)
Lemma c94_keep e b : hooks_keep (c94_cfg e b).
Proof. intros n h p. cbn [c94_cfg c_oracle c94_oracle r_heap]. unfold c94_hook, hset. destruct (Nat.eqb_spec p 1) as [->|]; cbn; auto. Qed.
Example C94_repeated_creation_example :
  hooks_keep (c94_cfg evA 6) /\ hooks_keep (c94_cfg evB 99) /\ orders_ok (c94_cfg evB 99) /\ go_maps c94_heap (fun _ => None) /\
  (exists r1, fst c94_first = Done r1 /\ res_err r1 <> None) /\ (exists r2, fst c94_second = Done r2 /\ no_error r2) /\ after_unread (c94_cfg evB 99) (s_trace (snd c94_second)) /\
  part_of c94_heap [1] meta 1 /\ part_of c94_heap [1] 1 2 /\ ex_conv (s_heap (snd c94_second)) 1 (Some meta) OpInsert = CModel c94_m1.
Proof.
  split; [apply c94_keep|]. split; [apply c94_keep|]. split; [split; [intros n q m; reflexivity|intros n l; apply Permutation_refl]|]. split; [split; [intros [|[|[|p]]]|]; discriminate|].
  split; [eexists; split; [vm_compute; reflexivity|cbn; discriminate]|]. split; [eexists; split; [vm_compute; reflexivity|split; reflexivity]|].
  split; [|split; [|split]].
  - intros p t x I g q par o. rewrite c94_second_trace in I. cbn in I. repeat (destruct I as [I|I]; [try discriminate I; injection I as _ _ <-|]); [|destruct I].
    cbn. unfold ex_conv, c94_hook, hset. destruct (Nat.eqb_spec q 1) as [->|]; reflexivity.
  - exists "meta". split; [apply reach_refl|]. exists [1]. vm_compute. auto.
  - exists "L". split; [|exists [2]; vm_compute; auto]. eapply reach_step; [|apply reach_refl]. exists [1]. vm_compute. eauto.
  - vm_compute. reflexivity.
Qed.

(** Relations preserved by everything a command body can do. *)
From Verif Require Export SyncProof2.
From Verif Require Import GraphProof GraphProof2 GraphProof3 GraphProof4 MoveProof EngineProof8 EngineModel.

Lemma run_body_bind {A B} cfg (b : body A) (f : A -> body B) : forall s,
  run_body cfg (body_bind b f) s = bind (run_body cfg b) (fun r => run_body cfg (f r)) s.
Proof.
  assert (Hx : forall X (m : M X) (k k' : X -> M B), (forall x s, k x s = k' x s) -> forall s, bind m k s = bind m k' s).
  { intros X m k k' Hk s. unfold bind. destruct (m s) as [[x| |] s1]; auto. }
  assert (Ha : forall X Y Z (m : M X) (k : X -> M Y) (g : Y -> M Z) s, bind (bind m k) g s = bind m (fun x => bind (k x) g) s).
  { intros X Y Z m k g s. unfold bind. destruct (m s) as [[x| |] s1]; auto. }
  induction b; intros s0; cbn [body_bind run_body]; try reflexivity; rewrite Ha; apply Hx; intros; auto.
Qed.

Section Preserved.
  Variable cfg : config.
  Variable R : st -> st -> Prop.
  Hypothesis Rrefl : forall s, R s s.
  Hypothesis Rtrans : forall s1 s2 s3, R s1 s2 -> R s2 s3 -> R s1 s3.
  Hypothesis Hheap : forall s v, R s (with_heap s v).
  Hypothesis Hacts : forall s v, R s (with_actions s v).
  Hypothesis Hout : forall s v, R s (with_output s v).
  Hypothesis Hctx : forall s v, R s (with_evctx s v).
  Hypothesis Htick : forall s v, R s (with_tick s v).
  Hypothesis Htrace : forall s v, R s (with_trace s v).
  Hypothesis Herrs : forall s l, R s (with_errs s (s_errs s ++ l)).
  Hypothesis Hcont : forall s c, incl (ct_deleted (s_cont s)) (ct_deleted c) -> R s (with_cont s c).
  Hypothesis Hsnap : pres R (updateSnapshot cfg).
  Hypothesis Hflush : pres R (flush cfg).
  Notation P := (pres R).
  Lemma v_ret {A} (a : A) : P (ret a). Proof. now apply pres_ret. Qed.
  Lemma v_bind {A B} (m : M A) (f : A -> M B) : P m -> (forall a, P (f a)) -> P (bind m f).
  Proof. apply pres_bind; eauto. Qed.
  Lemma v_then m n : P m -> P n -> P (andthen m n). Proof. apply pres_andthen; eauto. Qed.
  Lemma v_each {A} (f : A -> M (option err)) l : (forall x, P (f x)) -> P (each f l). Proof. intros. apply pres_each; eauto. Qed.
  Lemma v_get : P get. Proof. now apply pres_get. Qed.
  Lemma v_crash {A} : P (@crash A). Proof. now apply pres_crash. Qed.
  Lemma v_panic {A} : P (@panic A). Proof. now apply pres_panic. Qed.
  Lemma v_upd f : (forall s, R s (f s)) -> P (upd f). Proof. apply pres_upd. Qed.
  Lemma v_call c : P (ecall cfg c).
  Proof.
    intros s o s' H. unfold ecall in H. destruct (mutates c), (r_ans _); injection H as _ <-; eauto.
  Qed.
  Ltac v := repeat first
    [ apply v_ret | apply v_get | apply v_crash | apply v_panic
    | apply v_bind; [|intros ?] | apply v_then | apply v_each; intros ?
    | apply v_call
    | apply v_upd; intros ?; cbn; auto
    | progress unfold ecall_err
    | match goal with
      | |- P (match ?x with _ => _ end) => destruct x
      | |- P (if ?x then _ else _) => destruct x
      end ].
  Lemma v_walk_from p : P (walk_from cfg p). Proof. unfold walk_from. v. Qed.
  Lemma v_unDirty : P (unDirty cfg). Proof. unfold unDirty. apply v_bind; [apply v_walk_from|intros l]. v. Qed.
  Lemma v_changed : P (changed cfg). Proof. unfold changed. v. Qed.
  Lemma v_hooks b chs : P (hooks cfg b chs). Proof. unfold hooks, execHook. v. Qed.
  Lemma v_putNewID chs : P (putNewID cfg chs). Proof. unfold putNewID, putID. v. Qed.
  Lemma v_makeActions chs : P (makeActions cfg chs).
  Proof. unfold makeActions. apply v_bind; [v|intros s]. destruct (make_actions _ _ _ _) as [[] ?]; v. Qed.
  Lemma v_exec acts : P (exec cfg acts). Proof. unfold exec. v. Qed.
  Lemma v_recycle chs : P (recycle chs).
  Proof. unfold recycle. apply v_upd. intros s. apply Hcont. cbn. intros x Hx. apply in_app_iff. now left. Qed.
  Lemma v_persist : P (persist cfg).
  Proof.
    unfold persist. apply v_bind; [apply v_changed|intros [e|chs]]; [apply v_ret|].
    apply v_then; [apply v_hooks|]. apply v_then; [apply v_putNewID|].
    apply v_bind; [apply v_makeActions|intros [e|acts]]; [apply v_ret|].
    apply v_then; [apply v_exec|]. apply v_then; [apply v_hooks|]. apply v_bind; [apply v_recycle|intros; apply v_ret].
  Qed.
  Lemma v_commit : P (commit cfg).
  Proof. unfold commit. apply v_then; [apply v_persist|]. apply v_then; [exact Hflush|]. apply v_bind; [apply v_unDirty|intros; apply v_ret]. Qed.
  Lemma v_meta_add p : P (meta_add p).
  Proof.
    unfold meta_add. intros s o s' H. unfold bind, get in H. destruct (cont_add (s_cont s) p) as [c|] eqn:E; [|injection H as _ <-; auto].
    unfold cont_add in E. destruct (memb p _); [discriminate|]. injection E as <-. cbn in H. injection H as _ <-. apply Hcont. cbn. apply incl_refl.
  Qed.
  Lemma v_meta_remove p : P (meta_remove p).
  Proof.
    unfold meta_remove. intros s o s' H. unfold bind, get in H. destruct (cont_remove (s_cont s) p) as [c|] eqn:E; [|injection H as _ <-; auto].
    unfold cont_remove in E. destruct (Nat.eqb _ _); [discriminate|]. injection E as <-. cbn in H. injection H as _ <-. apply Hcont. cbn. intros x Hx. apply in_app_iff. now left.
  Qed.
  Lemma v_append_err e : P (append_err e). Proof. apply v_upd. intros s. apply Herrs. Qed.
  Lemma v_repo_add l : P (repo_add l).
  Proof.
    unfold repo_add. apply v_bind.
    - apply v_each. intros r. apply v_bind; [v|intros s]. destruct (has_snapshot s r); [v|apply v_meta_add].
    - intros [e|]; [apply v_append_err|v].
  Qed.
  Lemma v_repo_remove l : P (repo_remove cfg l).
  Proof.
    unfold repo_remove. apply v_bind; [v|intros s]. apply v_bind.
    - destruct (filter _ l); [v|]. apply v_bind; [apply v_repo_add|intros _; exact Hsnap].
    - intros [e|]; [apply v_append_err|]. apply v_bind; [apply v_each; intros; apply v_meta_remove|].
      intros [e|]; [apply v_append_err|v].
  Qed.
  Lemma v_repo_get p : P (repo_get cfg p).
  Proof.
    unfold repo_get. apply v_bind; [v|intros s]. destruct (has_snapshot s p); [v|].
    destruct (String.eqb _ _); [v|]. apply v_then; [v|]. apply v_then; [apply v_meta_add|exact Hsnap].
  Qed.
  Lemma v_repo_custom_get f l : P (repo_custom_get cfg f l).
  Proof.
    unfold repo_custom_get. apply v_bind; [v|intros _]. apply v_then; [|exact Hsnap].
    apply v_each. intros r. apply v_bind; [v|intros s]. destruct (has_snapshot s r); [v|apply v_meta_add].
  Qed.
  Lemma v_repo_save : P (repo_save cfg).
  Proof. unfold repo_save. apply v_bind; [v|intros s]. destruct (repo_error s); [v|apply v_commit]. Qed.
  Lemma v_cmd_load l : P (cmd_load cfg l).
  Proof.
    unfold cmd_load. apply v_bind; [v|intros s]. destruct (existsb _ _); [v|]. apply v_bind; [|intros _; exact Hflush].
    apply v_upd. intros s0. apply Hcont. cbn. apply incl_refl.
  Qed.
  Lemma v_cmd_build p : P (cmd_build cfg p). Proof. unfold cmd_build. v. Qed.
  Lemma v_run_body {X} (b : body X) : P (run_body cfg b).
  Proof.
    induction b; cbn [run_body]; try (apply v_bind; [|intros ?; auto]).
    - v.
    - v.
    - v.
    - v.
    - apply v_repo_get.
    - apply v_repo_custom_get.
    - apply v_repo_add.
    - apply v_repo_remove.
    - apply v_repo_save.
    - v.
    - apply v_cmd_build.
    - apply v_cmd_load.
    - unfold root_add. apply v_bind; [apply v_meta_add|intros; apply v_ret].
    - unfold root_remove. apply v_bind; [apply v_meta_remove|intros; apply v_ret].
  Qed.
End Preserved.

(* ---------------------------------------------------------------- errors are kept, deleted entities remembered *)
Definition grows (s s' : st) : Prop :=
  (exists l, s_errs s' = s_errs s ++ l) /\ incl (ct_deleted (s_cont s)) (ct_deleted (s_cont s')).
Lemma grows_refl s : grows s s.
Proof. split; [exists []; now rewrite app_nil_r|apply incl_refl]. Qed.
Lemma grows_trans s1 s2 s3 : grows s1 s2 -> grows s2 s3 -> grows s1 s3.
Proof. intros [(l & E) I] [(l' & E') I']. split; [exists (l ++ l'); rewrite E', E, app_assoc; auto|eapply incl_tran; eauto]. Qed.
Lemma grows_same s s' : s_errs s' = s_errs s -> s_cont s' = s_cont s -> grows s s'.
Proof. intros E C. split; [exists []; now rewrite app_nil_r|rewrite C; apply incl_refl]. Qed.
Lemma grows_cont s c : incl (ct_deleted (s_cont s)) (ct_deleted c) -> grows s (with_cont s c).
Proof. intros H. split; [exists []; now rewrite app_nil_r|exact H]. Qed.
Lemma snap_frame cfg s o s' : updateSnapshot cfg s = (o, s') -> s_errs s' = s_errs s /\ s_cont s' = s_cont s /\ s_heap s' = s_heap s.
Proof.
  intros H. unfold updateSnapshot in H. destruct (bind_inv _ _ _ _ _ H) as [(l & s1 & H1 & H2)|[[H1 _]|[H1 _]]]; apply walk_from_inv in H1; destruct H1 as [-> _]; auto.
  cbn in H2. injection H2 as _ <-. auto.
Qed.
Lemma grows_snap cfg : pres grows (updateSnapshot cfg).
Proof. intros s o s' H. apply snap_frame in H. apply grows_same; apply H. Qed.
Lemma grows_flush cfg : pres grows (flush cfg).
Proof. unfold flush. apply pres_bind; [apply grows_trans|apply pres_upd; intros; apply grows_same; reflexivity|intros; apply grows_snap]. Qed.
Lemma grows_body cfg {X} (b : body X) : pres grows (run_body cfg b).
Proof.
  apply v_run_body; try (intros; apply grows_same; reflexivity); auto using grows_refl, grows_snap, grows_flush, grows_cont.
  - apply grows_trans.
  - intros s l. split; [exists l; reflexivity|apply incl_refl].
Qed.
Lemma grows_persist cfg : pres grows (persist cfg).
Proof.
  apply v_persist; try (intros; apply grows_same; reflexivity); auto using grows_refl, grows_cont. apply grows_trans.
Qed.

(* ---------------------------------------------------------------- closed snapshots *)
(** Every child listed in a snapshot has a snapshot itself. *)
Definition pool_closed (pl : pool) : Prop := forall p k c, was_child pl p k c -> pl c <> None.
(** The registered converters never fail when a loaded entity is remembered. *)
Definition conv_total (cfg : config) : Prop :=
  forall h p par, match c_conv cfg h p par OpQuery with CModel _ | NotReg false => True | _ => False end.
Lemma snap_list_total cfg h roots : conv_total cfg -> forall l pl, exists pl', snap_list cfg h roots pl l = (None, pl').
Proof.
  intros Hc. induction l as [|[p par] t IH]; intros pl; cbn; eauto. unfold snap_entity.
  specialize (Hc h p par). destruct (pl p); [destruct (Nat.eqb p meta)|]; auto; destruct (c_conv cfg h p par OpQuery) as [m|[|]|e]; auto; contradiction.
Qed.

Lemma closed_snap cfg : orders_ok cfg -> conv_total cfg -> pres (fun s s' => pool_closed (s_pool s) -> pool_closed (s_pool s')) (updateSnapshot cfg).
Proof.
  intros [Ho _] Hc s o s' H Hp. apply updateSnapshot_inv in H. destruct (walk _ _ _ _ _) as [l|] eqn:W; [|destruct H as [_ ->]; exact Hp].
  destruct H as (e & pl' & S & _ & ->). destruct (snap_list_total cfg (s_heap s) (ct_roots (s_cont s)) Hc l (s_pool s)) as (pl2 & S2).
  rewrite S in S2. injection S2 as -> ->. cbn. apply snap_list_spec in S. destruct S as (S1 & S2 & _).
  assert (Keep : forall q, s_pool s q <> None -> pl2 q <> None).
  { intros q Hq. destruct (S1 q) as [->|(par & po & _ & _ & -> & _)]; [auto|discriminate]. }
  intros p k c (sn & kl & H1 & H2 & H3). destruct (S1 p) as [E|(par & po & Hin & _ & E & _)].
  - apply Keep, (Hp p k c). exists sn, kl. rewrite <- E. auto.
  - rewrite E in H1. injection H1 as <-. cbn in H2. apply S2. apply (walk_reach _ _ (Ho _) _ _ _ _ W).
    assert (Hr : reach (kids_now s) meta p) by (apply (walk_reach _ _ (Ho _) _ _ _ _ W); change p with (fst (p, par)); now apply in_map).
    eapply reach_trans; [exact Hr|]. eapply reach_one. exists kl. split; [exact H2|exact H3].
Qed.
Definition keeps_closed (s s' : st) : Prop := pool_closed (s_pool s) -> pool_closed (s_pool s').
Lemma closed_empty : pool_closed (fun _ => None).
Proof. intros p k c (sn & l & H & _). discriminate. Qed.
Lemma closed_flush cfg : orders_ok cfg -> conv_total cfg -> pres keeps_closed (flush cfg).
Proof.
  intros Ho Hc s o s' H Hp. unfold flush in H. destruct (bind_inv _ _ _ _ _ H) as [(u & s1 & H1 & H2)|[[H1 _]|[H1 _]]]; [|discriminate..].
  injection H1 as _ <-. apply (closed_snap cfg Ho Hc _ _ _ H2). apply closed_empty.
Qed.
Lemma closed_body cfg {X} (b : body X) : orders_ok cfg -> conv_total cfg -> pres keeps_closed (run_body cfg b).
Proof.
  intros Ho Hc. apply v_run_body; try (intros; intros Hp; exact Hp); auto using closed_flush, (closed_snap cfg Ho Hc).
  intros s1 s2 s3 H1 H2 Hp. auto.
Qed.

(* ---------------------------------------------------------------- repository calls *)
Lemma each_cons {A} (f : A -> M (option err)) x t s : each f (x :: t) s = andthen (f x) (each f t) s.
Proof. reflexivity. Qed.
Definition add_one (r : ptr) : M (option err) := s <- get ;; if has_snapshot s r then ret (Some EMustBeNew) else meta_add r.
Lemma repo_add_eq roots : repo_add roots = (e <- each add_one roots ;; match e with Some x => append_err x | None => ret tt end).
Proof. reflexivity. Qed.
Lemma add_one_eq r s : add_one r s = if has_snapshot s r then (Done (Some EMustBeNew), s)
  else if memb r (ct_roots (s_cont s)) then (Done (Some ERepeated), s)
  else (Done None, with_cont s (mkCont (ct_roots (s_cont s) ++ [r]) (ct_deleted (s_cont s)))).
Proof.
  unfold add_one, bind, get. destruct (has_snapshot s r); [reflexivity|]. unfold meta_add, bind, get, cont_add. destruct (memb r _); reflexivity.
Qed.
Definition add_roots (s : st) (l : list ptr) : st := with_cont s (mkCont (ct_roots (s_cont s) ++ l) (ct_deleted (s_cont s))).
Lemma add_each roots : forall s, exists n e, each add_one roots s = (Done e, add_roots s (firstn n roots)) /\
  (forall r, In r (firstn n roots) -> s_pool s r = None) /\
  match e with
  | None => n = length roots /\ (forall r, In r roots -> s_pool s r = None /\ ~ In r (ct_roots (s_cont s))) /\ NoDup roots
  | Some _ => exists r, nth_error roots n = Some r /\ (s_pool s r <> None \/ In r (ct_roots (s_cont s)) \/ In r (firstn n roots))
  end.
Proof.
  induction roots as [|r t IH]; intros s.
  { exists 0, None. split; [|split; [intros r []|split; [reflexivity|split; [intros r []|constructor]]]]. cbn. unfold add_roots, ret. rewrite app_nil_r. destruct s as [? [? ?]]; reflexivity. }
  cbn [each]. unfold andthen, bind. rewrite add_one_eq. unfold has_snapshot.
  assert (E0 : add_roots s (firstn 0 (r :: t)) = s) by (unfold add_roots; cbn; rewrite app_nil_r; destruct s as [? [? ?]]; reflexivity).
  destruct (s_pool s r) as [sn|] eqn:Ep.
  { exists 0, (Some EMustBeNew). rewrite E0. split; [reflexivity|]. split; [intros q []|]. exists r. split; auto. left. congruence. }
  destruct (memb r (ct_roots (s_cont s))) eqn:Em.
  { exists 0, (Some ERepeated). rewrite E0. split; [reflexivity|]. split; [intros q []|]. exists r. split; auto. right. left. now apply memb_In. }
  assert (Hr : ~ In r (ct_roots (s_cont s))) by (rewrite <- memb_In, Em; discriminate).
  cbv beta iota. fold (add_roots s [r]).
  destruct (IH (add_roots s [r])) as (n & e & E & Hf & He). exists (S n), e. rewrite E. split.
  { unfold add_roots. cbn. now rewrite <- app_assoc. }
  split. { intros q [<-|Hq]; [exact Ep|exact (Hf q Hq)]. }
  destruct e as [x|].
  - destruct He as (q & Hq & Hx). exists q. split; auto. cbn in Hx |- *. rewrite in_app_iff in Hx. cbn in Hx. tauto.
  - destruct He as (-> & Hx & Hn). split; [reflexivity|]. split.
    + intros q [<-|Hq]; [auto|]. destruct (Hx q Hq) as [H1 H2]. cbn in H1, H2. rewrite in_app_iff in H2. tauto.
    + constructor; auto. intros Hi. destruct (Hx r Hi) as [_ H2]. cbn in H2. apply H2. apply in_app_iff. right. now left.
Qed.
Lemma repo_add_spec roots s : exists s', repo_add roots s = (Done tt, s') /\
  ((exists e n r, s' = with_errs (add_roots s (firstn n roots)) (s_errs s ++ [e]) /\ (forall q, In q (firstn n roots) -> s_pool s q = None) /\ nth_error roots n = Some r /\
      (s_pool s r <> None \/ In r (ct_roots (s_cont s)) \/ In r (firstn n roots))) \/
   (s' = add_roots s roots /\ (forall r, In r roots -> s_pool s r = None /\ ~ In r (ct_roots (s_cont s))) /\ NoDup roots)).
Proof.
  rewrite repo_add_eq. unfold bind. destruct (add_each roots s) as (n & e & -> & Hf & He). destruct e as [x|].
  - eexists. split; [reflexivity|]. left. destruct He as (r & H1 & H2). exists x, n, r. auto.
  - eexists. split; [reflexivity|]. right. destruct He as (-> & H1 & H2). rewrite firstn_all. auto.
Qed.
Lemma meta_remove_eq p s : meta_remove p s = match cont_remove (s_cont s) p with None => (Done (Some ENotFound), s) | Some c => (Done None, with_cont s c) end.
Proof. unfold meta_remove, bind, get. destruct (cont_remove _ _); reflexivity. Qed.
Lemma remove_each roots : forall s, exists e c, each meta_remove roots s = (Done e, with_cont s c) /\ incl (ct_roots c) (ct_roots (s_cont s)) /\
  match e with
  | None => NoDup roots /\ incl roots (ct_roots (s_cont s)) /\ (forall q, In q (ct_roots c) <-> In q (ct_roots (s_cont s)) /\ ~ In q roots) /\ incl roots (ct_deleted c)
  | Some _ => ~ NoDup roots \/ exists r, In r roots /\ ~ In r (ct_roots (s_cont s))
  end.
Proof.
  induction roots as [|r t IH]; intros s.
  { exists None, (s_cont s). split; [destruct s; reflexivity|]. split; [apply incl_refl|]. split; [constructor|]. split; [intros q []|]. split; [|intros q []]. intros q. cbn. tauto. }
  cbn [each]. unfold andthen, bind. rewrite meta_remove_eq. destruct (cont_remove_spec (s_cont s) r) as [R1 R2].
  destruct (in_dec Nat.eq_dec r (ct_roots (s_cont s))) as [Hr|Hr].
  - destruct (R1 Hr) as (c1 & E1 & K1 & D1). rewrite E1. cbv beta iota. destruct (IH (with_cont s c1)) as (e & c & E & I & He). rewrite E. exists e, c.
    split; [reflexivity|]. cbn in I, He. split; [intros q Hq; apply K1; auto|]. destruct e as [x|].
    + destruct He as [He|(q & H1 & H2)]; [left; intros Hn; inversion Hn; auto|]. rewrite K1 in H2. destruct (Nat.eq_dec q r) as [->|Hne].
      * left. intros Hn. inversion Hn; auto.
      * right. exists q. split; [now right|tauto].
    + destruct He as (H1 & H2 & H3 & H4). cbn in H2. assert (Hnt : ~ In r t) by (intros Hi; apply H2, K1 in Hi; tauto). split; [constructor; auto|]. split; [|split].
      * intros q [<-|Hq]; auto. apply H2, K1 in Hq. tauto.
      * intros q. rewrite H3, K1. cbn. split; [intros [[A B] C]; split; auto; intros [X|X]; congruence|intros [A B]; split; [split; auto|]; intros X; apply B; auto].
      * intros q [<-|Hq]; auto.
        assert (G : incl (ct_deleted c1) (ct_deleted c)).
        { pose proof (v_each grows grows_refl grows_trans meta_remove t (fun x => v_meta_remove _ grows_refl (fun s c H => grows_cont s c H) x)) as G. apply G in E. apply E. }
        apply G. rewrite D1. apply in_app_iff. right. now left.
  - rewrite (R2 Hr). exists (Some ENotFound), (s_cont s). split; [destruct s; reflexivity|]. split; [apply incl_refl|]. right. exists r. split; [now left|auto].
Qed.

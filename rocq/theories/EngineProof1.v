(** Trace structure of a run. *)
From Verif Require Export DbSpec.

Lemma bind_inv {A B} (m : M A) (f : A -> M B) s o s' : bind m f s = (o, s') ->
  (exists a s1, m s = (Done a, s1) /\ f a s1 = (o, s')) \/
  (m s = (Panic, s') /\ o = Panic) \/ (m s = (Crash, s') /\ o = Crash).
Proof.
  unfold bind. destruct (m s) as [[a| |] s1]; [eauto| |]; intros [= <- <-]; auto.
Qed.
Lemma bind_done {A B} (m : M A) (f : A -> M B) s b s' : bind m f s = (Done b, s') ->
  exists a s1, m s = (Done a, s1) /\ f a s1 = (Done b, s').
Proof. intros H. destruct (bind_inv _ _ _ _ _ H) as [H1|[[_ H1]|[_ H1]]]; [exact H1|discriminate..]. Qed.

(* ---------------------------------------------------------------- preserved preorders *)
Definition pres (R : st -> st -> Prop) {A} (m : M A) : Prop := forall s o s', m s = (o, s') -> R s s'.
Section Pres.
  Variable R : st -> st -> Prop.
  Hypothesis Rrefl : forall s, R s s.
  Hypothesis Rtrans : forall s1 s2 s3, R s1 s2 -> R s2 s3 -> R s1 s3.
  Lemma pres_ret {A} (a : A) : pres R (ret a).
  Proof using Rrefl. intros s o s' [= _ <-]. apply Rrefl. Qed.
  Lemma pres_panic {A} : pres R (@panic A).
  Proof using Rrefl. intros s o s' [= _ <-]. apply Rrefl. Qed.
  Lemma pres_crash {A} : pres R (@crash A).
  Proof using Rrefl. intros s o s' [= _ <-]. apply Rrefl. Qed.
  Lemma pres_get : pres R get.
  Proof using Rrefl. intros s o s' [= _ <-]. apply Rrefl. Qed.
  Lemma pres_upd f : (forall s, R s (f s)) -> pres R (upd f).
  Proof using. intros H s o s' [= _ <-]. apply H. Qed.
  Lemma pres_bind {A B} (m : M A) (f : A -> M B) : pres R m -> (forall a, pres R (f a)) -> pres R (bind m f).
  Proof using Rtrans.
    intros Hm Hf s o s' H. destruct (bind_inv _ _ _ _ _ H) as [(a & s1 & H1 & H2)|[[H1 _]|[H1 _]]].
    - eapply Rtrans; [eapply Hm; exact H1|eapply Hf; exact H2].
    - eapply Hm; exact H1.
    - eapply Hm; exact H1.
  Qed.
  Lemma pres_getbind {B} (f : st -> M B) : (forall s o s', f s s = (o, s') -> R s s') -> pres R (bind get f).
  Proof using. intros Hf s o s' H. unfold bind, get in H. eauto. Qed.
  Lemma pres_andthen m n : pres R m -> pres R n -> pres R (andthen m n).
  Proof using Rrefl Rtrans. intros. apply pres_bind; auto. intros [e|]; auto. now apply pres_ret. Qed.
  Lemma pres_each {A} (f : A -> M (option err)) l : (forall x, In x l -> pres R (f x)) -> pres R (each f l).
  Proof using Rrefl Rtrans.
    induction l as [|x t IH]; intros H; cbn; [apply pres_ret|]. apply pres_andthen; [apply H; now left|].
    apply IH. intros y Hy. apply H. now right.
  Qed.
End Pres.

(* ---------------------------------------------------------------- the body and the save pipeline *)
Definition quiet_call (c : call) : bool :=
  match c with KExec _ | KBuild _ | KHook _ _ _ | KNewID => true | _ => false end.
Definition execs (tr : list (call * resp)) : list action :=
  flat_map (fun c => match fst c with KExec a => [a] | _ => [] end) tr.
Lemma execs_app a b : execs (a ++ b) = execs a ++ execs b.
Proof. apply flat_map_app. Qed.
Lemma exec_failed_app a b : exec_failed (a ++ b) <-> exec_failed a \/ exec_failed b.
Proof.
  split.
  - intros (x & r & H1 & H2). apply in_app_iff in H1 as [H1|H1]; [left|right]; exists x, r; auto.
  - intros [(x & r & H1 & H2)|(x & r & H1 & H2)]; exists x, r; rewrite in_app_iff; auto.
Qed.

Record quiet (cfg : config) (s s' : st) (d : list (call * resp)) : Prop := mkQuiet {
  q_trace : s_trace s' = s_trace s ++ d;
  q_calls : Forall (fun c => quiet_call (fst c) = true) d;
  q_dry : c_dry cfg = true -> Forall (fun c => is_write (fst c) = false) d /\ s_actions s' = s_actions s;
  q_acts : ~ exec_failed d -> c_dry cfg = false -> s_actions s' = s_actions s ++ execs d;
  q_evctx : s_evctx s' = s_evctx s }.
Definition quietly cfg s s' := exists d, quiet cfg s s' d.

Section Quiet.
  Variable cfg : config.
  Lemma quiet_same s s' : s_trace s' = s_trace s -> s_actions s' = s_actions s -> s_evctx s' = s_evctx s -> quietly cfg s s'.
  Proof.
    intros H1 H2 H3. exists []. split; auto; try rewrite app_nil_r; auto.
  Qed.
  Lemma quiet_refl s : quietly cfg s s.
  Proof. now apply quiet_same. Qed.
  Lemma quiet_trans s1 s2 s3 : quietly cfg s1 s2 -> quietly cfg s2 s3 -> quietly cfg s1 s3.
  Proof.
    intros [d1 [T1 C1 D1 A1 E1]] [d2 [T2 C2 D2 A2 E2]]. exists (d1 ++ d2). split.
    - rewrite T2, T1. now rewrite app_assoc.
    - apply Forall_app; auto.
    - intros Hd. destruct (D1 Hd), (D2 Hd). split; [apply Forall_app; auto|congruence].
    - intros Hf Hd. rewrite exec_failed_app in Hf. rewrite A2, A1, execs_app, app_assoc; auto.
    - congruence.
  Qed.
  Notation P := (pres (quietly cfg)).
  Hint Resolve quiet_refl quiet_trans : core.
  Lemma qret {A} (a : A) : P (ret a). Proof. now apply pres_ret. Qed.
  Lemma qbind {A B} (m : M A) (f : A -> M B) : P m -> (forall a, P (f a)) -> P (bind m f).
  Proof. now apply pres_bind; eauto. Qed.
  Lemma qthen m n : P m -> P n -> P (andthen m n).
  Proof. now apply pres_andthen; eauto. Qed.
  Lemma qeach {A} (f : A -> M (option err)) l : (forall x, P (f x)) -> P (each f l).
  Proof. intros. apply pres_each; eauto. Qed.
  Lemma qupd f : (forall s, s_trace (f s) = s_trace s /\ s_actions (f s) = s_actions s /\ s_evctx (f s) = s_evctx s) -> P (upd f).
  Proof. intros H. apply pres_upd. intros s. destruct (H s) as (? & ? & ?). now apply quiet_same. Qed.
  Lemma qget : P get. Proof. now apply pres_get. Qed.
  Lemma qcrash {A} : P (@crash A). Proof. now apply pres_crash. Qed.
  Lemma qpanic {A} : P (@panic A). Proof. now apply pres_panic. Qed.
  (** calls other than writes *)
  Lemma qcall c : quiet_call c = true -> is_write c = false -> P (ecall cfg c).
  Proof.
    intros Hc Hw s o s' H. unfold ecall in H.
    set (r := c_oracle cfg (length (s_trace s))) in *.
    assert (E : s_trace s' = s_trace s ++ [(c, r)] /\ s_actions s' = s_actions s /\ s_evctx s' = s_evctx s).
    { destruct (mutates c), (r_ans r); injection H as <- <-; cbn; auto. }
    destruct E as (E1 & E2 & E3). exists [(c, r)]. split; auto.
    - intros _ _. cbn. destruct c; cbn in *; try discriminate; now rewrite app_nil_r.
  Qed.
  Ltac q := repeat first
    [ apply qret | apply qget | apply qcrash | apply qpanic
    | apply qbind; [|intros ?] | apply qthen | apply qeach; intros ?
    | apply qcall; reflexivity
    | apply qupd; intros ?; cbn; auto
    | progress unfold ecall_err
    | match goal with
      | |- P (match ?x with _ => _ end) => destruct x
      | |- P (if ?x then _ else _) => destruct x
      end ].
  Lemma q_walk_from p : P (walk_from cfg p).
  Proof. unfold walk_from. q. Qed.
  Lemma q_updateSnapshot : P (updateSnapshot cfg).
  Proof. unfold updateSnapshot. apply qbind; [apply q_walk_from|intros l]. q. Qed.
  Lemma q_flush : P (flush cfg).
  Proof. unfold flush. apply qbind; [q|intros _; apply q_updateSnapshot]. Qed.
  Lemma q_unDirty : P (unDirty cfg).
  Proof. unfold unDirty. apply qbind; [apply q_walk_from|intros l]. q. Qed.
  Lemma q_changed : P (changed cfg).
  Proof. unfold changed. q. Qed.
  Lemma q_hooks b chs : P (hooks cfg b chs).
  Proof. unfold hooks, execHook. q. Qed.
  Lemma q_putNewID chs : P (putNewID cfg chs).
  Proof. unfold putNewID, putID. q. Qed.
  Lemma q_makeActions chs : P (makeActions cfg chs).
  Proof. unfold makeActions. apply qbind; [q|intros s]. destruct (make_actions _ _ _ _) as [[] ?]; q. Qed.
  (** the executor calls of one [exec] *)
  Lemma exec_calls acts : forall s o s', each (fun a => ecall_err cfg (KExec a)) acts s = (o, s') ->
    exists d, s_trace s' = s_trace s ++ d /\ Forall (fun c => quiet_call (fst c) = true) d /\
      s_actions s' = s_actions s /\ s_evctx s' = s_evctx s /\ s_heap s' = s_heap s /\ s_pool s' = s_pool s /\
      s_cont s' = s_cont s /\ s_errs s' = s_errs s /\
      (exec_failed d <-> o <> Done None) /\ (o = Done None -> execs d = acts).
  Proof.
    induction acts as [|a t IH]; intros s o s' H; cbn in H.
    - injection H as <- <-. exists []. rewrite app_nil_r. repeat (split; auto). intros (x & r & [] & _). congruence.
    - unfold andthen in H. set (r := c_oracle cfg (length (s_trace s))).
      destruct (ecall_err cfg (KExec a) s) as [o1 s1] eqn:E1.
      assert (S1 : s_trace s1 = s_trace s ++ [(KExec a, r)] /\ s_actions s1 = s_actions s /\ s_evctx s1 = s_evctx s /\
                   s_heap s1 = s_heap s /\ s_pool s1 = s_pool s /\ s_cont s1 = s_cont s /\ s_errs s1 = s_errs s /\
                   o1 = match r_ans r with AOk => Done None | AErr e => Done (Some e) | APanic => Panic end).
      { unfold ecall_err, ecall, bind, err_of in E1. cbn in E1. fold r in E1.
        destruct (r_ans r) eqn:E; cbn in E1; rewrite ?E in E1; injection E1 as <- <-; cbn; rewrite ?E; repeat split; auto. }
      destruct S1 as (T1 & A1 & V1 & H1 & P1 & C1 & R1 & O1).
      unfold bind in H. rewrite E1 in H. destruct (r_ans r) eqn:E; subst o1.
      + destruct (IH _ _ _ H) as (d & T2 & C2 & A2 & V2 & H2 & P2 & C3 & R2 & F2 & X2).
        exists ((KExec a, r) :: d). rewrite T2, T1, <- app_assoc. split; [reflexivity|].
        split; [constructor; auto|]. repeat (split; [congruence|]). split.
        * rewrite <- F2. split.
          -- intros (x & r' & [Hx|Hx] & Hr); [injection Hx as <- <-; congruence|exists x, r'; auto].
          -- intros (x & r' & Hx & Hr). exists x, r'. split; auto. now right.
        * intros Ho. cbn. f_equal. auto.
      + cbn in H. injection H as <- <-. exists [(KExec a, r)]. split; [auto|]. split; [repeat constructor|].
        repeat (split; [congruence|]). split; [|discriminate]. split; [discriminate|]. intros _.
        exists a, r. split; [now left|congruence].
      + injection H as <- <-. exists [(KExec a, r)]. split; [auto|]. split; [repeat constructor|].
        repeat (split; [congruence|]). split; [|discriminate]. split; [discriminate|]. intros _.
        exists a, r. split; [now left|congruence].
  Qed.
  Lemma q_exec acts : P (exec cfg acts).
  Proof.
    unfold exec. destruct (c_dry cfg) eqn:Ed; [apply qret|]. intros s o s' H.
    unfold andthen in H. destruct (bind_inv _ _ _ _ _ H) as [(a & s1 & H1 & H2)|[[H1 ->]|[H1 ->]]].
    - destruct (exec_calls _ _ _ _ H1) as (d & T & C & A & V & _ & _ & _ & _ & F & X). exists d. destruct a as [e|].
      + injection H2 as <- <-. split; auto; [congruence|]. intros Hf. exfalso. apply Hf, F. discriminate.
      + injection H2 as <- <-. split; auto; [congruence|]. intros _ _. cbn. rewrite A, X; auto.
    - destruct (exec_calls _ _ _ _ H1) as (d & T & C & A & V & _ & _ & _ & _ & F & X). exists d.
      split; auto; [congruence|]. intros Hf. exfalso. apply Hf, F. discriminate.
    - destruct (exec_calls _ _ _ _ H1) as (d & T & C & A & V & _ & _ & _ & _ & F & X). exists d.
      split; auto; [congruence|]. intros Hf. exfalso. apply Hf, F. discriminate.
  Qed.
  Lemma q_persist : P (persist cfg).
  Proof.
    unfold persist. apply qbind; [apply q_changed|intros [e|chs]]; [apply qret|].
    apply qthen; [apply q_hooks|]. apply qthen; [apply q_putNewID|].
    apply qbind; [apply q_makeActions|intros [e|acts]]; [apply qret|].
    apply qthen; [apply q_exec|]. apply qthen; [apply q_hooks|]. unfold recycle. q.
  Qed.
  Lemma q_commit : P (commit cfg).
  Proof. unfold commit. apply qthen; [apply q_persist|]. apply qthen; [apply q_flush|]. apply qbind; [apply q_unDirty|intros _; apply qret]. Qed.
  Lemma q_meta_add p : P (meta_add p).
  Proof. unfold meta_add. q. Qed.
  Lemma q_meta_remove p : P (meta_remove p).
  Proof. unfold meta_remove. q. Qed.
  Lemma q_repo_add l : P (repo_add l).
  Proof.
    unfold repo_add. apply qbind.
    - apply qeach. intros r. apply qbind; [q|intros s]. destruct (has_snapshot s r); [q|apply q_meta_add].
    - intros [e|]; unfold append_err; q.
  Qed.
  Lemma q_repo_remove l : P (repo_remove cfg l).
  Proof.
    unfold repo_remove. apply qbind; [q|intros s]. apply qbind.
    - destruct (filter _ l); [q|]. apply qbind; [apply q_repo_add|intros _; apply q_updateSnapshot].
    - intros [e|]; [unfold append_err; q|]. apply qbind; [apply qeach; intros; apply q_meta_remove|].
      intros [e|]; unfold append_err; q.
  Qed.
  Lemma q_repo_get p : P (repo_get cfg p).
  Proof.
    unfold repo_get. apply qbind; [q|intros s]. destruct (has_snapshot s p); [q|].
    destruct (String.eqb _ _); [q|]. apply qthen; [q|]. apply qthen; [apply q_meta_add|apply q_updateSnapshot].
  Qed.
  Lemma q_repo_custom_get f l : P (repo_custom_get cfg f l).
  Proof.
    unfold repo_custom_get. apply qbind; [q|intros _]. apply qthen; [|apply q_updateSnapshot].
    apply qeach. intros r. apply qbind; [q|intros s]. destruct (has_snapshot s r); [q|apply q_meta_add].
  Qed.
  Lemma q_repo_save : P (repo_save cfg).
  Proof. unfold repo_save. apply qbind; [q|intros s]. destruct (repo_error s); [q|apply q_commit]. Qed.
  Lemma q_cmd_load l : P (cmd_load cfg l).
  Proof. unfold cmd_load. apply qbind; [q|intros s]. destruct (existsb _ _); [q|]. apply qbind; [q|intros _; apply q_flush]. Qed.
  Lemma q_cmd_build p : P (cmd_build cfg p).
  Proof. unfold cmd_build. q. Qed.
  Lemma q_run_body {R} (b : body R) : P (run_body cfg b).
  Proof.
    induction b; cbn [run_body]; try (apply qbind; [|intros ?; auto]).
    - q.
    - q.
    - q.
    - q.
    - apply q_repo_get.
    - apply q_repo_custom_get.
    - apply q_repo_add.
    - apply q_repo_remove.
    - apply q_repo_save.
    - q.
    - apply q_cmd_build.
    - apply q_cmd_load.
    - unfold root_add. apply qbind; [apply q_meta_add|intros; apply qret].
    - unfold root_remove. apply qbind; [apply q_meta_remove|intros; apply qret].
  Qed.
  Lemma q_walk_all l : P (walk_all cfg l).
  Proof. induction l; cbn; [q|]. apply qbind; [apply q_walk_from|intros]. apply qbind; [auto|intros; q]. Qed.
  Lemma q_collectEvents : P (collectEvents cfg).
  Proof.
    unfold collectEvents. apply qbind; [apply q_walk_from|intros l]. apply qbind; [q|intros s].
    apply qbind; [apply q_walk_all|intros d]. q.
  Qed.
End Quiet.

(** Property theorems: what a save does to the database as a whole (vocabulary: SyncSpec.v, DbSpec.v). *)
From Verif Require Import GraphProof5 SyncProof2 EngineProof5 EngineProof8 SaveProps EngineProps.
From Verif Require Import EngineModel.

(* ---------------------------------------------------------------- C09 *)
(** One save.  [d]: the database before it; the After hooks change nothing the converters read. *)
Theorem C09_save_brings_database_in_step :
  forall cfg s s' d, keeps_types cfg -> orders_ok cfg -> go_maps (s_heap s) (s_pool s) -> c_dry cfg = false ->
  persist cfg s = (Done None, s') ->
  after_unread cfg (s_trace s') ->
  ready cfg s (s_heap s') d ->
  exists delta, s_trace s' = s_trace s ++ delta /\ in_step cfg s (s_heap s') d (apply_actions d (execs delta)).
Proof.
  intros cfg s s' d Ht Ho Hm Hd H Hn RD. destruct (persist_sync cfg Ht Ho s s' d Hm Hd H Hn RD) as (delta & T & IS & _). eauto.
Qed.
Print Assumptions C09_save_brings_database_in_step.

(** A whole run that reports success: [s1] is the state when the command body returns, [s2] after the final save. *)
Theorem C09_successful_run_leaves_database_in_step :
  forall cfg junk h keys main d0 r s', keeps_types cfg -> orders_ok cfg -> c_dry cfg = false -> c_persist cfg = None ->
  save cfg keys main (new_stage h) = (Done r, s') -> res_err r = None -> res_break r = false -> ~ exec_failed (s_trace s') ->
  exists s0 s1 s2, s_heap s0 = h /\ run_body cfg main s0 = (Done None, s1) /\ persist cfg s1 = (Done None, s2) /\
    let d1 := apply_actions d0 (execs (s_trace s1)) in
    (go_maps (s_heap s1) (s_pool s1) -> after_unread cfg (s_trace s2) ->
     ready cfg s1 (s_heap s2) d1 -> in_step cfg s1 (s_heap s2) d1 (visible junk d0 (s_trace s'))).
Proof.
  intros cfg junk h keys main d0 r s' Ht Ho Hd Hp H He Hb Hf. assert (Hg : bad r = false) by (unfold bad; now rewrite He).
  destruct (commits_reported cfg junk h keys main d0 r s' H He Hb Hf) as [V X].
  destruct (save_do cfg keys main h _ _ H) as [[_ N]|(a & d & b & of & s2 & Hdo & Ts & -> & Fa & Fb & Fw & _ & _ & _ & Hof)]; [rewrite (N r eq_refl) in Hg; discriminate|].
  specialize (Hof r eq_refl Hg). subst of. destruct (do_success cfg main _ r s2 Hdo Hg) as (s1 & sp & evs & s3 & H1 & _ & H2 & H3 & H4).
  exists (with_trace (new_stage h) a), s1, sp. do 3 (split; [assumption || reflexivity|]). intros d1 Hm Hn RD.
  destruct (persist_sync cfg Ht Ho s1 sp d1 Hm Hd H2 Hn RD) as (delta & T & IS & _).
  destruct (collect_quiet cfg _ _ _ H3) as (dc & Tc & Ec). destruct (publish_quiet cfg evs Hp _ _ _ H4) as (dp & Tp & Ep).
  replace (visible junk d0 (s_trace (with_trace s2 (a ++ d ++ b)))) with (apply_actions d1 (execs delta)); auto.
  rewrite V, <- X. cbn. rewrite app_assoc, <- Ts, Tp, Tc, T, !execs_app, Ec, Ep, !app_nil_r.
  assert (Eb : execs b = []). { clear - Fw. induction Fw as [|[c x] t Hc _ IH]; [reflexivity|]. unfold execs in *. cbn in *. rewrite IH. destruct c; auto; discriminate. }
  rewrite Eb, app_nil_r. unfold d1, apply_actions. now rewrite fold_left_app.
Qed.
Print Assumptions C09_successful_run_leaves_database_in_step.

(** After a successful intermediate save the remembered models are the rows of the database again, so the condition
    "every loaded entity has its row" holds for the next save. *)
Theorem C09_save_resynchronises :
  forall cfg s s' d, keeps_types cfg -> orders_ok cfg -> go_maps (s_heap s) (s_pool s) -> c_dry cfg = false ->
  repo_save cfg s = (Done None, s') -> after_unread cfg (s_trace s') -> hooks_keep_children (s_trace s') -> (forall h par, c_conv cfg h meta par OpQuery = NotReg false) ->
  (forall s1, persist cfg s = (Done None, s1) -> ready cfg s (s_heap s1) d) ->
  exists delta, s_trace s' = s_trace s ++ delta /\
    forall p sn m, s_pool s' p = Some sn -> s_po sn = Some m -> apply_actions d (execs delta) (row_key m) = Some (m_cols m).
Proof.
  intros cfg s s' d Ht Ho Hm Hd H. unfold repo_save, bind, get in H. destruct (repo_error s); [discriminate|].
  apply commit_sync; auto.
Qed.
Print Assumptions C09_save_resynchronises.

(** the loaded aggregate of SaveProps: root 1 modified, child 2 replaced by the new child 3 *)
Definition sv_db : db := fun k =>
  if key_eqb k (1, "r"%string) then Some ["v"%string] else if key_eqb k (2, "c"%string) then Some ["w"%string]
  else if key_eqb k (2, "other"%string) then Some ["o"%string] else None.
Definition sv_after : heap := s_heap (snd (persist (sv_cfg all_ok) sv_state)).
Definition sv_chs : list change := match getEntityChanged false ord_id (kids_now sv_state) (fun p => e_dirty (sv_heap p)) sv_pool 20 with ROk l => l | _ => [] end.
Lemma sv_must t par k p : must_save (sv_cfg all_ok) sv_state t par k p <-> reported sv_chs t par k p.
Proof.
  symmetry. revert t par k p. apply (must_save_spec (sv_cfg all_ok) sv_state sv_chs).
  - exact sv_maps.
  - intros q m. cbn. unfold ord_id. apply Permutation_refl.
  - vm_compute. reflexivity.
Qed.
Lemma sv_kids q : kids_now sv_state q = match q with 0 => [(meta_key, [1])] | 1 => [("L"%string, [3])] | _ => [("L"%string, [])] end.
Proof. do 4 (destruct q as [|q]; [reflexivity|]). reflexivity. Qed.
Lemma sv_child p k c : now_child (kids_now sv_state) p k c -> (p = 0 /\ c = 1 /\ k = meta_key) \/ (p = 1 /\ c = 3 /\ k = "L"%string).
Proof.
  intros (l & H1 & H2). rewrite sv_kids in H1. destruct p as [|[|p]]; cbn in H1; destruct H1 as [[= <- <-]|[]]; cbn in H2; intuition (subst; auto).
Qed.
Lemma sv_reach p q : reach (kids_now sv_state) p q -> q = p \/ (p = 0 /\ (q = 1 \/ q = 3)) \/ (p = 1 /\ q = 3).
Proof.
  induction 1 as [|p k c q H _ IH]; auto. destruct (sv_child _ _ _ H) as [(-> & -> & _)|(-> & -> & _)]; intuition (subst; auto; try discriminate).
Qed.
Lemma sv_reported t par k p : reported sv_chs t par k p -> (t = CNew /\ par = 1 /\ p = 3) \/ (t = CDirty /\ par = 0 /\ p = 1) \/ (t = CDelete /\ par = 1 /\ p = 2).
Proof.
  intros (ch & H & <- & <- & _ & Hp). vm_compute in H. repeat (destruct H as [<-|H]; [cbn in Hp; intuition (subst; auto)|]). destruct H.
Qed.
Example C09_hypotheses_met : ready (sv_cfg all_ok) sv_state sv_after sv_db.
Proof.
  split.
  - reflexivity.
  - intros p k p' k' c _ _ H H'. apply sv_child in H, H'. intuition (subst; auto; try discriminate).
  - intros par k p H R. apply sv_must, sv_reported in H. apply sv_reach in R. intuition (subst; discriminate).
  - intros p sn m H H'. cbn in H. destruct p as [|[|[|p]]]; try discriminate; injection H as <-; cbn in H'; try discriminate; injection H' as <-; reflexivity.
  - intros p par k m [R H] W D M. apply sv_child in H. destruct H as [(-> & -> & ->)|(-> & -> & ->)]; [discriminate|].
    destruct W as (sn & l & W1 & W2 & W3). injection W1 as <-. cbn in W2. destruct W2 as [[= <-]|[]]. destruct W3 as [|[]]. discriminate.
  - intros p par k m H M. apply sv_must, sv_reported in H. destruct H as [(H & _)|[(_ & -> & ->)|(H & _)]]; try discriminate.
    vm_compute in M. injection M as <-. do 2 eexists. split; [reflexivity|]. split; [reflexivity|]. split; reflexivity.
  - assert (Rl : forall p par, relevant (sv_cfg all_ok) sv_state p par -> p = 1 \/ p = 2 \/ p = 3).
    { intros p par (k & [[_ H]|(t & H)]); [apply sv_child in H|apply sv_must, sv_reported in H]; intuition. }
    intros p par q parq mp mq Hp Hq Mp Mq. apply Rl in Hp, Hq.
    destruct Hp as [->|[->| ->]], Hq as [->|[->| ->]]; vm_compute in Mp, Mq; injection Mp as <-; injection Mq as <-; auto; discriminate.
Qed.
(** and this is what the save makes of the database: update, insert, delete; the unrelated row stays *)
Example C09_example :
  let x := persist (sv_cfg all_ok) sv_state in
  let d := apply_actions sv_db (execs (s_trace (snd x))) in
  fst x = Done None /\ d (1, "r"%string) = Some ["v2"%string] /\ d (2, "gen"%string) = Some ["n"%string] /\ d (2, "c"%string) = None /\ d (2, "other"%string) = Some ["o"%string].
Proof. vm_compute. repeat split; reflexivity. Qed.

(* ---------------------------------------------------------------- C11 *)
Theorem C11_saving_again_makes_no_calls :
  forall cfg s s', orders_ok cfg -> repo_save cfg s = (Done None, s') ->
  (exists s'', persist cfg s' = (Done None, s'') /\ s_trace s'' = s_trace s' /\ s_actions s'' = s_actions s') /\
  (forall o s'', repo_save cfg s' = (o, s'') -> s_trace s'' = s_trace s' /\ s_actions s'' = s_actions s').
Proof.
  intros cfg s s' Ho H. unfold repo_save, bind, get in H. destruct (repo_error s); [discriminate|].
  apply commit_clean in H; auto. apply clean_persist in H.
  assert (P : exists s'', persist cfg s' = (Done None, s'') /\ s_trace s'' = s_trace s' /\ s_actions s'' = s_actions s').
  { destruct H as [H|H]; eexists; split; [exact H|cbn; rewrite ?app_nil_r; auto|exact H|cbn; auto]. }
  split; auto. intros o s''. unfold repo_save, bind, get. destruct (repo_error s'); [now intros [= _ <-]|].
  destruct P as (s1 & P & T1 & A1). unfold commit. intros Hc. apply andthen_inv in Hc. destruct Hc as (o1 & s2 & Hp & Hc). rewrite P in Hp. injection Hp as <- <-.
  destruct Hc as [(X & _)|[_ Hc]]; [congruence|]. 
  assert (W : forall p x o x', walk_from cfg p x = (o, x') -> s_trace x' = s_trace x /\ s_actions x' = s_actions x).
  { intros p x o0 x' Hw. apply walk_from_inv in Hw. destruct Hw as [-> _]. auto. }
  assert (F : forall x o x', flush cfg x = (o, x') -> s_trace x' = s_trace x /\ s_actions x' = s_actions x).
  { intros x o0 x' Hw. unfold flush in Hw. destruct (bind_inv _ _ _ _ _ Hw) as [([] & y & Hu & Hw2)|[[Hu _]|[Hu _]]]; try (cbv in Hu; discriminate).
    injection Hu as <-. unfold updateSnapshot in Hw2. destruct (bind_inv _ _ _ _ _ Hw2) as [(l & z & Hl & Hw3)|[[Hl _]|[Hl _]]]; try (apply W in Hl; exact Hl).
    apply W in Hl. unfold bind, get, upd, ret in Hw3. injection Hw3 as _ <-. exact Hl. }
  apply andthen_inv in Hc. destruct Hc as (o2 & s3 & Hf & Hc). apply F in Hf. rewrite T1, A1 in Hf. destruct Hf as [Tf Af].
  destruct Hc as [(_ & _ & <-)|[_ Hc]]; [auto|].
  destruct (bind_inv _ _ _ _ _ Hc) as [(u & y & Hu & Hw2)|[[Hu _]|[Hu _]]]; [injection Hw2 as _ <-|..];
   (unfold unDirty in Hu; destruct (bind_inv _ _ _ _ _ Hu) as [(l & z & Hl & Hw3)|[[Hl _]|[Hl _]]]; apply W in Hl; [injection Hw3; intros; subst; cbn; intuition congruence|intuition congruence..]) || idtac.
Qed.
Print Assumptions C11_saving_again_makes_no_calls.
(** Generally: if no entity has to be created, updated or deleted, a save makes no call at all. *)
Theorem C11_nothing_changed_no_calls :
  forall cfg s o s', go_maps (s_heap s) (s_pool s) -> orders_ok cfg -> persist cfg s = (o, s') ->
  (forall t par k p, ~ must_save cfg s t par k p) ->
  s_trace s' = s_trace s /\ s_actions s' = s_actions s /\ s_heap s' = s_heap s.
Proof.
  intros cfg s o s' Hm [Ho _] H Hno. unfold persist in H. destruct (bind_inv _ _ _ _ _ H) as [(x & s1 & H1 & H2)|[[H1 _]|[H1 _]]];
    apply changed_inv in H1; destruct H1 as [-> Eg]; auto.
  destruct x as [e|chs]; [injection H2 as _ <-; auto|].
  destruct (getEntityChanged _ _ _ _ _ _) as [chs'| |] eqn:Eg'; try discriminate. injection Eg as <-. rename Eg' into Eg.
  destruct (must_save_spec cfg s chs Hm (Ho _) Eg) as [M1 _].
  assert (K : forall ch, In ch chs -> ch_kids ch = []).
  { intros ch Hc. destruct (ch_kids ch) as [|p u] eqn:E; auto. exfalso. apply (Hno (ch_type ch) (ch_parent ch) (ch_key ch) p). apply M1. exists ch. rewrite E. cbn. auto 8. }
  assert (Hh : forall b z, hooks cfg b chs z = (Done None, z)).
  { intros b z. unfold hooks. clear - K. induction chs as [|ch t IH]; [reflexivity|]. cbn. unfold andthen, bind. rewrite (K ch) by now left. cbn. apply IH. intros; apply K; now right. }
  assert (Hp : forall z, putNewID cfg chs z = (Done None, z)).
  { intros z. unfold putNewID. clear - K. induction chs as [|ch t IH]; [reflexivity|]. cbn. unfold andthen, bind. rewrite (K ch) by now left. destruct (ch_type ch); cbn; apply IH; intros; apply K; now right. }
  assert (Hc : change_items chs = []).
  { unfold change_items. clear - K. induction chs as [|ch t IH]; [reflexivity|]. cbn. rewrite (K ch) by now left. cbn. apply IH. intros; apply K; now right. }
  cbn beta iota in H2. unfold andthen, bind in H2. rewrite Hh, Hp in H2. unfold makeActions, make_actions, get, bind, ret in H2. rewrite Hc in H2. cbn in H2. unfold exec in H2.
  destruct (c_dry cfg); cbn in H2; rewrite Hh in H2; cbn in H2; injection H2 as _ <-; cbn; rewrite ?app_nil_r; auto.
Qed.
Print Assumptions C11_nothing_changed_no_calls.
(** the loaded aggregate of SaveProps, saved twice in a row: the second save makes no call *)
Example C11_example :
  let x := repo_save (sv_cfg all_ok) sv_state in let y := repo_save (sv_cfg all_ok) (snd x) in
  fst x = Done None /\ length (s_trace (snd x)) > 3 /\ fst y = Done None /\ s_trace (snd y) = s_trace (snd x).
Proof. vm_compute. repeat split; repeat constructor. Qed.

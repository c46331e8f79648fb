(** Repository calls: what they leave behind, and what the next save makes of it. *)
From Verif Require Export EngineProof13.
From Verif Require Import GraphProof GraphProof2 GraphProof3 GraphProof4 GraphProof5 MoveProof EngineProof8 EngineModel.

Lemma kids_meta s : kids_now s meta = [(meta_key, ct_roots (s_cont s))].
Proof. reflexivity. Qed.
Lemma now_root s p : now_child (kids_now s) meta meta_key p <-> In p (ct_roots (s_cont s)).
Proof.
  unfold now_child. rewrite kids_meta. split.
  - intros (l & Hl & Hp). destruct Hl as [Hl|[]]. injection Hl as <-. exact Hp.
  - intros H. eexists. split; [now left|exact H].
Qed.
(** [p] was a root when the roots were last remembered *)
Definition loaded_root (s : st) (p : ptr) : Prop := was_child (s_pool s) meta meta_key p.

Lemma snapshot_roots cfg s s' : orders_ok cfg -> updateSnapshot cfg s = (Done None, s') -> forall p, loaded_root s' p <-> In p (ct_roots (s_cont s)).
Proof.
  intros [Ho _] H p. apply updateSnapshot_inv in H. destruct (walk _ _ _ _ _) as [l|] eqn:W; [|destruct H; discriminate].
  destruct H as (e & pl' & S & [= <-] & ->). apply snap_list_spec in S. destruct S as (_ & _ & S3).
  destruct (S3 meta) as (po & E); [apply (walk_reach _ _ (Ho _) _ _ _ _ W); constructor|reflexivity|].
  unfold loaded_root, was_child. cbn [s_pool with_pool]. rewrite E. split.
  - intros (sn & kl & Hs & Hl & Hp). injection Hs as <-. cbn in Hl. destruct Hl as [Hl|[]]. injection Hl as <-. exact Hp.
  - intros H. do 2 eexists. split; [reflexivity|]. split; [now left|exact H].
Qed.

Definition erring (s s' : st) : Prop := exists e l, s_errs s' = s_errs s ++ e :: l.
Lemma erring_grows s1 s2 s3 : grows s1 s2 -> erring s2 s3 -> erring s1 s3.
Proof. intros [(l & E) _] (e & l' & E'). destruct l as [|x t]; [exists e, l'|exists x, (t ++ e :: l')]; rewrite E', E, ?app_nil_r; auto. now rewrite <- app_assoc. Qed.
Lemma erring_more s1 s2 s3 : erring s1 s2 -> grows s2 s3 -> erring s1 s3.
Proof. intros (e & l & E) [(l' & E') _]. exists e, (l ++ l'). rewrite E', E, <- app_assoc. reflexivity. Qed.
Lemma erring_nonempty s s' : erring s s' -> s_errs s' <> [].
Proof. intros (e & l & ->). destruct (s_errs s); discriminate. Qed.

Record removed (cfg : config) (s : st) (roots : list ptr) (s' : st) : Prop := mkRemoved {
  rm_nodup : NoDup roots;
  rm_new : forall r, In r roots -> ~ In r (ct_roots (s_cont s)) -> s_pool s r = None;
  rm_roots : forall q, In q (ct_roots (s_cont s')) <-> In q (ct_roots (s_cont s)) /\ ~ In q roots;
  rm_deleted : incl roots (ct_deleted (s_cont s'));
  rm_heap : s_heap s' = s_heap s;
  rm_loaded : forall r, In r roots -> loaded_root s r \/ ~ In r (ct_roots (s_cont s)) -> loaded_root s' r;
  rm_errs : s_errs s' = s_errs s }.

Lemma repo_remove_spec cfg roots s o s' : orders_ok cfg -> repo_remove cfg roots s = (o, s') -> o = Done tt ->
  erring s s' \/ removed cfg s roots s'.
Proof.
  intros Ho H ->. unfold repo_remove in H. apply bind_done in H. destruct H as (x & x0 & [= <- <-] & H).
  set (tc := filter (fun r => negb (cont_has (s_cont s) r)) roots) in *.
  apply bind_done in H. destruct H as (e & s1 & H1 & H2).
  assert (Htc : forall r, In r tc <-> In r roots /\ ~ In r (ct_roots (s_cont s))).
  { intros r. unfold tc. rewrite filter_In. unfold cont_has. rewrite negb_true_iff. rewrite <- (memb_In r (ct_roots (s_cont s))). destruct (memb r (ct_roots (s_cont s))); intuition (try discriminate). }
  assert (Tail : forall s2, e = None -> s_errs s1 = s_errs s \/ erring s s1 -> (e' <- each meta_remove roots ;; match e' with Some x => append_err x | None => ret tt end) s1 = (Done tt, s2) ->
     erring s s2 \/ (s_errs s2 = s_errs s /\ s_errs s1 = s_errs s /\ s_pool s2 = s_pool s1 /\ s_heap s2 = s_heap s1 /\ NoDup roots /\ incl roots (ct_roots (s_cont s1)) /\ incl roots (ct_deleted (s_cont s2)) /\
       forall q, In q (ct_roots (s_cont s2)) <-> In q (ct_roots (s_cont s1)) /\ ~ In q roots)).
  { intros s2 _ Hs1 Ht. unfold bind in Ht. destruct (remove_each roots s1) as (e' & c & E & _ & He). rewrite E in Ht. destruct e' as [y|].
    - injection Ht as <-. left. destruct Hs1 as [Hs1|Hs1].
      + exists y, []. cbn. now rewrite Hs1.
      + destruct Hs1 as (e1 & l1 & Hs1). exists e1, (l1 ++ [y]). cbn. rewrite Hs1, <- app_assoc. reflexivity.
    - injection Ht as <-. destruct He as (A & B & C & D). destruct Hs1 as [Hs1|Hs1]; [right|left; exact Hs1]. cbn. auto 9. }
  assert (K : match e with Some x => erring s s' | None => True end).
  { destruct e as [y|]; auto. injection H2 as <-.
    assert (G : grows s s1).
    { destruct tc; [now injection H1|]. apply bind_done in H1. destruct H1 as (u & s2 & Ha & Hb).
      eapply grows_trans; [|eapply grows_snap; exact Hb]. revert Ha. apply v_repo_add; auto using grows_refl, grows_cont.
      - apply grows_trans.
      - intros z l. split; [exists l; reflexivity|apply incl_refl]. }
    eapply erring_grows; [exact G|]. exists y, []. reflexivity. }
  destruct e as [y|]; [left; exact K|clear K].
  destruct tc as [|t0 tl] eqn:Et.
  - injection H1 as <-. destruct (Tail s' eq_refl (or_introl eq_refl) H2) as [T|(E1 & _ & E2 & E3 & N & I & D & Q)]; [now left|right].
    split; auto.
    + intros r Hr Hn. exfalso. destruct (Htc r) as [_ X]. apply X. auto.
    + intros r Hr [L|L]; [|exfalso; destruct (Htc r) as [_ X]; apply X; auto]. unfold loaded_root in *. now rewrite E2.
  - apply bind_done in H1. destruct H1 as (u & s0 & Ha & Hb). destruct (repo_add_spec (t0 :: tl) s) as (sa & Ea & Ha'). rewrite Ea in Ha. injection Ha as _ <-.
    destruct (snap_frame _ _ _ _ Hb) as (F1 & F2 & F3).
    destruct Ha' as [(e & n & r & -> & _)|(-> & Hnew & Hnd)].
    + left. destruct (Tail s' eq_refl) as [T|(_ & E & _)]; auto.
      * right. exists e, []. rewrite F1. reflexivity.
      * rewrite F1 in E. cbn in E. exfalso. rewrite <- (app_nil_r (s_errs s)) in E at 2. apply app_inv_head in E. discriminate.
    + assert (Ls : forall p, loaded_root s1 p <-> In p (ct_roots (s_cont (add_roots s (t0 :: tl))))) by (apply (snapshot_roots cfg _ _ Ho Hb)).
      destruct (Tail s' eq_refl (or_introl (F1)) H2) as [T|(E1 & _ & E2 & E3 & N & I & D & Q)]; [now left|right].
      rewrite F2 in Q, I. cbn in Q, I, Ls. split; auto.
      * intros r Hr Hn. apply Hnew. apply Htc. auto.
      * intros q. rewrite Q, in_app_iff, Htc. tauto.
      * now rewrite E3, F3.
      * intros r Hr _. unfold loaded_root in *. rewrite E2. apply Ls. auto.
Qed.

(* ---------------------------------------------------------------- after the call: code that does not load or remove *)
(** The rest of a command body, as long as it only looks at entities, modifies them, adds new roots or sets its output. *)
Fixpoint plain {X} (b : body X) : Prop :=
  match b with
  | BRet _ | BPanic => True
  | BLook k => forall h, plain (k h)
  | BMut _ k | BOutput _ k | BAdd _ k => plain k
  | _ => False
  end.
Lemma plain_run cfg {X} (b : body X) : plain b -> forall s o s', run_body cfg b s = (o, s') ->
  s_pool s' = s_pool s /\ incl (ct_roots (s_cont s)) (ct_roots (s_cont s')) /\
  (forall q, In q (ct_roots (s_cont s')) -> In q (ct_roots (s_cont s)) \/ s_pool s q = None).
Proof.
  induction b as [r| |k IH|f b IH|r k IH|f rs k IH|rs b IH|rs b IH|k IH|d b IH|r k IH|rs k IH|p b IH|p b IH]; cbn [plain]; intros Hp s o s' H; try contradiction.
  - injection H as _ <-. split; [reflexivity|]. split; [apply incl_refl|auto].
  - injection H as _ <-. split; [reflexivity|]. split; [apply incl_refl|auto].
  - cbn [run_body] in H. unfold bind, get in H. eapply IH; eauto.
  - cbn [run_body] in H. unfold bind, upd in H. apply IH in H; auto.
  - cbn [run_body] in H. unfold bind in H. destruct (repo_add_spec rs s) as (s1 & E & Hs). rewrite E in H. apply IH in H; auto. destruct H as (H1 & H2 & H3).
    assert (C : exists l, s_pool s1 = s_pool s /\ ct_roots (s_cont s1) = ct_roots (s_cont s) ++ l /\ forall q, In q l -> s_pool s q = None).
    { destruct Hs as [(e & n & r & -> & Hf & _)|(-> & Hs & _)].
      - exists (firstn n rs). auto.
      - exists rs. split; [reflexivity|]. split; [reflexivity|]. intros q Hq. now apply Hs. }
    destruct C as (l & C1 & C2 & C3). rewrite H1, C1. split; [reflexivity|]. rewrite C2 in H2, H3. split.
    + intros q Hq. apply H2, in_app_iff. now left.
    + intros q Hq. rewrite C1 in H3. destruct (H3 q Hq) as [Y|Y]; auto. apply in_app_iff in Y. destruct Y; auto.
  - cbn [run_body] in H. unfold bind, upd in H. apply IH in H; auto.
Qed.

(* ---------------------------------------------------------------- what the next save does *)
(** [m] was handed to the executor in an action of kind [o], which was accepted. *)
Definition executed (tr : list (call * resp)) (o : op) (m : model) : Prop :=
  exists a x, In (KExec a, x) tr /\ r_ans x = AOk /\ a_op a = o /\ In m (a_models a).

Section Saved.
  Variable cfg : config.
  Hypothesis Hty : keeps_types cfg.
  Hypothesis Hord : orders_ok cfg.
  Lemma persist_executes s s' t par k p m : go_maps (s_heap s) (s_pool s) -> c_dry cfg = false -> persist cfg s = (Done None, s') ->
    after_unread cfg (s_trace s') -> must_save cfg s t par k p -> c_conv cfg (s_heap s') p (Some par) (change_op t) = CModel m ->
    executed (s_trace s') (change_op t) m.
  Proof.
    intros Hm Hd H Hn HM Hc. destruct (persist_inv cfg Hty s _ s' H) as [[_ N]|(chs & hb & idc & ws & ha & Eg & T & P)]; [congruence|].
    destruct (must_save_spec cfg s chs Hm (proj1 Hord _) Eg) as [M1 _]. apply M1 in HM. clear M1. remember (Done None) as o eqn:Eo.
    destruct P as [hb o s1 X Hb|hb idc o s1 X Hb Hi|hb idc ws h acts o s1 X Hb Hi Hok Hid Haf Hdd Hw|hb idc ws ha h acts o s1 s' Hb Hi Hok Hid Hgen Haf Hw Ha A1 A2 A3 A4 A5 A7 A6]; try congruence.
    subst o. rewrite Hd in *. destruct (calls_out_ok _ _ _ Hw) as [Wo W]. specialize (W eq_refl). apply proj2 in Wo. specialize (Wo eq_refl).
    assert (Eh : forall q par o, c_conv cfg (s_heap s') q par o = c_conv cfg h q par o).
    { rewrite A6. cbn. rewrite A2. apply after_unread_calls. intros [c x] Hcx Hmu g. cbn in *.
      apply calls_out_prefix in Ha. destruct Ha as (rest & Ha).
      assert (Hin : In c (hook_calls cfg (fun p => e_type (s_heap s p)) false chs)) by (rewrite Ha; apply in_app_iff; left; change c with (fst (c, x)); now apply in_map).
      apply hook_calls_shape in Hin. destruct Hin as (q & t' & ->).
      apply (Hn q t' x). rewrite T. rewrite !in_app_iff. auto. }
    rewrite Eh in Hc. destruct HM as (ch & H1 & <- & <- & <- & H2).
    set (cb := mkContrib (change_op (ch_type ch)) m (match s_pool s p with Some sn => s_po sn | None => None end)).
    assert (Hcb : In cb (contributions cfg h (s_pool s) chs)).
    { unfold contributions. apply in_flat_map. exists ch. split; auto. apply in_flat_map. exists p. split; auto. rewrite Hc. now left. }
    destruct (af_all _ _ Haf cb Hcb) as (a & Ha1 & Ha2 & Ha3). destruct (af_exact _ _ Haf a Ha1) as (_ & Ha4 & _).
    assert (Hi2 : In (KExec a) (map fst ws)) by (rewrite W; now apply in_map).
    apply in_map_iff in Hi2. destruct Hi2 as ([c x] & Ec & Hx). cbn in Ec. subst c.
    exists a, x. split; [rewrite T, !in_app_iff; auto|]. split; [rewrite Forall_forall in Wo; exact (Wo _ Hx)|]. split; [exact Ha2|].
    rewrite Ha4. apply in_map_iff. exists cb. split; auto. apply filter_In. split; auto. unfold same_kind. rewrite Ha2, Ha3. cbn. rewrite Nat.eqb_refl.
    destruct (change_op (ch_type ch)); reflexivity.
  Qed.
  Lemma persist_remembers s s' par k p : go_maps (s_heap s) (s_pool s) -> persist cfg s = (Done None, s') ->
    must_save cfg s CDelete par k p -> In p (ct_deleted (s_cont s')).
  Proof.
    intros Hm H HM. destruct (persist_inv cfg Hty s _ s' H) as [[_ N]|(chs & hb & idc & ws & ha & Eg & T & P)]; [congruence|].
    destruct (must_save_spec cfg s chs Hm (proj1 Hord _) Eg) as [M1 _]. apply M1 in HM. clear M1. remember (Done None) as o eqn:Eo.
    destruct P as [hb o s1 X Hb|hb idc o s1 X Hb Hi|hb idc ws h acts o s1 X Hb Hi Hok Hid Haf Hdd Hw|hb idc ws ha h acts o s1 s' Hb Hi Hok Hid Hgen Haf Hw Ha A1 A2 A3 A4 A5 A7 A6]; try congruence.
    subst o. rewrite A6. cbn. destruct HM as (ch & H1 & H2 & _ & _ & H3). apply in_app_iff. right. apply in_flat_map. exists ch. split; auto. now rewrite H2.
  Qed.
  Lemma persist_roots s s' : persist cfg s = (Done None, s') -> ct_roots (s_cont s') = ct_roots (s_cont s) /\ s_errs s' = s_errs s.
  Proof.
    intros H. destruct (persist_inv cfg Hty s _ s' H) as [[_ N]|(chs & hb & idc & ws & ha & Eg & T & P)]; [congruence|]. remember (Done None) as o eqn:Eo.
    destruct P as [hb o s1 X Hb|hb idc o s1 X Hb Hi|hb idc ws h acts o s1 X Hb Hi Hok Hid Haf Hdd Hw|hb idc ws ha h acts o s1 s' Hb Hi Hok Hid Hgen Haf Hw Ha A1 A2 A3 A4 A5 A7 A6]; try congruence.
    subst o. rewrite A6. cbn. rewrite A4. auto.
  Qed.

  Lemma added_must_save {X} ps (t : body X) s x s1 p : plain t -> pool_closed (s_pool s) -> run_body cfg (BAdd ps t) s = (Done x, s1) -> s_errs s1 = [] ->
    In p ps -> must_save cfg s1 CNew meta meta_key p.
  Proof.
    intros Ht Hc H He Hp. cbn [run_body] in H. unfold bind in H. destruct (repo_add_spec ps s) as (sa & Ea & Hs). rewrite Ea in H.
    pose proof (grows_body cfg t _ _ _ H) as [(l & G) _]. rewrite He in G. symmetry in G. apply app_eq_nil in G. destruct G as [G _].
    destruct Hs as [(e & n & r & -> & _)|(-> & Hnew & Hnd)]; [cbn in G; destruct (s_errs s); discriminate|].
    destruct (plain_run cfg t Ht _ _ _ H) as (P1 & P2 & _). cbn in P1, P2. destruct (Hnew p Hp) as [N1 N2].
    assert (W : forall par k, ~ was_child (s_pool s1) par k p) by (intros par k W; rewrite P1 in W; apply Hc in W; congruence).
    left. split.
    - split; [constructor|]. split; [|apply W]. apply now_root. apply P2, in_app_iff. now right.
    - intros p' k' (_ & _ & W' & _). eapply W; exact W'.
  Qed.
  Lemma removed_must_save {X} ps (t : body X) s x s1 p : plain t -> pool_closed (s_pool s) -> conv_total cfg -> run_body cfg (BRemove ps t) s = (Done x, s1) -> s_errs s1 = [] ->
    In p ps -> loaded_root s p \/ ~ In p (ct_roots (s_cont s)) -> ~ reach (kids_now s1) meta p -> must_save cfg s1 CDelete meta meta_key p.
  Proof.
    intros Ht Hc Hct H He Hp HL Hr. cbn [run_body] in H. apply bind_done in H. destruct H as (u & sa & Ea & H). destruct u.
    pose proof (grows_body cfg t _ _ _ H) as [(l & G) _]. rewrite He in G. symmetry in G. apply app_eq_nil in G. destruct G as [G _].
    destruct (repo_remove_spec cfg ps s _ sa Hord Ea eq_refl) as [X0|R]; [now apply erring_nonempty in X0|].
    destruct (plain_run cfg t Ht _ _ _ H) as (P1 & P2 & P3).
    assert (L : loaded_root s1 p) by (unfold loaded_root; rewrite P1; exact (rm_loaded _ _ _ _ R p Hp HL)).
    left. split.
    - split; [constructor|]. split; [|split; [exact L|]].
      + eexists. rewrite kids_meta. now left.
      + rewrite now_root. intros Hi. apply Hr. econstructor; [apply now_root; exact Hi|constructor].
    - intros p' k' (R' & N & _). apply Hr. eapply reach_trans; [exact R'|eapply reach_one; exact N].
  Qed.
End Saved.

(* ---------------------------------------------------------------- successful runs, step by step *)
Lemma run_steps cfg keys h main r s' : orders_ok cfg -> save cfg keys main (new_stage h) = (Done r, s') -> bad r = false ->
  exists tr s1 s2 d, run_body cfg main (with_trace (new_stage h) tr) = (Done None, s1) /\ s_errs s1 = [] /\ persist cfg s1 = (Done None, s2) /\
    s_heap s' = s_heap s2 /\ s_cont s' = s_cont s2 /\ s_trace s' = s_trace s2 ++ d.
Proof.
  intros Ho H Hg. destruct (save_do cfg keys main h _ _ H) as [[_ N]|(a & d & b & of & s2 & Hdo & Ts & -> & Fa & Fb & Fw & _ & _ & _ & Hof)]; [rewrite (N r eq_refl) in Hg; discriminate|].
  specialize (Hof r eq_refl Hg). subst of. destruct (do_success cfg main _ r s2 Hdo Hg) as (s1 & sp & evs & s3 & H1 & He & H2 & H3 & H4).
  exists a, s1, sp. 
  destruct (collect_quiet cfg _ _ _ H3) as (dc & Tc & _). apply (collect_spec _ Ho) in H3. destruct H3 as (C1 & C2 & _).
  assert (Hp : exists dp, s_trace s2 = s_trace s3 ++ dp /\ s_heap s2 = s_heap s3 /\ s_cont s2 = s_cont s3).
  { destruct evs as [|e t].
    - unfold publish, bind, get, ret in H4. injection H4 as _ <-. exists []. rewrite app_nil_r. auto.
    - destruct (publish_shape cfg (e :: t) s3 _ s2 ltac:(discriminate) H4) as (dp & dd & n & T & _ & _ & _ & E1 & E2 & _). exists (dp ++ dd). auto. }
  destruct Hp as (dp & Tp & P1 & P2). exists (dc ++ dp ++ b).
  split; [exact H1|]. split; [exact He|]. split; [exact H2|]. cbn. split; [congruence|]. split; [congruence|].
  rewrite app_assoc, <- Ts, Tp, Tc. now rewrite <- !app_assoc.
Qed.

(** Saves and runs bring the database in step. *)
From Verif Require Export SyncProof.
From Verif Require Import EngineModel.

Lemma hook_calls_shape cfg ty b chs c : In c (hook_calls cfg ty b chs) -> exists p t, c = KHook p t b.
Proof.
  intros Hin. unfold hook_calls in Hin. apply in_flat_map in Hin. destruct Hin as (ch & _ & Hin). apply in_flat_map in Hin. destruct Hin as (p & _ & Hin).
  unfold hook_of in Hin. destruct (ch_type ch); try (destruct (c_hooks _ _ _ _)); cbn in Hin; intuition (subst; eauto).
Qed.

Section Save.
  Variable cfg : config.
  Hypothesis Hty : keeps_types cfg.
  Hypothesis Hord : orders_ok cfg.

  Lemma after_neutral (d : list (call * resp)) : (forall c, In c d -> mutates (fst c) = true -> forall g, r_heap (snd c) g = g) ->
    forall g, after_calls g d = g.
  Proof using.
    induction d as [|c t IH]; intros H g; [reflexivity|]. cbn. unfold after_calls in IH.
    destruct (mutates (fst c)) eqn:E; [rewrite H by (auto; now left)|]; apply IH; intros; apply H; auto; now right.
  Qed.

  Lemma after_unread_calls (d : list (call * resp)) : (forall c, In c d -> mutates (fst c) = true -> forall g q par o, c_conv cfg (r_heap (snd c) g) q par o = c_conv cfg g q par o) ->
    forall g q par o, c_conv cfg (after_calls g d) q par o = c_conv cfg g q par o.
  Proof using.
    induction d as [|c t IH]; intros H g q par o; [reflexivity|]. cbn. unfold after_calls in IH.
    destruct (mutates (fst c)) eqn:E; [rewrite IH; [apply H; auto; now left|]|apply IH]; intros; apply H; auto; now right.
  Qed.
  Lemma after_kids_calls (d : list (call * resp)) : (forall c, In c d -> mutates (fst c) = true -> forall g roots q, findChildren (r_heap (snd c) g) roots q = findChildren g roots q) ->
    forall g roots q, findChildren (after_calls g d) roots q = findChildren g roots q.
  Proof using.
    induction d as [|c t IH]; intros H g roots q; [reflexivity|]. cbn. unfold after_calls in IH.
    destruct (mutates (fst c)) eqn:E; [rewrite IH; [apply H; auto; now left|]|apply IH]; intros; apply H; auto; now right.
  Qed.
  Lemma contributions_ext h h' pl chs : (forall q par o, c_conv cfg h q par o = c_conv cfg h' q par o) -> contributions cfg h pl chs = contributions cfg h' pl chs.
  Proof using. intros E. unfold contributions. apply flat_map_ext. intros ch. apply flat_map_ext. intros p. now rewrite E. Qed.

  Lemma persist_sync s s' d : go_maps (s_heap s) (s_pool s) -> c_dry cfg = false -> persist cfg s = (Done None, s') ->
    after_unread cfg (s_trace s') ->
    ready cfg s (s_heap s') d ->
    exists delta, s_trace s' = s_trace s ++ delta /\ in_step cfg s (s_heap s') d (apply_actions d (execs delta)) /\
      s_actions s' = s_actions s ++ execs delta.
  Proof using Hty Hord.
    intros Hm Hd H Hn RD. destruct (persist_inv cfg Hty s _ s' H) as [[_ N]|(chs & hb & idc & ws & ha & Eg & T & P)]; [congruence|].
    destruct (must_save_spec cfg s chs Hm (proj1 Hord _) Eg) as [M1 _].
    exists (hb ++ idc ++ ws ++ ha). split; auto. remember (Done None) as o eqn:Eo.
    destruct P as [hb o s1 X Hb|hb idc o s1 X Hb Hi|hb idc ws h acts o s1 X Hb Hi Hok Hid Haf Hdd Hw|hb idc ws ha h acts o s1 s' Hb Hi Hok Hid Hgen Haf Hw Ha A1 A2 A3 A4 A5 A7 A6]; try congruence.
    subst o. rewrite Hd in *. destruct (calls_out_ok _ _ _ Hw) as [_ W]. specialize (W eq_refl).
    assert (Ex : execs (hb ++ idc ++ ws ++ ha) = acts).
    { rewrite !execs_app, (execs_map _ _ W).
      assert (Nh : forall b ty (dd : list (call * resp)) o, calls_out (hook_calls cfg ty b chs) dd o -> execs dd = []).
      { intros b ty dd o Hx. apply calls_out_prefix in Hx. destruct Hx as (rest & Hx).
        assert (Hf : Forall (fun c => forall a, fst c <> KExec a) dd).
        { apply Forall_forall. intros c Hc a Ea. assert (Hin : In (fst c) (hook_calls cfg ty b chs)) by (rewrite Hx; apply in_app_iff; left; now apply in_map).
          rewrite Ea in Hin. apply hook_calls_shape in Hin. destruct Hin as (q & t & Hq). discriminate. }
        clear - Hf. induction Hf as [|[c r] t Hc _ IH]; [reflexivity|]. unfold execs in *. cbn in *. rewrite IH. destruct c; auto. exfalso. now apply (Hc a). }
      rewrite (Nh _ _ _ _ Hb), (Nh _ _ _ _ Ha), app_nil_r. cbn [app].
      assert (Ni : execs idc = []). { clear - Hi. induction Hi as [|[c r] t Hc _ IH]; [reflexivity|]. cbn in Hc. subst c. unfold execs in *. cbn. exact IH. }
      now rewrite Ni. }
    rewrite Ex. cbn in A6. split.
    - assert (Eh : forall q par o, c_conv cfg (s_heap s') q par o = c_conv cfg h q par o).
      { rewrite A6. cbn. rewrite A2. apply after_unread_calls. intros [c x] Hc Hmu g. cbn in *.
        apply calls_out_prefix in Ha. destruct Ha as (rest & Ha).
        assert (Hin : In c (hook_calls cfg (fun p => e_type (s_heap s p)) false chs)) by (rewrite Ha; apply in_app_iff; left; change c with (fst (c, x)); now apply in_map).
        apply hook_calls_shape in Hin. destruct Hin as (p & t & ->).
        apply (Hn p t x). rewrite T. rewrite !in_app_iff. auto. }
      rewrite <- (contributions_ext _ _ (s_pool s) chs Eh) in Haf. apply (sync cfg s (s_heap s') d chs acts RD M1 Haf).
    - rewrite A6. cbn. exact A1.
  Qed.


  Lemma kids_ids h h' roots q : only_ids h h' -> findChildren h' roots q = findChildren h roots q.
  Proof using. intros H. unfold findChildren, findChildren_ent. destruct (Nat.eqb q meta); auto. rewrite (H q). destruct (h q); reflexivity. Qed.

  Lemma persist_structure s s' : persist cfg s = (Done None, s') -> hooks_keep_children (s_trace s') ->
    (forall roots q, findChildren (s_heap s') roots q = findChildren (s_heap s) roots q) /\ ct_roots (s_cont s') = ct_roots (s_cont s).
  Proof using Hty.
    intros H Hn. destruct (persist_inv cfg Hty s _ s' H) as [[_ N]|(chs & hb & idc & ws & ha & Eg & T & P)]; [congruence|].
    remember (Done None) as o eqn:Eo.
    destruct P as [hb o s1 X Hb|hb idc o s1 X Hb Hi|hb idc ws h acts o s1 X Hb Hi Hok Hid Haf Hdd Hw|hb idc ws ha h acts o s1 s' Hb Hi Hok Hid Hgen Haf Hw Ha A1 A2 A3 A4 A5 A7 A6]; try congruence.
    subst o. assert (Nb : forall b (dd : list (call * resp)) o, calls_out (hook_calls cfg (fun p => e_type (s_heap s p)) b chs) dd o -> incl dd (s_trace s') -> forall g roots q, findChildren (after_calls g dd) roots q = findChildren g roots q).
    { intros b dd o Hx Hi2. apply after_kids_calls. intros [c x] Hc Hmu g. apply calls_out_prefix in Hx. destruct Hx as (rest & Hx).
      assert (Hin : In c (hook_calls cfg (fun p => e_type (s_heap s p)) b chs)) by (rewrite Hx; apply in_app_iff; left; change c with (fst (c, x)); now apply in_map).
      apply hook_calls_shape in Hin. destruct Hin as (p & t & ->).
      apply (Hn p t b x). now apply Hi2. }
    rewrite A6. cbn. rewrite A2, A4. split; auto. intros roots q. rewrite (Nb false ha _ Ha) by (intros y Hy; rewrite T, !in_app_iff; auto 6).
    rewrite (kids_ids _ _ _ _ Hid). apply (Nb true hb _ Hb). intros y Hy. rewrite T, !in_app_iff. auto.
  Qed.

  (** after a successful intermediate save the remembered models are the rows of the database again *)
  Lemma commit_sync s s' d : go_maps (s_heap s) (s_pool s) -> c_dry cfg = false -> commit cfg s = (Done None, s') ->
    after_unread cfg (s_trace s') -> hooks_keep_children (s_trace s') -> (forall h par, c_conv cfg h meta par OpQuery = NotReg false) ->
    (forall s1, persist cfg s = (Done None, s1) -> ready cfg s (s_heap s1) d) ->
    exists delta, s_trace s' = s_trace s ++ delta /\
      forall p sn m, s_pool s' p = Some sn -> s_po sn = Some m -> apply_actions d (execs delta) (row_key m) = Some (m_cols m).
  Proof using Hty Hord.
    intros Hm Hd H Hu Hn Hmeta RD. unfold commit in H. apply andthen_inv in H. destruct H as (o1 & s1 & H1 & H2). destruct H2 as [(X & Y & _)|[-> H2]]; [congruence|].
    apply andthen_inv in H2. destruct H2 as (o2 & s2 & H2 & H3). destruct H3 as [(X & Y & _)|[-> H3]]; [congruence|].
    apply bind_done in H3. destruct H3 as (u & s3 & H3 & [= <-]). apply flush_spec in H2; auto. destruct (unDirty_spec _ _ _ _ Hord H3) as (ps & -> & Hps).
    assert (Tr : s_trace (with_heap (tick s2) (undirty_all (s_heap s2) ps)) = s_trace s1) by (cbn; apply (fl_trace _ _ _ H2)).
    assert (Hn1 : hooks_keep_children (s_trace s1)) by (rewrite <- Tr; exact Hn).
    assert (Hu1 : after_unread cfg (s_trace s1)) by (rewrite <- Tr; exact Hu).
    destruct (persist_sync s s1 d Hm Hd H1) as (delta & T & IS & _); [exact Hu1|auto|].
    destruct (persist_structure s s1 H1 Hn1) as [Hid Hroots].
    exists delta. split; [now rewrite Tr|]. intros p sn m Hp Hpo. cbn in Hp.
    assert (K : forall q, kids_now s2 q = kids_now s q).
    { intros q. unfold kids_now. rewrite (fl_heap _ _ _ H2), (fl_cont _ _ _ H2), Hroots. apply Hid. }
    destruct (in_dec Nat.eq_dec p ps) as [Hr|Hr].
    - apply Hps in Hr. destruct (fl_snap _ _ _ H2 p Hr) as (par & po & Hpar & Hpp & Hrem). rewrite Hpp in Hp. injection Hp as <-. cbn in Hpo. subst po.
      unfold remembered in Hrem. destruct Hpar as [->|(r & k & -> & R1 & R2)]; [rewrite Hmeta in Hrem; discriminate|].
      rewrite (fl_heap _ _ _ H2) in Hrem.
      apply (is_live _ _ _ _ _ IS p r k).
      + split; [eapply reach_ext; eauto|eapply now_child_ext; eauto].
      + unfold row. destruct (c_conv cfg (s_heap s1) p (Some r) OpQuery) as [m'|[|]|]; try congruence; try contradiction.
    - assert (Hr' : ~ reach (kids_now s2) meta p) by (rewrite <- Hps; exact Hr). rewrite (fl_none _ _ _ H2 p Hr') in Hp. discriminate.
  Qed.
End Save.

(* ---------------------------------------------------------------- runs *)
Section Run.
  Variable cfg : config.
  Lemma do_success main s r s' : do_ cfg main s = (Done r, s') -> bad r = false ->
    exists s1 s2 evs s3, run_body cfg main s = (Done None, s1) /\ s_errs s1 = [] /\ persist cfg s1 = (Done None, s2) /\
      collectEvents cfg s2 = (Done evs, s3) /\ publish cfg evs s3 = (Done r, s').
  Proof.
    unfold do_. intros H Hb. apply bind_done in H. destruct H as (e & s1 & H1 & H2). destruct e as [e|].
    { injection H2 as <- _. unfold fail_or_break in Hb. destruct (is_break e); discriminate. }
    apply bind_done in H2. destruct H2 as (s1' & s1'' & [= <- <-] & H2). unfold repo_error in H2. destruct (s_errs s1) as [|x t] eqn:Ee.
    2:{ injection H2 as <- _. discriminate. }
    apply bind_done in H2. destruct H2 as (e & s2 & H2 & H3). destruct e as [e|]; [injection H3 as <- _; discriminate|].
    apply bind_done in H3. destruct H3 as (evs & s3 & H3 & H4). exists s1, s2, evs, s3. auto.
  Qed.
  (** computations without writes *)
  Definition quiet {A} (m : M A) : Prop := forall s o s', m s = (o, s') -> exists d, s_trace s' = s_trace s ++ d /\ execs d = [].
  Lemma quiet_ret {A} (x : A) : quiet (ret x).
  Proof using. intros s o s' [= _ <-]. exists []. now rewrite app_nil_r. Qed.
  Lemma quiet_get : quiet get.
  Proof using. intros s o s' [= _ <-]. exists []. now rewrite app_nil_r. Qed.
  Lemma quiet_upd f : (forall s, s_trace (f s) = s_trace s) -> quiet (upd f).
  Proof using. intros Hf s o s' [= _ <-]. exists []. now rewrite Hf, app_nil_r. Qed.
  Lemma quiet_bind {A B} (m : M A) (f : A -> M B) : quiet m -> (forall x, quiet (f x)) -> quiet (bind m f).
  Proof using.
    intros Hm Hf s o s' H. destruct (bind_inv _ _ _ _ _ H) as [(x & s1 & H1 & H2)|[[H1 _]|[H1 _]]].
    - destruct (Hm _ _ _ H1) as (d1 & T1 & E1). destruct (Hf _ _ _ _ H2) as (d2 & T2 & E2). exists (d1 ++ d2). now rewrite T2, T1, execs_app, E1, E2, app_assoc.
    - exact (Hm _ _ _ H1).
    - exact (Hm _ _ _ H1).
  Qed.
  Lemma quiet_ecall c : is_write c = false -> quiet (ecall cfg c).
  Proof using. intros Hc s o s' H. apply ecall_inv in H. destruct H as (r & _ & T & _). exists [(c, r)]. split; auto. destruct c; auto; discriminate. Qed.
  Lemma quiet_err c : is_write c = false -> quiet (ecall_err cfg c).
  Proof using. intros Hc. apply quiet_bind; [now apply quiet_ecall|intros; apply quiet_ret]. Qed.
  Lemma quiet_andthen m1 m2 : quiet m1 -> quiet m2 -> quiet (andthen m1 m2).
  Proof using. intros H1 H2. apply quiet_bind; auto. intros [x|]; auto using quiet_ret. Qed.
  Lemma publish_quiet evs : c_persist cfg = None -> quiet (publish cfg evs).
  Proof using.
    intros Hp. unfold publish. destruct evs as [|e t]; [apply quiet_bind; [apply quiet_get|intros; apply quiet_ret]|].
    apply quiet_bind; [rewrite Hp; apply quiet_ret|]. intros [r|]; [apply quiet_ret|].
    assert (Hd : quiet (dispatchEvents cfg (e :: t))).
    { unfold dispatchEvents. destruct (c_dry cfg); [apply quiet_ret|]. destruct (negb (c_tx cfg)); [now apply quiet_err|].
      destruct (c_bus cfg); try now apply quiet_err. cbv zeta. apply quiet_andthen.
      - destruct (filter is_tx (e :: t)); [apply quiet_ret|]. apply quiet_bind; [now apply quiet_ecall|]. intros r.
        apply quiet_bind; [now apply quiet_upd|intros; apply quiet_ret].
      - destruct (filter (fun e => negb (is_tx e)) (e :: t)); [apply quiet_ret|now apply quiet_err]. }
    destruct (c_bus cfg); [apply quiet_ret|..]; (apply quiet_bind; [exact Hd|]; intros [x|]; [apply quiet_ret|apply quiet_bind; [apply quiet_get|intros; apply quiet_ret]]).
  Qed.
  Lemma walk_from_quiet p : quiet (walk_from cfg p).
  Proof using. intros s o s' H. apply walk_from_inv in H. destruct H as [-> _]. exists []. now rewrite app_nil_r. Qed.
  Lemma walk_all_quiet ps : quiet (walk_all cfg ps).
  Proof using. induction ps as [|p t IH]; cbn; [apply quiet_ret|]. apply quiet_bind; [apply walk_from_quiet|intros]. apply quiet_bind; [exact IH|intros; apply quiet_ret]. Qed.
  Lemma collect_quiet : quiet (collectEvents cfg).
  Proof using.
    unfold collectEvents. apply quiet_bind; [apply walk_from_quiet|intros l]. apply quiet_bind; [apply quiet_get|intros s].
    apply quiet_bind; [apply walk_all_quiet|intros d]. apply quiet_bind; [apply quiet_get|intros s1].
    cbv zeta. apply quiet_bind; [now apply quiet_upd|intros; apply quiet_ret].
  Qed.
End Run.

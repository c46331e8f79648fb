(** Property theorems about one save (an intermediate repo.Save or the save at the end of a run): actions, ids, entity
    hooks.  [persist] is one save; ActionSpec.v says what has to be saved and with which actions. *)
From Verif Require Import EngineProof11 EngineProps.
From Verif Require Import EngineModel.

Lemma hook_calls_In cfg ty b chs c : In c (hook_calls cfg ty b chs) <->
  exists t par k p, c = KHook p t b /\ t <> CClear /\ reported chs t par k p /\ c_hooks cfg (ty p) t b = true.
Proof.
  unfold hook_calls. rewrite in_flat_map. split.
  - intros (ch & H1 & H2). apply in_flat_map in H2. destruct H2 as (p & H2 & H3). unfold hook_of in H3.
    destruct (ch_type ch) eqn:Et; [..|destruct H3]; (destruct (c_hooks cfg (ty p) _ b) eqn:E; [|destruct H3]);
      destruct H3 as [<-|[]]; eexists _, (ch_parent ch), (ch_key ch), p; (split; [reflexivity|split; [discriminate|split; [|exact E]]]);
      exists ch; auto.
  - intros (t & par & k & p & -> & Ht & (ch & H1 & H2 & H3 & H4 & H5) & H6). exists ch. split; auto. apply in_flat_map. exists p. split; auto.
    unfold hook_of. rewrite H2. destruct t; try congruence; rewrite H6; now left.
Qed.
Lemma hook_calls_NoDup cfg ty b chs : NoDup (flat_map ch_kids chs) -> NoDup (hook_calls cfg ty b chs).
Proof.
  assert (Hin : forall t l c, In c (flat_map (hook_of cfg ty t b) l) -> exists p, In p l /\ c = KHook p t b).
  { intros t l c H. apply in_flat_map in H. destruct H as (p & H1 & H2). exists p. split; auto. unfold hook_of in H2.
    destruct t; try (destruct (c_hooks _ _ _ _)); cbn in H2; intuition. }
  unfold hook_calls. induction chs as [|ch t IH]; cbn; intros H; [constructor|].
  apply NoDup_app_iff in H. destruct H as (H1 & H2 & H3). apply NoDup_app_iff. split; [|split; [auto|]].
  - clear - H1 Hin. induction (ch_kids ch) as [|p u IH]; cbn; [constructor|]. inversion H1 as [|? ? A B]; subst.
    apply NoDup_app_iff. split; [|split; [auto|]].
    + unfold hook_of. destruct (ch_type ch); try (destruct (c_hooks _ _ _ _)); repeat constructor; auto.
    + intros c Hc1 Hc2. assert (In c (flat_map (hook_of cfg ty (ch_type ch) b) [p])) as Hc by (cbn; now rewrite app_nil_r).
      apply Hin in Hc. destruct Hc as (q & [<-|[]] & ->). apply Hin in Hc2. destruct Hc2 as (q & Hq & [= ->]). contradiction.
  - intros c Hc1 Hc2. apply Hin in Hc1. destruct Hc1 as (p & Hp & ->). apply in_flat_map in Hc2. destruct Hc2 as (ch' & Hch & Hc2).
    apply Hin in Hc2. destruct Hc2 as (q & Hq & [= -> _]). apply (H3 q Hp). apply in_flat_map. eauto.
Qed.
Lemma firstn_map_fst (d : list (call * resp)) cs : (exists rest, cs = map fst d ++ rest) -> Forall (fun c => In c cs) (map fst d).
Proof. intros (rest & ->). apply Forall_forall. intros c Hc. apply in_app_iff. auto. Qed.
Lemma hooks_kind cfg ty b chs (d : list (call * resp)) o : calls_out (hook_calls cfg ty b chs) d o -> Forall (fun c => is_hook b (fst c) = true) d.
Proof.
  intros H. apply calls_out_prefix, firstn_map_fst in H. rewrite Forall_forall in H |- *. intros c Hc.
  assert (X := H (fst c) (in_map _ _ _ Hc)). apply hook_calls_In in X. destruct X as (t & par & k & p & -> & _). cbn. destruct b; reflexivity.
Qed.
Lemma writes_kind acts (d : list (call * resp)) o : calls_out (map KExec acts) d o -> Forall (fun c => is_write (fst c) = true) d.
Proof.
  intros H. apply calls_out_prefix, firstn_map_fst in H. rewrite Forall_forall in H |- *. intros c Hc.
  assert (X := H (fst c) (in_map _ _ _ Hc)). apply in_map_iff in X. destruct X as (a & <- & _). reflexivity.
Qed.
Lemma newid_kind (d : list (call * resp)) : Forall (fun c => fst c = KNewID) d -> Forall (fun c => is_newid (fst c) = true) d.
Proof. intros H. eapply Forall_impl; [|exact H]. intros c Hc. cbn in *. now rewrite Hc. Qed.
(* ---------------------------------------------------------------- a save with hooks, for the examples *)
(** roots: 1 (loaded, dirty), with child 3 (new, no id) in place of child 2 (loaded, taken out); every entity has all hooks *)
Definition sv_heap : heap := fun p => match p with
  | 1 => mkEnt "r"%string true 1 None [mkField "L"%string true false (FSlice [3])] [] ["v2"%string]
  | 2 => mkEnt "c"%string false 2 None [mkField "L"%string true false (FSlice [])] [] ["w"%string]
  | 3 => mkEnt ""%string false 2 None [mkField "L"%string true false (FSlice [])] [] ["n"%string]
  | _ => ex_ent ""%string 0 [] [] [] end.
Definition sv_pool : pool := fun p => match p with
  | 0 => Some (mkSnap None [(meta_key, [1])])
  | 1 => Some (mkSnap (Some (mkModel 1 "r"%string ["v"%string])) [("L"%string, [2])])
  | 2 => Some (mkSnap (Some (mkModel 2 "c"%string ["w"%string])) [("L"%string, [])])
  | _ => None end.
Definition sv_state : st := mkSt sv_heap (mkCont [1] []) sv_pool [] None false [] 0 [].
Definition sv_cfg (oracle : nat -> resp) : config :=
  mkConfig true false false BusPlain None 0 ex_conv (fun _ _ _ => true) (fun _ => ord_id) (fun _ l => l) 20 oracle.
Definition sv_run (oracle : nat -> resp) := let x := persist (sv_cfg oracle) sv_state in (fst x, map fst (s_trace (snd x))).
Lemma sv_maps : go_maps sv_heap sv_pool.
Proof.
  split.
  - intros p m. do 4 (destruct p as [|p]; [discriminate|]). discriminate.
  - intros p s. do 3 (destruct p as [|p]; [intros [= <-]; cbn; repeat constructor; cbn; tauto|]). discriminate.
Qed.

(* ---------------------------------------------------------------- C16 *)
(** [h] is the heap when the models are built: after the Before hooks and the assignment of ids. *)
Theorem C16_actions_homogeneous_complete_ordered :
  forall cfg s o s', keeps_types cfg -> go_maps (s_heap s) (s_pool s) -> orders_ok cfg ->
  persist cfg s = (o, s') ->
  exists d, s_trace s' = s_trace s ++ d /\
    (execs d <> [] \/ o = Done None -> exists chs h acts,
      (forall t par k p, reported chs t par k p <-> must_save cfg s t par k p) /\
      (c_recursive cfg = false -> NoDup (flat_map ch_kids chs)) /\
      actions_for (contributions cfg h (s_pool s) chs) acts /\
      (exists rest, acts = execs d ++ rest) /\
      (o = Done None -> c_dry cfg = false -> execs d = acts)).
Proof.
  intros cfg s o s' Ht Hm [Ho _] H. destruct (persist_inv cfg Ht s o s' H) as [[E N]|(chs & hb & idc & ws & ha & Eg & T & P)].
  - exists []. rewrite app_nil_r. split; auto. intros [X|X]; [cbn in X; congruence|contradiction].
  - exists (hb ++ idc ++ ws ++ ha). split; auto. destruct (must_save_spec cfg s chs Hm (Ho _) Eg) as [M1 M2].
    assert (Nh : forall b ty d o, calls_out (hook_calls cfg ty b chs) d o -> execs d = []).
    { intros b ty d o0 Hd. apply (execs_none (is_hook b)); [reflexivity|]. eapply hooks_kind; eauto. }
    assert (Ni : forall d, Forall (fun c => fst c = KNewID) d -> execs d = []).
    { intros d Hd. apply (execs_none is_newid); [reflexivity|]. now apply newid_kind. }
    rewrite !execs_app. intros Hx.
    destruct P as [hb o s1 Hn Hb|hb idc o s1 Hn Hb Hi|hb idc ws h acts o s1 Hn Hb Hi Hok Hid Haf Hd Hw|hb idc ws ha h acts o s1 s' Hb Hi Hok Hid Hgen Haf Hw Ha A1 A2 A3 A4 A5 A7 A6];
      rewrite (Nh _ _ _ _ Hb) in *; try (rewrite (Ni _ Hi) in * ).
    + cbn in Hx. destruct Hx; congruence.
    + cbn in Hx. destruct Hx; congruence.
    + exists chs, h, acts. do 3 (split; [assumption|]). cbn [app]. unfold execs at 2. cbn. rewrite app_nil_r. split; [|congruence].
      apply calls_out_prefix in Hw. destruct Hw as (rest & Hw). eapply execs_prefix; eauto.
    + exists chs, h, acts. do 3 (split; [assumption|]). rewrite (Nh _ _ _ _ Ha), app_nil_r. cbn [app].
      destruct (c_dry cfg).
      * subst ws. split; [exists acts; reflexivity|congruence].
      * destruct (calls_out_ok _ _ _ Hw) as [_ W]. rewrite (execs_map _ _ (W eq_refl)). split; [exists []; now rewrite app_nil_r|auto].
Qed.
Print Assumptions C16_actions_homogeneous_complete_ordered.
Example C16_example :
  keeps_types (sv_cfg all_ok) /\ go_maps (s_heap sv_state) (s_pool sv_state) /\ orders_ok (sv_cfg all_ok) /\
  execs (s_trace (snd (persist (sv_cfg all_ok) sv_state))) =
    [mkAction OpInsert [mkModel 2 "gen"%string ["n"%string]] [];
     mkAction OpUpdate [mkModel 1 "r"%string ["v2"%string]] [Some (mkModel 1 "r"%string ["v"%string])];
     mkAction OpDelete [mkModel 2 "c"%string ["w"%string]] []].
Proof.
  split; [intros n h p; reflexivity|]. split; [exact sv_maps|]. split; [split; [intros n p m; reflexivity|intros n l; reflexivity]|].
  vm_compute. reflexivity.
Qed.

(* ---------------------------------------------------------------- C17 *)
(** Ids after a successful save: an entity that had an id keeps it; one that had none and is created gets the answer of its
    own call of the generator; nothing else gets one.  The models are built from a heap [h] with these final ids. *)
Theorem C17_ids :
  forall cfg s s', keeps_types cfg -> keeps_ids cfg -> ids_nonempty cfg -> go_maps (s_heap s) (s_pool s) -> orders_ok cfg ->
  persist cfg s = (Done None, s') ->
  (forall p, e_id (s_heap s p) <> ""%string -> e_id (s_heap s' p) = e_id (s_heap s p)) /\
  (forall p par k, must_save cfg s CNew par k p -> e_id (s_heap s' p) <> ""%string) /\
  (exists d ps, s_trace s' = s_trace s ++ d /\
     let requests := filter (fun c => is_newid (fst c)) d in
     NoDup ps /\ Forall2 (fun p c => e_id (s_heap s' p) = r_id (snd c)) ps requests /\
     (forall p, In p ps <-> e_id (s_heap s p) = ""%string /\ exists par k, must_save cfg s CNew par k p) /\
     (forall p, ~ In p ps -> e_id (s_heap s' p) = e_id (s_heap s p)) /\
     exists h chs acts, (forall p, e_id (h p) = e_id (s_heap s' p)) /\
       (forall t par k p, reported chs t par k p <-> must_save cfg s t par k p) /\
       actions_for (contributions cfg h (s_pool s) chs) acts /\ (c_dry cfg = false -> execs d = acts) /\
       (forall d1 a x d2, d = d1 ++ (KExec a, x) :: d2 -> Forall (fun c => is_newid (fst c) = false) d2)).
Proof.
  intros cfg s s' Ht Hki Hne Hm [Ho _] H. destruct (persist_inv cfg Ht s _ s' H) as [[_ N]|(chs & hb & idc & ws & ha & Eg & T & P)]; [congruence|].
  destruct (must_save_spec cfg s chs Hm (Ho _) Eg) as [M1 _].
  remember (Done None) as o eqn:Eo.
  destruct P as [hb o s1 Hn Hb|hb idc o s1 Hn Hb Hi|hb idc ws h acts o s1 Hn Hb Hi Hok Hid Haf Hd Hw|hb idc ws ha h acts o s1 s' Hb Hi Hok Hid Hgen Haf Hw Ha A1 A2 A3 A4 A5 A7 A6]; try congruence.
  subst o. destruct (Hgen Hne) as [Hall (ps & G)]. destruct G as [G1 G2 G3 G4 G5].
  assert (Hafter : forall d h p, (forall c, In c d -> exists n, snd c = c_oracle cfg n) -> e_id (after_calls h d p) = e_id (h p)).
  { induction d as [|[c r] t IH]; intros h0 p Hd; [reflexivity|]. cbn. unfold after_calls in IH. rewrite IH by (intros x Hx; apply Hd; now right).
    destruct (mutates c); auto. destruct (Hd (c, r) (or_introl eq_refl)) as (n & Hn). cbn in Hn. rewrite Hn. apply Hki. }
  assert (Hb' : forall p, e_id (after_calls (s_heap s) hb p) = e_id (s_heap s p)).
  { intros p. apply Hafter. intros c Hc. apply A7. apply in_app_iff. auto. }
  assert (Hs' : forall p, e_id (s_heap s' p) = e_id (h p)).
  { intros p. rewrite A6. cbn. rewrite A2. apply Hafter. intros c Hc. apply A7. rewrite in_app_iff. auto. }
  assert (Hps : forall p, In p ps -> e_id (s_heap s p) = ""%string).
  { intros p Hp. rewrite <- Hb'. clear - G2 Hp. induction G2 as [|q c ps d (_ & X & _) _ IH]; [destruct Hp|]. destruct Hp as [<-|Hp]; auto. }
  assert (Hnew : forall p, In p (kids_of CNew chs) <-> exists par k, must_save cfg s CNew par k p).
  { intros p. rewrite kids_of_reported. split; intros (par & k & X); exists par, k; now apply M1. }
  split. { intros p Hp. rewrite Hs', G5; [apply Hb'|]. intros X. apply Hps in X. congruence. }
  split. { intros p par k Hp. rewrite Hs'. apply Hall, Hnew. eauto. }
  exists (hb ++ idc ++ ws ++ ha), ps. split; auto.
  assert (Fn : forall f (d : list (call * resp)), (forall c, f c = true -> is_newid c = false) -> Forall (fun c => f (fst c) = true) d -> filter (fun c => is_newid (fst c)) d = []).
  { intros f d Hf. induction 1 as [|c t Hc _ IH]; cbn; [reflexivity|]. now rewrite (Hf _ Hc). }
  assert (Nb : forall b ty d o, calls_out (hook_calls cfg ty b chs) d o -> filter (fun c => is_newid (fst c)) d = []).
  { intros b ty d o Hx. apply (Fn (is_hook b)); [intros c; destruct c; cbn; congruence|]. eapply hooks_kind; eauto. }
  assert (Kw : Forall (fun c => is_write (fst c) = true) ws).
  { destruct (c_dry cfg); [subst; constructor|]. eapply writes_kind; eauto. }
  assert (Nw : filter (fun c => is_newid (fst c)) ws = []).
  { apply (Fn is_write); auto. intros c; destruct c; cbn; congruence. }
  cbv zeta. rewrite !filter_app, (Nb _ _ _ _ Hb), (Nb _ _ _ _ Ha), Nw, app_nil_r. cbn [app].
  assert (Ei : filter (fun c => is_newid (fst c)) idc = idc).
  { clear - Hi. induction Hi as [|c t Hc _ IH]; cbn; [reflexivity|]. rewrite Hc, IH. reflexivity. }
  rewrite Ei, ?app_nil_r.
  split; [exact G3|]. split.
  { clear - G2 Hs'. induction G2 as [|q c ps d (_ & _ & X) _ IH]; constructor; [now rewrite Hs'|auto]. }
  split.
  { intros p. split.
    - intros Hp. split; [now apply Hps|]. apply Hnew. auto.
    - intros [E X]. apply Hnew in X. destruct (in_dec Nat.eq_dec p ps) as [|Hn]; auto. exfalso. apply (Hall p X). rewrite G5, Hb'; auto. }
  split. { intros p Hp. rewrite Hs', G5, Hb'; auto. }
  exists h, chs, acts. split; [intros p; now rewrite Hs'|]. split; [exact M1|]. split; [exact Haf|]. split.
  - intros Hd. rewrite Hd in Hw. destruct (calls_out_ok _ _ _ Hw) as [_ W]. rewrite !execs_app, (execs_map _ _ (W eq_refl)).
    rewrite (execs_none (is_hook true) hb), (execs_none is_newid idc), (execs_none (is_hook false) ha); cbn; auto using app_nil_r.
    + eapply hooks_kind; eauto.
    + now apply newid_kind.
    + eapply hooks_kind; eauto.
  - intros d1 a x d2 E.
    assert (Kb : Forall (fun c => is_hook true (fst c) = true) hb) by (eapply hooks_kind; eauto).
    assert (Ka : Forall (fun c => is_newid (fst c) = false) (ws ++ ha)).
    { apply Forall_app. split.
      - eapply Forall_impl; [|exact Kw]. intros [c r]. destruct c; cbn; congruence.
      - assert (Kha : Forall (fun c => is_hook false (fst c) = true) ha) by (eapply hooks_kind; eauto).
        eapply Forall_impl; [|exact Kha]. intros [c r]. destruct c; cbn; congruence. }
    assert (Kn : Forall (fun c => is_write (fst c) = false) (hb ++ idc)).
    { apply Forall_app. split.
      - eapply Forall_impl; [|exact Kb]. intros [c r]. destruct c; cbn; congruence.
      - eapply Forall_impl; [|exact Hi]. intros [c r]. cbn. intros ->. reflexivity. }
    rewrite app_assoc in E. set (A := hb ++ idc) in *. set (B := ws ++ ha) in *. clearbody A B. clear - E Ka Kn.
    revert d1 E. induction Kn as [|y A Hy _ IH]; intros d1 E; cbn in E.
    + subst B. apply Forall_app in Ka. destruct Ka as [_ Ka]. now inversion Ka.
    + destruct d1 as [|z d1]; cbn in E; injection E as E1 E2; [subst y; discriminate|]. eapply IH; eauto.
Qed.
Print Assumptions C17_ids.
Example C17_example :
  keeps_ids (sv_cfg all_ok) /\ ids_nonempty (sv_cfg all_ok) /\ must_save (sv_cfg all_ok) sv_state CNew 1 "L"%string 3 /\
  let x := persist (sv_cfg all_ok) sv_state in fst x = Done None /\ e_id (s_heap (snd x) 3) = "gen"%string /\ e_id (s_heap (snd x) 1) = "r"%string.
Proof.
  split; [intros n h p; reflexivity|]. split; [intros n; discriminate|]. split; [|vm_compute; auto].
  left. split.
  - split; [eapply reach_step; [exists [1]; split; now left|constructor]|]. split; [exists [3]; split; now left|].
    intros (s & l & Hs & Hl & Hx). injection Hs as <-. destruct Hl as [Hl|[]]. injection Hl as <-. destruct Hx as [Hx|[]]. discriminate.
  - intros p' k' (_ & _ & (s & l & H1 & H2 & H3) & _). cbn in H1.
    do 3 (destruct p' as [|p']; [injection H1 as <-; destruct H2 as [[= _ <-]|[]]; cbn in H3; repeat (destruct H3 as [H3|H3]; try discriminate); contradiction|]).
    discriminate.
Qed.

(* ---------------------------------------------------------------- C18 *)
(** The calls of a save: Before hooks, then ids and writes, then After hooks.  A refused call makes the save fail; if it is
    a Before hook nothing is written; After hooks start only when all writes succeeded.  In a successful save the hooks
    called are exactly those of the entities to be saved, without recursive delete each exactly once. *)
Theorem C18_hooks_bracket_the_writes :
  forall cfg s o s', keeps_types cfg -> go_maps (s_heap s) (s_pool s) -> orders_ok cfg ->
  persist cfg s = (o, s') ->
  exists hb mid ha, s_trace s' = s_trace s ++ hb ++ mid ++ ha /\
    Forall (fun c => is_hook true (fst c) = true) hb /\
    Forall (fun c => is_newid (fst c) = true \/ is_write (fst c) = true) mid /\
    Forall (fun c => is_hook false (fst c) = true) ha /\
    (~ Forall ans_ok (hb ++ mid ++ ha) -> o <> Done None) /\
    (~ Forall ans_ok hb -> mid = [] /\ ha = []) /\
    (ha <> [] -> Forall ans_ok mid) /\
    (o = Done None -> forall (b : bool) (c : call), let called := map fst (if b then hb else ha) in
       (In c called <-> exists t par k p, c = KHook p t b /\ must_save cfg s t par k p /\ c_hooks cfg (e_type (s_heap s p)) t b = true) /\
       (c_recursive cfg = false -> NoDup called)).
Proof.
  intros cfg s o s' Ht Hm [Ho _] H. destruct (persist_inv cfg Ht s o s' H) as [[E N]|(chs & hb & idc & ws & ha & Eg & T & P)].
  { exists [], [], []. rewrite !app_nil_r. repeat (split; [auto|]); try contradiction. }
  destruct (must_save_spec cfg s chs Hm (Ho _) Eg) as [M1 M2].
  assert (Call : forall b (d : list (call * resp)) o1, calls_out (hook_calls cfg (fun p => e_type (s_heap s p)) b chs) d o1 -> o1 = Done None -> forall c,
     (In c (map fst d) <-> exists t par k p, c = KHook p t b /\ must_save cfg s t par k p /\ c_hooks cfg (e_type (s_heap s p)) t b = true) /\
     (c_recursive cfg = false -> NoDup (map fst d))).
  { intros b d o1 Hd Ho1 c. destruct (calls_out_ok _ _ _ Hd) as [_ X]. rewrite (X Ho1). split.
    - rewrite hook_calls_In. split.
      + intros (t & par & k & p & H1 & H2 & H3 & H4). exists t, par, k, p. rewrite <- M1. auto.
      + intros (t & par & k & p & H1 & H2 & H3). exists t, par, k, p. split; auto. rewrite M1. split; auto. intros ->.
        destruct H2 as [[]|(_ & X1 & _)]. discriminate.
    - intros Hr. apply hook_calls_NoDup. auto. }
  assert (Ki : forall d, Forall (fun c : call * resp => fst c = KNewID) d -> Forall (fun c => is_newid (fst c) = true \/ is_write (fst c) = true) d).
  { intros d Hd. eapply Forall_impl; [|exact Hd]. intros c Hc. cbn in *. rewrite Hc. auto. }
  assert (Kw : forall acts d o1, calls_out (map KExec acts) d o1 -> Forall (fun c : call * resp => is_newid (fst c) = true \/ is_write (fst c) = true) d).
  { intros acts d o1 Hd. apply writes_kind in Hd. eapply Forall_impl; [|exact Hd]. auto. }
  exists hb, (idc ++ ws), ha. split; [now rewrite <- app_assoc|].
  destruct P as [hb o s1 Hn Hb|hb idc o s1 Hn Hb Hi|hb idc ws h acts o s1 Hn Hb Hi Hok Hid Haf Hd Hw|hb idc ws ha h acts o s1 s' Hb Hi Hok Hid Hgen Haf Hw Ha A1 A2 A3 A4 A5 A7 A6];
    (split; [eapply hooks_kind; eauto|]); destruct (calls_out_ok _ _ _ Hb) as [Hb1 Hb2].
  - split; [constructor|]. split; [constructor|]. split; [auto|]. split; [auto|]. split; [intros X; now destruct X|]. intros; contradiction.
  - rewrite app_nil_r. split; [auto|]. split; [constructor|]. split; [auto|]. split; [intros X; exfalso; apply X, Hb1; auto|].
    split; [intros X; now destruct X|]. intros; contradiction.
  - split; [apply Forall_app; eauto|]. split; [constructor|]. split; [auto|]. split; [intros X; exfalso; apply X, Hb1; auto|].
    split; [intros X; now destruct X|]. intros; contradiction.
  - assert (Wk : Forall (fun c => is_newid (fst c) = true \/ is_write (fst c) = true) ws /\ Forall ans_ok ws).
    { destruct (c_dry cfg); [subst; split; constructor|]. split; [eauto|]. now apply (calls_out_ok _ _ _ Hw). }
    destruct (calls_out_ok _ _ _ Ha) as [Ha1 Ha2].
    split; [apply Forall_app; split; [auto|apply Wk]|]. split; [eapply hooks_kind; eauto|].
    split. { intros X Y. apply X. apply Forall_app. split; [now apply Hb1|]. apply Forall_app. split; [apply Forall_app; split; [auto|apply Wk]|now apply Ha1]. }
    split; [intros X; exfalso; apply X, Hb1; auto|].
    split; [intros _; apply Forall_app; split; [auto|apply Wk]|].
    intros Hx b c. destruct b; cbv zeta; [eapply Call; eauto|eapply Call; eauto].
Qed.
Print Assumptions C18_hooks_bracket_the_writes.
Example C18_example :
  sv_run all_ok = (Done None,
    [KHook 3 CNew true; KHook 1 CDirty true; KHook 2 CDelete true; KNewID] ++
    map KExec (execs (s_trace (snd (persist (sv_cfg all_ok) sv_state)))) ++
    [KHook 3 CNew false; KHook 1 CDirty false; KHook 2 CDelete false]) /\
  sv_run (fail_at 1) = (Done (Some (EUser 7)), [KHook 3 CNew true; KHook 1 CDirty true]) /\
  fst (sv_run (fail_at 8)) = Done (Some (EUser 7)).
Proof. split; [|split]; vm_compute; reflexivity. Qed.

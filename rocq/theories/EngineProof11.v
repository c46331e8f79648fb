(** What one save does, phase by phase. *)
From Verif Require Export EngineProof10.
From Verif Require Import EngineModel.

Lemma andthen_inv m n s o s' : andthen m n s = (o, s') ->
  exists o1 s1, m s = (o1, s1) /\ ((o1 <> Done None /\ o = o1 /\ s' = s1) \/ (o1 = Done None /\ n s1 = (o, s'))).
Proof.
  unfold andthen, bind, ret. destruct (m s) as [[[e|]| |] s1]; intros H; eexists _, _; (split; [reflexivity|]).
  - injection H as <- <-. left. split; [discriminate|auto].
  - right. auto.
  - injection H as <- <-. left. split; [discriminate|auto].
  - injection H as <- <-. left. split; [discriminate|auto].
Qed.

Lemma execs_none (f : call -> bool) d : (forall a, f (KExec a) = false) -> Forall (fun c => f (fst c) = true) d -> execs d = [].
Proof.
  intros Hf. induction 1 as [|[c r] t H _ IH]; [reflexivity|]. cbn in *. unfold execs in *. cbn. rewrite IH. destruct c; try reflexivity. congruence.
Qed.
Lemma execs_map d acts : map fst d = map KExec acts -> execs d = acts.
Proof.
  revert acts. induction d as [|[c r] t IH]; intros [|a u]; cbn; try discriminate; auto. intros [= -> H]. unfold execs in *. cbn. now rewrite (IH u H).
Qed.
Lemma execs_prefix acts d rest : map KExec acts = map fst d ++ rest -> exists l, acts = execs d ++ l.
Proof.
  revert acts. induction d as [|[c r] t IH]; intros acts H; [exists acts; reflexivity|]. destruct acts as [|a u]; [discriminate|].
  cbn in H. injection H as <- H. destruct (IH _ H) as (l & ->). exists l. reflexivity.
Qed.

Section Persist.
  Variable cfg : config.
  Hypothesis Hty : keeps_types cfg.

  Definition tick (s : st) : st := with_tick s (S (s_tick s)).
  Lemma changed_inv s o s' : changed cfg s = (o, s') -> s' = tick s /\
    match getEntityChanged (c_recursive cfg) (c_ord cfg (s_tick s)) (kids_now s) (fun p => e_dirty (s_heap s p)) (s_pool s) (c_fuel cfg) with
    | RFuel => o = Crash | RErr => o = Done (inl EMove) | ROk chs => o = Done (inr chs)
    end.
  Proof.
    unfold changed, bind, get, upd, tick. destruct (getEntityChanged _ _ _ _ _ _); intros [= <- <-]; auto.
  Qed.
  Lemma must_save_spec s chs : go_maps (s_heap s) (s_pool s) -> order_ok (c_ord cfg (s_tick s)) ->
    getEntityChanged (c_recursive cfg) (c_ord cfg (s_tick s)) (kids_now s) (fun p => e_dirty (s_heap s p)) (s_pool s) (c_fuel cfg) = ROk chs ->
    (forall t par k p, reported chs t par k p <-> must_save cfg s t par k p) /\
    (c_recursive cfg = false -> NoDup (flat_map ch_kids chs)).
  Proof.
    intros Hm Ho H. unfold must_save. destruct (c_recursive cfg) eqn:E.
    - split; [|discriminate]. intros t par k p. rewrite (recursive_exact _ _ _ _ Hm _ _ Ho H t par k p). unfold kids_now.
      split; (intros [X|X]; [now left|right; tauto]).
    - destruct (changed_exact _ _ _ _ Hm _ _ H) as [A B]. split; [|auto]. intros t par k p. rewrite A. unfold kids_now.
      split; [now left|]. intros [X|(X & _)]; [exact X|discriminate].
  Qed.

  (** all phases of a persist that got as far as [ph] *)
  Inductive persisted (s : st) (chs : list change) : list (call * resp) -> list (call * resp) -> list (call * resp) -> list (call * resp) -> out (option err) -> st -> Prop :=
  | pd_before hb o s1 : o <> Done None -> calls_out (hook_calls cfg (fun p => e_type (s_heap s p)) true chs) hb o ->
      persisted s chs hb [] [] [] o s1
  | pd_ids hb idc o s1 : o <> Done None -> calls_out (hook_calls cfg (fun p => e_type (s_heap s p)) true chs) hb (Done None) ->
      Forall (fun c => fst c = KNewID) idc -> persisted s chs hb idc [] [] o s1
  | pd_exec hb idc ws h acts o s1 : o <> Done None ->
      calls_out (hook_calls cfg (fun p => e_type (s_heap s p)) true chs) hb (Done None) ->
      Forall (fun c => fst c = KNewID) idc -> Forall ans_ok idc ->
      only_ids (after_calls (s_heap s) hb) h ->
      actions_for (contributions cfg h (s_pool s) chs) acts ->
      c_dry cfg = false -> calls_out (map KExec acts) ws o ->
      persisted s chs hb idc ws [] o s1
  | pd_after hb idc ws ha h acts o s1 s' :
      calls_out (hook_calls cfg (fun p => e_type (s_heap s p)) true chs) hb (Done None) ->
      Forall (fun c => fst c = KNewID) idc -> Forall ans_ok idc ->
      only_ids (after_calls (s_heap s) hb) h ->
      (ids_nonempty cfg -> (forall p, In p (kids_of CNew chs) -> e_id (h p) <> ""%string) /\
         exists ps, ids_given (after_calls (s_heap s) hb) h (kids_of CNew chs) ps idc) ->
      actions_for (contributions cfg h (s_pool s) chs) acts ->
      (if c_dry cfg then ws = [] else calls_out (map KExec acts) ws (Done None)) ->
      calls_out (hook_calls cfg (fun p => e_type (s_heap s p)) false chs) ha o ->
      s_actions s1 = (if c_dry cfg then s_actions s else s_actions s ++ acts) ->
      s_heap s1 = after_calls h ha -> s_pool s1 = s_pool s -> s_cont s1 = s_cont s -> s_errs s1 = s_errs s ->
      (forall c, In c (hb ++ ha) -> exists n, snd c = c_oracle cfg n) ->
      s' = (match o with Done None => with_cont s1 (recycle_list (s_cont s1) chs) | _ => s1 end) ->
      persisted s chs hb idc ws ha o s'.

  Lemma persist_inv s o s' : persist cfg s = (o, s') ->
    (s_trace s' = s_trace s /\ o <> Done None) \/
    exists chs hb idc ws ha,
      getEntityChanged (c_recursive cfg) (c_ord cfg (s_tick s)) (kids_now s) (fun p => e_dirty (s_heap s p)) (s_pool s) (c_fuel cfg) = ROk chs /\
      s_trace s' = s_trace s ++ hb ++ idc ++ ws ++ ha /\ persisted s chs hb idc ws ha o s'.
  Proof.
    unfold persist. intros H. destruct (bind_inv _ _ _ _ _ H) as [(c & s0 & H0 & H1)|[[H1 ->]|[H1 ->]]]; clear H.
    2:{ apply changed_inv in H1. destruct H1 as [-> _]. left. split; [reflexivity|discriminate]. }
    2:{ apply changed_inv in H1. destruct H1 as [-> _]. left. split; [reflexivity|discriminate]. }
    apply changed_inv in H0. destruct H0 as [-> H0]. destruct (getEntityChanged _ _ _ _ _ _) as [chs| |] eqn:Eg; [| |discriminate].
    2:{ injection H0 as ->. injection H1 as <- <-. left. split; [reflexivity|discriminate]. }
    injection H0 as ->. right. exists chs.
    set (ty := fun p => e_type (s_heap s p)).
    apply andthen_inv in H1. destruct H1 as (o1 & s1 & H1 & H2).
    rewrite (hooks_calls cfg ty) in H1; [|exact Hty|intros p; reflexivity].
    destruct (calls_spec _ _ _ _ _ H1) as (hb & T1 & O1 & S1 & G1 & A1 & K1). cbn [s_trace tick with_tick s_heap] in *.
    destruct H2 as [(Hn & -> & ->)|[-> H2]].
    { exists hb, [], [], []. split; auto. split; [now rewrite !app_nil_r|]. now apply pd_before. }
    apply andthen_inv in H2. destruct H2 as (o2 & s2 & H2 & H3). rewrite putNewID_kids in H2.
    destruct (putIDs_calls _ _ _ _ _ H2) as (idc & T2 & F2 & S2 & K2 & I2 & C2 & A2 & _).
    assert (Tr2 : s_trace s2 = s_trace s ++ hb ++ idc) by (rewrite T2, T1; now rewrite app_assoc).
    destruct H3 as [(Hn & -> & ->)|[-> H3]].
    { exists hb, idc, [], []. split; auto. split; [now rewrite !app_nil_r|]. now apply pd_ids. }
    rewrite G1 in I2.
    assert (P2 : s_pool s2 = s_pool s) by (rewrite (sr_pool _ _ S2), (sr_pool _ _ S1); reflexivity).
    destruct (bind_inv _ _ _ _ _ H3) as [(a & s2' & H4 & H5)|[[H4 ->]|[H4 ->]]]; clear H3;
      unfold makeActions, bind, get in H4; destruct (make_actions cfg (s_heap s2) (s_pool s2) chs) as [[ta tys|e|] acts] eqn:Em;
      try (injection H4; discriminate); try discriminate.
    3:{ injection H4 as <-. exists hb, idc, [], []. split; auto. split; [now rewrite !app_nil_r|]. now apply pd_ids. }
    2:{ injection H4 as <- <-. injection H5 as <- <-. exists hb, idc, [], []. split; auto. split; [now rewrite !app_nil_r|]. now apply pd_ids. }
    injection H4 as <- <-. assert (AF := make_actions_spec cfg (s_heap s2) (s_pool s2) chs ta tys acts Em). rewrite P2 in AF.
    apply andthen_inv in H5. destruct H5 as (o3 & s3 & H5 & H6).
    assert (X : exists ws, s_trace s3 = s_trace s2 ++ ws /\ (if c_dry cfg then ws = [] /\ o3 = Done None else calls_out (map KExec acts) ws o3) /\
               s_heap s3 = s_heap s2 /\ s_pool s3 = s_pool s2 /\ s_cont s3 = s_cont s2 /\ s_errs s3 = s_errs s2 /\
               (o3 = Done None -> s_actions s3 = if c_dry cfg then s_actions s2 else s_actions s2 ++ acts)).
    { unfold exec in H5. destruct (c_dry cfg).
      - injection H5 as <- <-. exists []. rewrite app_nil_r. auto 10.
      - apply andthen_inv in H5. destruct H5 as (o4 & s4 & H5 & H7).
        assert (H5' : calls cfg (map KExec acts) s2 = (o4, s4)).
        { rewrite <- H5. clear. unfold calls. generalize s2. induction acts as [|a t IH]; intros s; cbn; [reflexivity|]. apply andthen_ext; auto. }
        destruct (calls_spec _ _ _ _ _ H5') as (ws & T4 & O4 & S4 & G4 & A4 & K4). exists ws.
        assert (Hh : s_heap s4 = s_heap s2).
        { rewrite G4. apply calls_out_prefix in O4. destruct O4 as (rest & O4). clear - O4. generalize (s_heap s2). revert acts O4. induction ws as [|[c r] t IH]; intros acts O4 h; [reflexivity|].
          destruct acts as [|a u]; [discriminate|]. cbn in O4. injection O4 as <- O4. cbn. now apply (IH u). }
        destruct S4. destruct H7 as [(Hn & -> & ->)|[-> H7]].
        + do 6 (split; auto). intros ->. congruence.
        + injection H7 as <- <-. cbn. do 6 (split; auto). intros _. cbn. congruence. }
    destruct X as (ws & T3 & O3 & G3 & P3 & Co3 & Er3 & Ac3).
    assert (Tr3 : s_trace s3 = s_trace s ++ hb ++ idc ++ ws) by (rewrite T3, Tr2; now rewrite !app_assoc).
    destruct H6 as [(Hn & -> & ->)|[-> H6]].
    { exists hb, idc, ws, []. split; auto. split; [now rewrite !app_nil_r|].
      destruct (c_dry cfg) eqn:Ed; [destruct O3; congruence|]. apply (pd_exec s chs hb idc ws (s_heap s2) acts); auto. }
    apply andthen_inv in H6. destruct H6 as (o4 & s4 & H6 & H7).
    rewrite (hooks_calls cfg ty) in H6; [|exact Hty|].
    2:{ intros p. rewrite G3, I2. unfold set_id. cbn. apply (after_calls_types cfg); auto. }
    destruct (calls_spec _ _ _ _ _ H6) as (ha & T4 & O4 & S4 & G4 & A4 & K4).
    exists hb, idc, ws, ha. split; auto.
    assert (Tr4 : s_trace s4 = s_trace s ++ hb ++ idc ++ ws ++ ha) by (rewrite T4, Tr3; now rewrite !app_assoc).
    assert (Ei : s' = (match o4 with Done None => with_cont s4 (recycle_list (s_cont s4) chs) | _ => s4 end) /\ o = o4).
    { destruct H7 as [(Hn & -> & ->)|[-> H7]].
      - split; auto. destruct o4 as [[e|]| |]; auto. congruence.
      - unfold recycle, bind, upd, ret in H7. injection H7 as <- <-. auto. }
    destruct Ei as [Ei ->].
    split. { rewrite Ei. destruct o4 as [[e|]| |]; auto. }
    apply (pd_after s chs hb idc ws ha (s_heap s2) acts o4 s4); auto.
    - intros Hne. destruct (putIDs_spec cfg (kids_of CNew chs) Hne _ _ H2) as (ps & d & T & _ & _ & _ & IG & NE).
      split; [exact NE|]. exists ps. rewrite T2 in T. apply app_inv_head in T. subst d. rewrite G1 in IG. exact IG.
    - destruct (c_dry cfg); [tauto|auto].
    - rewrite (sr_acts _ _ S4), Ac3 by auto. rewrite (sr_acts _ _ S2), (sr_acts _ _ S1). reflexivity.
    - rewrite G4, G3. reflexivity.
    - rewrite (sr_pool _ _ S4), P3, P2. reflexivity.
    - rewrite (sr_cont _ _ S4), Co3, (sr_cont _ _ S2), (sr_cont _ _ S1). reflexivity.
    - rewrite (sr_errs _ _ S4), Er3, (sr_errs _ _ S2), (sr_errs _ _ S1). reflexivity.
    - intros c Hc. apply in_app_iff in Hc. destruct Hc; auto.
  Qed.
End Persist.

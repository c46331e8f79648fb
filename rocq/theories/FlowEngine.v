(** C97, the side of the engine: a run calls its bus in the order of FlowModel.next_phase. *)
From Verif Require Import FlowModel EngineModel EngineProof1 EngineProof2 EngineProof3 EngineProof4 EngineProof6 EngineProof7 EngineProof8 EngineProps.
Local Open Scope list_scope. Local Open Scope nat_scope.

(** The calls of a run of the engine (EngineModel) that matter here. *)
Definition fcall_of (c : call * resp) : option fcall :=
  match fst c with
  | KBegin => Some (FcOpen match r_ans (snd c) with AOk => true | _ => false end)
  | KDispatchBegin _ => Some (FcBegin match r_ans (snd c) with AOk => true | _ => false end)
  | KCommit => Some (FcCommit match r_ans (snd c) with AOk => true | _ => false end)
  | KRollback => Some FcRollback
  | KBusCommit => Some FcBusCommit
  | KBusRollback => Some FcBusRollback
  | _ => None
  end.
Fixpoint follows (p : phase) (tr : list (call * resp)) : option phase :=
  match tr with
  | [] => Some p
  | c :: t => match fcall_of c with None => follows p t | Some f => match next_phase p f with Some p' => follows p' t | None => None end end
  end.

Lemma follows_app tr1 tr2 : forall p, follows p (tr1 ++ tr2) = match follows p tr1 with Some q => follows q tr2 | None => None end.
Proof. induction tr1 as [|c t IH]; intros p; cbn; auto. destruct (fcall_of c); auto. destruct (next_phase p f); auto. Qed.
Lemma follows_frame tr : Forall (fun c => frame_call (fst c) = true) tr -> forall p, follows p tr = Some p.
Proof. induction 1 as [|[c x] t Hc _ IH]; intros p; cbn; auto. destruct c; cbn in Hc; try discriminate; cbn; auto. Qed.
Definition is_dbegin (c : call * resp) : bool := match fst c with KDispatchBegin _ => true | _ => false end.
Lemma follows_inner d : Forall (fun c => inner_call (fst c) = true) d -> length (filter is_dbegin d) = 0 -> forall p, follows p d = Some p.
Proof. induction 1 as [|[c x] t Hc _ IH]; intros N p; cbn in *; auto. destruct c; cbn in *; try discriminate; auto. Qed.
Lemma follows_body d : Forall (fun c => inner_call (fst c) = true) d -> length (filter is_dbegin d) <= 1 -> follows PhOpen d = Some PhOpen \/ follows PhOpen d = Some PhHave.
Proof.
  induction 1 as [|[c x] t Hc Ht IH]; intros N; cbn [follows]; auto.
  destruct c; cbn in Hc; try discriminate; cbn [fcall_of fst snd]; try (apply IH; exact N).
  cbn in N. cbn [next_phase]. rewrite (follows_inner t Ht) by lia. destruct (r_ans x); auto.
Qed.

Section Engine.
  Variable cfg : config.
  (** the calls after the body of a transaction, exactly *)
  Definition tail_ok (tl : list (call * resp)) : Prop := (exists p, follows PhOpen tl = Some p) /\ (exists p, follows PhHave tl = Some p) /\ Forall (fun c => inner_call (fst c) = false) tl.
  Ltac tails := (split; [eexists; reflexivity|split; [eexists; reflexivity|repeat constructor]]).
  Lemma in_tx_tail f s o s' : in_tx cfg f s = (o, s') ->
    exists rb, let s0 := with_trace s (s_trace s ++ [(KBegin, rb)]) in
    (r_ans rb <> AOk /\ s_trace s' = s_trace s0) \/
    (r_ans rb = AOk /\ exists of s1 tl, f s0 = (of, s1) /\ s_trace s' = s_trace s1 ++ tl /\ tail_ok tl).
  Proof.
    unfold in_tx. intros H. unfold bind at 1 in H.
    destruct (ecall_err cfg KBegin s) as [o1 s0] eqn:E0. apply ecall_err_shape in E0; [|reflexivity].
    cbv zeta in E0. destruct E0 as [-> ->]. set (rb := c_oracle cfg (length (s_trace s))) in *. exists rb. cbv zeta.
    destruct (r_ans rb) as [|e|] eqn:Er.
    2:{ injection H as <- <-. left. split; [discriminate|auto]. }
    2:{ injection H as <- <-. left. split; [discriminate|auto]. }
    right. split; [reflexivity|]. unfold on_panic in H.
    set (s0 := with_trace s (s_trace s ++ [(KBegin, rb)])) in *.
    unfold bind at 1 in H. destruct (f s0) as [of s1] eqn:Ef. exists of, s1.
    assert (Hrec : forall sx o2 s2, match ignore_err cfg KRollback sx with (Crash, s'') => (Crash, s'') | (_, s'') => (Panic, s'') end = (o2, s2) ->
              o2 = @Panic result /\ exists r, s2 = with_trace sx (s_trace sx ++ [(KRollback, r)])).
    { intros sx o2 s2 Hx. destruct (ignore_err cfg KRollback sx) as [oi si] eqn:Ei. apply ignore_shape in Ei; [|reflexivity].
      cbv zeta in Ei. destruct Ei as [-> ->]. destruct (r_ans (c_oracle cfg (length (s_trace sx)))); injection Hx as <- <-; eauto. }
    destruct of as [res| |].
    - destruct (bad res) eqn:Eb.
      + unfold bind at 1 in H. destruct (ignore_err cfg KRollback s1) as [oi si] eqn:Ei. apply ignore_shape in Ei; [|reflexivity].
        cbv zeta in Ei. destruct Ei as [-> ->]. set (r1 := c_oracle cfg (length (s_trace s1))) in *.
        set (si := with_trace s1 (s_trace s1 ++ [(KRollback, r1)])) in *.
        destruct (r_ans r1) eqn:Er1.
        3:{ apply Hrec in H. destruct H as (-> & r2 & ->). exists [(KRollback, r1); (KRollback, r2)]. split; [auto|]. split; [cbn; now rewrite <- app_assoc|]. tails. }
        all: unfold bind in H; destruct (bus_call cfg KBusRollback si) as [ob sb] eqn:Eb2; apply bus_call_shape in Eb2; [|reflexivity]; destruct Eb2 as [(-> & -> & Hno)|(Hb & He & r2 & -> & ->)];
          [injection H as <- <-; exists [(KRollback, r1)]; split; [auto|]; split; [reflexivity|]; tails|].
        all: destruct (r_ans r2) eqn:Er2;
          [injection H as <- <-; exists [(KRollback, r1); (KBusRollback, r2)]; split; [auto|]; split; [cbn; now rewrite <- app_assoc|]; tails..|].
        all: apply Hrec in H; destruct H as (-> & r3 & ->); exists [(KRollback, r1); (KBusRollback, r2); (KRollback, r3)]; (split; [auto|]); (split; [cbn; now rewrite <- !app_assoc|]); tails.
      + unfold bind at 1 in H. destruct (ecall_err cfg KCommit s1) as [oi si] eqn:Ei. apply ecall_err_shape in Ei; [|reflexivity].
        cbv zeta in Ei. destruct Ei as [-> ->]. set (r1 := c_oracle cfg (length (s_trace s1))) in *.
        destruct (r_ans r1) eqn:Er1.
        * unfold bind at 1 in H. destruct (bus_call cfg KBusCommit _) as [ob sb] eqn:Eb2.
          apply bus_call_shape in Eb2; [|reflexivity]. destruct Eb2 as [(-> & -> & Hno)|(Hb & He & r2 & -> & ->)].
          -- injection H as <- <-. exists [(KCommit, r1)]. split; [auto|]. split; [reflexivity|]. (split; [|split]); cbn; unfold fcall_of; cbn; rewrite ?Er1; [eexists; reflexivity|eexists; reflexivity|repeat constructor].
          -- destruct (r_ans r2) eqn:Er2;
               [injection H as <- <-; exists [(KCommit, r1); (KBusCommit, r2)]; split; [auto|]; split; [cbn; now rewrite <- app_assoc|]; (split; [|split]); cbn; unfold fcall_of; cbn; rewrite ?Er1; [eexists; reflexivity|eexists; reflexivity|repeat constructor]..|].
             apply Hrec in H; destruct H as (-> & r3 & ->); exists [(KCommit, r1); (KBusCommit, r2); (KRollback, r3)]; (split; [auto|]); (split; [cbn; now rewrite <- !app_assoc|]); (split; [|split]); cbn; unfold fcall_of; cbn; rewrite ?Er1; [eexists; reflexivity|eexists; reflexivity|repeat constructor].
        * injection H as <- <-. exists [(KCommit, r1)]. split; [auto|]. split; [reflexivity|]. (split; [|split]); cbn; unfold fcall_of; cbn; rewrite ?Er1; [eexists; reflexivity|eexists; reflexivity|repeat constructor].
        * apply Hrec in H. destruct H as (-> & r3 & ->). exists [(KCommit, r1); (KRollback, r3)]. split; [auto|]. split; [cbn; now rewrite <- app_assoc|]. (split; [|split]); cbn; unfold fcall_of; cbn; rewrite ?Er1; [eexists; reflexivity|eexists; reflexivity|repeat constructor].
    - apply Hrec in H. destruct H as (-> & r3 & ->). exists [(KRollback, r3)]. split; [auto|]. split; [reflexivity|]. tails.
    - injection H as <- <-. exists []. rewrite app_nil_r. split; [auto|]. split; [auto|]. tails.
  Qed.
  (** Every run of the engine with a transaction - whatever its command does and whatever its collaborators answer, panics and crashes
      included - makes its calls in the order of [next_phase]. *)
  Theorem C97_engine_follows :
    forall h keys main o s', c_tx cfg = true -> save cfg keys main (new_stage h) = (o, s') -> exists p, follows PhIdle (s_trace s') = Some p.
  Proof.
    intros h keys main o s' Et H. destruct (run_parts cfg _ _ _ _ _ H) as [(fr & -> & F & _)|(pre & s1 & of & mid & post & G & T & -> & F1 & F2 & _)].
    - exists PhIdle. cbn. now apply follows_frame.
    - unfold guarded in G. rewrite Et in G. cbn [s_trace with_trace new_stage app] in *. destruct (in_tx_tail _ _ _ _ G) as (rb & [(A & X)|(A & of' & s2 & tl & D & X & Y1 & Y2 & _)]); cbn [s_trace with_trace] in X.
      + assert (mid = [(KBegin, rb)]) by (rewrite T in X; now apply app_inv_head in X). subst mid. rewrite !follows_app, (follows_frame _ F1). cbn. destruct (r_ans rb); [congruence|..]; rewrite (follows_frame _ F2); eauto.
      + destruct (inner_do cfg main _ _ _ D) as (d & I & _). pose proof (i_trace _ _ _ _ I) as Td. cbn [s_trace with_trace] in Td. pose proof (do_one_begin cfg main _ _ _ d D Td) as One.
        assert (mid = [(KBegin, rb)] ++ d ++ tl) by (rewrite T, Td, <- !app_assoc in X; now apply app_inv_head in X). subst mid.
        assert (B : exists p, follows PhOpen (d ++ tl) = Some p). { rewrite follows_app. destruct (follows_body d (i_calls _ _ _ _ I) One) as [->| ->]; [exact Y1|exact Y2]. }
        destruct B as (p & B). exists p. rewrite follows_app, (follows_frame _ F1), follows_app.
        assert (B' : follows PhIdle ([(KBegin, rb)] ++ d ++ tl) = Some p). { cbn [app follows]. unfold fcall_of at 1. cbn [fst snd]. rewrite A. exact B. }
        rewrite B'. now apply follows_frame.
  Qed.
End Engine.
Print Assumptions C97_engine_follows.
(** Non-trivial cases, a root and a child with a transactional event: all calls succeed; the COMMIT fails; the Dispatch of another
    event fails after DispatchBegin; the second INSERT fails. *)
Example C97_engine_case :
  let tr f := s_trace (snd (save (ex_cfg true false BusTx None 0 f) [] ex_add (new_stage ex_heap))) in
  let run f := (map fst (tr f), follows PhIdle (tr f)) in
  let ins := [KBegin; KExec (mkAction OpInsert [m_r] []); KExec (mkAction OpInsert [m_c] [])] in
  run all_ok = (ins ++ [KDispatchBegin [ev2]; KDispatch [ev1]; KCommit; KBusCommit], Some PhOver) /\
  run (fail_at 5) = (ins ++ [KDispatchBegin [ev2]; KDispatch [ev1]; KCommit], Some PhUnsure) /\
  run (fail_at 4) = (ins ++ [KDispatchBegin [ev2]; KDispatch [ev1]; KRollback; KBusRollback], Some PhOver) /\
  run (fail_at 2) = (ins ++ [KRollback], Some PhNone).
Proof. cbv zeta. repeat split; vm_compute; reflexivity. Qed.

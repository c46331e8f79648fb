(** C72: runs one after another on the same objects. *)
From Verif Require Import EngineModel EventSpec EngineProps.

(** Where an event of a run sits: the object is in the tree of a root, or of a removed entity, when the run ends. *)
Definition had (s : st) (p : ptr) : Prop :=
  (reach (kids_now s) meta p /\ p <> meta) \/ (exists r, In r (ct_deleted (s_cont s)) /\ reach (kids_now s) r p).
Definition succeeded (r : result) : Prop := res_err r = None /\ res_break r = false.

(** An event published by two runs sits on an object that both had - given that an event is raised on one object only, and nobody
    copies it to another. *)
Theorem C72_twice_only_on_reused_object_partial :
  forall cfg1 h1 keys1 main1 r1 s1 cfg2 h2 keys2 main2 r2 s2 e,
  orders_ok cfg1 -> save cfg1 keys1 main1 (new_stage h1) = (Done r1, s1) -> c_dry cfg1 = false -> succeeded r1 -> event_ids_unique s1 ->
  orders_ok cfg2 -> save cfg2 keys2 main2 (new_stage h2) = (Done r2, s2) -> c_dry cfg2 = false -> succeeded r2 -> event_ids_unique s2 ->
  (forall p q, In e (e_events (s_heap s1 p)) -> In e (e_events (s_heap s2 q)) -> p = q) ->
  In e (published (s_trace s1)) -> In e (published (s_trace s2)) -> exists p, had s1 p /\ had s2 p /\ In e (e_events (s_heap s2 p)).
Proof.
  intros cfg1 h1 keys1 main1 r1 s1 cfg2 h2 keys2 main2 r2 s2 e O1 S1 D1 [E1 B1] U1 O2 S2 D2 [E2 B2] U2 One P1 P2.
  destruct (C24_events_published_once_in_order _ _ _ _ _ _ O1 S1 D1 E1 B1 U1) as (_ & A1 & _). destruct (C24_events_published_once_in_order _ _ _ _ _ _ O2 S2 D2 E2 B2 U2) as (_ & A2 & _).
  apply A1 in P1. apply A2 in P2. destruct P1 as (p & H1 & I1). destruct P2 as (q & H2 & I2). exists q. rewrite (One p q I1 I2) in H1. auto.
Qed.
Print Assumptions C72_twice_only_on_reused_object_partial.

(** Refutation: events stay on the object after they were published, and a later run on the same object publishes them again: here
    Create and then Delete of one object, both successful. *)
Definition c72_cfg : config := ex_cfg true false BusPlain None 0 all_ok.
Definition c72_heap : heap := fun p => match p with 1 => ex_ent "r"%string 1 [] [ev1] ["v"%string] | _ => ex_ent ""%string 0 [] [] [] end.
Definition c72_obs (x : out result * st) : option (option err * bool * list event) :=
  match fst x with Done r => Some (res_err r, res_break r, published (s_trace (snd x))) | _ => None end.
Lemma c72_first : c72_obs (engine_create c72_cfg [1] (new_stage c72_heap)) = Some (None, false, [ev1]).
Proof. vm_compute. reflexivity. Qed.
Lemma c72_second : c72_obs (engine_delete c72_cfg [1] (new_stage (s_heap (snd (engine_create c72_cfg [1] (new_stage c72_heap)))))) = Some (None, false, [ev1]).
Proof. vm_compute. reflexivity. Qed.
Theorem C72_published_by_one_run_refuted :
  ~ (forall cfg h root r1 s1 r2 s2 e, c_dry cfg = false ->
     engine_create cfg [root] (new_stage h) = (Done r1, s1) -> succeeded r1 ->
     engine_delete cfg [root] (new_stage (s_heap s1)) = (Done r2, s2) -> succeeded r2 ->
     In e (published (s_trace s1)) -> ~ In e (published (s_trace s2))).
Proof.
  intros H. pose proof c72_first as A. pose proof c72_second as B.
  remember (engine_create c72_cfg [1] (new_stage c72_heap)) as x1 eqn:E1. symmetry in E1. destruct x1 as [o1 s1]. cbn [snd] in B.
  remember (engine_delete c72_cfg [1] (new_stage (s_heap s1))) as x2 eqn:E2. symmetry in E2. destruct x2 as [o2 s2].
  assert (K : forall r1 r2, o1 = Done r1 -> succeeded r1 -> o2 = Done r2 -> succeeded r2 -> In ev1 (published (s_trace s1)) -> ~ In ev1 (published (s_trace s2))).
  { intros r1 r2 X Y Z W. rewrite X in E1. rewrite Z in E2. exact (H c72_cfg c72_heap 1 r1 s1 r2 s2 ev1 eq_refl E1 Y E2 W). }
  clear H E1 E2.
  unfold c72_obs in A, B. cbn [fst snd] in A, B. destruct o1 as [r1| |]; try discriminate. destruct o2 as [r2| |]; try discriminate.
  injection A as A1 A2 A3. injection B as B1 B2 B3.
  apply (K r1 r2 eq_refl (conj A1 A2) eq_refl (conj B1 B2)); [rewrite A3|rewrite B3]; now left.
Qed.
Print Assumptions C72_published_by_one_run_refuted.

(** C102: the slice of lock keys a run is given. *)
From Verif Require Import EngineModel EngineProof6 KeysModel KeysProof KeysProof2 KeysProof3.
From Coq Require Import Permutation Sorted ListDec.
Local Open Scope string_scope. Local Open Scope list_scope. Local Open Scope nat_scope.

(** A run alone with its slice (the others stand still, nobody holds a key of the slice): distinct keys - it locks exactly
    these, each once, in ascending order, and goes on to run; otherwise it ends with the "repeated" error without a lock
    call.  The caller's slice is in order afterwards, with the same keys. *)
Theorem C102_alone :
  forall w p, k_pc w p = KIdle -> (forall k, In k (k_keys w) -> ~ In k (map snd (k_held w))) -> exists n, let w' := krun (repeat (p, true) n) w in
    Permutation (k_keys w) (k_keys w') /\ StronglySorted (fun a b => str_leb a b = true) (k_keys w') /\
    (NoDup (k_keys w) -> k_pc w' p = KGo /\ k_log w' = k_log w ++ map (pair p) (k_keys w') /\ k_held w' = k_held w ++ map (pair p) (k_keys w')) /\
    (~ NoDup (k_keys w) -> k_pc w' p = KRepeated /\ k_log w' = k_log w /\ k_held w' = k_held w).
Proof.
  intros w p P F. destruct (solo w p P F) as (n & A & B & C). exists n. cbn zeta in *. split; [exact A|]. split; [exact B|].
  destruct C as [(C1 & C2 & C3 & C4)|(C1 & C2 & C3 & C4)]; split; intros D; (contradiction || auto).
Qed.
Print Assumptions C102_alone.
(** For a run alone this is what the engine model does with its keys: [on_lock] sorts them, refuses if a neighbour is equal and
    calls Lock for one after the other. *)
Theorem C102_engine_model_agrees :
  forall w p, k_pc w p = KIdle -> (forall k, In k (k_keys w) -> ~ In k (map snd (k_held w))) -> exists n, let w' := krun (repeat (p, true) n) w in
    let ks := isort str_leb (k_keys w) in k_keys w' = ks /\
    (if adj_repeat ks then k_pc w' p = KRepeated /\ k_log w' = k_log w else k_pc w' p = KGo /\ k_log w' = k_log w ++ map (pair p) ks).
Proof.
  intros w p P F. destruct (C102_alone w p P F) as (n & A & B & C & D). exists n. cbn zeta in *.
  assert (E : k_keys (krun (repeat (p, true) n) w) = isort str_leb (k_keys w)).
  { apply (sorted_perm_eq str_leb str_leb_antisym); [exact B|apply isort_sorted; [apply str_leb_total|apply str_leb_trans]|]. rewrite isort_perm. now apply Permutation_sym. }
  split; [exact E|]. rewrite E in C. destruct (adj_repeat_NoDup (k_keys w)) as [N1 N2]. destruct (NoDup_dec string_dec (k_keys w)) as [N|N].
  - rewrite (N1 N). destruct (C N) as (X & Y & _). auto.
  - rewrite (N2 N). destruct (D N) as (X & Y & _). auto.
Qed.
Print Assumptions C102_engine_model_agrees.
(** A slice that is in order may be shared by any number of runs, interleaved in any way: it is never changed, nobody sees a
    repeated key, each run locks the keys from the first on in this order, and a run that goes on has locked them all. *)
Theorem C102_ordered_slice_may_be_shared_partial :
  forall keys sched p, StronglySorted (fun a b => str_ltb a b = true) keys -> let w := krun sched (kstart keys) in
    k_keys w = keys /\ k_pc w p <> KRepeated /\
    (exists k, map snd (filter (fun x => fst x =? p) (k_log w)) = firstn k keys) /\
    (k_pc w p = KGo -> map snd (filter (fun x => fst x =? p) (k_log w)) = keys).
Proof.
  intros keys sched p SO. cbn zeta. destruct (calm_run keys sched SO (kstart keys) eq_refl) as [E C].
  { intros q. cbn. split; [reflexivity|discriminate]. }
  split; auto. specialize (C p). fold (locked_by p (krun sched (kstart keys))). split; [|split].
  - intros X. rewrite X in C. destruct C as [_ C]. contradiction.
  - destruct (k_pc (krun sched (kstart keys)) p); cbn in C; try contradiction;
      repeat match goal with H : _ /\ _ |- _ => destruct H end; try (exists 0; assumption); try (eexists; eassumption); try exact C; exists (length keys); rewrite C; symmetry; apply firstn_all.
  - intros X. rewrite X in C. exact C.
Qed.
Print Assumptions C102_ordered_slice_may_be_shared_partial.
(** ... and they do not deadlock: as long as a run has begun or is to begin and has not ended, some run can make a step (no
    lock call failing); and from every moment on the runs can all be brought to their ends. *)
Theorem C102_ordered_slice_no_deadlock_partial :
  forall keys sched m, StronglySorted (fun a b => str_ltb a b = true) keys -> (forall p ok, In (p, ok) sched -> p < m) -> let w := krun sched (kstart keys) in
    (forall p, k_pc w p <> KDone -> k_pc w p <> KFailed -> exists q, k_pc (kstep q true w) q <> k_pc w q) /\
    (exists later, (forall q ok, In (q, ok) later -> q < m /\ ok = true) /\ forall p, p < m -> k_pc (krun later w) p = KDone \/ k_pc (krun later w) p = KFailed).
Proof.
  intros keys sched m SO B. cbn zeta. pose proof (kord_run keys sched SO _ (kord_start keys)) as K. split.
  - intros p N1 N2. assert (NO : ~ over (k_pc (krun sched (kstart keys)) p)).
    { destruct (C102_ordered_slice_may_be_shared_partial keys sched p SO) as (_ & X & _). destruct (k_pc (krun sched (kstart keys)) p); auto. }
    destruct (progress keys _ SO K (length keys) p ltac:(intros; lia) NO) as (q & Q1 & Q2 & _). exists q. intros X. pose proof (step_rank keys q _ SO K Q1 Q2) as Y. rewrite X in Y. lia.
  - destruct (finish keys m SO _ _ (le_n _) K) as (later & X & Y).
    + intros q Hq. rewrite outsiders; [reflexivity|]. intros p ok Hp ->. specialize (B q ok Hp). lia.
    + exists later. split; auto. intros p Hp. specialize (Y p Hp). rewrite <- krun_app in *. destruct (C102_ordered_slice_may_be_shared_partial keys (sched ++ later) p SO) as (_ & Z & _). destruct (k_pc (krun (sched ++ later) (kstart keys)) p); cbn in Y; try contradiction; auto.
Qed.
Print Assumptions C102_ordered_slice_no_deadlock_partial.
(** Mutual exclusion survives even the races on an unordered slice: whatever the slice and the interleaving, a run that goes
    on holds every key of the slice as it was given, and no other run goes on at the same time. *)
Theorem C102_mutual_exclusion_survives :
  forall keys sched p, let w := krun sched (kstart keys) in k_pc w p = KGo ->
    (forall k, In k keys -> In (p, k) (k_held w)) /\ (forall q, keys <> [] -> k_pc w q = KGo -> q = p).
Proof.
  intros keys sched p. cbn zeta. intros G. pose proof (kinv_run keys sched _ (kinv_start keys)) as K. split.
  - now apply go_holds.
  - intros q NE Q. destruct keys as [|k keys]; [contradiction|]. apply (held_once _ (ki_nodup _ _ K) q p k); apply (go_holds (k :: keys)); auto; now left.
Qed.
Print Assumptions C102_mutual_exclusion_survives.
(** Nobody locks a key outside the slice. *)
Theorem C102_only_given_keys : forall keys sched p k, In (p, k) (k_held (krun sched (kstart keys))) -> In k keys.
Proof. intros keys sched p k H. exact (ki_held _ _ (kinv_run keys sched _ (kinv_start keys)) p k H). Qed.
Print Assumptions C102_only_given_keys.

(** A run that has ended - done, refused or failed - holds nothing. *)
Theorem C102_locks_given_back :
  forall keys sched p k, let w := krun sched (kstart keys) in k_pc w p = KDone \/ k_pc w p = KFailed \/ k_pc w p = KRepeated -> ~ In (p, k) (k_held w).
Proof.
  intros keys sched p k. cbn zeta. intros H I. pose proof (ki_pc _ _ (kinv_run keys sched _ (kinv_start keys)) p) as P. apply held_by_in in I.
  destruct (held_by p (k_held (krun sched (kstart keys)))) as [|x l]; [destruct I|]. destruct H as [H|[H|H]]; rewrite H in P; discriminate P.
Qed.
Print Assumptions C102_locks_given_back.
(** Refuted: the caller's slice is left as it was. *)
Theorem C102_callers_slice_untouched_refuted :
  exists keys sched, let w := krun sched (kstart keys) in NoDup keys /\ k_pc w 0 = KGo /\ k_keys w <> keys.
Proof.
  exists ["b"; "a"], (repeat (0, true) 11). cbn zeta. split; [|split].
  - repeat constructor; cbn; intuition discriminate.
  - vm_compute. reflexivity.
  - vm_compute. discriminate.
Qed.
Print Assumptions C102_callers_slice_untouched_refuted.

Definition sch (l : list nat) : list (nat * bool) := map (fun p => (p, true)) l.
(** Refuted: runs with distinct keys are not told that a key is repeated.  Two runs share the slice b, a; the second looks
    while the first has written one half of a swap. *)
Theorem C102_distinct_keys_accepted_refuted :
  exists keys sched, let w := krun sched (kstart keys) in NoDup keys /\ k_pc w 1 = KRepeated.
Proof.
  exists ["b"; "a"], (sch [0;0;0;0;0;0;1;1;1;1;1]). cbn zeta. split; [repeat constructor; cbn; intuition discriminate|]. vm_compute. reflexivity.
Qed.
Print Assumptions C102_distinct_keys_accepted_refuted.

(** with one key twice in the slice nobody gets anywhere *)
Definition stuck_place (x : string) (c : kpc) : Prop :=
  match c with KIdle | KRepeated | KFailed | KDone => True | KCmpA i j => i = 1 /\ j = 1 | KCmpB i j y => i = 1 /\ j = 1 /\ y = x | KChkA k => k = 1 | KChkB k y => k = 1 /\ y = x | _ => False end.
Lemma stuck_forever x : forall l w, k_keys w = [x; x] -> (forall p, stuck_place x (k_pc w p)) -> k_keys (krun l w) = [x; x] /\ forall p, stuck_place x (k_pc (krun l w) p).
Proof.
  induction l as [|[p ok] l IH]; intros w E H; cbn [krun]; auto.
  assert (X : k_keys (kstep p ok w) = [x; x] /\ forall q, stuck_place x (k_pc (kstep p ok w) q)).
  { assert (Keep : forall c, stuck_place x c -> let w' := mkK [x; x] (kset (k_pc w) p c) (k_held w) (k_log w) in k_keys w' = [x; x] /\ forall q, stuck_place x (k_pc w' q)).
    { intros c C. cbn. split; auto. intros q. unfold kset. destruct (q =? p); auto. }
    pose proof (H p) as Hp. unfold kstep. destruct (k_pc w p) as [|i j|i j y|i j|i j a|i j a b|i j b|k|k y| |k| | |] eqn:P; cbn in Hp; try contradiction; auto; rewrite ?E; cbn [sort_step]; apply Keep.
    - cbn. auto.
    - destruct Hp as [-> ->]. cbn. auto.
    - destruct Hp as (-> & -> & ->). change (at_ [x; x] (1 - 1)) with x. rewrite str_ltb_irrefl. reflexivity.
    - subst k. cbn. auto.
    - destruct Hp as (-> & ->). change (at_ [x; x] (1 - 1)) with x. rewrite String.eqb_refl. exact Logic.I. }
  destruct X as [X Y]. apply IH; auto.
Qed.
(** Refuted: a race on the slice does no lasting harm.  Two runs share the slice b, a; afterwards one key is twice in it and
    the other is gone, and no run that is given this slice ever starts. *)
Theorem C102_keys_lost_refuted :
  exists keys sched, let w := krun sched (kstart keys) in NoDup keys /\ (exists k, In k keys /\ ~ In k (k_keys w)) /\
    (forall p, k_pc w p = KRepeated \/ (2 <= p /\ k_pc w p = KIdle)) /\
    forall later p, k_pc (krun later w) p <> KGo.
Proof.
  exists ["b"; "a"], (sch [0;0;0;0;0;1;1;0;1;1;0;0;1;1;1;0;1;1]). cbn zeta. set (w := krun _ (kstart ["b"; "a"])).
  assert (E : k_keys w = ["a"; "a"] \/ k_keys w = ["b"; "b"]) by (vm_compute; auto).
  assert (P : forall p, k_pc w p = KRepeated \/ (2 <= p /\ k_pc w p = KIdle)).
  { intros [|[|p]]; [left; vm_compute; reflexivity|left; vm_compute; reflexivity|right; split; [lia|]]. reflexivity. }
  assert (Q : forall x p, stuck_place x (k_pc w p)) by (intros x p; destruct (P p) as [-> | [_ ->]]; exact Logic.I).
  split; [repeat constructor; cbn; intuition discriminate|]. split; [|split; [exact P|]].
  - destruct E as [E|E]; rewrite E; [exists "b"|exists "a"]; split; cbn; intuition discriminate.
  - intros later p X. destruct E as [E|E]; destruct (stuck_forever _ later w E (Q _)) as [_ Y]; specialize (Y p); rewrite X in Y; exact Y.
Qed.
Print Assumptions C102_keys_lost_refuted.
(** Refuted: runs lock in ascending order, so they do not deadlock.  Two runs share the slice c, b, a: each ends up waiting
    for a key the other holds. *)
Theorem C102_no_deadlock_refuted :
  exists keys sched k0 k1, let w := krun sched (kstart keys) in NoDup keys /\
    In (0, k0) (k_held w) /\ In (1, k1) (k_held w) /\ (exists i, k_pc w 0 = KLock i /\ nth i (k_keys w) "" = k1) /\ (exists i, k_pc w 1 = KLock i /\ nth i (k_keys w) "" = k0) /\
    forall later, (forall p ok, In (p, ok) later -> p < 2 /\ ok = true) -> krun later w = w.
Proof.
  set (l := sch [0;0;0;0;0;1;1;0;1;0;0;0;0;0;0;1;1;0;0;0;0;0;0;0;0;0;0;0;0;0;1;1;1;1;1;1;1;1;1]).
  exists ["c"; "b"; "a"], l, "b", "c". set (w := krun l (kstart ["c"; "b"; "a"])).
  assert (H1 : k_held w = [(0, "a"); (0, "b"); (1, "c")]) by (vm_compute; reflexivity). assert (H2 : k_pc w 0 = KLock 2) by (vm_compute; reflexivity). assert (H3 : k_pc w 1 = KLock 1) by (vm_compute; reflexivity).
  assert (H4 : k_keys w = ["c"; "b"; "c"]) by (vm_compute; reflexivity). clearbody w. cbn zeta. rewrite H1, H4.
  split; [repeat constructor; cbn; intuition discriminate|]. split; [right; now left|]. split; [right; right; now left|]. split; [eauto|]. split; [eauto|].
  assert (S0 : kstep 0 true w = w) by (unfold kstep; rewrite H2, H1, H4; reflexivity).
  assert (S1 : kstep 1 true w = w) by (unfold kstep; rewrite H3, H1, H4; reflexivity).
  induction later as [|[p ok] t IH]; intros F; auto. cbn [krun]. destruct (F p ok (or_introl eq_refl)) as [L ->].
  assert (X : kstep p true w = w) by (destruct p as [|[|p]]; [exact S0|exact S1|lia]). rewrite X. apply IH. intros q o Hq. apply F. now right.
Qed.
Print Assumptions C102_no_deadlock_refuted.

(** Two runs with the slice a, b interleaved step by step: the first goes on with both keys, the second waits. *)
Example C102_example :
  let w := krun (sch [0;1;0;1;0;1;0;1;0;1;0;1;0;1]) (kstart ["a"; "b"]) in
  StronglySorted (fun a b => str_ltb a b = true) ["a"; "b"] /\ k_pc w 0 = KGo /\ k_pc w 1 = KLock 0 /\ k_log w = [(0, "a"); (0, "b")].
Proof. cbn zeta. split; [repeat constructor|]. vm_compute. auto. Qed.
(** a run alone with the slice c, a, b; and with a, b, a *)
Example C102_example_alone :
  let w := krun (repeat (7, true) 40) (kstart ["c"; "a"; "b"]) in k_log w = [(7, "a"); (7, "b"); (7, "c")] /\ k_pc w 7 = KDone /\ k_pc (krun (repeat (7, true) 40) (kstart ["a"; "b"; "a"])) 7 = KRepeated.
Proof. vm_compute. auto. Qed.

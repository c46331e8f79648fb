(** C99: what loading an aggregate does to the run - engine.go 198-230, 849-866. *)
From Verif Require Import GraphSpec GraphProof2 EngineModel EventSpec EngineProof1 EngineProof2 EngineProof3 EngineProof4 EngineProof6 EngineProof7 EngineProof8 EngineProof12 EngineProof13 RepoProof EngineProps CommandProps.
Local Open Scope string_scope. Local Open Scope list_scope. Local Open Scope nat_scope.

(** [roots] have been loaded: they are roots of the run, and every entity of the run that was not known before is known now as it is
    now - with the model the converter gives and the children it has - while what was known before is known as before. *)
Record loaded (cfg : config) (s : st) (roots : list ptr) (s' : st) : Prop := mkLoaded {
  ld_roots : ct_roots (s_cont s') = ct_roots (s_cont s) ++ roots;
  ld_deleted : ct_deleted (s_cont s') = ct_deleted (s_cont s);
  ld_errs : s_errs s' = s_errs s;
  ld_kept : forall p, p <> meta -> s_pool s p <> None -> s_pool s' p = s_pool s p;
  ld_unknown : forall p, p <> meta -> s_pool s p = None -> s_pool s' p <> None -> reach (kids_now s') meta p;
  ld_new : forall p, p <> meta -> s_pool s p = None -> reach (kids_now s') meta p ->
    exists par k po, reach (kids_now s') meta par /\ now_child (kids_now s') par k p /\ s_pool s' p = Some (mkSnap po (kids_now s' p)) /\ remembered cfg (s_heap s') p (Some par) po }.


Lemma reach_snoc kids p q k c : reach kids p q -> now_child kids q k c -> reach kids p c.
Proof. induction 1 as [x|x k' y z A _ IH]; intros C; [eapply reach_step; [exact C|constructor]|eapply reach_step; [exact A|auto]]. Qed.
Lemma update_spec cfg s e s' : orders_ok cfg -> updateSnapshot cfg s = (Done e, s') ->
  s_heap s' = s_heap s /\ s_cont s' = s_cont s /\ s_trace s' = s_trace s /\ s_errs s' = s_errs s /\
  match e with
  | Some x => conv_refuses cfg (s_heap s) (ct_roots (s_cont s)) x
  | None =>
      (forall p, p <> meta -> s_pool s p <> None -> s_pool s' p = s_pool s p) /\
      (forall p, p <> meta -> s_pool s p = None -> s_pool s' p <> None -> reach (kids_now s) meta p) /\
      (forall p, p <> meta -> s_pool s p = None -> reach (kids_now s) meta p ->
        exists par k po, reach (kids_now s) meta par /\ now_child (kids_now s) par k p /\ s_pool s' p = Some (mkSnap po (kids_now s p)) /\ remembered cfg (s_heap s) p (Some par) po)
  end.
Proof.
  intros [Ho _] H. apply updateSnapshot_inv in H. destruct (walk _ _ _ _ _) as [l|] eqn:E; [|destruct H; discriminate]. destruct H as (e' & pl' & Hs & X & ->). injection X as <-. repeat (split; [reflexivity|]).
  assert (W := walk_reach _ _ (Ho _) _ _ _ _ E). assert (Wp := walk_parent _ _ (Ho _) _ _ _ _ E). destruct e as [x|].
  - destruct (snap_list_err _ _ _ _ _ _ _ Hs) as (p & par & Hp & C). exists p, par. split; [now apply W|exact C].
  - apply snap_list_spec in Hs. destruct Hs as (H1 & H2 & _). cbn [s_pool with_pool]. repeat split.
    + intros p Np Hp. destruct (H1 p) as [X|(par & po & _ & [X|X] & _)]; [exact X|contradiction..].
    + intros p Np Hp Hr. destruct (H1 p) as [X|(par & po & X & _)]; [congruence|]. apply W, in_map_iff. exists (p, par). auto.
    + intros p Np Hp Hr. apply W in Hr. destruct (H1 p) as [X|(par & po & X1 & X2 & X3 & X4)]; [apply H2 in Hr; congruence|]. apply Wp in X1. destruct X1 as [[X1 _]|(r & k & -> & X1 & X5)]; [contradiction|]. exists r, k, po. auto.
Qed.

(** ** Get *)
(** Get that returned nil: the root had an id and was unknown; it has been queried once, nothing else was asked of anybody, the entities
    are as the query left them, and the aggregate is part of the run. *)
Theorem C99_get_loads : forall cfg root s s', orders_ok cfg -> run_body cfg (BGet root (fun e => BRet e)) s = (Done None, s') ->
  e_id (s_heap s root) <> "" /\ s_pool s root = None /\ ~ In root (ct_roots (s_cont s)) /\
  exists r, r_ans r = AOk /\ s_trace s' = s_trace s ++ [(KBuild root, r)] /\ s_heap s' = r_heap r (s_heap s) /\ loaded cfg s [root] s'.
Proof.
  intros cfg root s s' Ho H. cbn [run_body] in H. apply bind_done in H. destruct H as (e & s1 & H & X). injection X as -> ->.
  unfold repo_get, ret, bind at 1, get, has_snapshot in H. destruct (s_pool s root) as [sn|] eqn:Ep; [discriminate H|]. destruct (String.eqb_spec (e_id (s_heap s root)) "") as [E|E]; [discriminate H|]. split; [exact E|]. split; [reflexivity|].
  unfold andthen, bind, ecall_err, ecall, bind, ret in H. cbn [mutates] in H. destruct (c_oracle cfg (length (s_trace s))) as [an rh rid rc] eqn:Er. cbn [r_ans r_heap] in H.
  unfold err_of in H. cbn [r_ans] in H. destruct an as [|x|]; [|discriminate H|discriminate H].
  unfold meta_add, bind, get, upd, ret in H. cbn [r_ans s_cont with_heap with_trace s_heap] in H. destruct (cont_add (s_cont s) root) as [c|] eqn:Ec; [|discriminate H]. unfold cont_add in Ec.
  destruct (memb root (ct_roots (s_cont s))) eqn:Em; [discriminate Ec|]. injection Ec as <-. split; [rewrite <- memb_In, Em; discriminate|].
  exists (mkResp AOk rh rid rc). split; [reflexivity|]. apply update_spec in H; auto. destruct H as (H1 & H2 & H3 & H4 & H5 & H6 & H7). split; [exact H3|]. split; [exact H1|].
  assert (K : forall p, kids_now s' p = findChildren (rh (s_heap s)) (ct_roots (s_cont s) ++ [root]) p) by (intros p; unfold kids_now; rewrite H1, H2; reflexivity).
  assert (K' : kids_now s' = findChildren (rh (s_heap s)) (ct_roots (s_cont s) ++ [root])) by (unfold kids_now; rewrite H1, H2; reflexivity).
  split; [rewrite H2; reflexivity|rewrite H2; reflexivity|exact H4|exact H5|rewrite K'; exact H6|rewrite K', H1; exact H7].
Qed.
Print Assumptions C99_get_loads.

(** Get that returned an error: if the converter does not refuse an entity of the run, then what the run knows is as before - the root is not
    part of it unless it was. *)
Theorem C99_failed_get_partial : forall cfg root s e s', orders_ok cfg -> run_body cfg (BGet root (fun e => BRet e)) s = (Done (Some e), s') ->
  (exists x, conv_refuses cfg (s_heap s') (ct_roots (s_cont s')) x /\ e = x) \/ (s_cont s' = s_cont s /\ s_pool s' = s_pool s /\ s_errs s' = s_errs s).
Proof.
  intros cfg root s e s' Ho H. cbn [run_body] in H. apply bind_done in H. destruct H as (e0 & s1 & H & X). injection X as -> ->.
  unfold repo_get, ret, bind at 1, get, has_snapshot in H. destruct (s_pool s root) as [sn|] eqn:Ep; [injection H as _ <-; auto|]. destruct (String.eqb_spec (e_id (s_heap s root)) "") as [E|E]; [injection H as _ <-; auto|].
  unfold andthen, bind, ecall_err, ecall, bind, ret in H. cbn [mutates] in H. destruct (c_oracle cfg (length (s_trace s))) as [an rh rid rc] eqn:Er. cbn [r_ans r_heap] in H.
  unfold err_of in H. cbn [r_ans] in H. destruct an as [|x|]; [|injection H as _ <-; auto|discriminate H].
  unfold meta_add, bind, get, upd, ret in H. cbn [r_ans s_cont with_heap with_trace s_heap] in H. destruct (cont_add (s_cont s) root) as [c|] eqn:Ec; [|injection H as _ <-; auto].
  left. apply update_spec in H; auto. destruct H as (H1 & H2 & _ & _ & H5). exists e. split; [rewrite H1, H2; exact H5|reflexivity].
Qed.
Print Assumptions C99_failed_get_partial.

(** ** CustomGet *)
Lemma each_custom : forall roots s o s', each (fun r => bind get (fun s => if has_snapshot s r then ret (Some EHasAdded) else meta_add r)) roots s = (o, s') ->
  exists pre post e, roots = pre ++ post /\ o = Done e /\ s' = with_cont s (mkCont (ct_roots (s_cont s) ++ pre) (ct_deleted (s_cont s))) /\ (forall r, In r pre -> s_pool s r = None /\ ~ In r (ct_roots (s_cont s))) /\ NoDup pre /\
    (e = None <-> post = []).
Proof.
  induction roots as [|r t IH]; intros s o s' H; cbn [each] in H.
  - injection H as <- <-. exists [], [], None. split; [reflexivity|]. split; [reflexivity|]. split; [rewrite app_nil_r; now destruct s as [? [] ? ? ? ? ? ? ?]|]. split; [intros r []|]. split; [constructor|tauto].
  - assert (Z : forall e, exists pre post e0, r :: t = pre ++ post /\ @Done (option err) (Some e) = Done e0 /\ s = with_cont s (mkCont (ct_roots (s_cont s) ++ pre) (ct_deleted (s_cont s))) /\ (forall x, In x pre -> s_pool s x = None /\ ~ In x (ct_roots (s_cont s))) /\ NoDup pre /\ (e0 = None <-> post = [])).
    { intros e. exists [], (r :: t), (Some e). split; [reflexivity|]. split; [reflexivity|]. split; [rewrite app_nil_r; now destruct s as [? [] ? ? ? ? ? ? ?]|]. split; [intros x []|]. split; [constructor|split; discriminate]. }
    unfold andthen at 1, bind at 1 in H. unfold bind at 1, get, has_snapshot in H. destruct (s_pool s r) as [sn|] eqn:Ep; [injection H as <- <-; apply Z|].
    unfold meta_add, bind at 1, get in H. unfold cont_add in H. destruct (memb r (ct_roots (s_cont s))) eqn:Em; [injection H as <- <-; apply Z|].
    unfold bind, upd, ret in H. apply IH in H. destruct H as (pre & post & e & -> & -> & -> & A & B & C). exists (r :: pre), post, e. cbn [s_cont with_cont ct_roots ct_deleted s_pool] in *. split; [reflexivity|]. split; [reflexivity|]. split; [rewrite <- app_assoc; reflexivity|].
    assert (Nr : ~ In r (ct_roots (s_cont s))) by (rewrite <- memb_In, Em; discriminate).
    split; [|split; [|exact C]].
    + intros x [<-|Hx]; [auto|]. destruct (A x Hx) as [A1 A2]. split; auto. intros X. apply A2, in_app_iff. now left.
    + constructor; auto. intros X. destruct (A r X) as [_ A2]. apply A2, in_app_iff. right. now left.
Qed.
(** CustomGet that returned nil: the roots were all unknown and different; the getter has run, nothing was asked of anybody, and the
    aggregates are part of the run. *)
Theorem C99_custom_get_loads : forall cfg f roots s s', orders_ok cfg -> run_body cfg (BCustomGet f roots (fun e => BRet e)) s = (Done None, s') ->
  NoDup roots /\ (forall r, In r roots -> s_pool s r = None /\ ~ In r (ct_roots (s_cont s))) /\
  s_trace s' = s_trace s /\ s_heap s' = f (s_heap s) /\ loaded cfg s roots s'.
Proof.
  intros cfg f roots s s' Ho H. cbn [run_body] in H. apply bind_done in H. destruct H as (e & s1 & H & X). injection X as -> ->.
  unfold repo_custom_get in H. unfold bind at 1, upd in H. unfold andthen in H. apply bind_done in H. destruct H as (e & s1 & H1 & H2). apply each_custom in H1. destruct H1 as (pre & post & e' & E & X & -> & A & B & C). injection X as <-.
  destruct e as [x|]; [discriminate H2|]. assert (post = []) by now apply C. subst post. rewrite app_nil_r in E. subst pre. cbn [s_pool with_heap s_cont with_cont] in *.
  split; [exact B|]. split; [exact A|]. apply update_spec in H2; auto. destruct H2 as (H1 & H2 & H3 & H4 & H5 & H6 & H7). split; [exact H3|]. split; [exact H1|].
  assert (K' : kids_now s' = findChildren (f (s_heap s)) (ct_roots (s_cont s) ++ roots)) by (unfold kids_now; rewrite H1, H2; reflexivity).
  split; [rewrite H2; reflexivity|rewrite H2; reflexivity|exact H4|exact H5|rewrite K'; exact H6|rewrite K', H1; exact H7].
Qed.
Print Assumptions C99_custom_get_loads.

(** ** what loading does to what is saved for the others *)
(** If nothing new had been attached when Get was called - every entity of the run was known - and the query touched the entities of the
    loaded aggregate only, then exactly entities of that aggregate have become known. *)
Theorem C99_only_the_loaded_partial : forall cfg root s s', orders_ok cfg -> run_body cfg (BGet root (fun e => BRet e)) s = (Done None, s') ->
  (forall p, p <> meta -> reach (kids_now s) meta p -> s_pool s p <> None) ->
  (forall p, reach (kids_now s') root p \/ s_heap s' p = s_heap s p) ->
  forall p, p <> meta -> (s_pool s p = None /\ s_pool s' p <> None) <-> (s_pool s p = None /\ reach (kids_now s') root p).
Proof.
  intros cfg root s s' Ho H Hk Hq p Np. destruct (C99_get_loads cfg root s s' Ho H) as (_ & _ & _ & r & _ & _ & _ & [L1 _ _ L4 L5 L6]).
  assert (Root : forall q, reach (kids_now s') root q -> reach (kids_now s') meta q).
  { intros q X. eapply reach_step; [|exact X]. apply now_root. rewrite L1. apply in_app_iff. right. now left. }
  split; intros [N X]; (split; [exact N|]).
  - specialize (L5 p Np N X).
    assert (Step : forall x q, reach (kids_now s') x q -> reach (kids_now s') root x \/ reach (kids_now s) meta x -> reach (kids_now s') root q \/ reach (kids_now s) meta q).
    { induction 1 as [x|x k c q C _ IH]; intros D; [exact D|]. apply IH. destruct D as [D|D]; [left; eapply reach_snoc; eauto|].
      destruct (Nat.eq_dec x meta) as [->|Nx].
      - destruct C as (l & C1 & C2). rewrite kids_meta in C1. destruct C1 as [C1|[]]. injection C1 as <- <-. rewrite L1 in C2. apply in_app_iff in C2. destruct C2 as [C2|[<-|[]]]; [right|left; constructor].
        eapply reach_step; [apply now_root; exact C2|constructor].
      - destruct (Hq x) as [Y|Y]; [left; eapply reach_snoc; eauto|right]. eapply reach_snoc; [exact D|]. unfold now_child in *. unfold kids_now, findChildren in *. destruct (Nat.eqb_spec x meta) as [E|E]; [contradiction|]. rewrite <- Y. exact C. }
    destruct (Step meta p L5 (or_intror (reach_refl _ _))) as [R|R]; [exact R|]. exfalso. exact (Hk p Np R N).
  - destruct (L6 p Np N (Root p X)) as (par & k & po & _ & _ & Y & _). congruence.
Qed.
Print Assumptions C99_only_the_loaded_partial.

Definition h99 : heap := fun p => match p with 1 => ex_ent "r" 1 [] [] ["v"] | 2 => ex_ent "c" 2 [4] [] ["w"] | 4 => ex_ent "g" 3 [] [] ["u"] | 3 => ex_ent "x" 1 [] [] ["y"] | _ => ex_ent "" 0 [] [] [] end.
Definition attach : heap -> heap := fun h => hset h 1 (ex_ent "r" 1 [2] [] ["v"]).
Notation m99 t i c := (mkModel t i [c]).
(** Not in general: the root 1 is loaded and the new child 2 with the new grandchild 4 attached to it; both are inserted.  With a load of
    another root in between, only 2 is inserted: 4 is lost without an error. *)
Theorem C99_unsaved_grandchild_lost_refuted : exists cfg, orders_ok cfg /\
  execs (s_trace (snd (save cfg [] (BGet 1 (fun _ => BMut attach (BRet None))) (new_stage h99)))) =
    [mkAction OpInsert [m99 2 "c" "w"] []; mkAction OpInsert [m99 3 "g" "u"] []] /\
  exists r s', save cfg [] (BGet 1 (fun _ => BMut attach (BGet 3 (fun e => BRet e)))) (new_stage h99) = (Done r, s') /\ res_err r = None /\ res_break r = false /\
    execs (s_trace s') = [mkAction OpInsert [m99 2 "c" "w"] []] /\ e_fields (s_heap s' 2) = e_fields (h99 2).
Proof.
  exists (ex_cfg true false BusPlain None 0 all_ok). split; [split; [intros n p m; apply Permutation_refl|intros n l; apply Permutation_refl]|]. split; [vm_compute; reflexivity|].
  do 2 eexists. split; [vm_compute; reflexivity|]. repeat split; vm_compute; reflexivity.
Qed.
Print Assumptions C99_unsaved_grandchild_lost_refuted.
(** A CustomGet that fails at its second root leaves the first one behind as new: a command that goes on inserts an entity it had loaded. *)
Theorem C99_failed_custom_get_refuted : exists cfg, orders_ok cfg /\
  exists r s', save cfg [] (BGet 3 (fun _ => BCustomGet (fun h => h) [1; 3] (fun e => BRet (match e with Some _ => None | None => Some (EUser 1) end)))) (new_stage h99) = (Done r, s') /\
    res_err r = None /\ res_break r = false /\ execs (s_trace s') = [mkAction OpInsert [m99 1 "r" "v"] []].
Proof.
  exists (ex_cfg true false BusPlain None 0 all_ok). split; [split; [intros n p m; apply Permutation_refl|intros n l; apply Permutation_refl]|].
  do 2 eexists. split; [vm_compute; reflexivity|]. repeat split; vm_compute; reflexivity.
Qed.
Print Assumptions C99_failed_custom_get_refuted.
(** the hypotheses of the theorems, met: two loads one after the other *)
Example C99_example : let cfg := ex_cfg true false BusPlain None 0 all_ok in
  exists s s', run_body cfg (BGet 1 (fun e => BRet e)) (new_stage h99) = (Done None, s) /\ run_body cfg (BGet 2 (fun e => BRet e)) s = (Done None, s') /\
    s_pool s 1 <> None /\ (forall p, reach (kids_now s') 2 p \/ s_heap s' p = s_heap s p) /\ s_pool s 4 = None /\ s_pool s' 4 <> None /\ s_pool s' 3 = None.
Proof.
  do 2 eexists. split; [reflexivity|]. split; [reflexivity|]. split; [discriminate|]. split; [intros p; right; reflexivity|]. repeat split; discriminate.
Qed.
Example C99_custom_example : let cfg := ex_cfg true false BusPlain None 0 all_ok in
  exists s', run_body cfg (BCustomGet attach [1; 3] (fun e => BRet e)) (new_stage h99) = (Done None, s') /\ s_pool s' 4 <> None /\ ct_roots (s_cont s') = [1; 3].
Proof. eexists. split; [reflexivity|]. split; [discriminate|reflexivity]. Qed.

(** EngineModel writes the loop of engine.go 896-904 in one go: it is EntityContainer.recycle (118-120) for each deleted entity in turn. *)
Lemma recycle_is_the_loop : forall chs c,
  recycle_list c chs = fold_left (fun c ch => match ch_type ch with CDelete => fold_left cont_recycle (ch_kids ch) c | _ => c end) chs c.
Proof.
  induction chs as [|ch t IH]; intros c; unfold recycle_list in *; cbn [flat_map fold_left].
  - rewrite app_nil_r. now destruct c.
  - assert (F : forall l c, fold_left cont_recycle l c = mkCont (ct_roots c) (ct_deleted c ++ l)).
    { clear. induction l as [|x t IH]; intros c; cbn [fold_left]; [rewrite app_nil_r; now destruct c|]. rewrite IH. unfold cont_recycle. cbn. now rewrite <- app_assoc. }
    rewrite app_assoc. rewrite <- IH. destruct (ch_type ch); rewrite ?F; cbn; rewrite ?app_nil_r; destruct c; reflexivity.
Qed.

(** C65: order of the insert statements of one save (parents before children), and where it fails. *)
From Verif Require Import OrderProof SaveProps EngineProps.
From Verif Require Import EngineModel.

(** In a successful save the row of a created entity is inserted before the rows of what is created below it, provided the
    table of the child is used, in this save, only for entities created below created entities of the parent's table (or
    of the same table).  [h]: the entities when the models are built, i.e. after the Before hooks and the ids. *)
Theorem C65_parents_first_partial :
  forall cfg s s' table, keeps_types cfg -> go_maps (s_heap s) (s_pool s) -> orders_ok cfg -> c_dry cfg = false ->
  stored_by_type cfg table ->
  persist cfg s = (Done None, s') ->
  let tab p := table (e_type (s_heap s p)) in
  exists hooks rest h, s_trace s' = s_trace s ++ hooks ++ rest /\ Forall (fun c => is_hook true (fst c) = true) hooks /\
    only_ids (after_calls (s_heap s) hooks) h /\
    forall gp par c, created_under cfg s gp par -> created_under cfg s par c ->
    (tab par <> tab c -> forall px x, created_under cfg s px x -> tab x = tab c -> (tab px = tab par \/ tab px = tab c) /\ created cfg s px) ->
    exists mp mc, c_conv cfg h par (Some gp) OpInsert = CModel mp /\ c_conv cfg h c (Some par) OpInsert = CModel mc /\
      comes_before (inserted_models (execs (hooks ++ rest))) mp mc.
Proof.
  intros cfg s s' table Ht Hm [Ho _] Hdry Hst H tab.
  destruct (persist_inv cfg Ht s _ s' H) as [[_ N]|(chs & hb & idc & ws & ha & Eg & T & P)]; [congruence|].
  destruct (must_save_spec cfg s chs Hm (Ho _) Eg) as [M1 _].
  remember (Done None) as o eqn:Eo.
  destruct P as [hb o s1 Hn Hb|hb idc o s1 Hn Hb Hi|hb idc ws h acts o s1 Hn Hb Hi Hok Hid Haf Hd Hw|hb idc ws ha h acts o s1 s' Hb Hi Hok Hid Hgen Haf Hw Ha A1 A2 A3 A4 A5 A7 A6]; try congruence.
  subst o. exists hb, (idc ++ ws ++ ha), h. split; [exact T|]. split; [eapply hooks_kind; eauto|]. split; [exact Hid|].
  assert (Hty : forall p, e_type (h p) = e_type (s_heap s p)).
  { intros p. rewrite Hid. cbn [set_id e_type]. apply (after_calls_types cfg); auto. intros c Hc. apply A7. apply in_app_iff. auto. }
  assert (Ex : execs (hb ++ idc ++ ws ++ ha) = acts).
  { rewrite Hdry in Hw. destruct (calls_out_ok _ _ _ Hw) as [_ W]. rewrite !execs_app, (execs_map _ _ (W eq_refl)).
    rewrite (execs_none (is_hook true) hb), (execs_none is_newid idc), (execs_none (is_hook false) ha); cbn; auto using app_nil_r.
    + eapply hooks_kind; eauto.
    + now apply newid_kind.
    + eapply hooks_kind; eauto. }
  rewrite Ex.
  assert (HC : forall q c, created_under cfg s q c <-> In (q, c) (new_pairs chs)).
  { intros q c. rewrite new_pairs_In. unfold created_under. split; intros (k & X); exists k; now apply M1. }
  intros gp par c H1 H2 Honly. apply (inserts_parent_first cfg s chs h acts table Hm Eg Haf Hst); try (now apply HC).
  rewrite !Hty. fold (tab par) (tab c). intros NE px x Hx Htx. rewrite !Hty in *. fold (tab px) (tab x) in *. apply HC in Hx.
  destruct (Honly NE px x Hx Htx) as [X (g & Y)]. split; [exact X|]. apply HC in Y. change px with (snd (g, px)). now apply in_map.
Qed.
Print Assumptions C65_parents_first_partial.

(* ---------------------------------------------------------------- examples *)
(** New root 1 (table 1) with new child 2 (table 2), which has new child 3 (table 3); new root 4 (table 1) with child 5 (table 2). *)
Definition or_cfg (recursive : bool) : config :=
  mkConfig true recursive false BusPlain None 0 ex_conv (fun _ _ _ => false) (fun _ => ord_id) (fun _ l => l) 20 all_ok.
Definition or_pool0 : pool := fun p => match p with 0 => Some (mkSnap None [(meta_key, [])]) | _ => None end.
Definition or_heap : heap := fun p => match p with
  | 1 => ex_ent "a"%string 1 [2] [] [] | 2 => ex_ent "b"%string 2 [3] [] [] | 3 => ex_ent "c"%string 3 [] [] []
  | 4 => ex_ent "d"%string 1 [5] [] [] | 5 => ex_ent "e"%string 2 [] [] [] | _ => ex_ent ""%string 0 [] [] [] end.
Definition or_state (h : heap) (roots deleted : list ptr) (pl : pool) : st := mkSt h (mkCont roots deleted) pl [] None false [] 0 [].
Definition or_ids (l : list model) : list string := map m_id l.
Definition or_inserted (cfg : config) (s : st) := let x := persist cfg s in (fst x, or_ids (inserted_models (execs (s_trace (snd x))))).
Lemma or_maps h pl : (forall p, e_custom (h p) = None) -> (forall p s, pl p = Some s -> length (s_kids s) <= 1) -> go_maps h pl.
Proof.
  intros H1 H2. split; [intros p m E; rewrite H1 in E; discriminate|]. intros p s E. specialize (H2 p s E). destruct (s_kids s) as [|x [|y t]]; cbn in *; [constructor|constructor; [auto|constructor]|lia].
Qed.
Lemma or_stored r : stored_by_type (or_cfg r) (fun t => t).
Proof. intros h p par. eexists. split; reflexivity. Qed.
Lemma or_cfg_ok r : keeps_types (or_cfg r) /\ orders_ok (or_cfg r).
Proof. split; [intros n h p; reflexivity|]. split; [intros n p m; reflexivity|intros n l; reflexivity]. Qed.
Example C65_example :
  keeps_types (or_cfg false) /\ orders_ok (or_cfg false) /\ go_maps or_heap or_pool0 /\ stored_by_type (or_cfg false) (fun t => t) /\
  or_inserted (or_cfg false) (or_state or_heap [1; 4] [] or_pool0) = (Done None, ["a"; "d"; "b"; "e"; "c"]%string) /\
  created_under (or_cfg false) (or_state or_heap [1; 4] [] or_pool0) 1 2 /\ created_under (or_cfg false) (or_state or_heap [1; 4] [] or_pool0) 2 3.
Proof.
  destruct (or_cfg_ok false) as [A B]. split; [exact A|]. split; [exact B|]. split.
  { apply or_maps; [intros p; do 6 (destruct p as [|p]; [reflexivity|]); reflexivity|]. intros p s. destruct p; [intros [= <-]; cbn; lia|discriminate]. }
  split; [apply or_stored|]. split; [vm_compute; reflexivity|].
  split; exists "L"%string; left; (split; [split|]).
  - eapply reach_step; [|apply reach_refl]. exists [1; 4]. split; [left; reflexivity|now left].
  - split; [exists [2]; split; now left|]. intros (s & l & E & _). discriminate.
  - intros p' k' (_ & _ & (s & l & E & E' & E'') & _). destruct p'; [injection E as <-; destruct E' as [[= _ <-]|[]]; destruct E''|discriminate].
  - eapply reach_step; [|eapply reach_step; [|apply reach_refl]]; [exists [1; 4]|exists [2]]; (split; [left; reflexivity|now left]).
  - split; [exists [3]; split; now left|]. intros (s & l & E & _). discriminate.
  - intros p' k' (_ & _ & (s & l & E & E' & E'') & _). destruct p'; [injection E as <-; destruct E' as [[= _ <-]|[]]; destruct E''|discriminate].
Qed.

(** Without the proviso the order fails, because all rows of a table are inserted in one statement, placed where its
    first row appears.  Two roots (table 1): the first with a child in table 4, the second with a child "bb" in table 3
    that has a child "bc" in table 4: "bc" is inserted before "bb". *)
Definition or_heap2 : heap := fun p => match p with
  | 1 => ex_ent "a"%string 1 [2] [] [] | 2 => ex_ent "ac"%string 4 [] [] [] | 3 => ex_ent "b"%string 1 [5] [] []
  | 5 => ex_ent "bb"%string 3 [4] [] [] | 4 => ex_ent "bc"%string 4 [] [] [] | _ => ex_ent ""%string 0 [] [] [] end.
Theorem C65_shared_child_table_refuted :
  ~ (forall cfg s s' table, keeps_types cfg -> go_maps (s_heap s) (s_pool s) -> orders_ok cfg -> c_dry cfg = false ->
     stored_by_type cfg table -> persist cfg s = (Done None, s') ->
     forall gp par c, created_under cfg s gp par -> created_under cfg s par c ->
     exists h mp mc, c_conv cfg h par (Some gp) OpInsert = CModel mp /\ c_conv cfg h c (Some par) OpInsert = CModel mc /\
       (forall p, e_id (h p) = e_id (s_heap s' p)) /\ comes_before (inserted_models (execs (s_trace s'))) mp mc).
Proof.
  intros X. set (s := or_state or_heap2 [1; 3] [] or_pool0).
  destruct (or_cfg_ok false) as [A B].
  assert (M : go_maps (s_heap s) (s_pool s)).
  { apply or_maps; [intros p; do 6 (destruct p as [|p]; [reflexivity|]); reflexivity|]. intros p s0. destruct p; [intros [= <-]; cbn; lia|discriminate]. }
  assert (G1 : created_under (or_cfg false) s 3 5).
  { exists "L"%string. left. split; [split|].
    - eapply reach_step; [|apply reach_refl]. exists [1; 3]. split; [left; reflexivity|right; now left].
    - split; [exists [5]; split; now left|]. intros (s0 & l & E & _). discriminate.
    - intros p' k' (_ & _ & (s0 & l & E & E' & E'') & _). destruct p'; [injection E as <-; destruct E' as [[= _ <-]|[]]; destruct E''|discriminate]. }
  assert (G2 : created_under (or_cfg false) s 5 4).
  { exists "L"%string. left. split; [split|].
    - eapply reach_step; [|eapply reach_step; [|apply reach_refl]]; [exists [1; 3]; split; [left; reflexivity|right; now left]|exists [5]; split; [left; reflexivity|now left]].
    - split; [exists [4]; split; now left|]. intros (s0 & l & E & _). discriminate.
    - intros p' k' (_ & _ & (s0 & l & E & E' & E'') & _). destruct p'; [injection E as <-; destruct E' as [[= _ <-]|[]]; destruct E''|discriminate]. }
  assert (E : fst (persist (or_cfg false) s) = Done None) by (vm_compute; reflexivity).
  destruct (persist (or_cfg false) s) as [o s'] eqn:Ep. cbn in E. subst o.
  destruct (X _ s s' _ A M B eq_refl (or_stored false) Ep 3 5 4 G1 G2) as (h & mp & mc & V1 & V2 & Hid & l1 & l2 & l3 & EL).
  assert (Eids : map m_id (inserted_models (execs (s_trace s'))) = ["a"; "b"; "ac"; "bc"; "bb"]%string /\ e_id (s_heap s' 5) = "bb"%string /\ e_id (s_heap s' 4) = "bc"%string).
  { assert (s' = snd (persist (or_cfg false) s)) as -> by now rewrite Ep. split; [vm_compute; reflexivity|]. split; vm_compute; reflexivity. }
  destruct Eids as (E1 & E3 & E4). rewrite EL in E1. injection V1 as <-. injection V2 as <-. rewrite map_app in E1. cbn in E1. rewrite map_app in E1. cbn in E1. rewrite !Hid, E3, E4 in E1.
  do 5 (destruct l1 as [|? l1]; cbn in E1; [try discriminate; try (injection E1; intros; destruct l2; discriminate)|try discriminate]). injection E1; intros; destruct l1; discriminate.
Qed.
Print Assumptions C65_shared_child_table_refuted.

(** Existing root 1 has an existing child 2 that gets new child 4 (table 2), and a new child 3 (table 3) with new child 6
    (table 2): the row of 6 is inserted before that of its parent 3, because table 2 is seen first. *)
Definition or_heap3 : heap := fun p => match p with
  | 1 => mkEnt "a"%string false 1 None [mkField "A"%string true false (FSlice [2]); mkField "B"%string true false (FSlice [3])] [] []
  | 2 => ex_ent "b"%string 5 [4] [] [] | 3 => ex_ent "c"%string 3 [6] [] []
  | 4 => ex_ent "bn"%string 2 [] [] [] | 6 => ex_ent "cn"%string 2 [] [] [] | _ => ex_ent ""%string 0 [] [] [] end.
Definition or_pool3 : pool := fun p => match p with
  | 0 => Some (mkSnap None [(meta_key, [1])]) | 1 => Some (mkSnap (Some (mkModel 1 "a"%string [])) [("A"%string, [2]); ("B"%string, [])])
  | 2 => Some (mkSnap (Some (mkModel 5 "b"%string [])) [("L"%string, [])]) | _ => None end.
(** Root 1 with child 2 (table 2) and grandchild 3 (table 3) removed with recursive delete: the parent's row goes first. *)
Definition or_pool4 : pool := fun p => match p with
  | 0 => Some (mkSnap None [(meta_key, [1])]) | 1 => Some (mkSnap (Some (mkModel 1 "a"%string [])) [("L"%string, [2])])
  | 2 => Some (mkSnap (Some (mkModel 2 "b"%string [])) [("L"%string, [3])]) | 3 => Some (mkSnap (Some (mkModel 3 "c"%string [])) [("L"%string, [])]) | _ => None end.
Example C65_more_orders :
  or_inserted (or_cfg false) (or_state or_heap3 [1] [] or_pool3) = (Done None, ["bn"; "cn"; "c"]%string) /\
  (let x := persist (or_cfg true) (or_state or_heap [] [1] or_pool4) in
   (fst x, or_ids (deleted_models (execs (s_trace (snd x)))))) = (Done None, ["a"; "b"; "c"]%string).
Proof. vm_compute. split; reflexivity. Qed.

(** CreateOrder of the example application on the engine model and the MySQL executor (the other requests: SaleEngine.v). *)
From Verif Require Import GraphProof GraphProof4 GraphProof5 EngineProof1 EngineProof12 EngineProof13 ExecSpec ExecProps SaleSpec SaleProps SaleCmdProps SaleEngine.
From Verif Require Import EngineProps EngineModel.
Local Open Scope string_scope. Local Open Scope list_scope. Local Open Scope nat_scope.

(* ------------------------------------------------------------ change detection of a new aggregate *)
Lemma mconcat_map {A B} (f : A -> option (list B)) (g : A -> list B) l : (forall x, In x l -> f x = Some (g x)) -> mconcat f l = Some (flat_map g l).
Proof. induction l as [|x t IH]; intros H; cbn; auto. rewrite H by (now left). rewrite IH by (intros; apply H; now right). reflexivity. Qed.
Lemma set_put_new s e i : ~ In e (map fst s) -> set_put s e i = s ++ [(e, i)].
Proof.
  induction s as [|[x j] t IH]; cbn; auto. intros H. destruct (Nat.eqb_spec e x); [subst; tauto|]. rewrite IH; auto.
Qed.
Lemma make_set_new l : forall i s, NoDup (map fst s ++ l) -> make_set_from i l s = s ++ combine l (seq i (length l)).
Proof.
  induction l as [|x t IH]; intros i s H; cbn; [now rewrite app_nil_r|]. rewrite set_put_new.
  - rewrite IH; [now rewrite <- app_assoc|]. rewrite map_app, <- app_assoc. exact H.
  - apply NoDup_remove_2 in H. intros X. apply H. apply in_app_iff. auto.
Qed.
Lemma isort_idx l : forall i, isort idx_leb (combine l (seq i (length l))) = combine l (seq i (length l)).
Proof.
  induction l as [|x t IH]; intros i; cbn; auto. rewrite IH. destruct t as [|y t]; cbn; auto. unfold idx_leb. cbn [snd].
  destruct (Nat.ltb_spec (S i) i); [lia|reflexivity].
Qed.
Lemma fst_combine {B} (l : list nat) : forall (l' : list B), length l = length l' -> map fst (combine l l') = l.
Proof. induction l as [|x t IH]; intros [|y t'] H; cbn in *; try discriminate; auto. rewrite IH; auto. Qed.
Lemma toSlice_set l : NoDup l -> toSlice (makeEntitySet l) = l.
Proof.
  intros H. unfold makeEntitySet. rewrite make_set_new by (cbn; auto). cbn [app]. unfold toSlice. rewrite isort_idx. apply fst_combine. now rewrite seq_length.
Qed.
Lemma filter_true {A} (f : A -> bool) l : (forall x, In x l -> f x = true) -> filter f l = l.
Proof. induction l as [|x t IH]; intros H; cbn; auto. rewrite (H x) by (now left). rewrite IH; auto. intros y Hy. apply H. now right. Qed.
Lemma created_new kids p k : NoDup (kids_at (kids p) k) -> created_of kids (fun _ => None) p k = kids_at (kids p) k.
Proof.
  intros H. unfold created_of, set_diff. rewrite filter_true; [now apply toSlice_set|]. intros x _. reflexivity.
Qed.
Lemma remain_new kids p k : remain_of kids (fun _ => None) p k = [] /\ deleted_of kids (fun _ => None) p k = [].
Proof.
  split; [|reflexivity]. unfold remain_of, set_inter. match goal with |- toSlice (filter ?f ?l) = _ => assert (X : filter f l = []) end; [|now rewrite X].
  induction (makeEntitySet (kids_at (kids p) k)) as [|x t IH]; cbn; auto.
Qed.

(** no moves among new entities *)
Lemma seen_none s e : seen_at s e = None <-> ~ In e (map fst s).
Proof.
  induction s as [|[x i] t IH]; cbn; [tauto|]. destruct (Nat.eqb_spec e x) as [->|N]; [split; [discriminate|tauto]|]. rewrite IH. split; intros H; [intros [X|X]; [congruence|tauto]|tauto].
Qed.
Lemma move_cells i cs ex arr : cl_arr (cell_at cs i) = arr -> forall l s, ms_cells s = cs -> ms_extra s = ex -> NoDup (map (fun j => nth j arr 0) l) ->
  (forall j, In j l -> ~ In (nth j arr 0) (map fst (ms_seen s))) ->
  exists seen, fold_opt (move_step i) l s = Some (mkM cs ex seen) /\ map fst seen = rev (map (fun j => nth j arr 0) l) ++ map fst (ms_seen s).
Proof.
  intros Ha. induction l as [|j t IH]; intros s Hc He Hn Hd; cbn [fold_opt].
  - exists (ms_seen s). split; [destruct s; cbn in *; congruence|reflexivity].
  - unfold move_step at 1. rewrite Hc, Ha. rewrite (proj2 (seen_none _ _)) by (apply Hd; now left). cbn [map] in Hn. inversion Hn as [|? ? N1 N2]; subst.
    destruct (IH (mkM (ms_cells s) (ms_extra s) ((nth j (cl_arr (cell_at (ms_cells s) i)) 0, i) :: ms_seen s))) as (seen & E1 & E2); auto.
    + intros j' Hj. cbn [map fst ms_seen]. intros [X|X]; [|apply (Hd j'); auto; now right]. apply N1. rewrite X. now apply (in_map (fun j => nth j (cl_arr (cell_at (ms_cells s) i)) 0)).
    + exists seen. split; [exact E1|]. rewrite E2. cbn [map rev fst ms_seen]. now rewrite <- app_assoc.
Qed.
Lemma nth_seq_all (l : list nat) : map (fun j => nth j l 0) (seq 0 (length l)) = l.
Proof.
  induction l as [|x t IH]; auto. cbn [length seq map nth]. f_equal. rewrite <- seq_shift, map_map. exact IH.
Qed.
Lemma nodup_parts {A} (a b : list A) : NoDup (a ++ b) -> NoDup a /\ NoDup b /\ forall x, In x a -> ~ In x b.
Proof.
  induction a as [|x t IH]; cbn; intros H; [split; [constructor|split; auto]|]. inversion H; subst. destruct (IH H3) as (A1 & A2 & A3). split; [constructor; auto; intros X; apply H2, in_app_iff; auto|].
  split; auto. intros y [->|Hy] X; [apply H2, in_app_iff; auto|now apply (A3 y)].
Qed.
Lemma move_items chs : forall l2 l1 seen, chs = l1 ++ l2 -> NoDup (flat_map ch_kids l2) -> (forall x, In x (map fst seen) -> ~ In x (flat_map ch_kids l2)) ->
  exists seen', fold_opt move_item (seq (length l1) (length l2)) (mkM (map cell_of chs) [] seen) = Some (mkM (map cell_of chs) [] seen').
Proof.
  induction l2 as [|c t IH]; intros l1 seen E H D; cbn [length seq fold_opt]; [eauto|]. unfold move_item at 1. cbn [ms_cells].
  assert (C : cell_at (map cell_of chs) (length l1) = cell_of c).
  { unfold cell_at. rewrite E, map_app, app_nth2; rewrite map_length; [|lia]. rewrite Nat.sub_diag. reflexivity. }
  rewrite C. cbn [cell_of cl_len]. cbn [flat_map] in H. destruct (nodup_parts _ _ H) as (H1 & H2 & H3).
  destruct (move_cells (length l1) (map cell_of chs) [] (ch_kids c)) with (l := seq 0 (length (ch_kids c))) (s := mkM (map cell_of chs) [] seen) as (seen1 & E1 & E2); auto.
  - now rewrite C.
  - now rewrite nth_seq_all.
  - intros j Hj. cbn [ms_seen]. apply in_seq in Hj. intros X. apply (D _ X). cbn. apply in_app_iff. left. apply nth_In. lia.
  - rewrite E1. replace (S (length l1)) with (length (l1 ++ [c])) by (rewrite app_length; cbn; lia). apply IH.
    + now rewrite <- app_assoc.
    + exact H2.
    + intros x. rewrite E2, nth_seq_all. cbn [ms_seen]. intros X Y. apply in_app_iff in X. destruct X as [X|X]; [apply in_rev in X; now apply (H3 x)|]. apply (D x X). cbn. apply in_app_iff. auto.
Qed.
Lemma isort_new chs : Forall (fun c => ch_type c = CNew) chs -> isort ct_leb chs = chs.
Proof.
  induction 1 as [|c t H Ht IH]; cbn; auto. rewrite IH. destruct Ht as [|d t' Hd _]; cbn; auto. unfold ct_leb. rewrite H, Hd. reflexivity.
Qed.
Lemma no_moves chs : Forall (fun c => ch_type c = CNew) chs -> NoDup (flat_map ch_kids chs) -> handleEntityMove chs = Some chs.
Proof.
  intros H N. unfold handleEntityMove. rewrite isort_new by assumption. destruct (move_items chs chs [] []) as (seen & E); auto. cbn [length] in E. rewrite E. cbn [ms_cells ms_extra].
  rewrite app_nil_r, map_map. f_equal. rewrite <- (map_id chs) at 2. apply map_ext. intros [ty p k l]. unfold change_of, cell_of. cbn. now rewrite firstn_all.
Qed.

(* ------------------------------------------------------------ the graph of a new order *)
Lemma created_ext k1 k2 pl p k : k1 p = k2 p -> created_of k1 pl p k = created_of k2 pl p k /\ remain_of k1 pl p k = remain_of k2 pl p k /\ deleted_of k1 pl p k = deleted_of k2 pl p k.
Proof. intros E. unfold created_of, remain_of, deleted_of. rewrite E. auto. Qed.
Lemma diff_ext k1 k2 dirty pl : (forall q, k1 q = k2 q) -> forall n p, entityDiff k1 dirty pl n p = entityDiff k2 dirty pl n p.
Proof.
  intros E. induction n as [|n IH]; intros p; [reflexivity|]. cbn [entityDiff]. rewrite (E p). apply mconcat_ext. intros k _.
  destruct (created_ext k1 k2 pl p k (E p)) as (-> & -> & ->). rewrite (mconcat_ext _ (entityDiff k2 dirty pl n)) by (intros; apply IH). destruct (mconcat _ (created_of k2 pl p k)); auto.
  rewrite (mconcat_ext _ (entityDiff k2 dirty pl n)) by (intros; apply IH). reflexivity.
Qed.
Lemma gec_ext ord k1 k2 dirty pl n : (forall q, k1 q = k2 q) -> getEntityChanged false ord k1 dirty pl n = getEntityChanged false ord k2 dirty pl n.
Proof. intros E. unfold getEntityChanged. rewrite (diff_ext k1 k2 dirty pl E). reflexivity. Qed.
Lemma changed_run cfg s chs : getEntityChanged (c_recursive cfg) (c_ord cfg (s_tick s)) (kids_now s) (fun p => e_dirty (s_heap s p)) (s_pool s) (c_fuel cfg) = ROk chs ->
  changed cfg s = (Done (inr chs), tick s).
Proof. intros E. unfold changed, bind, get, upd, ret. rewrite E. reflexivity. Qed.
Section Graph.
  Variables (IP CP : list ptr).
  Hypothesis nodup : NoDup (1 :: IP ++ CP).
  Hypothesis pos : forall p, In p (IP ++ CP) -> 2 <= p.
  Definition okids (p : ptr) : list (key * list ptr) := match p with 0 => [(meta_key, [1])] | 1 => [("Items", IP); ("Coupons", CP)] | _ => [] end.
  Lemma kids_leaf p : In p (IP ++ CP) -> okids p = [].
  Proof. intros H. apply pos in H. destruct p as [|[|p]]; [lia|lia|reflexivity]. Qed.
  Lemma walk_S ord kids n e par : walk ord kids (S n) e par = match mconcat (fun kc => mconcat (fun c => walk ord kids n c (Some e)) (snd kc)) (ord e (kids e)) with None => None | Some l => Some ((e, par) :: l) end.
  Proof. reflexivity. Qed.
  Lemma walk_new : walk ord_id okids 20 0 None = Some ((0, None) :: (1, @Some ptr 0) :: map (fun p => (p, @Some ptr 1)) (IP ++ CP)).
  Proof.
    assert (L : forall n (l : list ptr), (forall p, In p l -> In p (IP ++ CP)) -> mconcat (B := ptr * option ptr) (fun c : ptr => walk ord_id okids (S n) c (@Some ptr 1)) l = Some (map (fun p => (p, @Some ptr 1)) l)).
    { intros n l H. rewrite (mconcat_map _ (fun p => [(p, @Some ptr 1)])); [f_equal; induction l as [|x t IH]; cbn; auto; rewrite IH; auto; intros; apply H; now right|].
      intros x Hx. rewrite walk_S. rewrite kids_leaf by auto. reflexivity. }
    assert (R : walk ord_id okids 19 1 (@Some ptr 0) = Some ((1, @Some ptr 0) :: map (fun p => (p, @Some ptr 1)) (IP ++ CP))).
    { rewrite (walk_S ord_id okids 18). change (ord_id 1 (okids 1)) with [("Items", IP); ("Coupons", CP)]. cbn [mconcat snd].
      rewrite (L 17 IP), (L 17 CP) by (intros; apply in_app_iff; auto). rewrite app_nil_r, map_app. reflexivity. }
    rewrite (walk_S ord_id okids 19). change (ord_id 0 (okids 0)) with [(meta_key, [1])]. cbn [mconcat snd]. rewrite R. rewrite !app_nil_r. reflexivity.
  Qed.
  Definition new_changes : list change := mkChange CNew 0 meta_key [1] :: one_change CNew 1 "Coupons" CP ++ one_change CNew 1 "Items" IP.
  Lemma diff_S kids dirty pl n p : entityDiff kids dirty pl (S n) p = mconcat (fun k =>
          match mconcat (entityDiff kids dirty pl n) (created_of kids pl p k) with
          | None => None
          | Some sub_created =>
              match mconcat (entityDiff kids dirty pl n) (remain_of kids pl p k) with
              | None => None
              | Some sub_remain => Some (one_change CNew p k (created_of kids pl p k) ++ sub_created ++ one_change CDirty p k (filter dirty (remain_of kids pl p k)) ++ sub_remain ++ one_change CDelete p k (deleted_of kids pl p k))
              end
          end) (isort str_leb (map fst (kids p))).
  Proof. reflexivity. Qed.
  Lemma diff_new dirty : entityDiff okids dirty (fun _ => None) 20 0 = Some new_changes.
  Proof.
    inversion nodup as [|? ? N1 N2]; subst. destruct (nodup_parts _ _ N2) as (NI & NC & ND).
    assert (L : forall n (l : list ptr), (forall p, In p l -> In p (IP ++ CP)) -> mconcat (entityDiff okids dirty (fun _ => None) (S n)) l = Some []).
    { intros n l H. rewrite (mconcat_map _ (fun p => [])); [f_equal; clear; induction l; auto|]. intros x Hx. rewrite diff_S. rewrite kids_leaf by auto. reflexivity. }
    assert (R : entityDiff okids dirty (fun _ => None) 19 1 = Some (one_change CNew 1 "Coupons" CP ++ one_change CNew 1 "Items" IP)).
    { rewrite (diff_S okids dirty _ 18). change (isort str_leb (map fst (okids 1))) with ["Coupons"; "Items"]. cbn [mconcat].
      rewrite !(created_new okids 1) by (cbn; assumption). rewrite (proj1 (remain_new okids 1 "Coupons")), (proj2 (remain_new okids 1 "Coupons")), (proj1 (remain_new okids 1 "Items")), (proj2 (remain_new okids 1 "Items")).
      change (kids_at (okids 1) "Coupons") with CP. change (kids_at (okids 1) "Items") with IP. cbn [mconcat filter one_change].
      rewrite (L 17 CP), (L 17 IP) by (intros; apply in_app_iff; auto). rewrite !app_nil_r. reflexivity. }
    rewrite (diff_S okids dirty _ 19). change (isort str_leb (map fst (okids 0))) with [meta_key]. cbn [mconcat].
    rewrite (created_new okids 0) by (cbn; repeat constructor; auto). rewrite (proj1 (remain_new okids 0 meta_key)), (proj2 (remain_new okids 0 meta_key)). change (kids_at (okids 0) meta_key) with [1]. cbn [mconcat filter one_change].
    rewrite R. rewrite !app_nil_r. reflexivity.
  Qed.
  Lemma changed_new dirty ord : getEntityChanged false ord okids dirty (fun _ => None) 20 = ROk new_changes.
  Proof.
    unfold getEntityChanged. rewrite diff_new, no_moves; auto.
    - unfold new_changes, one_change. destruct CP, IP; repeat constructor.
    - unfold new_changes, one_change. inversion nodup as [|? ? N1 N2]; subst. destruct (nodup_parts _ _ N2) as (NI & NC & ND).
      assert (E : flat_map ch_kids (match CP with [] => [] | _ => [mkChange CNew 1 "Coupons" CP] end ++ match IP with [] => [] | _ => [mkChange CNew 1 "Items" IP] end) = CP ++ IP).
      { destruct CP, IP; cbn; rewrite ?app_nil_r; reflexivity. }
      cbn [flat_map ch_kids app]. rewrite E. constructor; [intros X; apply N1; apply in_app_iff in X; apply in_app_iff; tauto|].
      apply (Permutation.Permutation_NoDup (Permutation.Permutation_app_comm IP CP)); auto.
  Qed.
End Graph.

(* ------------------------------------------------------------ loops over calls that are all answered *)
Lemma andthen_none (m n : M (option err)) s s1 : m s = (Done None, s1) -> andthen m n s = n s1.
Proof. intros H. unfold andthen, bind. now rewrite H. Qed.
Lemma each_ext {A} (f g : A -> M (option err)) l : (forall x, In x l -> forall s, f x s = g x s) -> forall s, each f l s = each g l s.
Proof.
  induction l as [|x t IH]; intros H s; cbn [each]; auto. unfold andthen, bind. rewrite (H x) by (now left). destruct (g x s) as [[[e|]| |] s1]; auto. apply IH. intros y Hy. apply H. now right.
Qed.
Lemma each_app {A} (f : A -> M (option err)) a b : forall s, each f (a ++ b) s = andthen (each f a) (each f b) s.
Proof.
  induction a as [|x t IH]; intros s; [reflexivity|]. cbn [each app]. unfold andthen, bind in *. destruct (f x s) as [[[e|]| |] s1]; auto.
Qed.
Lemma each_flat {A B} (f : B -> M (option err)) (k : A -> list B) l : forall s, each (fun x => each f (k x)) l s = each f (flat_map k l) s.
Proof.
  induction l as [|x t IH]; intros s; [reflexivity|]. cbn [each flat_map]. rewrite each_app. unfold andthen, bind. destruct (each f (k x) s) as [[[e|]| |] s1]; auto.
Qed.
Lemma each_none {A} (f : A -> M (option err)) l : (forall x, In x l -> forall s, f x s = (Done None, s)) -> forall s, each f l s = (Done None, s).
Proof. induction l as [|x t IH]; intros H s; cbn [each]; [reflexivity|]. rewrite (andthen_none _ _ s s) by (apply H; now left). apply IH. intros y Hy. apply H. now right. Qed.

Section Answered.
  Variable cfg : config.
  Hypothesis ok : forall n, r_ans (c_oracle cfg n) = AOk.
  (** the calls and their answers from the [k]-th call on *)
  Definition answers (k : nat) (l : list call) : list (call * resp) := combine l (map (c_oracle cfg) (seq k (length l))).
  Lemma answers_cons k c l : answers k (c :: l) = (c, c_oracle cfg k) :: answers (S k) l.
  Proof. reflexivity. Qed.
  Lemma answers_length k l : length (answers k l) = length l.
  Proof. unfold answers. rewrite combine_length, map_length, seq_length. apply Nat.min_id. Qed.
  Lemma call_run c s : mutates c = false -> ecall_err cfg c s = (Done None, with_trace s (s_trace s ++ [(c, c_oracle cfg (length (s_trace s)))])).
  Proof. intros H. unfold ecall_err, ecall, bind, ret, err_of. rewrite H, !ok. reflexivity. Qed.
  Lemma calls_run {A} (f : A -> call) l : (forall x, In x l -> mutates (f x) = false) -> forall s,
    each (fun a => ecall_err cfg (f a)) l s = (Done None, with_trace s (s_trace s ++ answers (length (s_trace s)) (map f l))).
  Proof.
    induction l as [|x t IH]; intros H s; cbn [each map].
    - cbn. rewrite app_nil_r. now destruct s.
    - rewrite (andthen_none _ _ s _ (call_run (f x) s (H x (or_introl eq_refl)))). rewrite IH by (intros; apply H; now right).
      cbn [with_trace s_trace s_heap s_cont s_pool s_actions s_output s_evctx s_errs s_tick]. rewrite app_length. cbn [length]. rewrite Nat.add_1_r, <- app_assoc, answers_cons. reflexivity.
  Qed.

  Lemma ids_run l : NoDup l -> forall s, (forall p, In p l -> e_id (s_heap s p) = "") -> exists h',
    each (putID cfg) l s = (Done None, with_heap (with_trace s (s_trace s ++ answers (length (s_trace s)) (map (fun _ => KNewID) l))) h') /\
    (forall p, ~ In p l -> h' p = s_heap s p) /\
    (forall i p, nth_error l i = Some p -> h' p = set_id (s_heap s p) (r_id (c_oracle cfg (length (s_trace s) + i)))).
  Proof.
    induction l as [|x t IH]; intros N s Hi; cbn [each map].
    - exists (s_heap s). split; [|split; auto; intros [|i] p X; discriminate X]. cbn. rewrite app_nil_r. now destruct s.
    - inversion N as [|? ? N1 N2]; subst.
      assert (E : putID cfg x s = (Done None, with_heap (with_trace s (s_trace s ++ [(KNewID, c_oracle cfg (length (s_trace s)))])) (hset (s_heap s) x (set_id (s_heap s x) (r_id (c_oracle cfg (length (s_trace s)))))))).
      { unfold putID, bind, get. rewrite (Hi x) by (now left). cbn [String.eqb]. unfold ecall. cbn [mutates]. rewrite !ok. reflexivity. }
      rewrite (andthen_none _ _ _ _ E). destruct (IH N2 (with_heap (with_trace s (s_trace s ++ [(KNewID, c_oracle cfg (length (s_trace s)))])) (hset (s_heap s) x (set_id (s_heap s x) (r_id (c_oracle cfg (length (s_trace s)))))))) as (h' & A & B & C).
      { intros p Hp. cbn [with_heap s_heap]. unfold hset. destruct (Nat.eqb_spec p x); [subst; contradiction|]. apply Hi. now right. }
      exists h'. cbn [with_heap with_trace s_trace s_heap] in A, B, C. rewrite app_length in A, C. cbn [length] in A, C. rewrite Nat.add_1_r in A, C. split; [|split].
      + rewrite A, answers_cons, <- app_assoc. reflexivity.
      + intros p Hp. rewrite B by (intros X; apply Hp; now right). unfold hset. destruct (Nat.eqb_spec p x); [subst; destruct Hp; now left|reflexivity].
      + intros [|i] p X; cbn in X.
        * injection X as <-. rewrite B by assumption. unfold hset. rewrite Nat.eqb_refl, Nat.add_0_r. reflexivity.
        * rewrite (C i p X). unfold hset. destruct (Nat.eqb_spec p x) as [->|]; [exfalso; apply N1; eapply nth_error_In; eauto|]. do 3 f_equal. lia.
  Qed.

  (** hooks that only raise an event of the entity they belong to, made from its id, type and data and the id of entity 1 *)
  Definition add_event (e : ent) (v : event) : ent := mkEnt (e_id e) (e_dirty e) (e_type e) (e_custom e) (e_fields e) (e_events e ++ [v]) (e_data e).
  Lemma hooks_run (mk : nat -> string -> ent -> event) l : NoDup l -> forall s,
    (forall p, In p l -> c_hooks cfg (e_type (s_heap s p)) CNew false = true) ->
    (forall i p, nth_error l i = Some p -> forall h, r_heap (c_oracle cfg (length (s_trace s) + i)) h = hset h p (add_event (h p) (mk (length (s_trace s) + i) (e_id (h 1)) (h p)))) ->
    exists h', each (execHook cfg CNew false) l s = (Done None, with_heap (with_trace s (s_trace s ++ answers (length (s_trace s)) (map (fun p => KHook p CNew false) l))) h') /\
    (forall p, ~ In p l -> h' p = s_heap s p) /\
    (forall i p, nth_error l i = Some p -> h' p = add_event (s_heap s p) (mk (length (s_trace s) + i) (e_id (s_heap s 1)) (s_heap s p))).
  Proof.
    induction l as [|x t IH]; intros N s Hh Hr; cbn [each map].
    - exists (s_heap s). split; [|split; auto; intros [|i] p X; discriminate X]. cbn. rewrite app_nil_r. now destruct s.
    - inversion N as [|? ? N1 N2]; subst. set (k := length (s_trace s)) in *.
      set (h1 := hset (s_heap s) x (add_event (s_heap s x) (mk k (e_id (s_heap s 1)) (s_heap s x)))).
      set (s1 := with_heap (with_trace s (s_trace s ++ [(KHook x CNew false, c_oracle cfg k)])) h1).
      assert (E : execHook cfg CNew false x s = (Done None, s1)).
      { unfold execHook, bind at 1, get. rewrite (Hh x) by (now left). unfold ecall_err, ecall, bind, ret, err_of. cbn [mutates]. fold k. rewrite !ok. unfold s1, h1.
        cbn [with_trace s_heap]. pose proof (Hr 0 x eq_refl (s_heap s)) as Z. rewrite Nat.add_0_r in Z. rewrite Z. reflexivity. }
      rewrite (andthen_none _ _ _ _ E).
      assert (K : length (s_trace s1) = S k) by (unfold s1; cbn; rewrite app_length; cbn; unfold k; lia).
      assert (I1 : e_id (h1 1) = e_id (s_heap s 1)) by (unfold h1, hset; destruct (Nat.eqb_spec 1 x) as [<-|]; reflexivity).
      assert (X1 : forall p, p <> x -> h1 p = s_heap s p) by (intros p Hp; unfold h1, hset; destruct (Nat.eqb_spec p x); [contradiction|reflexivity]).
      destruct (IH N2 s1) as (h' & A & B & C).
      { intros p Hp. unfold s1. cbn [with_heap s_heap]. rewrite X1 by (intros ->; contradiction). apply Hh. now right. }
      { intros i p X h. rewrite K. specialize (Hr (S i) p X h). rewrite Nat.add_succ_r in Hr. exact Hr. }
      exists h'. rewrite K in A, C. change (s_heap s1) with h1 in B, C. split; [|split].
      + rewrite A, answers_cons. unfold s1. cbn [with_heap with_trace s_trace s_heap s_cont s_pool s_actions s_output s_evctx s_errs s_tick]. rewrite <- app_assoc. reflexivity.
      + intros p Hp. rewrite B by (intros X; apply Hp; now right). apply X1. intros ->. apply Hp. now left.
      + intros [|i] p X; cbn in X.
        * injection X as <-. rewrite B by assumption. unfold h1, hset. rewrite Nat.eqb_refl, Nat.add_0_r. reflexivity.
        * rewrite (C i p X), I1, Nat.add_succ_r. rewrite X1; [reflexivity|]. intros ->. apply N1. eapply nth_error_In; eauto.
  Qed.
End Answered.

(* ------------------------------------------------------------ the statements *)
Lemma ta_get_app k a b : ta_get k (a ++ b) = match ta_get k a with Some x => Some x | None => ta_get k b end.
Proof. induction a as [|[k' x] t IH]; cbn; auto. destruct (tkey_eqb k k'); auto. Qed.
Lemma ta_set_end k v w a : ta_get k a = None -> ta_set k v (a ++ [(k, w)]) = a ++ [(k, v)].
Proof.
  induction a as [|[k' x] t IH]; cbn.
  - assert (E : tkey_eqb k k = true) by (destruct k as [[] n]; unfold tkey_eqb; cbn; apply Nat.eqb_refl). now rewrite E.
  - destruct (tkey_eqb k k'); [discriminate|]. intros H. now rewrite IH.
Qed.
Lemma ta_set_new k v a : ta_get k a = None -> ta_set k v a = a ++ [(k, v)].
Proof. induction a as [|[k' x] t IH]; cbn; auto. destruct (tkey_eqb k k'); [discriminate|]. intros H. now rewrite IH. Qed.
Lemma tkey_refl o n : tkey_eqb (o, n) (o, n) = true.
Proof. unfold tkey_eqb. cbn. rewrite Nat.eqb_refl. destruct o; reflexivity. Qed.
Lemma add_models_app cfg h pl a : forall b ta ty ta' ty', add_models cfg h pl a ta ty = MOk ta' ty' -> add_models cfg h pl (a ++ b) ta ty = add_models cfg h pl b ta' ty'.
Proof.
  induction a as [|[[o par] p] t IH]; intros b ta ty ta' ty' H; cbn [app add_models] in *; [now injection H as -> ->|].
  destruct (add_model cfg h pl o par p ta ty) as [ta1 ty1| |]; try discriminate. now apply IH.
Qed.
Lemma add_more cfg h pl par ty (md : ptr -> model) l : (forall p, In p l -> c_conv cfg h p (Some par) OpInsert = CModel (md p) /\ m_type (md p) = ty) ->
  forall ta ms types, ta_get (OpInsert, ty) ta = None ->
  add_models cfg h pl (map (fun p => (OpInsert, par, p)) l) (ta ++ [((OpInsert, ty), mkAction OpInsert ms [])]) types =
  MOk (ta ++ [((OpInsert, ty), mkAction OpInsert (ms ++ map md l) [])]) (types ++ map (fun _ => ty) l).
Proof.
  induction l as [|p t IH]; intros H ta ms types G; cbn [map add_models]; [now rewrite !app_nil_r|]. destruct (H p (or_introl eq_refl)) as [H1 H2].
  unfold add_model. rewrite H1, H2, ta_get_app, G. cbn [ta_get]. rewrite tkey_refl. cbn [a_models a_prev]. rewrite ta_set_end by assumption.
  rewrite IH by (auto; intros q Hq; apply H; now right). rewrite <- !app_assoc. reflexivity.
Qed.
Definition insert_of (ty : nat) (ms : list model) : list (tkey * action) := match ms with [] => [] | _ => [((OpInsert, ty), mkAction OpInsert ms [])] end.
Lemma add_all cfg h pl par ty (md : ptr -> model) l : (forall p, In p l -> c_conv cfg h p (Some par) OpInsert = CModel (md p) /\ m_type (md p) = ty) ->
  forall ta types, ta_get (OpInsert, ty) ta = None ->
  add_models cfg h pl (map (fun p => (OpInsert, par, p)) l) ta types = MOk (ta ++ insert_of ty (map md l)) (types ++ map (fun _ => ty) l).
Proof.
  destruct l as [|p t]; intros H ta types G; cbn [map add_models insert_of]; [now rewrite !app_nil_r|]. destruct (H p (or_introl eq_refl)) as [H1 H2].
  unfold add_model. rewrite H1, H2, G. rewrite ta_set_new by assumption. rewrite (add_more cfg h pl par ty md) by (auto; intros q Hq; apply H; now right). rewrite <- app_assoc. reflexivity.
Qed.
Lemma emit_none o ts ta : (forall t, In t ts -> ta_get (o, t) ta = None) -> emit o ts ta = [].
Proof. induction ts as [|t ts IH]; intros H; cbn; auto. rewrite (H t) by (now left). apply IH. intros u Hu. apply H. now right. Qed.
Lemma emit_skip o t A (l : list A) ts ta : ta_get (o, t) ta = None -> emit o (map (fun _ => t) l ++ ts) ta = emit o ts ta.
Proof. intros H. induction l as [|x l IH]; cbn; auto. now rewrite H. Qed.
Definition order_ops (m1 : model) (ms3 ms2 : list model) : list action := mkAction OpInsert [m1] [] :: map snd (insert_of 3 ms3) ++ map snd (insert_of 2 ms2).
Lemma actions_new cfg h pl IP CP m1 (md : ptr -> model) :
  c_conv cfg h 1 (Some 0) OpInsert = CModel m1 -> m_type m1 = 1 ->
  (forall p, In p CP -> c_conv cfg h p (Some 1) OpInsert = CModel (md p) /\ m_type (md p) = 3) ->
  (forall p, In p IP -> c_conv cfg h p (Some 1) OpInsert = CModel (md p) /\ m_type (md p) = 2) ->
  exists ta ty, make_actions cfg h pl (new_changes IP CP) = (MOk ta ty, order_ops m1 (map md CP) (map md IP)).
Proof.
  intros H1 H2 H3 H4. unfold make_actions, new_changes.
  assert (CI : change_items (mkChange CNew 0 meta_key [1] :: one_change CNew 1 "Coupons" CP ++ one_change CNew 1 "Items" IP) =
               map (fun p => (OpInsert, 0, p)) [1] ++ map (fun p => (OpInsert, 1, p)) CP ++ map (fun p => (OpInsert, 1, p)) IP).
  { unfold change_items, one_change. destruct CP, IP; cbn; rewrite ?app_nil_r; reflexivity. }
  rewrite CI. clear CI.
  assert (A1 : add_models cfg h pl (map (fun p => (OpInsert, 0, p)) [1]) [] [] = MOk [((OpInsert, 1), mkAction OpInsert [m1] [])] [1]).
  { rewrite (add_all cfg h pl 0 1 (fun _ => m1)); [reflexivity| |reflexivity]. intros p [<-|[]]. auto. }
  rewrite (add_models_app _ _ _ _ _ _ _ _ _ A1).
  pose proof (add_all cfg h pl 1 3 md CP H3 [((OpInsert, 1), mkAction OpInsert [m1] [])] [1] eq_refl) as A2. rewrite (add_models_app _ _ _ _ _ _ _ _ _ A2).
  rewrite (add_all cfg h pl 1 2 md IP H4); [|rewrite ta_get_app; unfold insert_of; destruct (map md CP); reflexivity].
  eexists. eexists. f_equal. set (TA := ([((OpInsert, 1), mkAction OpInsert [m1] [])] ++ insert_of 3 (map md CP)) ++ insert_of 2 (map md IP)).
  assert (NU : forall o ts, o <> OpInsert -> emit o ts TA = []).
  { intros o ts No. apply emit_none. intros t _. unfold TA. rewrite !ta_get_app. unfold insert_of. destruct o; [contradiction|..]; destruct (map md CP), (map md IP); reflexivity. }
  rewrite (NU OpUpdate), (NU OpDelete) by discriminate. rewrite !app_nil_r. unfold TA, order_ops. cbn [app].
  change (emit OpInsert (1 :: ?x) (((OpInsert, 1), ?a) :: ?y)) with (a :: emit OpInsert x y). cbn [app emit ta_get tkey_eqb op_eqb fst snd Nat.eqb andb ta_del]. f_equal.
  assert (S2 : forall (l : list ptr) ta, ta_get (OpInsert, 2) ta = None -> emit OpInsert (map (fun _ => 2) l) ta = []).
  { intros l ta G. apply emit_none. intros t Ht. apply in_map_iff in Ht. now destruct Ht as (x & <- & _). }
  assert (S3 : emit OpInsert (map (fun _ => 2) IP) (insert_of 2 (map md IP)) = map snd (insert_of 2 (map md IP))).
  { destruct IP as [|i it]; [reflexivity|]. cbn. f_equal. apply S2. reflexivity. }
  destruct CP as [|c ct]; cbn [map insert_of app snd]; [exact S3|]. cbn [emit ta_get tkey_eqb op_eqb fst snd Nat.eqb andb ta_del]. f_equal.
  rewrite emit_skip; [exact S3|]. unfold insert_of. destruct (map md IP); reflexivity.
Qed.

(* ------------------------------------------------------------ the command *)
(** pointer 1: the order; from 2 on its items, then its coupons *)
Definition item_ptrs (o : order) : list ptr := seq 2 (length (o_items o)).
Definition coupon_ptrs (o : order) : list ptr := seq (2 + length (o_items o)) (length (o_coupons o)).
Definition placed (o : order) (h : heap) : heap := fun p =>
  match p with
  | 0 => h 0
  | 1 => order_ent (o_id o) (o_dirty o) (o_user o) (zs (o_total o)) (o_remark o) (item_ptrs o) (coupon_ptrs o)
  | S (S k) => match nth_error (map item_ent (o_items o) ++ map coupon_ent (o_coupons o)) k with Some e => e | None => h p end
  end.
(** command/create_order.go 45-60 *)
Definition create_body (valid : order -> string -> bool) (u : string) (its : list item) (cs : list coupon) : body (option err) :=
  match newOrder valid u its cs with
  | None => BRet (Some (EUser 1))
  | Some o => BMut (placed o) (BAdd [1] (BSave (fun e => BRet e)))
  end.
(** the AfterCreate hooks (domain/order.go 80-83, sale_item.go 36-40, coupon.go 34-38): the event made by the [k]-th call *)
Definition created_event (evid : nat -> string) (tm : nat -> Z) (k : nat) (oid : string) (e : ent) : event :=
  match e_type e with
  | 1 => mkEvent (evid k) (sale_type (OrderCreated "")) SendNormal oid oid (tm k)
  | 2 => mkEvent (evid k) (sale_type (SaleItemAdded "" "")) SendNormal oid (e_id e) (tm k)
  | _ => mkEvent (evid k) (sale_type (CouponAdded "" "")) SendNormal oid (hd "" (e_data e)) (tm k)
  end.
(** Everything is answered: the id generator with the ids of the request, in the order in which the engine asks (order,
    coupons, items); the hooks of the entities in that order after the INSERTs. *)
Definition create_oracle (oid : string) (its : list item) (cs : list coupon) (evid : nat -> string) (tm : nat -> Z) (k : nat) : resp :=
  let ids := oid :: map k_id cs ++ map i_id its in
  let hooked := 1 :: seq (2 + length its) (length cs) ++ seq 2 (length its) in
  let first := 1 + length ids + (1 + match cs with [] => 0 | _ => 1 end + match its with [] => 0 | _ => 1 end) in
  mkResp AOk (fun h => match nth_error hooked (k - first) with Some p => hset h p (add_event (h p) (created_event evid tm k (e_id (h 1)) (h p))) | None => h end) (nth (k - 1) ids "") true.
Definition create_cfg (orc : nat -> resp) : config := mkConfig true false false BusTx None 0 sale_conv has_hook (fun _ => ord_id) (fun _ l => l) 20 orc.
Definition run_create (valid : order -> string -> bool) (oid u : string) (its : list item) (cs : list coupon) (evid : nat -> string) (tm : nat -> Z) : out result * st :=
  save (create_cfg (create_oracle oid its cs evid tm)) [] (create_body valid u its cs) (new_stage (start "")).

Section Run.
  Variables (oid : string) (its : list item) (cs : list coupon) (evid : nat -> string) (tm : nat -> Z) (o : order).
  Hypothesis (Eits : o_items o = its) (Ecs : o_coupons o = cs) (Eid : o_id o = "").
  Hypothesis evid_inj : forall i j, evid i = evid j -> i = j.
  Notation orc := (create_oracle oid its cs evid tm).
  Notation cfg := (create_cfg orc).
  Definition IP := seq 2 (length its).
  Definition CP := seq (2 + length its) (length cs).
  Lemma ptrs_nodup : NoDup (1 :: IP ++ CP).
  Proof. unfold IP, CP. rewrite <- (seq_app (length its) (length cs) 2). change (1 :: seq 2 ?n) with (seq 1 (S n)). apply seq_NoDup. Qed.
  Lemma ptrs_pos p : In p (IP ++ CP) -> 2 <= p.
  Proof. unfold IP, CP. rewrite <- (seq_app (length its) (length cs) 2). intros H. apply in_seq in H. lia. Qed.
  Definition h0 : heap := placed o (start "").
  Lemma h0_one : h0 1 = order_ent "" (o_dirty o) (o_user o) (zs (o_total o)) (o_remark o) IP CP.
  Proof. unfold h0, placed, item_ptrs, coupon_ptrs. rewrite Eits, Ecs, Eid. reflexivity. Qed.
  Lemma h0_item i x : nth_error its i = Some x -> h0 (2 + i) = item_ent x.
  Proof.
    intros H. unfold h0, placed. cbn [plus]. rewrite Eits, nth_error_app1; [|rewrite map_length; apply nth_error_Some; congruence]. rewrite nth_error_map, H. reflexivity.
  Qed.
  Lemma h0_coupon i x : nth_error cs i = Some x -> h0 (2 + length its + i) = coupon_ent x.
  Proof.
    intros H. unfold h0, placed. cbn [plus]. rewrite Eits, Ecs, nth_error_app2; rewrite map_length; [|lia]. replace (length its + i - length its) with i by lia. rewrite nth_error_map, H. reflexivity.
  Qed.
  Lemma h0_kids p : findChildren h0 [1] p = okids IP CP p.
  Proof.
    destruct p as [|[|k]]; [reflexivity| |].
    - unfold findChildren. cbn [Nat.eqb meta]. rewrite h0_one. reflexivity.
    - unfold findChildren. cbn [Nat.eqb meta okids]. unfold h0, placed. rewrite Eits, Ecs. destruct (nth_error _ k) as [e|] eqn:E; [|reflexivity].
      apply nth_error_In in E. apply in_app_iff in E. destruct E as [E|E]; apply in_map_iff in E; destruct E as (x & <- & _); reflexivity.
  Qed.
  (** a heap that differs from [h0] in ids, events and marks only *)
  Definition like (h : heap) : Prop := forall p, e_type (h p) = e_type (h0 p) /\ e_custom (h p) = e_custom (h0 p) /\ e_fields (h p) = e_fields (h0 p) /\ e_data (h p) = e_data (h0 p).
  Lemma like_kids h p : like h -> findChildren h [1] p = okids IP CP p.
  Proof. intros L. rewrite <- h0_kids. unfold findChildren. destruct (Nat.eqb p meta); auto. unfold findChildren_ent. destruct (L p) as (_ & -> & -> & _). reflexivity. Qed.
  Lemma item_type i : i < length its -> e_type (h0 (2 + i)) = 2.
  Proof. intros H. destruct (nth_error its i) as [x|] eqn:E; [|apply nth_error_None in E; lia]. now rewrite (h0_item i x E). Qed.
  Lemma coupon_type i : i < length cs -> e_type (h0 (2 + length its + i)) = 3.
  Proof. intros H. destruct (nth_error cs i) as [x|] eqn:E; [|apply nth_error_None in E; lia]. now rewrite (h0_coupon i x E). Qed.
  Lemma child_type p : (In p IP -> e_type (h0 p) = 2) /\ (In p CP -> e_type (h0 p) = 3).
  Proof.
    split; intros H; apply in_seq in H.
    - replace p with (2 + (p - 2)) by lia. apply item_type. lia.
    - replace p with (2 + length its + (p - 2 - length its)) by lia. apply coupon_type. lia.
  Qed.

  Lemma walk_like s : like (s_heap s) -> ct_roots (s_cont s) = [1] -> walk_from cfg meta s = (Done ((0, None) :: (1, @Some ptr 0) :: map (fun p => (p, @Some ptr 1)) (IP ++ CP)), tick s).
  Proof.
    intros L R. unfold walk_from, bind, get, upd, ret. cbn [create_cfg c_ord c_fuel]. rewrite (walk_ext ord_id (kids_now s) (okids IP CP)).
    - rewrite walk_new; [reflexivity|apply ptrs_pos].
    - intros q. unfold kids_now. rewrite R. now apply like_kids.
  Qed.
  Lemma cfg_orders : orders_ok cfg.
  Proof. split; intros; cbn; [intros ? ?; apply Permutation.Permutation_refl|apply Permutation.Permutation_refl]. Qed.
  Lemma cfg_total : conv_total cfg.
  Proof. intros h p par. cbn. unfold sale_conv. destruct (e_type (h p)) as [|[|[|[|n]]]]; auto. Qed.
  Lemma oracle_ok n : r_ans (c_oracle cfg n) = AOk.
  Proof. reflexivity. Qed.

  (** the first save *)
  Definition order_list : list ptr := 1 :: CP ++ IP.
  Lemma flat_new : flat_map ch_kids (new_changes IP CP) = order_list.
  Proof. unfold new_changes, one_change, order_list. destruct CP, IP; cbn; rewrite ?app_nil_r; reflexivity. Qed.
  Lemma all_new ch : In ch (new_changes IP CP) -> ch_type ch = CNew.
  Proof. unfold new_changes, one_change. destruct CP, IP; cbn; intros H; repeat (destruct H as [<-|H]; [reflexivity|]); contradiction. Qed.
  Lemma order_nodup : NoDup order_list.
  Proof.
    pose proof ptrs_nodup as H. inversion H as [|? ? N1 N2]; subst. constructor; [intros X; apply N1; apply in_app_iff in X; apply in_app_iff; tauto|].
    apply (Permutation.Permutation_NoDup (Permutation.Permutation_app_comm IP CP)); auto.
  Qed.

  (** the ids the entities get *)
  Definition ids : list string := oid :: map k_id cs ++ map i_id its.
  Definition id_of (p : ptr) : string := if p =? 1 then oid else if p <? 2 + length its then nth (p - 2) (map i_id its) "" else nth (p - 2 - length its) (map k_id cs) "".
  Lemma ids_length : length ids = length order_list.
  Proof. unfold ids, order_list, CP, IP. cbn. now rewrite !app_length, !map_length, !seq_length. Qed.
  Lemma id_at i p : nth_error order_list i = Some p -> nth i ids "" = id_of p.
  Proof.
    unfold order_list, ids. destruct i as [|i]; cbn [nth_error nth]; [intros [= <-]; reflexivity|]. intros H.
    destruct (Nat.lt_ge_cases i (length cs)) as [L|L].
    - rewrite nth_error_app1 in H by (unfold CP; rewrite seq_length; exact L). rewrite app_nth1 by (rewrite map_length; exact L).
      assert (E : p = 2 + length its + i) by (unfold CP in H; apply (nth_error_nth _ _ 0) in H; rewrite seq_nth in H by exact L; lia). subst p.
      unfold id_of. destruct (Nat.eqb_spec (2 + length its + i) 1); [lia|]. destruct (Nat.ltb_spec (2 + length its + i) (2 + length its)); [lia|]. f_equal. lia.
    - rewrite nth_error_app2 in H by (unfold CP; rewrite seq_length; exact L). unfold CP in H. rewrite seq_length in H. rewrite app_nth2 by (rewrite map_length; exact L). rewrite map_length.
      assert (L2 : i - length cs < length its) by (assert (X : nth_error IP (i - length cs) <> None) by congruence; apply nth_error_Some in X; unfold IP in X; now rewrite seq_length in X).
      assert (E : p = 2 + (i - length cs)) by (unfold IP in H; apply (nth_error_nth _ _ 0) in H; rewrite seq_nth in H by exact L2; lia). subst p.
      unfold id_of. destruct (Nat.eqb_spec (2 + (i - length cs)) 1); [lia|]. destruct (Nat.ltb_spec (2 + (i - length cs)) (2 + length its)); [|lia]. f_equal. lia.
  Qed.
  Lemma in_nth (l : list ptr) p : In p l -> exists i, nth_error l i = Some p.
  Proof. intros H. apply In_nth_error in H. exact H. Qed.

  (** the models written *)
  Definition model_of (p : ptr) : model := mkModel (e_type (h0 p)) (id_of p) (oid :: e_data (h0 p)).
  Definition m1 : model := mkModel 1 oid [o_user o; zs (o_total o); if String.eqb (o_remark o) "" then "-" else o_remark o].
  Definition acts : list action := order_ops m1 (map model_of CP) (map model_of IP).
  Definition first_hook : nat := 1 + length ids + length acts.
  Lemma acts_length : length acts = 1 + match cs with [] => 0 | _ => 1 end + match its with [] => 0 | _ => 1 end.
  Proof. unfold acts, order_ops, insert_of, CP, IP. cbn [length]. destruct cs, its; reflexivity. Qed.
  Definition ev_at (i : nat) (p : ptr) : event := created_event evid tm (first_hook + i) oid (set_id (h0 p) (id_of p)).
  Definition after_ids (h : heap) : Prop := forall p, h p = if memb p order_list then set_id (h0 p) (id_of p) else h0 p.
  Lemma after_like h : after_ids h -> like h.
  Proof. intros A p. rewrite (A p). destruct (memb p order_list); cbn; auto. Qed.
  Lemma conv_one h : after_ids h -> sale_conv h 1 (Some 0) OpInsert = CModel m1.
  Proof. intros A. unfold sale_conv. rewrite (A 1). cbn [memb order_list Nat.eqb orb]. rewrite h0_one. cbn. reflexivity. Qed.
  Lemma conv_child h p : after_ids h -> In p (IP ++ CP) -> sale_conv h p (Some 1) OpInsert = CModel (model_of p).
  Proof.
    intros A Hp. assert (M : memb p order_list = true) by (apply memb_In; right; apply in_app_iff in Hp; apply in_app_iff; tauto).
    assert (T1 : e_type (h 1) = 1 /\ e_id (h 1) = oid) by (rewrite (A 1); cbn [memb order_list Nat.eqb orb]; rewrite h0_one; split; reflexivity). destruct T1 as [T1 T2].
    unfold sale_conv. rewrite T1, T2. cbn [Nat.eqb]. rewrite (A p), M. unfold model_of. cbn [set_id e_type e_id e_data].
    destruct (child_type p) as [C1 C2]. apply in_app_iff in Hp. destruct Hp as [Hp|Hp]; [rewrite (C1 Hp)|rewrite (C2 Hp)]; reflexivity.
  Qed.

  Definition begun : st := mkSt h0 (mkCont [1] []) (fun _ => None) [] None false [] 0 [(KBegin, orc 0)].
  Definition trace1 : list (call * resp) := ((((KBegin, orc 0) :: answers cfg 1 (map (fun _ => KNewID) order_list)) ++ answers cfg (1 + length ids) (map KExec acts)) ++ answers cfg first_hook (map (fun p => KHook p CNew false) order_list)).
  Definition created (h : heap) : Prop := forall p, (~ In p order_list -> h p = h0 p) /\ (forall i, nth_error order_list i = Some p -> h p = add_event (set_id (h0 p) (id_of p)) (ev_at i p)).
  Lemma changed_begun : changed cfg begun = (Done (inr (new_changes IP CP)), tick begun).
  Proof.
    apply changed_run. rewrite (gec_ext _ _ (okids IP CP)) by (intros q; apply h0_kids). apply changed_new; [apply ptrs_nodup|apply ptrs_pos].
  Qed.
  Lemma persist_new : exists h2, persist cfg begun = (Done None, mkSt h2 (mkCont [1] []) (fun _ => None) acts None false [] 1 trace1) /\ created h2.
  Proof.
    unfold persist.
    pose proof changed_begun as C.
    unfold bind at 1. rewrite C. cbv beta iota.
    assert (HB : hooks cfg true (new_changes IP CP) (tick begun) = (Done None, tick begun)).
    { unfold hooks. apply each_none. intros ch Hch s. apply each_none. intros p _ s'. unfold execHook, bind, get. rewrite (all_new ch Hch). reflexivity. }
    rewrite (andthen_none _ _ _ _ HB).
    assert (PN : forall s, putNewID cfg (new_changes IP CP) s = each (putID cfg) order_list s).
    { intros s. unfold putNewID. rewrite <- flat_new, <- each_flat. apply each_ext. intros ch Hch s'. now rewrite (all_new ch Hch). }
    destruct (ids_run cfg oracle_ok order_list order_nodup (tick begun)) as (h1 & P1 & P2 & P3).
    { intros p Hp. cbn [begun tick with_tick s_heap]. destruct Hp as [<-|Hp]; [now rewrite h0_one|]. apply in_app_iff in Hp. destruct Hp as [Hp|Hp]; apply in_seq in Hp.
      - replace p with (2 + length its + (p - 2 - length its)) by lia. destruct (nth_error cs (p - 2 - length its)) as [x|] eqn:E; [|apply nth_error_None in E; lia]. now rewrite (h0_coupon _ x E).
      - replace p with (2 + (p - 2)) by lia. destruct (nth_error its (p - 2)) as [x|] eqn:E; [|apply nth_error_None in E; lia]. now rewrite (h0_item _ x E). }
    rewrite <- PN in P1. rewrite (andthen_none _ _ _ _ P1).
    assert (A1 : after_ids h1).
    { intros p. destruct (memb p order_list) eqn:M.
      - apply memb_In in M. destruct (in_nth _ _ M) as (i & Hi). rewrite (P3 i p Hi). cbn [begun tick with_tick s_heap s_trace length]. f_equal. cbn [create_cfg c_oracle create_oracle r_id]. change (1 + i - 1) with (S i - 1). rewrite Nat.sub_succ, Nat.sub_0_r. now apply id_at.
      - apply memb_nIn in M. now apply P2. }
    set (s2 := with_heap _ h1).
    assert (MA : makeActions cfg (new_changes IP CP) s2 = (Done (inr acts), s2)).
    { unfold makeActions, bind, get, ret. change (s_heap s2) with h1.
      destruct (actions_new cfg h1 (s_pool s2) IP CP m1 model_of) as (ta & ty & E).
      - cbn. now apply conv_one.
      - reflexivity.
      - intros p Hp. split; [apply conv_child; auto; apply in_app_iff; auto|]. apply (child_type p); auto.
      - intros p Hp. split; [apply conv_child; auto; apply in_app_iff; auto|]. apply (child_type p); auto.
      - rewrite E. reflexivity. }
    unfold bind at 1. rewrite MA. cbv beta iota.
    assert (L2 : length (s_trace s2) = 1 + length ids).
    { unfold s2. cbn [with_heap with_trace s_trace begun tick with_tick]. rewrite app_length, answers_length, map_length, ids_length. reflexivity. }
    assert (EX : exec cfg acts s2 = (Done None, with_actions (with_trace s2 (s_trace s2 ++ answers cfg (1 + length ids) (map KExec acts))) acts)).
    { unfold exec. cbn [create_cfg c_dry]. rewrite <- L2. rewrite (andthen_none _ _ _ _ (calls_run cfg oracle_ok KExec acts (fun x _ => eq_refl) s2)). reflexivity. }
    rewrite (andthen_none _ _ _ _ EX).
    set (s3 := with_actions _ acts).
    assert (L3 : length (s_trace s3) = first_hook).
    { unfold s3. cbn [with_actions with_trace s_trace]. rewrite app_length, L2, answers_length, map_length. reflexivity. }
    assert (HS : forall s, hooks cfg false (new_changes IP CP) s = each (execHook cfg CNew false) order_list s).
    { intros s. unfold hooks. rewrite <- flat_new, <- each_flat. apply each_ext. intros ch Hch s'. now rewrite (all_new ch Hch). }
    assert (Hs3 : s_heap s3 = h1) by reflexivity.
    destruct (hooks_run cfg oracle_ok (created_event evid tm) order_list order_nodup s3) as (h2 & Q1 & Q2 & Q3).
    { intros p Hp. rewrite Hs3. destruct (after_like h1 A1 p) as (-> & _). cbn [create_cfg c_hooks]. destruct Hp as [<-|Hp]; [now rewrite h0_one|]. destruct (child_type p) as [C1 C2].
      apply in_app_iff in Hp. destruct Hp as [Hp|Hp]; [rewrite (C2 Hp)|rewrite (C1 Hp)]; reflexivity. }
    { intros i p Hi h. rewrite L3.
      assert (X : forall k, r_heap (c_oracle cfg k) h = match nth_error order_list (k - (1 + length ids + (1 + match cs with [] => 0 | _ => 1 end + match its with [] => 0 | _ => 1 end))) with
                            | Some q => hset h q (add_event (h q) (created_event evid tm k (e_id (h 1)) (h q))) | None => h end) by reflexivity.
      rewrite X, <- acts_length. fold first_hook. replace (first_hook + i - first_hook) with i by lia. rewrite Hi. reflexivity. }
    exists h2. split.
    - rewrite <- HS in Q1. rewrite (andthen_none _ _ _ _ Q1). unfold recycle, bind, upd, ret. rewrite L3.
      cbn [with_heap with_trace with_cont s_cont s_heap s_trace s_pool s_actions s_output s_evctx s_errs s_tick].
      unfold s3, s2. cbn [with_actions with_heap with_trace s_trace s_cont s_pool s_output s_evctx s_errs s_tick tick with_tick begun]. unfold recycle_list.
      assert (R : flat_map (fun ch => match ch_type ch with CDelete => ch_kids ch | _ => [] end) (new_changes IP CP) = []).
      { unfold new_changes, one_change. destruct CP, IP; reflexivity. }
      rewrite R. cbn [ct_roots ct_deleted app]. reflexivity.
    - intros p. split.
      + intros N. rewrite (Q2 p N), Hs3, (A1 p). rewrite (proj2 (memb_nIn _ _) N). reflexivity.
      + intros i Hi. rewrite (Q3 i p Hi), Hs3, L3. assert (M : memb p order_list = true) by (apply memb_In; eapply nth_error_In; eauto). rewrite (A1 p), M. unfold ev_at.
        rewrite (A1 1). cbn [memb order_list Nat.eqb orb]. reflexivity.
  Qed.

  Lemma created_like h : created h -> like h.
  Proof.
    intros C p. destruct (C p) as [C1 C2]. destruct (memb p order_list) eqn:M.
    - apply memb_In in M. destruct (in_nth _ _ M) as (i & Hi). rewrite (C2 i Hi). cbn; auto.
    - apply memb_nIn in M. rewrite (C1 M). auto.
  Qed.
  Lemma like_undirty h ps : like h -> like (undirty_all h ps).
  Proof. intros L p. unfold undirty_all. destruct (memb p ps); [cbn|]; apply L. Qed.
  Lemma save_new : exists h3 pl t, repo_save cfg begun = (Done None, mkSt h3 (mkCont [1] []) pl acts None false [] t trace1) /\ like h3 /\
    (forall i p, nth_error order_list i = Some p -> e_id (h3 p) = id_of p /\ e_events (h3 p) = e_events (h0 p) ++ [ev_at i p]) /\ clean cfg (mkSt h3 (mkCont [1] []) pl acts None false [] t trace1).
  Proof.
    destruct persist_new as (h2 & P & C). pose proof (created_like h2 C) as L.
    set (s1 := mkSt h2 _ _ _ _ _ _ _ _) in P.
    assert (F : exists pl, flush cfg s1 = (Done None, with_pool (tick s1) pl)).
    { unfold flush, updateSnapshot. unfold bind at 1, upd. unfold bind at 1. rewrite (walk_like (with_pool s1 (fun _ => None))) by (auto). unfold bind, get, upd, ret.
      cbn [tick with_tick with_pool s_heap s_cont s_pool].
      match goal with |- context [snap_list ?c ?h ?r ?q ?l] => destruct (snap_list_total c h r cfg_total l q) as (pl' & S); rewrite S end. exists pl'. reflexivity. }
    destruct F as (pl & F).
    assert (U : unDirty cfg (with_pool (tick s1) pl) = (Done tt, with_heap (tick (with_pool (tick s1) pl)) (undirty_all h2 (0 :: 1 :: IP ++ CP)))).
    { unfold unDirty. unfold bind at 1. rewrite (walk_like (with_pool (tick s1) pl)) by auto. unfold upd. do 3 f_equal. cbn [map fst]. do 2 f_equal. rewrite map_map. cbn. now rewrite map_id. }
    assert (CM : commit cfg begun = (Done None, mkSt (undirty_all h2 (0 :: 1 :: IP ++ CP)) (mkCont [1] []) pl acts None false [] 3 trace1)).
    { unfold commit. rewrite (andthen_none _ _ _ _ P). rewrite (andthen_none _ _ _ _ F). unfold bind. rewrite U. reflexivity. }
    exists (undirty_all h2 (0 :: 1 :: IP ++ CP)), pl, 3. split; [|split; [now apply like_undirty|split; [|eapply commit_clean; [apply cfg_orders|exact CM]]]].
    - unfold repo_save, bind at 1, get. exact CM.
    - intros i p Hi. destruct (C p) as [_ C2]. specialize (C2 i Hi). unfold undirty_all. destruct (memb p _); cbn [set_dirty e_id e_events]; rewrite C2; auto.
  Qed.

  (** the events *)
  Definition pos (p : ptr) : nat := if p =? 1 then 0 else if p <? 2 + length its then 1 + length cs + (p - 2) else 1 + (p - 2 - length its).
  Lemma pos_at p : In p (1 :: IP ++ CP) -> nth_error order_list (pos p) = Some p.
  Proof.
    intros [<-|H]; [reflexivity|]. assert (P := ptrs_pos p H). unfold pos, order_list. destruct (Nat.eqb_spec p 1); [lia|].
    assert (SN : forall a n i, i < n -> nth_error (seq a n) i = Some (a + i)) by (intros a n0 i Hi; rewrite (nth_error_nth' _ 0) by (now rewrite seq_length); f_equal; now apply seq_nth).
    apply in_app_iff in H. unfold IP, CP in *. destruct H as [H|H]; apply in_seq in H.
    - destruct (Nat.ltb_spec p (2 + length its)); [|lia]. cbn [nth_error plus]. rewrite nth_error_app2 by (rewrite seq_length; lia). rewrite seq_length. rewrite SN by lia. f_equal. lia.
    - destruct (Nat.ltb_spec p (2 + length its)); [lia|]. cbn [nth_error plus]. rewrite nth_error_app1 by (rewrite seq_length; lia). rewrite SN by lia. f_equal. lia.
  Qed.
  Definition events : list event := map (fun p => ev_at (pos p) p) (1 :: IP ++ CP).
  Lemma quiet_start p : In p (1 :: IP ++ CP) -> e_events (h0 p) = [].
  Proof.
    intros [<-|H]; [now rewrite h0_one|]. apply in_app_iff in H. unfold IP, CP in *. destruct H as [H|H]; apply in_seq in H.
    - replace p with (2 + (p - 2)) by lia. destruct (nth_error its (p - 2)) as [x|] eqn:E; [|apply nth_error_None in E; lia]. now rewrite (h0_item _ x E).
    - replace p with (2 + length its + (p - 2 - length its)) by lia. destruct (nth_error cs (p - 2 - length its)) as [x|] eqn:E; [|apply nth_error_None in E; lia]. now rewrite (h0_coupon _ x E).
  Qed.
  Lemma events_collected h : (forall i p, nth_error order_list i = Some p -> e_id (h p) = id_of p /\ e_events (h p) = e_events (h0 p) ++ [ev_at i p]) -> events_of h (1 :: IP ++ CP) = events.
  Proof.
    intros H. unfold events_of, events. assert (G : forall l, (forall p, In p l -> In p (1 :: IP ++ CP)) -> flat_map (fun p => e_events (h p)) l = map (fun p => ev_at (pos p) p) l); [|apply G; auto].
    induction l as [|p t IH]; intros Hl; cbn [flat_map map]; auto. rewrite IH by (intros; apply Hl; now right). destruct (H (pos p) p) as [_ ->]; [apply pos_at, Hl; now left|].
    rewrite quiet_start by (apply Hl; now left). reflexivity.
  Qed.
  Lemma created_id k oi e : ev_id (created_event evid tm k oi e) = evid k.
  Proof. unfold created_event. destruct (e_type e) as [|[|[|n]]]; reflexivity. Qed.
  Lemma events_distinct : NoDup (map ev_id events).
  Proof.
    unfold events. rewrite map_map. assert (G : forall l, NoDup l -> (forall p, In p l -> In p (1 :: IP ++ CP)) -> NoDup (map (fun p => ev_id (ev_at (pos p) p)) l)); [|apply G; auto; apply ptrs_nodup].
    induction l as [|p t IH]; intros N Hl; cbn [map]; constructor; inversion N as [|? ? N1 N2]; subst.
    - intros X. apply in_map_iff in X. destruct X as (q & E & Hq). unfold ev_at in E. rewrite !created_id in E. apply evid_inj in E. assert (E' : pos q = pos p) by lia.
      pose proof (pos_at q (Hl q (or_intror Hq))) as Q1. pose proof (pos_at p (Hl p (or_introl eq_refl))) as Q2. rewrite E', Q2 in Q1. injection Q1 as ->. auto.
    - apply IH; auto. intros q Hq. apply Hl. now right.
  Qed.
  Lemma put_all l : forall acc, NoDup (map ev_id (acc ++ l)) -> fold_left (fun a e => ev_put e a) l acc = acc ++ l.
  Proof.
    assert (P : forall e acc, ~ In (ev_id e) (map ev_id acc) -> ev_put e acc = acc ++ [e]).
    { induction acc as [|x t IH]; cbn; auto. intros H. destruct (String.eqb_spec (ev_id x) (ev_id e)); [exfalso; auto|]. rewrite IH; auto. }
    induction l as [|e t IH]; intros acc N; cbn [fold_left]; [now rewrite app_nil_r|]. rewrite P.
    - rewrite IH; [now rewrite <- app_assoc|]. now rewrite <- app_assoc.
    - rewrite map_app in N. cbn in N. apply NoDup_remove_2 in N. intros X. apply N. apply in_app_iff. auto.
  Qed.
  Lemma collect_new s : like (s_heap s) -> s_cont s = mkCont [1] [] -> events_of (s_heap s) (1 :: IP ++ CP) = events ->
    collectEvents cfg s = (Done (isort ev_leb events), tick (tick s)).
  Proof.
    intros L R E. unfold collectEvents. unfold bind at 1. rewrite (walk_like s) by (auto; now rewrite R). unfold bind, get, upd, ret.
    cbn [tick with_tick s_cont]. rewrite R. cbn [ct_deleted walk_all]. unfold ret. cbn [s_heap s_tick].
    match goal with |- context [filter ?f ?l] => assert (F : filter f l = 1 :: IP ++ CP) end.
    { cbn [map fst]. rewrite map_map. cbn [fst]. rewrite map_id. cbn [filter meta Nat.eqb negb]. f_equal. apply filter_true. intros p Hp. apply ptrs_pos in Hp. unfold meta. destruct p; [lia|reflexivity]. }
    rewrite F, app_nil_r. change (s_heap (tick s)) with (s_heap s). rewrite E. rewrite put_all by (cbn; apply events_distinct). reflexivity.
  Qed.

  Definition dispatched : list event := isort ev_leb events.
  Lemma dispatched_some : exists v t, dispatched = v :: t.
  Proof.
    destruct dispatched as [|v t] eqn:E; [|eauto]. assert (X : length dispatched = length events) by (apply Permutation.Permutation_length, isort_perm). rewrite E in X. discriminate X.
  Qed.
  Lemma publish_normal evs e t s : evs = e :: t -> filter is_tx evs = [] -> filter (fun e => negb (is_tx e)) evs = evs -> (forall n, r_ans (c_oracle cfg n) = AOk) ->
    publish cfg evs s = (Done (cur_result s), with_trace s (s_trace s ++ [(KDispatch evs, orc (length (s_trace s)))])).
  Proof.
    intros E N1 N2 Ok. assert (D : dispatchEvents cfg evs s = (Done None, with_trace s (s_trace s ++ [(KDispatch evs, orc (length (s_trace s)))]))).
    { unfold dispatchEvents. cbn [create_cfg c_dry c_tx negb c_bus]. rewrite N1, N2. rewrite (andthen_none _ _ s s) by reflexivity. subst evs. rewrite (call_run cfg Ok (KDispatch (e :: t)) s eq_refl). reflexivity. }
    subst evs. unfold publish. cbn [create_cfg c_persist c_bus]. unfold bind at 1, ret at 1. unfold bind at 1. rewrite D. reflexivity.
  Qed.
  Lemma dispatched_normal : filter is_tx dispatched = [] /\ filter (fun e => negb (is_tx e)) dispatched = dispatched.
  Proof.
    assert (N : forall e, In e dispatched -> is_tx e = false).
    { intros e He. apply (Permutation.Permutation_in _ (isort_perm ev_leb events)) in He. unfold events in He. apply in_map_iff in He. destruct He as (p & <- & _). unfold ev_at, created_event, is_tx. destruct (e_type _) as [|[|[|n]]]; reflexivity. }
    split; [|apply filter_true; intros e He; now rewrite (N e He)]. induction dispatched as [|e t IH]; cbn; auto. rewrite (N e) by (now left). apply IH. intros x Hx. apply N. now right.
  Qed.
  Lemma do_new valid u : newOrder valid u its cs = Some o -> exists s4, do_ cfg (create_body valid u its cs) (with_trace (new_stage (start "")) [(KBegin, orc 0)]) = (Done (mkResult None false acts None), s4) /\
    s_evctx s4 = false /\ s_trace s4 = trace1 ++ [(KDispatch dispatched, orc (length trace1))] /\ e_id (s_heap s4 1) = oid.
  Proof.
    intros NO. destruct save_new as (h3 & pl & t & S & L & Ev & Cl). set (s3 := mkSt h3 _ pl acts None false [] t trace1) in S, Cl.
    assert (B : run_body cfg (create_body valid u its cs) (with_trace (new_stage (start "")) [(KBegin, orc 0)]) = (Done None, s3)).
    { unfold create_body. rewrite NO. cbn [run_body]. unfold bind at 1, upd. unfold bind at 1.
      assert (A : repo_add [1] (with_heap (with_trace (new_stage (start "")) [(KBegin, orc 0)]) (placed o (s_heap (with_trace (new_stage (start "")) [(KBegin, orc 0)])))) = (Done tt, begun)) by reflexivity.
      rewrite A. unfold bind. rewrite S. reflexivity. }
    unfold do_. unfold bind at 1. rewrite B. cbv beta iota. unfold bind at 1, get. change (repo_error s3) with (@None err). cbv beta iota.
    assert (P : persist cfg s3 = (Done None, mkSt h3 (mkCont [1] []) pl acts None false [] (Datatypes.S t) trace1)).
    { destruct (clean_persist cfg s3 Cl) as [P|P]; rewrite P; unfold s3, tick; cbn [with_cont with_actions with_tick s_heap s_cont s_pool s_actions s_output s_evctx s_errs s_tick s_trace ct_roots ct_deleted]; now rewrite ?app_nil_r. }
    unfold bind at 1. rewrite P. cbv beta iota. unfold bind at 1.
    rewrite (collect_new (mkSt h3 (mkCont [1] []) pl acts None false [] (Datatypes.S t) trace1) L eq_refl (events_collected h3 Ev)). cbv beta iota. fold dispatched.
    set (s5 := tick (tick _)). destruct dispatched_some as (v & r & D). destruct dispatched_normal as [N1 N2].
    exists (with_trace s5 (trace1 ++ [(KDispatch dispatched, orc (length trace1))])). split; [|split; [reflexivity|split; [reflexivity|]]].
    - rewrite (publish_normal dispatched v r s5 D N1 N2 oracle_ok). reflexivity.
    - change (e_id (h3 1) = oid). destruct (Ev 0 1 eq_refl) as [E _]. exact E.
  Qed.
  Lemma obs_create valid u : newOrder valid u its cs = Some o ->
    obs (run_create valid oid u its cs evid tm) = Some (None, acts, [dispatched]) /\ e_id (s_heap (snd (run_create valid oid u its cs evid tm)) 1) = oid.
  Proof.
    intros NO. destruct (do_new valid u NO) as (s4 & D & Ec & Tr & Id).
    assert (R : run_create valid oid u its cs evid tm = (Done (mkResult None false acts None), with_trace s4 (s_trace s4 ++ [(KCommit, orc (length (s_trace s4)))]))).
    { unfold run_create, save. cbn [create_cfg c_tx]. unfold bind at 1. unfold in_tx. unfold bind at 1. rewrite (call_run cfg oracle_ok KBegin (new_stage (start "")) eq_refl). cbn [new_stage s_trace length app].
      unfold on_panic. unfold bind at 1. change (c_oracle cfg 0) with (orc 0). rewrite D. cbn [bad res_err res_break]. unfold bind at 1. rewrite (call_run cfg oracle_ok KCommit s4 eq_refl). unfold bind, bus_call, bind, get, ret. cbn [create_cfg c_bus with_trace s_evctx]. rewrite Ec. reflexivity. }
    rewrite R. split; [|cbn [snd with_trace s_heap]; exact Id]. unfold obs. cbn [fst snd res_err with_trace s_trace]. rewrite Tr. do 2 f_equal.
    - f_equal. rewrite !execs_app. unfold trace1. rewrite !execs_app.
      assert (X : forall k (f : ptr -> call) l, (forall p, match f p with KExec _ => False | _ => True end) -> execs (answers cfg k (map f l)) = []).
      { intros k f l H. revert k. induction l as [|p q IH]; intros k; [reflexivity|]. cbn [map]. rewrite answers_cons. cbn [execs flat_map fst]. specialize (H p). destruct (f p); try contradiction; apply IH. }
      assert (Y : forall k l, execs (answers cfg k (map KExec l)) = l).
      { intros k l. revert k. induction l as [|a q IH]; intros k; [reflexivity|]. cbn [map]. rewrite answers_cons. cbn [execs flat_map fst app]. f_equal. apply IH. }
      change (execs ((KBegin, orc 0) :: ?l)) with (execs l). rewrite !X by (intros; exact Logic.I). rewrite Y. cbn. now rewrite !app_nil_r.
    - rewrite !flat_map_app.
      assert (X : forall A (f : A -> call), (forall p, match f p with KDispatch _ => False | _ => True end) -> forall l k, flat_map (fun c => match fst c with KDispatch l => [l] | _ => [] end) (answers cfg k (map f l)) = []).
      { intros A f H. induction l as [|p q IH]; intros k; [reflexivity|]. cbn [map]. rewrite answers_cons. cbn [flat_map fst]. specialize (H p). destruct (f p); try contradiction; apply IH. }
      unfold trace1. rewrite !flat_map_app. cbn [flat_map fst app]. rewrite !X by (intros; exact Logic.I). reflexivity.
  Qed.
End Run.

(* ------------------------------------------------------------ MySQL's side *)
Lemma in_cons_old x a old : str_in x (a :: old) = String.eqb x a || str_in x old.
Proof. reflexivity. Qed.
Lemma keys_ok_spec new : forall old, keys_ok old new = str_nodup new && forallb (fun x => negb (str_in x old)) new.
Proof.
  induction new as [|x t IH]; intros old; [reflexivity|]. cbn [keys_ok str_nodup forallb]. rewrite IH. change (existsb (String.eqb x) old) with (str_in x old).
  assert (F : forallb (fun y => negb (str_in y (x :: old))) t = negb (str_in x t) && forallb (fun y => negb (str_in y old)) t).
  { clear IH. induction t as [|y t IHt]; [reflexivity|]. cbn [forallb]. rewrite IHt, !in_cons_old. rewrite (String.eqb_sym y x). destruct (String.eqb x y), (str_in x t), (str_in y old), (forallb (fun y => negb (str_in y old)) t); reflexivity. }
  rewrite F. destruct (str_in x old), (str_in x t), (str_nodup t), (forallb (fun y => negb (str_in y old)) t); reflexivity.
Qed.
Lemma insert_group ty ms rest t : (forall m, In m ms -> m_type m = ty) ->
  if keys_ok (map fst (t ty)) (map m_id ms)
  then exists t', (forall k, t' k = if k =? ty then t ty ++ map to_row ms else t k) /\ x_execs (fun _ => true) (map snd (insert_of ty ms) ++ rest) t = x_execs (fun _ => true) rest t'
  else x_execs (fun _ => true) (map snd (insert_of ty ms) ++ rest) t = None.
Proof.
  intros H. destruct ms as [|m ms].
  - cbn. exists t. split; [|reflexivity]. intros k. destruct (Nat.eqb_spec k ty); [subst; now rewrite app_nil_r|reflexivity].
  - rewrite keys_ok_spec. cbn [insert_of map snd app x_execs x_exec a_op a_models]. unfold x_insert.
    assert (A : forallb (fun m0 => m_type m0 =? m_type m) (m :: ms) = true) by (apply forallb_forall; intros x Hx; apply Nat.eqb_eq; rewrite (H x Hx), (H m); auto; now left).
    rewrite A. cbn [negb]. rewrite (H m) by (now left).
    assert (B : forallb (fun m0 => negb (str_in (m_id m0) (map fst (t ty)))) (m :: ms) = forallb (fun x => negb (str_in x (map fst (t ty)))) (map m_id (m :: ms))).
    { clear. induction (m :: ms) as [|x l IH]; [reflexivity|]. cbn [map forallb]. now rewrite IH. }
    rewrite B. change (m_id m :: map m_id ms) with (map m_id (m :: ms)). destruct (str_nodup (map m_id (m :: ms)) && _); [|reflexivity].
    eexists. split; [|reflexivity]. intros k. unfold tset. reflexivity.
Qed.
Lemma map_seq {A B} (f : nat -> B) (g : A -> B) l : forall a, (forall j x, nth_error l j = Some x -> f (a + j) = g x) -> map f (seq a (length l)) = map g l.
Proof.
  induction l as [|x t IH]; intros a H; cbn [length seq map]; [reflexivity|]. rewrite <- (Nat.add_0_r a) at 1. rewrite (H 0 x eq_refl). f_equal. apply IH. intros j y Hj. rewrite Nat.add_succ_comm. now apply H.
Qed.
(** events without their id and time *)
Definition undated (e : event) : event := mkEvent "" (ev_type e) (ev_send e) (ev_sender e) (ev_payload e) 0.
Section Result.
  Variables (oid : string) (its : list item) (cs : list coupon) (evid : nat -> string) (tm : nat -> Z) (o : order).
  Hypothesis (Eits : o_items o = its) (Ecs : o_coupons o = cs) (Eid : o_id o = "").
  Lemma item_models : map (model_of oid its cs o) (IP its) = map (fun i => mkModel 2 (i_id i) [oid; i_code i; i_name i; zs (i_price i); zs (i_count i)]) its.
  Proof.
    unfold IP. apply map_seq. intros j x Hj. unfold model_of. rewrite (h0_item its o Eits j x Hj). unfold id_of. assert (L : j < length its) by (apply nth_error_Some; congruence).
    destruct (Nat.eqb_spec (2 + j) 1); [lia|]. destruct (Nat.ltb_spec (2 + j) (2 + length its)); [|lia]. replace (2 + j - 2) with j by lia. rewrite (nth_error_nth (map i_id its) j "" (map_nth_error i_id _ _ Hj)). reflexivity.
  Qed.
  Lemma coupon_models : map (model_of oid its cs o) (CP its cs) = map (fun c => mkModel 3 (k_id c) [oid; k_coupon c; k_rule c; zs (k_discount c)]) cs.
  Proof.
    unfold CP. apply map_seq. intros j x Hj. unfold model_of. rewrite (h0_coupon its cs o Eits Ecs j x Hj). unfold id_of.
    destruct (Nat.eqb_spec (2 + length its + j) 1); [lia|]. destruct (Nat.ltb_spec (2 + length its + j) (2 + length its)); [lia|]. replace (2 + length its + j - 2 - length its) with j by lia. rewrite (nth_error_nth (map k_id cs) j "" (map_nth_error k_id _ _ Hj)). reflexivity.
  Qed.
  Lemma events_raised u : map undated (events oid its cs evid tm o) = map (fun e => undated (enc_event 0 e)) (raised (RCreate oid u its cs)).
  Proof.
    unfold events. cbn [raised map]. rewrite !map_app, !map_map. apply (f_equal2 cons); [|apply (f_equal2 (@app event))].
    - unfold ev_at, created_event. cbn [set_id e_type]. rewrite (h0_one its cs o Eits Ecs Eid). reflexivity.
    - unfold IP. apply map_seq. intros j x Hj. unfold ev_at, created_event. cbn [set_id e_type e_id]. rewrite (h0_item its o Eits j x Hj). cbn [item_ent e_type]. unfold id_of. assert (L : j < length its) by (apply nth_error_Some; congruence).
      destruct (Nat.eqb_spec (2 + j) 1); [lia|]. destruct (Nat.ltb_spec (2 + j) (2 + length its)); [|lia]. replace (2 + j - 2) with j by lia. rewrite (nth_error_nth (map i_id its) j "" (map_nth_error i_id _ _ Hj)). reflexivity.
    - unfold CP. apply map_seq. intros j x Hj. unfold ev_at, created_event. cbn [set_id e_type e_data]. rewrite (h0_coupon its cs o Eits Ecs j x Hj). reflexivity.
  Qed.
End Result.

(** CreateOrder on the engine, everything answered: what [handle] says.  If it succeeds the tables are those of [handle],
    the events dispatched are those of [raised], in one call, and the order object carries the new id; otherwise the run
    fails before any statement, or one of its statements is refused. *)
Theorem C74_engine_creates : forall valid s oid u its cs evid tm s' b, (forall i j, evid i = evid j -> i = j) -> handle valid s (RCreate oid u its cs) = (s', b) ->
  exists e acts evs, obs (run_create valid oid u its cs evid tm) = Some (e, acts, evs) /\
  if b then e = None /\ same_tables (x_execs (fun _ => true) acts (enc_store s)) (enc_store s') /\
       (exists l, evs = [l] /\ Permutation.Permutation (map undated l) (map (fun e => undated (enc_event 0 e)) (raised (RCreate oid u its cs)))) /\
       e_id (s_heap (snd (run_create valid oid u its cs evid tm)) 1) = oid
  else s' = s /\ ((e <> None /\ acts = [] /\ evs = []) \/ x_execs (fun _ => true) acts (enc_store s) = None).
Proof.
  intros valid s oid u its cs evid tm s' b Inj H. cbn [handle] in H. destruct (newOrder valid u its cs) as [o|] eqn:NO.
  2:{ injection H as <- <-. exists (Some (EUser 1)), [], []. split; [|split; auto; left; repeat split; auto; discriminate]. unfold run_create, create_body. rewrite NO. reflexivity. }
  destruct (newOrder_shape _ _ _ _ _ NO) as (Ei & Ec & Eu & Er).
  assert (Eid : o_id o = "").
  { apply add_coupons_shape in NO. destruct NO as (_ & _ & X & _ & _). rewrite X. apply add_items_shape. reflexivity. }
  destruct (obs_create oid its cs evid tm o Ei Ec Eid Inj valid u NO) as [O I]. exists None, (acts oid its cs o), [dispatched oid its cs evid tm o]. split; [exact O|].
  cbn [o_items o_coupons o_user o_total o_remark] in H. rewrite Ei, Ec in H.
  assert (X : x_execs (fun _ => true) (acts oid its cs o) (enc_store s) = x_execs (fun _ => true) (map snd (insert_of 1 [m1 oid o]) ++ map snd (insert_of 3 (map (fun c => mkModel 3 (k_id c) [oid; k_coupon c; k_rule c; zs (k_discount c)]) cs)) ++ map snd (insert_of 2 (map (fun i => mkModel 2 (i_id i) [oid; i_code i; i_name i; zs (i_price i); zs (i_count i)]) its)) ++ []) (enc_store s)).
  { unfold acts, order_ops. rewrite (coupon_models oid its cs o Ei Ec), (item_models oid its cs o Ei). now rewrite app_nil_r. }
  match type of X with _ = x_execs _ (map snd (insert_of 1 ?a) ++ map snd (insert_of 3 ?b) ++ map snd (insert_of 2 ?c) ++ []) _ => set (MA := a) in X; set (MC := b) in X; set (MI := c) in X end.
  assert (TA : forall m, In m MA -> m_type m = 1) by (intros m [<-|[]]; reflexivity).
  assert (TC : forall m, In m MC -> m_type m = 3) by (intros m Hm; apply in_map_iff in Hm; now destruct Hm as (x & <- & _)).
  assert (TI : forall m, In m MI -> m_type m = 2) by (intros m Hm; apply in_map_iff in Hm; now destruct Hm as (x & <- & _)).
  assert (IC : map m_id MC = map k_id cs) by (unfold MC; rewrite map_map; apply map_ext; reflexivity).
  assert (II : map m_id MI = map i_id its) by (unfold MI; rewrite map_map; apply map_ext; reflexivity).
  assert (KO : map fst (enc_store s 1) = map or_id (t_orders s)) by (cbn; rewrite map_map; apply map_ext; reflexivity).
  destruct (enc_ids s) as [KI KC].
  pose proof (insert_group 1 MA (map snd (insert_of 3 MC) ++ map snd (insert_of 2 MI) ++ []) (enc_store s) TA) as G1. rewrite KO in G1. change (map m_id MA) with [oid] in G1.
  destruct (keys_ok (map or_id (t_orders s)) [oid]) eqn:K1; [|cbn [andb] in H; injection H as <- <-; split; auto; right; rewrite X; exact G1].
  destruct G1 as (t1 & T1 & G1).
  pose proof (insert_group 3 MC (map snd (insert_of 2 MI) ++ []) t1 TC) as G2. rewrite IC in G2. assert (E3 : t1 3 = enc_store s 3) by (rewrite T1; reflexivity). rewrite E3, KC in G2.
  destruct (keys_ok (map cr_id (t_coupons s)) (map k_id cs)) eqn:K3; [|rewrite andb_false_r in H; injection H as <- <-; split; auto; right; rewrite X, G1; exact G2].
  destruct G2 as (t2 & T2 & G2).
  pose proof (insert_group 2 MI [] t2 TI) as G3. rewrite II in G3. assert (E2 : t2 2 = enc_store s 2) by (rewrite T2; cbn [Nat.eqb]; rewrite T1; reflexivity). rewrite E2, KI in G3.
  destruct (keys_ok (map ir_id (t_items s)) (map i_id its)) eqn:K2; [|cbn [andb] in H; injection H as <- <-; split; auto; right; rewrite X, G1, G2; exact G3].
  destruct G3 as (t3 & T3 & G3). cbn [andb] in H. injection H as <- <-. split; auto. split; [|split; [|exact I]].
  - exists t3. split; [rewrite X, G1, G2, G3; reflexivity|]. intros k. rewrite T3, T2, T1. destruct k as [|[|[|[|k]]]]; try reflexivity.
    + cbn [Nat.eqb enc_store t_orders]. rewrite map_app. f_equal.
    + cbn [Nat.eqb enc_store t_items]. rewrite map_app. f_equal. unfold MI. rewrite !map_map. apply map_ext. reflexivity.
    + cbn [Nat.eqb enc_store t_coupons]. rewrite map_app. f_equal. unfold MC. rewrite !map_map. apply map_ext. reflexivity.
  - eexists. split; [reflexivity|]. rewrite <- (events_raised oid its cs evid tm o Ei Ec Eid u). apply Permutation.Permutation_map. apply isort_perm.
Qed.
Print Assumptions C74_engine_creates.
(** two items and a coupon; the generator gives "o", "k", "i1", "i2", the hooks number their events *)
Example create_example : let its := [mkItem "i1" "c1" "n1" 5 2; mkItem "i2" "c2" "n2" 1 3] in let cs := [mkCoupon "k" "cp" "r" 4] in
  let s' := fst (handle (fun _ _ => true) (mkStore [] [] []) (RCreate "o" "u" its cs)) in
  let evid := fun k => zs (Z.of_nat k) in
  snd (handle (fun _ _ => true) (mkStore [] [] []) (RCreate "o" "u" its cs)) = true /\
  match obs (run_create (fun _ _ => true) "o" "u" its cs evid (fun _ => 0%Z)) with
  | Some (e, acts, evs) => e = None /\ length acts = 3 /\ map (map ev_payload) evs = [["o"; "i1"; "cp"; "i2"]] /\
      option_map (fun t => (t 1, t 2, t 3)) (x_execs (fun _ => true) acts (enc_store (mkStore [] [] []))) = Some (enc_store s' 1, enc_store s' 2, enc_store s' 3)
  | None => False
  end.
Proof. vm_compute. repeat split. Qed.

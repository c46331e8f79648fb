(** C91, C92: what the HTTP front answers, against what happened. *)
From Coq Require Import List Bool Arith ZArith String Lia.
From Verif Require Import SaleModel HttpModel SaleSpec SaleProps SaleCmdProps HttpSpec.
Import ListNotations.
Local Open Scope string_scope.
Local Open Scope list_scope.
Local Open Scope nat_scope.

Lemma method_known n : (exists a, method_by_name n = Some a) <-> known n.
Proof.
  unfold method_by_name, known. cbn [In]. split.
  - intros [a H].
    repeat match type of H with context [String.eqb n ?x] => destruct (String.eqb_spec n x); [subst; auto 10|] end. discriminate H.
  - intros H. repeat (destruct H as [<-|H]; [eexists; reflexivity|]). destruct H.
Qed.
Lemma method_cases n a : method_by_name n = Some a ->
  match a with
  | ACreateOrder => n = "CreateOrder" | AUpdateOrder => n = "UpdateOrder" | ADeleteOrder => n = "DeleteOrder" | AGetOrder => n = "GetOrder"
  | AGetOrderList => n = "GetOrderList" | AAddSaleItem => n = "AddSaleItem" | AAddCoupon => n = "AddCoupon" end.
Proof.
  unfold method_by_name. intros H.
  repeat match type of H with context [String.eqb n ?x] => destruct (String.eqb_spec n x); [inversion H; subst; reflexivity|] end. discriminate H.
Qed.

Lemma non_null_some {A} (l : list (option A)) r : non_null l = Some r -> l = map Some r.
Proof.
  revert r. induction l as [|[x|] t IH]; intros r H; cbn in H; [inversion H; reflexivity| |discriminate H].
  destruct (non_null t); inversion H; subst. cbn. rewrite (IH _ eq_refl). reflexivity.
Qed.
Lemma non_null_none {A} (l : list (option A)) : non_null l = None <-> In None l.
Proof.
  induction l as [|[x|] t IH]; cbn; [easy| |tauto]. destruct (non_null t); [|intuition congruence].
  split; [discriminate|]. intros [X|X]; [discriminate X|]. apply IH in X. discriminate X.
Qed.
Lemma numbered_items ids n (l : list item_view) : Forall2 same_item (map Some l) (numbered item_of ids n l).
Proof. revert n. induction l as [|[a b c d] t IH]; intros n; cbn; constructor; auto. reflexivity. Qed.
Lemma numbered_coupons ids n (l : list coupon_view) : Forall2 same_coupon (map Some l) (numbered coupon_of ids n l).
Proof. revert n. induction l as [|[a b c] t IH]; intros n; cbn; constructor; auto. reflexivity. Qed.

Section S.
  Variables (valid : order -> string -> bool) (decode : action -> string -> option payload) (scan : list order_row -> list order_row).
  Notation srv := (serve valid decode scan).

  Lemma handle_false s q s1 : handle valid s q = (s1, false) -> s1 = s.
  Proof.
    assert (L : forall oid f s1, with_loaded s oid f = (s1, false) -> s1 = s).
    { intros oid f s2 H. unfold with_loaded in H. destruct (String.eqb oid ""); [inversion H; auto|].
      destruct (find_order s oid); [|inversion H; auto]. destruct (f (load_root o)) as [o2 [|]]; [|inversion H; auto].
      unfold save_loaded in H. destruct (_ && _); inversion H; auto. }
    intros H. destruct q; cbn [handle] in H; eauto; [|inversion H].
    destruct (newOrder valid user items coupons); [|inversion H; auto]. destruct (_ && _); inversion H; auto.
  Qed.

  (** one step, as cases *)
  Lemma run_command_cases w rd s q d s' r : run_command valid w rd s q d = (s', r) ->
    (s' = s /\ r = A500) \/ (handle valid s q = (s', true) /\ (r = A200 d \/ (r = A500 /\ w = WCommitLost))).
  Proof.
    unfold run_command. destruct (handle valid s q) as [s1 [|]] eqn:H; destruct w; [| | destruct rd | | | | | destruct rd | |]; intros X; inversion X; subst; auto 6.
  Qed.
  Lemma run_null_cases w s oid s' r : run_null w s oid = (s', r) -> s' = s /\ (r = A500 \/ r = ANone).
  Proof. unfold run_null. destruct w; intros X; try (inversion X; auto; fail); destruct (String.eqb oid ""), (find_order s oid); inversion X; auto. Qed.
  Lemma run_query_cases {A} w s (v : option A) d s' r : run_query w s v d = (s', r) -> s' = s /\ (r = A500 \/ exists x, v = Some x /\ r = A200 (d x)).
  Proof. unfold run_query. destruct w, v; intros X; inversion X; split; eauto. Qed.

  Definition carried q s s' r p c d : Prop :=
    body_is decode q p /\ asks (h_action q) p c d /\ handle valid s c = (s', true) /\ (r = A200 d \/ (r = A500 /\ h_weather q = WCommitLost)) /\
    (forall oid u i k, c = RCreate oid u i k -> oid = h_order_id q).
  Lemma serve_cases s q s' r : srv s q = (s', r) ->
    (s' = s /\ (forall d, r = A200 d -> reads (h_action q))) \/ (exists p c d, carried q s s' r p c d).
  Proof.
    assert (Q : forall x, (s, x) = (s', r) -> (forall d, x <> A200 d) -> (s' = s /\ (forall d, r = A200 d -> reads (h_action q)))).
    { intros x X F. inversion X; subst. split; auto. intros d Z. destruct (F d Z). }
    assert (R : forall rd w c dd p, run_command valid w rd s c dd = (s', r) -> w = h_weather q -> body_is decode q p -> asks (h_action q) p c dd ->
              (forall oid u i k, c = RCreate oid u i k -> oid = h_order_id q) ->
              (s' = s /\ (forall d, r = A200 d -> reads (h_action q))) \/ (exists p c d, carried q s s' r p c d)).
    { intros rd w c dd p X -> B A O. apply run_command_cases in X. destruct X as [[-> ->]|[H X]]; [left; split; auto; intros d Z; discriminate Z|].
      right. exists p, c, dd. unfold carried. auto. }
    unfold serve. destruct (method_by_name (h_action q)) as [a|] eqn:M; [|intros X; left; apply (Q _ X); discriminate].
    destruct (h_body q) as [b|] eqn:B; [|intros X; left; apply (Q _ X); discriminate].
    destruct (decode a b) as [p|] eqn:D; [|intros X; left; apply (Q _ X); discriminate].
    assert (Y : body_is decode q p) by (exists a, b; auto). pose proof (method_cases _ _ M) as N.
    unfold call. destruct a; cbv zeta.
    - destruct (non_null (p_Items p)) as [is|] eqn:E1.
      + destruct (non_null (p_Coupons p)) as [cs|] eqn:E2.
        * intros X. refine (R _ _ _ _ _ X eq_refl Y _ _).
          -- apply ask_create; auto; [rewrite (non_null_some _ _ E1); apply numbered_items|rewrite (non_null_some _ _ E2); apply numbered_coupons].
          -- intros ? ? ? ? Z. inversion Z; auto.
        * intros X. left. destruct (h_weather q); repeat match type of X with context [match newOrder ?a ?b ?c ?d with _ => _ end] => destruct (newOrder a b c d) end;
            apply (Q _ X); discriminate.
      + intros X. left. destruct (h_weather q); apply (Q _ X); discriminate.
    - intros X. refine (R _ _ _ _ _ X eq_refl Y _ _); [apply ask_update; auto|intros ? ? ? ? Z; discriminate Z].
    - intros X. refine (R _ _ _ _ _ X eq_refl Y _ _); [apply ask_delete; auto|intros ? ? ? ? Z; discriminate Z].
    - intros X. apply run_query_cases in X. left. split; [tauto|]. intros _ _. unfold reads. auto.
    - intros X. apply run_query_cases in X. left. split; [tauto|]. intros _ _. unfold reads. auto.
    - destruct (p_Item p) as [i|] eqn:E; intros X.
      + refine (R _ _ _ _ _ X eq_refl Y _ _); [apply ask_item; auto; unfold same_item; rewrite E; destruct i; reflexivity|intros ? ? ? ? Z; discriminate Z].
      + apply run_null_cases in X. destruct X as [-> X]. left. split; auto. intros d ->. destruct X as [X|X]; discriminate X.
    - destruct (p_Coupon p) as [c|] eqn:E; intros X.
      + refine (R _ _ _ _ _ X eq_refl Y _ _); [apply ask_coupon; auto; unfold same_coupon; rewrite E; destruct c; reflexivity|intros ? ? ? ? Z; discriminate Z].
      + apply run_null_cases in X. destruct X as [-> X]. left. split; auto. intros d ->. destruct X as [X|X]; discriminate X.
  Qed.

  Lemma nodup_handle s q s' b : NoDup (order_ids s) -> handle valid s q = (s', b) -> NoDup (order_ids s').
  Proof.
    intros N H. destruct (handle_effect valid s q s' b N H) as [[_ E]|[_ ->]]; auto. unfold order_ids in *.
    assert (M : forall f, (forall x, or_id (f x) = or_id x) -> map or_id (map f (t_orders s)) = map or_id (t_orders s)).
    { intros f F. rewrite map_map. apply map_ext. exact F. }
    inversion E; subst; cbn [t_orders]; try (rewrite M; [exact N|]; intros x; destruct (String.eqb_spec (or_id x) (or_id r)); cbn; congruence).
    - rewrite map_app. cbn. apply (Permutation.Permutation_NoDup (l := oid :: map or_id (t_orders s))); [apply Permutation.Permutation_cons_append|]. constructor; auto.
    - clear -N. induction (t_orders s) as [|x t IH]; cbn in *; [constructor|]. inversion N; subst.
      destruct (negb _); cbn; auto. constructor; auto. intros I. apply H1. apply in_map_iff in I. destruct I as (y & <- & I).
      apply filter_In in I. apply in_map. tauto.
  Qed.
  Lemma nodup_serve s q s' r : NoDup (order_ids s) -> srv s q = (s', r) -> NoDup (order_ids s').
  Proof. intros N H. destruct (serve_cases _ _ _ _ H) as [[-> _]|(p & c & d & _ & _ & X & _)]; auto. eapply nodup_handle; eauto. Qed.
  Lemma nodup_all l : forall s s' rs, NoDup (order_ids s) -> serve_all valid decode scan s l = (s', rs) -> NoDup (order_ids s').
  Proof.
    induction l as [|q t IH]; intros s s' rs N H; cbn in H; [inversion H; subst; auto|].
    destruct (srv s q) as [s1 r] eqn:E. destruct (serve_all valid decode scan s1 t) as [s2 rs2] eqn:F. inversion H; subst.
    eapply IH; [|exact F]. eapply nodup_serve; eauto.
  Qed.
End S.
Definition reachable valid decode scan (s : store) : Prop := exists l rs, serve_all valid decode scan empty_store l = (s, rs).
Lemma reach_nodup valid decode scan s : reachable valid decode scan s -> NoDup (order_ids s).
Proof. intros (l & rs & H). eapply nodup_all; [|exact H]. constructor. Qed.

(* ------------------------------------------------------------ C91 *)
(** Status 200 to a request that writes: it was carried out, exactly as asked. *)
Theorem C91_ok_means_done : forall valid decode scan s q s' d, reachable valid decode scan s -> ~ reads (h_action q) ->
  serve valid decode scan s q = (s', A200 d) ->
  exists p c, body_is decode q p /\ asks (h_action q) p c d /\ effect s c s'.
Proof.
  intros valid decode scan s q s' d R NR H. pose proof (reach_nodup _ _ _ _ R) as N.
  destruct (serve_cases valid decode scan s q s' _ H) as [[_ E]|(p & c & d2 & B & A & X & Y & _)].
  - destruct (NR (E d eq_refl)).
  - exists p, c. split; auto. destruct Y as [Y|[Y _]]; [|discriminate Y]. inversion Y; subst. split; auto.
    destruct (handle_effect _ _ _ _ _ N X) as [[_ E]|[Z _]]; [exact E|discriminate Z].
Qed.

(** Any other answer, or none: nothing was stored, as long as COMMIT is answered. *)
Theorem C91_not_ok_changes_nothing_partial : forall valid decode scan s q s' r, h_weather q <> WCommitLost ->
  serve valid decode scan s q = (s', r) -> (forall d, r <> A200 d) -> s' = s.
Proof.
  intros valid decode scan s q s' r W H NO. destruct (serve_cases valid decode scan s q s' _ H) as [[E _]|(p & c & d2 & _ & _ & _ & Y & _)]; auto.
  destruct Y as [Y|[_ Y]]; [destruct (NO _ Y)|destruct (W Y)].
Qed.
Definition plain (n : string) (w : weather) (oid : string) : http_request := mkHttp n (Some "{}") oid (fun k => String.append "i" oid) (fun k => String.append "k" oid) w.
Definition one_order : payload := mkPayload "u1" [Some (mkIView "A1" "pen" 250 4)] [] "" None "" None None None None None None.
Theorem C91_not_ok_changes_nothing_refuted :
  ~ (forall valid decode scan s q s' r, reachable valid decode scan s -> serve valid decode scan s q = (s', r) -> (forall d, r <> A200 d) -> s' = s).
Proof.
  intros H. specialize (H accept_all (fun _ _ => Some one_order) (fun l => l) empty_store (plain "CreateOrder" WCommitLost "o1")).
  assert (X : reachable accept_all (fun _ _ => Some one_order) (fun l => l) empty_store) by (exists [], []; reflexivity).
  pose proof (H (mkStore [mkORow "o1" "u1" 1000 "-"] [mkIRow "io1" "o1" "A1" "pen" 250 4] []) A500 X eq_refl) as Y.
  discriminate (Y ltac:(discriminate)).
Qed.

(** 404 exactly for an unknown action, 400 exactly for a known one with a body that cannot be read or decoded; in both cases
    nothing is run. *)
Lemma call_answers valid scan s q a p s' r : call valid scan s q a p = (s', r) -> r = A500 \/ r = ANone \/ exists d, r = A200 d.
Proof.
  assert (H : forall rd w c dd, run_command valid w rd s c dd = (s', r) -> r = A500 \/ r = ANone \/ exists d, r = A200 d).
  { intros rd w c dd Y. apply run_command_cases in Y. destruct Y as [[_ Y]|[_ [Y|[Y _]]]]; subst; eauto. }
  assert (K : forall w oid, run_null w s oid = (s', r) -> r = A500 \/ r = ANone \/ exists d, r = A200 d).
  { intros w oid Y. apply run_null_cases in Y. tauto. }
  intros C. unfold call in C. destruct a; cbv zeta in C; eauto.
  - destruct (non_null (p_Items p)); [destruct (non_null (p_Coupons p)); eauto|].
    + destruct (h_weather q); repeat match type of C with context [match newOrder ?a ?b ?c ?d with _ => _ end] => destruct (newOrder a b c d) end; inversion C; auto.
    + destruct (h_weather q); inversion C; auto.
  - apply run_query_cases in C. destruct C as [_ [C|(x & _ & C)]]; subst; eauto.
  - apply run_query_cases in C. destruct C as [_ [C|(x & _ & C)]]; subst; eauto.
  - destruct (p_Item p); eauto.
  - destruct (p_Coupon p); eauto.
Qed.
Theorem C91_404 : forall valid decode scan s q, snd (serve valid decode scan s q) = A404 <-> ~ known (h_action q).
Proof.
  intros valid decode scan s q. rewrite <- method_known. unfold serve.
  destruct (method_by_name (h_action q)) as [a|]; [|split; auto; intros _ [a X]; discriminate X].
  split; [|intros X; exfalso; apply X; eauto]. intros X. exfalso.
  destruct (h_body q) as [b|]; [|discriminate X]. destruct (decode a b) as [p|]; [|discriminate X].
  destruct (call valid scan s q a p) as [s' r] eqn:C. apply call_answers in C. cbn [snd] in X. subst r.
  destruct C as [C|[C|[d C]]]; discriminate C.
Qed.
Theorem C91_400 : forall valid decode scan s q, snd (serve valid decode scan s q) = A400 <-> known (h_action q) /\ ~ (exists p, body_is decode q p).
Proof.
  intros valid decode scan s q. rewrite <- method_known. unfold serve, body_is.
  destruct (method_by_name (h_action q)) as [a|]; [|split; [intros X; discriminate X|intros [[a X] _]; discriminate X]].
  destruct (h_body q) as [b|]; [|split; auto; intros _; split; [eauto|intros (p & x & y & _ & Y & _); discriminate Y]].
  destruct (decode a b) as [p|] eqn:D.
  - split; [|intros [_ X]; exfalso; apply X; exists p, a, b; auto]. intros X. exfalso.
    destruct (call valid scan s q a p) as [s' r] eqn:C. apply call_answers in C. cbn [snd] in X. subst r.
    destruct C as [C|[C|[d C]]]; discriminate C.
  - split; auto. intros _. split; eauto. intros (p & x & y & X & Y & Z). inversion X; inversion Y; subst. congruence.
Qed.
Theorem C91_refused_runs_nothing : forall valid decode scan s q s' r, serve valid decode scan s q = (s', r) -> r = A404 \/ r = A400 -> s' = s.
Proof.
  intros valid decode scan s q s' r H E. destruct (serve_cases valid decode scan s q s' _ H) as [[X _]|(p & c & d2 & _ & _ & _ & Y & _)]; auto.
  destruct Y as [->|[-> _]]; destruct E as [E|E]; discriminate E.
Qed.

(** GetOrder and GetOrderList change nothing, and show what is in the tables. *)
Theorem C91_reads : forall valid decode scan s q s' r, reads (h_action q) -> serve valid decode scan s q = (s', r) ->
  s' = s /\ (forall d, r = A200 d -> exists p, body_is decode q p /\
    ((h_action q = "GetOrder" /\ exists v, getOrder s (p_ID p) = Some v /\ d = DOrder v) \/
     (h_action q = "GetOrderList" /\ exists v, getOrderList scan s (mkSearch (p_UserID p) (p_Begin p) (p_End p) (p_page p)) = Some v /\ d = DList v))).
Proof.
  intros valid decode scan s q s' r R H. unfold serve in H.
  destruct (method_by_name (h_action q)) as [a|] eqn:M; [|inversion H; split; auto; intros d X; discriminate X].
  destruct (h_body q) as [b|] eqn:B; [|inversion H; split; auto; intros d X; discriminate X].
  destruct (decode a b) as [p|] eqn:D; [|inversion H; split; auto; intros d X; discriminate X].
  assert (Y : body_is decode q p) by (exists a, b; auto). pose proof (method_cases _ _ M) as N.
  destruct a; try (exfalso; destruct R as [R|R]; rewrite R in N; discriminate N); cbn [call] in H; apply run_query_cases in H; destruct H as [-> H];
    (split; auto; intros d ->; exists p; split; auto; destruct H as [H|(x & E & H)]; [discriminate H|inversion H; subst; eauto 6]).
Qed.

(** A request without nulls gets an answer; one with a null item for an existing order gets none. *)
Theorem C91_answered_partial : forall valid decode scan s q s' r, serve valid decode scan s q = (s', r) ->
  (forall p, body_is decode q p -> no_nulls (h_action q) p) -> r <> ANone.
Proof.
  intros valid decode scan s q s' r H NN ->. unfold serve in H.
  destruct (method_by_name (h_action q)) as [a|] eqn:M; [|discriminate H]. destruct (h_body q) as [b|] eqn:B; [|discriminate H].
  destruct (decode a b) as [p|] eqn:D; [|discriminate H].
  destruct (NN p ltac:(exists a, b; auto)) as (N1 & N2 & N3). pose proof (method_cases _ _ M) as N.
  assert (X : forall rd w c dd, run_command valid w rd s c dd = (s', ANone) -> False).
  { intros rd w c dd Y. apply run_command_cases in Y. destruct Y as [[_ Y]|[_ [Y|[Y _]]]]; discriminate Y. }
  destruct a; cbn [call] in H; eauto.
  - destruct (N1 N) as [Q1 Q2]. destruct (non_null (p_Items p)) eqn:E1; [|apply non_null_none in E1; auto].
    destruct (non_null (p_Coupons p)) eqn:E2; [|apply non_null_none in E2; auto]. eauto.
  - apply run_query_cases in H. destruct H as [_ [H|(x & _ & H)]]; discriminate H.
  - apply run_query_cases in H. destruct H as [_ [H|(x & _ & H)]]; discriminate H.
  - destruct (p_Item p); [eauto|]. exact (N2 N eq_refl).
  - destruct (p_Coupon p); [eauto|]. exact (N3 N eq_refl).
Qed.
Theorem C91_null_item_refuted : forall valid decode scan s q p oid, reachable valid decode scan s -> In oid (order_ids s) -> oid <> "" ->
  h_action q = "AddSaleItem" -> h_weather q = WFine -> body_is decode q p -> p_OrderID p = oid -> p_Item p = None ->
  serve valid decode scan s q = (s, ANone).
Proof.
  intros valid decode scan s q p oid R I NE A W (a & b & M & B & D) O P. unfold serve. rewrite M, B, D.
  rewrite A in M. inversion M; subst a. cbn [call]. rewrite P, W. unfold run_null. rewrite O.
  destruct (String.eqb_spec oid ""); [contradiction|]. destruct (find_order s oid) eqn:F; [reflexivity|]. exfalso.
  unfold find_order in F. apply in_map_iff in I. destruct I as (r & E & I). pose proof (find_none _ _ F r I) as X. cbn in X.
  rewrite E, String.eqb_refl in X. discriminate X.
Qed.

(** Status 500 only if something went wrong: in fine weather a creation without nulls, with ids that are new, accepted by the
    coupon rules, is answered 200. *)
Lemma keys_ok_fresh new : forall old, NoDup new -> (forall x, In x new -> ~ In x old) -> keys_ok old new = true.
Proof.
  induction new as [|x t IH]; intros old N F; cbn; auto. inversion N; subst.
  assert (E : existsb (String.eqb x) old = false).
  { destruct (existsb (String.eqb x) old) eqn:E; auto. apply existsb_exists in E. destruct E as (y & I & Y). apply String.eqb_eq in Y. subst.
    destruct (F y (or_introl eq_refl) I). }
  rewrite E. cbn. apply IH; auto. intros y I [->|J]; [auto|]. exact (F y (or_intror I) J).
Qed.
Lemma numbered_len {A B} (mk : string -> A -> B) ids l : forall n, Datatypes.length (numbered mk ids n l) = Datatypes.length l.
Proof. induction l as [|x t IH]; intros n; cbn; auto. Qed.
Lemma numbered_ids {A B} (mk : string -> A -> B) (key : B -> string) ids l : (forall i x, key (mk i x) = i) -> (forall m n, ids m = ids n -> m = n) -> forall n,
  NoDup (map key (numbered mk ids n l)) /\ (forall k, In k (map key (numbered mk ids n l)) -> exists m, n <= m /\ k = ids m).
Proof.
  intros K I. induction l as [|x t IH]; intros n; cbn; [split; [constructor|easy]|]. destruct (IH (S n)) as [A1 A2]. split.
  - constructor; auto. rewrite K. intros X. apply A2 in X. destruct X as (m & L & E). apply I in E. lia.
  - intros k [<-|X]; [exists n; rewrite K; auto|]. apply A2 in X. destruct X as (m & L & E). exists m. split; auto. lia.
Qed.
Theorem C91_creation_succeeds : forall decode scan s q p, h_action q = "CreateOrder" -> h_weather q = WFine -> body_is decode q p ->
  no_nulls "CreateOrder" p -> ~ In (h_order_id q) (order_ids s) ->
  (forall m n, h_item_id q m = h_item_id q n -> m = n) -> (forall m n, h_coupon_id q m = h_coupon_id q n -> m = n) ->
  (forall n, ~ In (h_item_id q n) (map ir_id (t_items s))) -> (forall n, ~ In (h_coupon_id q n) (map cr_id (t_coupons s))) ->
  snd (serve accept_all decode scan s q) = A200 (DCreated (h_order_id q)).
Proof.
  intros decode scan s q p A W (a & b & M & B & D) (NN & _) F1 I1 I2 F2 F3. unfold serve. rewrite M, B, D. rewrite A in M. inversion M; subst a.
  destruct (NN eq_refl) as [Q1 Q2]. cbn [call].
  destruct (non_null (p_Items p)) as [is|] eqn:E1; [|apply non_null_none in E1; contradiction].
  destruct (non_null (p_Coupons p)) as [cs|] eqn:E2; [|apply non_null_none in E2; contradiction].
  rewrite W. unfold run_command.
  assert (T : exists s1, handle accept_all s (RCreate (h_order_id q) (p_User p) (numbered item_of (h_item_id q) 0 is) (numbered coupon_of (h_coupon_id q) 0 cs)) = (s1, true)).
  { cbn [handle]. set (il := numbered item_of (h_item_id q) 0 is). set (cl := numbered coupon_of (h_coupon_id q) 0 cs).
    assert (Z : exists o, newOrder accept_all (p_User p) il cl = Some o).
    { unfold newOrder. generalize (add_items accept_all (mkOrder "" (p_User p) 0 "" [] [] false) il). generalize cl. clear.
      induction cl as [|c t IH]; intros o; cbn [add_coupons]; [eauto|].
      assert (X : exists o2, addCoupon accept_all o c = (o2, true)).
      { unfold addCoupon, checked, fixCoupons.
        assert (Y : forall y l, filter (fun c0 => negb (accept_all y (k_rule c0))) l = []) by (clear; intros y l; induction l; cbn; auto).
        rewrite Y. eauto. }
      destruct X as [o2 ->]. apply IH. }
    destruct Z as [o Z]. rewrite Z. destruct (newOrder_shape _ _ _ _ _ Z) as (S1 & S2 & _). cbn [o_items o_coupons].
    rewrite S1, S2. destruct (numbered_ids item_of i_id (h_item_id q) is (fun _ _ => eq_refl) I1 0) as [U1 U2].
    destruct (numbered_ids coupon_of k_id (h_coupon_id q) cs (fun _ _ => eq_refl) I2 0) as [V1 V2].
    rewrite !keys_ok_fresh; cbn [andb]; eauto.
    - intros x X. apply V2 in X. destruct X as (m & _ & ->). apply F3.
    - intros x X. apply U2 in X. destruct X as (m & _ & ->). apply F2.
    - repeat constructor. easy.
    - intros x [<-|[]]. exact F1. }
  destruct T as [s1 ->]. reflexivity.
Qed.

(* ------------------------------------------------------------ C92 *)
Lemma carried_names decode valid q s s' r p c d : carried valid decode q s s' r p c d -> names decode q (order_of c).
Proof.
  intros (B & A & _ & _ & O). exists p. split; auto. inversion A; subst; cbn [order_of]; auto 6.
  left. split; auto. symmetry. eapply O. reflexivity.
Qed.
Lemma filter_map_other {A} (k : A -> string) (f : A -> A) oid (l : list A) :
  (forall x, k (f x) = k x) -> (forall x, k x = oid -> f x = x) -> filter (fun x => String.eqb (k x) oid) (map f l) = filter (fun x => String.eqb (k x) oid) l.
Proof.
  intros H1 H2. induction l as [|x t IH]; cbn; auto. rewrite H1. destruct (String.eqb_spec (k x) oid) as [E|]; auto. rewrite (H2 x E), IH. reflexivity.
Qed.
Lemma filter_none {A} (f : A -> bool) l : (forall x, In x l -> f x = false) -> filter f l = [].
Proof. induction l as [|x t IH]; cbn; intros H; auto. rewrite (H x (or_introl eq_refl)). apply IH. auto. Qed.
Lemma effect_frame s c s' oid : effect s c s' -> order_of c <> oid -> rows_of s' oid = rows_of s oid.
Proof.
  intros E N. unfold rows_of. inversion E; subst; cbn [order_of t_orders t_items t_coupons] in *; rewrite ?filter_app;
    try (rewrite (filter_map_other or_id); [|intros x; destruct (String.eqb_spec (or_id x) (or_id r)); cbn; congruence
                                            |intros x X; destruct (String.eqb_spec (or_id x) (or_id r)); congruence]).
  - rewrite !(filter_none _ (map _ _)); [|intros x X; apply in_map_iff in X; destruct X as (y & <- & _); cbn; apply String.eqb_neq; auto..].
    cbn [filter or_id]. destruct (String.eqb_spec oid0 oid); [contradiction|]. rewrite !app_nil_r. reflexivity.
  - cbn. destruct (String.eqb_spec (or_id r) oid); [contradiction|]. rewrite app_nil_r. reflexivity.
  - cbn. destruct (String.eqb_spec (or_id r) oid); [contradiction|]. rewrite app_nil_r. reflexivity.
  - reflexivity.
  - f_equal. f_equal. clear -N. induction (t_orders s) as [|x t IH]; cbn; auto.
    destruct (String.eqb_spec (or_id x) oid0) as [E|E]; cbn.
    + destruct (String.eqb_spec (or_id x) oid); [congruence|exact IH].
    + rewrite IH. reflexivity.
Qed.
(** A request changes no row of an order it does not name. *)
Theorem C92_other_orders_untouched : forall valid decode scan s q s' r oid, reachable valid decode scan s ->
  serve valid decode scan s q = (s', r) -> ~ names decode q oid -> rows_of s' oid = rows_of s oid.
Proof.
  intros valid decode scan s q s' r oid R H N. destruct (serve_cases valid decode scan s q s' _ H) as [[-> _]|(p & c & d & C)]; auto.
  pose proof (carried_names _ _ _ _ _ _ _ _ _ C) as NM. destruct C as (B & A & X & _).
  destruct (handle_effect _ _ _ _ _ (reach_nodup _ _ _ _ R) X) as [[_ E]|[Z _]]; [|discriminate Z].
  apply (effect_frame _ _ _ _ E). congruence.
Qed.

Definition shows (s : store) (oid u : string) : Prop := exists r, In r (t_orders s) /\ or_id r = oid /\ or_user r = u.
Lemma serve_keeps valid decode scan s q s' r oid u : NoDup (order_ids s) -> serve valid decode scan s q = (s', r) -> ~ deletes decode q oid -> shows s oid u -> shows s' oid u.
Proof.
  intros N H ND S. destruct (serve_cases valid decode scan s q s' _ H) as [[-> _]|(p & c & d & B & A & X & _)]; auto.
  destruct (handle_effect _ _ _ _ _ N X) as [[_ E]|[Z _]]; [|discriminate Z]. destruct S as (r0 & I & O & U).
  assert (SAME : forall r1 f, In r1 (t_orders s) -> (forall x, In x (t_orders s) -> f x = x \/ (or_id x = or_id r1 /\ or_id (f x) = or_id r1 /\ or_user (f x) = or_user r1)) ->
     exists r2, In r2 (map f (t_orders s)) /\ or_id r2 = oid /\ or_user r2 = u).
  { intros r1 f I1 F. exists (f r0). split; [apply in_map; auto|]. destruct (F r0 I) as [->|(E1 & E2 & E3)]; auto.
    assert (r0 = r1). { clear -N I I1 E1. unfold order_ids in N. induction (t_orders s) as [|y t IH]; [easy|]. cbn in N. inversion N; subst.
      destruct I as [->|I], I1 as [->|I1]; auto; [rewrite E1 in H1|rewrite <- E1 in H1]; destruct H1; apply in_map; auto. }
    subst r1. split; congruence. }
  inversion E; subst; unfold shows; cbn [t_orders].
  - exists r0. split; auto. apply in_or_app. auto.
  - eapply (SAME r1); [auto|]. intros x _. destruct (String.eqb_spec (or_id x) (or_id r1)); auto.
  - eapply (SAME r1); [auto|]. intros x _. destruct (String.eqb_spec (or_id x) (or_id r1)); auto.
  - eapply (SAME r1); [auto|]. intros x _. destruct (String.eqb_spec (or_id x) (or_id r1)); auto.
  - exists r0. split; auto. apply filter_In. split; auto. apply negb_true_iff, String.eqb_neq. intros Q. apply ND.
    inversion A; subst. split; auto. exists p. auto.
Qed.
Lemma all_keeps valid decode scan l : forall s s' rs oid u, NoDup (order_ids s) -> serve_all valid decode scan s l = (s', rs) ->
  (forall q, In q l -> ~ deletes decode q oid) -> shows s oid u -> shows s' oid u.
Proof.
  induction l as [|q t IH]; intros s s' rs oid u N H D S; cbn in H; [inversion H; subst; auto|].
  destruct (serve valid decode scan s q) as [s1 r] eqn:E. destruct (serve_all valid decode scan s1 t) as [s2 rs2] eqn:F. inversion H; subst.
  eapply (IH s1); [eapply nodup_serve; eauto|exact F| |].
  - intros x I. apply D. right. exact I.
  - eapply serve_keeps; eauto. apply D. left. reflexivity.
Qed.
Lemma created_row valid decode scan s q s' oid : NoDup (order_ids s) -> serve valid decode scan s q = (s', A200 (DCreated oid)) ->
  ~ In oid (order_ids s) /\ exists p, body_is decode q p /\ h_action q = "CreateOrder" /\ shows s' oid (p_User p).
Proof.
  intros N H. destruct (serve_cases valid decode scan s q s' _ H) as [[-> X]|(p & c & d & B & A & X & Y & O)].
  - exfalso. destruct (C91_reads valid decode scan _ _ _ _ (X _ eq_refl) H) as [_ Y]. destruct (Y _ eq_refl) as (p & _ & [(_ & v & _ & Z)|(_ & v & _ & Z)]); discriminate Z.
  - destruct Y as [Y|[Y _]]; [|discriminate Y]. inversion Y; subst d. inversion A; subst.
    destruct (handle_effect _ _ _ _ _ N X) as [[_ E]|[Z _]]; [|discriminate Z]. inversion E; subst. split; auto.
    exists p. split; auto. split; auto. eexists. cbn [t_orders]. split; [apply in_or_app; right; left; reflexivity|]. auto.
Qed.

(** An order whose creation was answered 200 can be read under the id of the answer, with its user, after any further requests, as
    long as none of them deletes it. *)
Theorem C92_acknowledged_order_stays : forall valid decode scan s q s1 oid l s2 rs, reachable valid decode scan s ->
  serve valid decode scan s q = (s1, A200 (DCreated oid)) -> serve_all valid decode scan s1 l = (s2, rs) -> (forall x, In x l -> ~ deletes decode x oid) ->
  exists p v, body_is decode q p /\ ov_id v = oid /\ ov_user v = p_User p /\
    forall g pg, h_action g = "GetOrder" -> h_weather g = WFine -> body_is decode g pg -> p_ID pg = oid ->
      serve valid decode scan s2 g = (s2, A200 (DOrder v)).
Proof.
  intros valid decode scan s q s1 oid l s2 rs R H HL D. pose proof (reach_nodup _ _ _ _ R) as N.
  destruct (created_row _ _ _ _ _ _ _ N H) as (NI & p & B & A & S). pose proof (nodup_serve _ _ _ _ _ _ _ N H) as N1.
  pose proof (nodup_all _ _ _ _ _ _ _ N1 HL) as N2. pose proof (all_keeps _ _ _ _ _ _ _ _ _ N1 HL D S) as (r & I & O & U).
  destruct (find_order s2 oid) as [r2|] eqn:F.
  2:{ exfalso. unfold find_order in F. pose proof (find_none _ _ F r I) as X. cbn in X. rewrite O, String.eqb_refl in X. discriminate X. }
  pose proof (find_order_In _ _ _ F) as [I2 O2].
  assert (r2 = r). { clear -N2 I I2 O O2. unfold order_ids in N2. induction (t_orders s2) as [|y t IH]; [easy|]. cbn in N2. inversion N2; subst.
      destruct I as [->|I], I2 as [->|I2]; auto; [rewrite <- O2 in H1|rewrite O2 in H1]; destruct H1; apply in_map; auto. }
  subst r2. exists p. eexists (mkOView (or_id r) (or_user r) (or_total r) _ _). cbn [ov_id ov_user]. split; auto. split; auto. split; auto.
  intros g pg G W (a & b & M & BB & DD) P. unfold serve. rewrite M, BB, DD. rewrite G in M. inversion M; subst a. cbn [call]. rewrite W.
  unfold run_query, getOrder. rewrite P, F. reflexivity.
Qed.

(** Two creations are not answered with the same id, unless that order was deleted in between. *)
Theorem C92_ids_not_reused : forall valid decode scan s q1 s1 oid l s2 rs q2 s3, reachable valid decode scan s ->
  serve valid decode scan s q1 = (s1, A200 (DCreated oid)) -> serve_all valid decode scan s1 l = (s2, rs) -> (forall x, In x l -> ~ deletes decode x oid) ->
  serve valid decode scan s2 q2 <> (s3, A200 (DCreated oid)).
Proof.
  intros valid decode scan s q1 s1 oid l s2 rs q2 s3 R H HL D H2. pose proof (reach_nodup _ _ _ _ R) as N.
  destruct (created_row _ _ _ _ _ _ _ N H) as (NI & p & B & A & S). pose proof (nodup_serve _ _ _ _ _ _ _ N H) as N1.
  pose proof (nodup_all _ _ _ _ _ _ _ N1 HL) as N2. pose proof (all_keeps _ _ _ _ _ _ _ _ _ N1 HL D S) as (r & I & O & U).
  destruct (created_row _ _ _ _ _ _ _ N2 H2) as (X & _). apply X. unfold order_ids. rewrite <- O. apply in_map. exact I.
Qed.

(** A client that repeats a creation answered 500 may end up with two orders. *)
Theorem C92_repeat_after_500_refuted :
  ~ (forall decode scan q1 q2 s1 s2 d, h_action q1 = h_action q2 -> h_body q1 = h_body q2 ->
       serve accept_all decode scan empty_store q1 = (s1, A500) -> serve accept_all decode scan s1 q2 = (s2, A200 d) ->
       Datatypes.length (t_orders s2) = 1).
Proof.
  intros H. specialize (H (fun _ _ => Some one_order) (fun l => l) (plain "CreateOrder" WCommitLost "o1") (plain "CreateOrder" WFine "o2")).
  specialize (H (mkStore [mkORow "o1" "u1" 1000 "-"] [mkIRow "io1" "o1" "A1" "pen" 250 4] [])
                (mkStore [mkORow "o1" "u1" 1000 "-"; mkORow "o2" "u1" 1000 "-"] [mkIRow "io1" "o1" "A1" "pen" 250 4; mkIRow "io2" "o2" "A1" "pen" 250 4] []) (DCreated "o2")
                eq_refl eq_refl eq_refl eq_refl). discriminate H.
Qed.
(** The status does not tell a missing order from a broken server: GetOrder of a missing order is answered 500, DeleteOrder 200. *)
Theorem C92_missing_order_refuted : forall valid decode scan s q p, ~ In (p_ID p) (order_ids s) -> body_is decode q p -> h_weather q = WFine ->
  (h_action q = "GetOrder" -> serve valid decode scan s q = (s, A500)) /\
  (h_action q = "DeleteOrder" -> serve valid decode scan s q = (s, A200 DEmpty)).
Proof.
  intros valid decode scan s q p NI (a & b & M & B & D) W. unfold serve. rewrite M, B, D. split; intros A; rewrite A in M; inversion M; subst a; cbn [call]; rewrite W.
  - unfold run_query. rewrite (C75_missing_order _ _ NI). reflexivity.
  - unfold run_command. cbn [handle]. f_equal. destruct s as [o i k]. cbn [t_orders t_items t_coupons]. f_equal. unfold order_ids in NI. cbn [t_orders] in NI.
    induction o as [|x t IH]; cbn; auto. destruct (String.eqb_spec (or_id x) (p_ID p)); cbn; [destruct NI; left; auto|]. f_equal. apply IH. intros Q. apply NI. right. exact Q.
Qed.

(** A session: create, add an item, read, an action that does not exist, delete, read. *)
Definition ex_decode (a : action) (b : string) : option payload :=
  match a with
  | ACreateOrder => Some one_order
  | AAddSaleItem => if String.eqb b "null" then Some (mkPayload "" [] [] "" None "o1" None None None None None None)
                    else Some (mkPayload "" [] [] "" None "o1" (Some (mkIView "B2" "ink" 300 1)) None None None None None)
  | _ => if String.eqb b "bad" then None else Some (mkPayload "" [] [] "o1" None "" None None None None None None)
  end.
Definition ask (n b id : string) : http_request := mkHttp n (Some b) id (fun k => String.append "i" id) (fun k => String.append "k" id) WFine.
Example C91_example : snd (serve_all accept_all ex_decode (fun l => l) empty_store
    [ask "CreateOrder" "{}" "o1"; ask "AddSaleItem" "{}" "x"; ask "AddSaleItem" "null" "y"; ask "GetOrder" "{}" ""; ask "Drop" "{}" ""; ask "GetOrder" "bad" "";
     ask "DeleteOrder" "{}" ""; ask "GetOrder" "{}" ""]) =
  [A200 (DCreated "o1"); A200 DEmpty; ANone; A200 (DOrder (mkOView "o1" "u1" 300 [] [])); A404; A400; A200 DEmpty; A500].
Proof. reflexivity. Qed.

(** If the first SELECT fails, the requests that have to load something are answered 500 and change nothing; creating and
    deleting an order need no SELECT and are not affected. *)
Definition fine (q : http_request) : http_request := mkHttp (h_action q) (h_body q) (h_order_id q) (h_item_id q) (h_coupon_id q) WFine.
Theorem C91_failed_read : forall valid decode scan s q p, h_weather q = WReadFails -> body_is decode q p ->
  (In (h_action q) ["UpdateOrder"; "AddSaleItem"; "AddCoupon"; "GetOrder"; "GetOrderList"] -> serve valid decode scan s q = (s, A500)) /\
  (In (h_action q) ["CreateOrder"; "DeleteOrder"] -> serve valid decode scan s q = serve valid decode scan s (fine q)).
Proof.
  intros valid decode scan s q p W (a & b & M & B & D). unfold serve, fine. cbn [h_action h_body]. rewrite M, B, D. pose proof (method_cases _ _ M) as N.
  split; intros H; destruct a; cbn in N; rewrite N in H; cbn [In] in H; try (exfalso; clear -H; intuition discriminate); cbn [call h_weather h_order_id h_item_id h_coupon_id]; rewrite W; cbn [run_command run_query run_null]; auto.
  - destruct (p_Item p); reflexivity.
  - destruct (p_Coupon p); reflexivity.
Qed.
Print Assumptions C91_failed_read.

(** A null coupon after other coupons: the creation panics at it only if every coupon before it was accepted; if one of them is refused, the
    request is answered with 500. *)
Theorem C91_coupons_before_a_null : forall valid decode scan s q p is pre post, h_action q = "CreateOrder" -> body_is decode q p -> h_weather q <> WDown ->
  p_Items p = map Some is -> p_Coupons p = map Some pre ++ None :: post ->
  serve valid decode scan s q = (s, match newOrder valid (p_User p) (numbered item_of (h_item_id q) 0 is) (numbered coupon_of (h_coupon_id q) 0 pre) with None => A500 | Some _ => ANone end).
Proof.
  intros valid decode scan s q p is pre post A (a & b & M & B & D) W I C. unfold serve. rewrite M, B, D. rewrite A in M. inversion M; subst a. cbn [call].
  assert (N1 : forall T (l : list T), non_null (map Some l) = Some l) by (intros T l; induction l as [|x t IH]; cbn; [auto|now rewrite IH]).
  assert (N2 : forall T (l : list T) m, non_null (map Some l ++ None :: m) = None) by (intros T l m; induction l as [|x t IH]; cbn; [auto|now rewrite IH]).
  assert (N3 : forall T (l : list T) m, before_null (map Some l ++ None :: m) = l) by (intros T l m; induction l as [|x t IH]; cbn; [auto|now rewrite IH]).
  rewrite I, C, N1, N2, N3. destruct (h_weather q); try (destruct (newOrder _ _ _ _); reflexivity). contradiction.
Qed.
Print Assumptions C91_coupons_before_a_null.
Definition null_after (c : coupon_view) : payload := mkPayload "u1" [Some (mkIView "A1" "pen" 250 4)] [Some c; None] "" None "" None None None None None None.
Example C91_coupons_before_a_null_example :
  let q := plain "CreateOrder" WFine "o1" in let c := mkCView "c1" "r" 0%Z in
  body_is (fun _ _ => Some (null_after c)) q (null_after c) /\ p_Coupons (null_after c) = map Some [c] ++ None :: [] /\
  snd (serve (fun _ _ => true) (fun _ _ => Some (null_after c)) (fun l => l) empty_store q) = ANone /\
  snd (serve (fun _ _ => false) (fun _ _ => Some (null_after c)) (fun l => l) empty_store q) = A500.
Proof. vm_compute. repeat split. exists ACreateOrder, "{}". auto. Qed.

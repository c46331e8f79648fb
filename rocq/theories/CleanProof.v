(** Proofs about concurrent cleaning. *)
From Verif Require Import CleanModel CleanSpec BusSpec BusProof.

Lemma nth_set {A} (x : A) l : forall i j y, nth_error (set_nth i x l) j = Some y -> (i = j /\ y = x) \/ (i <> j /\ nth_error l j = Some y).
Proof.
  induction l as [|a t IH]; intros [|i] [|j] y; cbn; intros H; try discriminate H.
  - left. split; congruence.
  - right. split; auto.
  - right. split; auto.
  - destruct (IH i j y H) as [[-> ->]|[N E]]; [left|right]; auto.
Qed.
Lemma nth_set_same {A} (x : A) l : forall i y, nth_error l i = Some y -> nth_error (set_nth i x l) i = Some x.
Proof. induction l as [|a t IH]; intros [|i] y; cbn; intros H; try discriminate H; eauto. Qed.
Lemma nth_set_other {A} (x : A) l : forall i j, i <> j -> nth_error (set_nth i x l) j = nth_error l j.
Proof. induction l as [|a t IH]; intros [|i] [|j] N; cbn; auto; try lia. Qed.
Lemma in_set {A} (x y : A) i l : In y (set_nth i x l) -> y = x \/ In y l.
Proof. intros H. apply In_nth_error in H. destruct H as [j H]. destruct (nth_set x l i j y H) as [[_ ->]|[_ E]]; [auto|right; eapply nth_error_In; eauto]. Qed.

(** ** The effect of a publication inside a transaction *)
Lemma trans_dispatch trans evs outs d : snd (transaction (dispatch trans evs) outs d) = d \/ dispatched trans evs (b_svc d) d (snd (transaction (dispatch trans evs) outs d)).
Proof.
  unfold transaction. destruct outs as [|[| | |] outs]; cbn [stmt snd]; auto.
  - destruct (dispatch trans evs [] d) as [[[[]| |] s2] d2] eqn:E; cbn [snd]; auto.
    pose proof (proj2 (dispatch_ends _ _ _ _ _ _ _ E) eq_refl) as D. destruct s2 as [|[| | |] s3]; cbn [snd]; auto.
  - destruct (dispatch trans evs outs d) as [[[[]| |] s2] d2] eqn:E; cbn [snd]; auto.
    pose proof (proj2 (dispatch_ends _ _ _ _ _ _ _ E) eq_refl) as D. destruct s2 as [|[| | |] s3]; cbn [snd]; auto.
Qed.

(** ** What cleaners and publishers still have before them *)
Definition cl_cfg (c : cproc) : option buscfg := match c with CNext g _ | CCount g _ _ | CDel g _ _ => Some g | CEnd => None end.
Definition cl_todo (c : cproc) : list nat := match c with CNext _ t | CCount _ _ t | CDel _ _ t => t | CEnd => [] end.
Definition cl_hand (c : cproc) : list nat := match c with CCount _ i _ => i | CDel _ g _ => g | _ => [] end.
Definition pend (p : dproc) (v : string) (i : nat) : Prop :=
  match p with DNew rows => In i (map er_id rows) | DTo rows svcs => In v svcs /\ In i (map er_id rows) | DEnd => False end.
Definition key (s : srow) : string * nat := (sr_service s, sr_event s).
Definition dnodup (p : dproc) : Prop := match p with DNew rows => NoDup (map er_id rows) | DTo rows svcs => NoDup (map er_id rows) /\ NoDup svcs | DEnd => True end.

Record inv (hist : list kact) (st : kst) : Prop := {
  i_key : NoDup (map key (b_sv (k_db st)));
  i_ev : forall s, In s (b_sv (k_db st)) -> sr_event s < b_ne (k_db st);
  i_svc : NoDup (b_svc (k_db st));
  i_cl : forall c g, In c (k_cs st) -> cl_cfg c = Some g -> In (KScan g) hist /\
           forall i, In i (cl_todo c) -> i < b_ne (k_db st) /\ forall s, In s (b_sv (k_db st)) -> key s = (c_service g, i) -> finished g (k_now st) s;
  i_nd : forall p, In p (k_ds st) -> dnodup p;
  i_pe : forall p v i, In p (k_ds st) -> pend p v i -> i < b_ne (k_db st) /\ ~ In (v, i) (map key (b_sv (k_db st))) /\
           forall c g, In c (k_cs st) -> cl_cfg c = Some g -> c_service g = v -> ~ In i (cl_todo c);
  i_dj : forall a b p q v i, nth_error (k_ds st) a = Some p -> nth_error (k_ds st) b = Some q -> pend p v i -> pend q v i -> a = b }.

Lemma finished_later g now now' s : now <= now' -> finished g now s -> finished g now' s.
Proof. intros L (H1 & H2 & H3). repeat split; auto. lia. Qed.

(** records added by publisher: keys [(v, i)] that were pending *)
Lemma clean_step_cl c d c' d' : clean_step c d = (c', d') ->
  (forall g, cl_cfg c' = Some g -> cl_cfg c = Some g) /\ (forall i, In i (cl_todo c') -> In i (cl_todo c)) /\
  b_ne d' = b_ne d /\ b_ns d' = b_ns d /\ b_svc d' = b_svc d /\ (exists f, b_sv d' = filter f (b_sv d)).
Proof.
  assert (T : b_sv d = filter (fun _ => true) (b_sv d)) by (clear; induction (b_sv d) as [|a t IH]; cbn; congruence).
  destruct c as [g [|i t]|g ids t|g gone t|]; cbn [clean_step]; intros H.
  - injection H as <- <-. cbn. repeat split; auto; try (intros; discriminate). eauto.
  - injection H as <- <-. cbn [cl_cfg cl_todo b_ne b_ns b_svc b_sv del_deliveries]. split; [tauto|]. split.
    { intros j Hj. change (In j (skipn 10 (i :: t))) in Hj. rewrite <- (firstn_skipn 10 (i :: t)). apply in_app_iff. auto. }
    repeat split; auto. eexists; reflexivity.
  - assert (H' : cl_cfg c' = Some g /\ cl_todo c' = t /\ d' = d) by (destruct (unreferenced ids d); injection H as <- <-; auto).
    destruct H' as (E1 & E2 & ->). rewrite E1, E2. cbn. repeat split; auto. eauto.
  - injection H as <- <-. cbn. repeat split; auto. exists (fun _ => true). exact T.
  - injection H as <- <-. cbn. repeat split; auto. eauto.
Qed.

Lemma inv_hist hist a st : inv hist st -> inv (hist ++ [a]) st.
Proof. intros I. destruct I as [A B C D E F G]. constructor; auto. intros c g H1 H2. destruct (D c g H1 H2) as [X Y]. split; auto. apply in_app_iff; auto. Qed.

Lemma key_new v rows n s : In s (new_deliveries n v rows) -> sr_service s = v /\ In (sr_event s) (map er_id rows).
Proof.
  intros H. destruct (new_deliveries_spec v rows n) as (_ & K & _). apply (in_map (fun s => (sr_service s, sr_event s))) in H. rewrite K in H.
  apply in_map_iff in H. destruct H as (i & [= <- <-] & Hi). auto.
Qed.

(** publishing inside a transaction *)
Lemma inv_pub hist trans evs d d' now ds cs : inv hist (mkK d now ds cs) -> dispatched trans evs (b_svc d) d d' -> inv hist (mkK d' now ds cs).
Proof.
  intros [A B C D E F G] (rows & dels & E1 & E2 & E3 & E4 & E5 & E6 & E7 & E8 & E9 & E10 & E11 & E12 & E13). cbn [k_db k_now k_ds k_cs] in *.
  assert (N : forall s, In s dels -> b_ne d <= sr_event s < b_ne d + length evs).
  { intros s Hs. destruct (E8 s Hs) as (_ & _ & r & Hr & Er & _). apply (in_map er_id) in Hr. rewrite E3, in_seq, Er in Hr. lia. }
  constructor; cbn [k_db k_now k_ds k_cs]; auto.
  - rewrite E5, map_app. apply NoDup_app_intro; auto.
    + unfold key. rewrite E6, E3. apply NoDup_list_prod; auto. apply seq_NoDup.
    + intros [v i] X Y. apply in_map_iff in X. destruct X as (s & [= <- <-] & Hs). apply in_map_iff in Y. destruct Y as (s' & [= _ Es] & Hs'). specialize (B s Hs). specialize (N s' Hs'). lia.
  - intros s Hs. rewrite E5 in Hs. rewrite E11. apply in_app_iff in Hs. destruct Hs as [Hs|Hs]; [specialize (B s Hs)|specialize (N s Hs)]; lia.
  - now rewrite E9.
  - intros c g Hc Hg. destruct (D c g Hc Hg) as [X Y]. split; auto. intros i Hi. destruct (Y i Hi) as [Y1 Y2]. split; [lia|]. intros s Hs Ks. rewrite E5 in Hs. apply in_app_iff in Hs.
    destruct Hs as [Hs|Hs]; auto. specialize (N s Hs). injection Ks as _ Ks. lia.
  - intros p v i Hp P. destruct (F p v i Hp P) as (F1 & F2 & F3). split; [lia|]. split; auto. intros X. rewrite E5, map_app in X. apply in_app_iff in X. destruct X as [X|X]; auto.
    apply in_map_iff in X. destruct X as (s & [= <- <-] & Hs). specialize (N s Hs). lia.
Qed.

Lemma inv_ins hist trans evs d now ds cs : inv hist (mkK d now ds cs) ->
  inv hist (mkK (snd (insert_events trans evs d)) now (ds ++ [DNew (fst (insert_events trans evs d))]) cs).
Proof.
  intros [A B C D E F G]. cbn [insert_events fst snd k_db k_now k_ds k_cs] in *. destruct (new_events_spec trans evs (b_ne d)) as (H1 & H2 & H3 & H4).
  assert (NI : forall i, In i (map er_id (new_events (b_ne d) trans evs)) -> b_ne d <= i < b_ne d + length evs) by (intros i Hi; rewrite H2, in_seq in Hi; lia).
  constructor; cbn [k_db k_now k_ds k_cs b_sv b_ne b_svc]; auto.
  - intros s Hs. specialize (B s Hs). lia.
  - intros c g Hc Hg. destruct (D c g Hc Hg) as [X Y]. split; auto. intros i Hi. destruct (Y i Hi) as [Y1 Y2]. split; [lia|auto].
  - intros p Hp. apply in_app_iff in Hp. destruct Hp as [Hp|[<-|[]]]; auto. cbn [dnodup]. rewrite H2. apply seq_NoDup.
  - intros p v i Hp P. apply in_app_iff in Hp. destruct Hp as [Hp|[<-|[]]].
    + destruct (F p v i Hp P) as (F1 & F2 & F3). split; [lia|auto].
    + cbn [pend] in P. specialize (NI i P). split; [lia|]. split.
      * intros X. apply in_map_iff in X. destruct X as (s & [= <- <-] & Hs). specialize (B s Hs). lia.
      * intros c g Hc Hg _ X. destruct (D c g Hc Hg) as [_ Y]. destruct (Y i X). lia.
  - assert (Z : forall a p, nth_error (ds ++ [DNew (new_events (b_ne d) trans evs)]) a = Some p ->
                 (nth_error ds a = Some p) \/ (a = length ds /\ p = DNew (new_events (b_ne d) trans evs))).
    { intros a p Ha. destruct (lt_dec a (length ds)) as [L|L]; [rewrite nth_error_app1 in Ha by auto; auto|]. rewrite nth_error_app2 in Ha by lia.
      destruct (a - length ds) as [|k] eqn:Ek; [cbn in Ha; right; split; [lia|congruence]|]. destruct k; cbn in Ha; discriminate Ha. }
    intros a b p q v i Ha Hb Pp Pq. apply Z in Ha. apply Z in Hb. destruct Ha as [Ha|[-> ->]], Hb as [Hb|[-> ->]]; auto.
    + apply (G a b p q v i); auto.
    + cbn [pend] in Pq. specialize (NI i Pq). destruct (F p v i (nth_error_In _ _ Ha) Pp). lia.
    + cbn [pend] in Pp. specialize (NI i Pp). destruct (F q v i (nth_error_In _ _ Hb) Pq). lia.
Qed.

Lemma inv_deliver hist i p p' d d' now ds cs : inv hist (mkK d now ds cs) -> nth_error ds i = Some p -> dispatch_step p d = (p', d') ->
  inv hist (mkK d' now (set_nth i p' ds) cs).
Proof.
  intros [A B C D E F G] Hp H. cbn [k_db k_now k_ds k_cs] in *. pose proof (nth_error_In _ _ Hp) as Ip.
  assert (W : d' = d /\ (forall v x, pend p' v x -> pend p v x) /\ dnodup p' \/
              exists rows v t, p = DTo rows (v :: t) /\ p' = DTo rows t /\ d' = snd (insert_deliveries v rows d)).
  { specialize (E p Ip). destruct p as [rows|rows [|v t]|]; cbn in H; injection H as <- <-; cbn in *; [left|left|right; eauto 6|left]; repeat split; auto; try tauto. }
  destruct W as [(-> & W1 & W2)|(rows & v & t & -> & -> & ->)].
  - constructor; cbn [k_db k_now k_ds k_cs]; auto.
    + intros q Hq. apply in_set in Hq. destruct Hq as [->|Hq]; auto.
    + intros q v x Hq P. apply in_set in Hq. destruct Hq as [->|Hq]; eauto.
    + intros a b q1 q2 v x Ha Hb P1 P2. apply nth_set in Ha. apply nth_set in Hb. destruct Ha as [[<- ->]|[Na Ha]], Hb as [[<- ->]|[Nb Hb]]; auto.
      * apply (G i b p q2 v x); auto.
      * apply (G a i q1 p v x); auto.
      * apply (G a b q1 q2 v x); auto.
  - pose proof (E _ Ip) as [N1 N2]. inversion N2 as [|v0 t0 N3 N4]; subst v0 t0.
    cbn [insert_deliveries snd].
    assert (Q : forall x, In x (map er_id rows) -> pend (DTo rows (v :: t)) v x) by (intros x Hx; cbn; auto).
    assert (Kn : map key (new_deliveries (b_ns d) v rows) = map (fun i => (v, i)) (map er_id rows)) by apply (new_deliveries_spec v rows (b_ns d)).
    constructor; cbn [k_db k_now k_ds k_cs b_sv b_ne b_svc]; auto.
    + rewrite map_app, Kn. apply NoDup_app_intro; auto.
      * apply FinFun.Injective_map_NoDup; auto. intros x y. congruence.
      * intros [v' x] X Y. apply in_map_iff in Y. destruct Y as (z & [= <- <-] & Hz). destruct (F _ v z Ip (Q z Hz)) as (_ & F2 & _). auto.
    + intros s Hs. apply in_app_iff in Hs. destruct Hs as [Hs|Hs]; auto. apply key_new in Hs. destruct Hs as [_ Hs]. now apply (F _ v (sr_event s) Ip (Q _ Hs)).
    + intros c g Hc Hg. destruct (D c g Hc Hg) as [X Y]. split; auto. intros x Hx. destruct (Y x Hx) as [Y1 Y2]. split; auto. intros s Hs Ks. apply in_app_iff in Hs. destruct Hs as [Hs|Hs]; auto.
      apply key_new in Hs. destruct Hs as [S1 S2]. injection Ks as K1 K2. exfalso. destruct (F _ v _ Ip (Q _ S2)) as (_ & _ & F3). apply (F3 c g Hc Hg); congruence.
    + intros q Hq. apply in_set in Hq. destruct Hq as [->|Hq]; auto. cbn. auto.
    + intros q w x Hq P.
      assert (P0 : (exists a, nth_error ds a = Some q /\ a <> i) \/ q = DTo rows t).
      { apply In_nth_error in Hq. destruct Hq as [a Ha]. apply nth_set in Ha. destruct Ha as [[_ ->]|[Na Ha]]; eauto. }
      assert (P1 : i < b_ne d -> True) by auto. clear P1.
      assert (R : pend q w x -> (exists p0, In p0 ds /\ pend p0 w x) /\ (w = v -> In x (map er_id rows) -> False)).
      { intros _. destruct P0 as [(a & Ha & Na)| -> ].
        - split; [exists q; split; auto; eapply nth_error_In; eauto|]. intros -> X. apply Na. apply (G a i q (DTo rows (v :: t)) v x); auto.
        - cbn in P. destruct P as [P1 P2]. split; [exists (DTo rows (v :: t)); cbn; auto|]. intros -> _. auto. }
      destruct (R P) as [(p0 & Hp0 & Pp0) R2]. destruct (F p0 w x Hp0 Pp0) as (F1 & F2 & F3). split; auto. split; auto.
      intros X. rewrite map_app, Kn in X. apply in_app_iff in X. destruct X as [X|X]; auto. apply in_map_iff in X. destruct X as (z & Z1 & Hz). injection Z1 as Z1 Z2. subst w x. auto.
    + intros a b q1 q2 w x Ha Hb P1 P2.
      assert (Sub : pend (DTo rows t) w x -> pend (DTo rows (v :: t)) w x) by (cbn; tauto).
      apply nth_set in Ha. apply nth_set in Hb. destruct Ha as [[<- ->]|[Na Ha]], Hb as [[<- ->]|[Nb Hb]]; auto.
      * apply (G i b (DTo rows (v :: t)) q2 w x); auto.
      * apply (G a i q1 (DTo rows (v :: t)) w x); auto.
      * apply (G a b q1 q2 w x); auto.
Qed.

Lemma inv_clean hist j c c' d d' now ds cs : inv hist (mkK d now ds cs) -> nth_error cs j = Some c -> clean_step c d = (c', d') ->
  inv hist (mkK d' now ds (set_nth j c' cs)).
Proof.
  intros [A B C D E F G] Hc H. cbn [k_db k_now k_ds k_cs] in *. pose proof (nth_error_In _ _ Hc) as Ic.
  destruct (clean_step_cl c d c' d' H) as (C1 & C2 & N1 & N2 & N3 & f & C4).
  assert (S : forall s, In s (b_sv d') -> In s (b_sv d)) by (intros s; rewrite C4, filter_In; tauto).
  assert (SK : forall k, In k (map key (b_sv d')) -> In k (map key (b_sv d))) by (intros k X; apply in_map_iff in X; destruct X as (s & <- & Hs); apply in_map; auto).
  constructor; cbn [k_db k_now k_ds k_cs]; auto.
  - rewrite C4. now apply NoDup_map_filter.
  - intros s Hs. rewrite N1. auto.
  - now rewrite N3.
  - intros q g Hq Hg. rewrite N1. apply in_set in Hq. destruct Hq as [->|Hq].
    + destruct (D c g Ic (C1 g Hg)) as [X Y]. split; auto. intros i Hi. destruct (Y i (C2 i Hi)) as [Y1 Y2]. split; auto.
    + destruct (D q g Hq Hg) as [X Y]. split; auto. intros i Hi. destruct (Y i Hi) as [Y1 Y2]. split; auto.
  - intros p v i Hp P. rewrite N1. destruct (F p v i Hp P) as (F1 & F2 & F3). split; auto. split; auto. intros q g Hq Hg Eg. apply in_set in Hq. destruct Hq as [->|Hq]; [|eauto].
    intros X. apply (F3 c g Ic (C1 g Hg) Eg). auto.
Qed.

Lemma save_keys p id retry s next d : map key (b_sv (save_status p id retry s next d)) = map key (b_sv d) /\ map sr_id (b_sv (save_status p id retry s next d)) = map sr_id (b_sv d).
Proof. cbn. rewrite !map_map. split; apply map_ext; intros x; destruct ((sr_id x =? id) && p (sr_status x)); auto. Qed.
Lemma save_in p id retry s next d x : In x (b_sv (save_status p id retry s next d)) -> exists y, In y (b_sv d) /\ key x = key y /\ sr_created x = sr_created y /\ (x = y \/ p (sr_status y) = true).
Proof.
  cbn. intros H. apply in_map_iff in H. destruct H as (y & <- & Hy). exists y. destruct (sr_id y =? id) eqn:E; destruct (p (sr_status y)) eqn:Ep; cbn; auto.
Qed.

Lemma inv_step hist a st : (forall id r s n, a <> KStale id r s n) -> inv hist st -> inv (hist ++ [a]) (kexec a st).
Proof.
  intros NS I0. pose proof (inv_hist hist a st I0) as I. destruct st as [d now ds cs]. destruct a as [name|t|trans evs outs|trans evs|i|i|id retry s next|id retry s next|g|j|j]; cbn [kexec].
  - destruct I as [A B C D E F G]. cbn [k_db k_now k_ds k_cs] in *. unfold init_service. destruct (existsb (String.eqb name) (b_svc d)) eqn:Ex; constructor; cbn [k_db k_now k_ds k_cs b_sv b_ne b_svc]; auto.
    apply NoDup_app_intro; auto; [repeat constructor; auto|]. intros x X [<-|[]]. assert (existsb (String.eqb name) (b_svc d) = true) by (apply existsb_exists; exists name; split; auto; apply String.eqb_refl). congruence.
  - destruct I as [A B C D E F G]. cbn [k_db k_now k_ds k_cs] in *. constructor; cbn [k_db k_now k_ds k_cs]; auto.
    intros c g Hc Hg. destruct (D c g Hc Hg) as [X Y]. split; auto. intros i Hi. destruct (Y i Hi) as [Y1 Y2]. split; auto. intros s Hs Ks. apply (finished_later g now); [lia|auto].
  - destruct (trans_dispatch trans evs outs d) as [->|X]; auto. eapply inv_pub; eauto.
  - now apply inv_ins.
  - destruct (nth_error ds i) as [p|] eqn:Ep; auto. destruct (dispatch_step p d) as [p' d'] eqn:Es. eapply inv_deliver; eauto.
  - destruct I as [A B C D E F G]. cbn [k_db k_now k_ds k_cs] in *. constructor; cbn [k_db k_now k_ds k_cs]; auto.
    + intros q Hq. apply in_set in Hq. destruct Hq as [->|Hq]; cbn; auto.
    + intros q v x Hq P. apply in_set in Hq. destruct Hq as [->|Hq]; [contradiction P|eauto].
    + intros a b q1 q2 v x Ha Hb P1 P2. apply nth_set in Ha. apply nth_set in Hb. destruct Ha as [[<- ->]|[Na Ha]]; [contradiction P1|]. destruct Hb as [[<- ->]|[Nb Hb]]; [contradiction P2|]. apply (G a b q1 q2 v x); auto.
  - destruct I as [A B C D E F G]. cbn [k_db k_now k_ds k_cs] in *. destruct (save_keys is_init id retry s next d) as [K1 _]. constructor; cbn [k_db k_now k_ds k_cs]; auto.
    + now rewrite K1.
    + intros x Hx. apply save_in in Hx. destruct Hx as (y & Hy & Ky & _). injection Ky as _ Ky. rewrite Ky. apply (B y Hy).
    + intros c g Hc Hg. destruct (D c g Hc Hg) as [X Y]. split; auto. intros i Hi. destruct (Y i Hi) as [Y1 Y2]. split; auto. intros x Hx Kx. apply save_in in Hx. destruct Hx as (y & Hy & Ky & _ & [->|Z]); auto.
      exfalso. rewrite Ky in Kx. destruct (Y2 y Hy Kx) as (_ & Z2 & _). rewrite Z2 in Z. discriminate Z.
    + intros p v i Hp P. rewrite K1. exact (F p v i Hp P).
  - exfalso. apply (NS id retry s next). reflexivity.
  - destruct I as [A B C D E F G]. cbn [k_db k_now k_ds k_cs] in *. constructor; cbn [k_db k_now k_ds k_cs]; auto.
    + intros c g' Hc Hg. apply in_app_iff in Hc. destruct Hc as [Hc|[<-|[]]]; auto. injection Hg as <-. split; [apply in_app_iff; cbn; auto|].
      intros i Hi. cbn [cl_todo] in Hi. unfold scan_finished in Hi. apply in_map_iff in Hi. destruct Hi as (s & <- & Hs). apply filter_In in Hs. destruct Hs as [Hs Z].
      apply andb_prop in Z. destruct Z as [Z Z3]. apply andb_prop in Z. destruct Z as [Z1 Z2]. apply String.eqb_eq in Z1. apply Nat.ltb_lt in Z3. split; auto.
      intros s' Hs' K. assert (s' = s) by (apply (NoDup_map_inj key (b_sv d)); auto; rewrite K; unfold key; congruence). subst s'. repeat split; auto. destruct (sr_status s); auto; discriminate Z2.
    + intros p v i Hp P. destruct (F p v i Hp P) as (F1 & F2 & F3). split; auto. split; auto. intros c g' Hc Hg Eg. apply in_app_iff in Hc. destruct Hc as [Hc|[<-|[]]]; [eauto|]. injection Hg as <-.
      cbn [cl_todo]. unfold scan_finished. intros X. apply in_map_iff in X. destruct X as (s & <- & Hs). apply filter_In in Hs. destruct Hs as [Hs Z].
      apply andb_prop in Z. destruct Z as [Z Z3]. apply andb_prop in Z. destruct Z as [Z1 Z2]. apply String.eqb_eq in Z1. apply F2. apply in_map_iff. exists s. split; auto. unfold key. congruence.
  - destruct (nth_error cs j) as [c|] eqn:Ec; auto. destruct (clean_step c d) as [c' d'] eqn:Es. eapply inv_clean; eauto.
  - destruct I as [A B C D E F G]. cbn [k_db k_now k_ds k_cs] in *. constructor; cbn [k_db k_now k_ds k_cs]; auto.
    + intros c g Hc Hg. apply in_set in Hc. destruct Hc as [->|Hc]; [discriminate Hg|auto].
    + intros p v i Hp P. destruct (F p v i Hp P) as (F1 & F2 & F3). split; auto. split; auto. intros c g' Hc Hg Eg. apply in_set in Hc. destruct Hc as [->|Hc]; [discriminate Hg|eauto].
Qed.
Lemma inv_run acts : forall hist st, Forall no_stale acts -> inv hist st -> inv (hist ++ acts) (krun acts st).
Proof.
  induction acts as [|a t IH]; intros hist st F I; cbn [krun]; [now rewrite app_nil_r|]. inversion F; subst.
  replace (hist ++ a :: t) with ((hist ++ [a]) ++ t) by now rewrite <- app_assoc. apply IH; auto. apply inv_step; auto. intros id r s n ->. contradiction.
Qed.
Lemma inv_start d now : wf d -> inv [] (kstart d now).
Proof.
  intros W. constructor; cbn; try contradiction.
  - apply (wf_key d W).
  - intros s Hs. destruct (wf_ref d W s Hs) as (r & Hr & Er). pose proof (wf_evn d W r Hr). lia.
  - apply (wf_svc d W).
  - intros [|a] b p q v i H; cbn in H; discriminate H.
Qed.
Lemma krun_app a b st : krun (a ++ b) st = krun b (krun a st).
Proof. revert st. induction a as [|x t IH]; intros st; cbn; auto. Qed.

(** a delivery record disappears only by a cleaner's DELETE *)
Lemma removed hist a st s : inv hist st -> In s (b_sv (k_db st)) -> ~ In (sr_id s) (map sr_id (b_sv (k_db (kexec a st)))) ->
  exists j g, a = KClean j /\ In (KScan g) hist /\ finished g (k_now st) s.
Proof.
  intros I Hs N. destruct st as [d now ds cs]. cbn [k_db k_now] in *.
  destruct a as [name|t|trans evs outs|trans evs|i|i|id retry x next|id retry x next|g|j|j]; cbn [kexec k_db] in N; try (exfalso; apply N; apply in_map; exact Hs).
  - exfalso. apply N. unfold init_service. destruct (existsb (String.eqb name) (b_svc d)); apply in_map; exact Hs.
  - exfalso. apply N. apply in_map. destruct (trans_dispatch trans evs outs d) as [->|X]; auto. destruct X as (rows & dels & E1 & E2 & E3 & E4 & E5 & _). rewrite E5. apply in_app_iff. auto.
  - exfalso. destruct (nth_error ds i) as [p|] eqn:Ep; [|apply N; now apply in_map]. destruct p as [rows|rows [|v t]|]; cbn in N; apply N; apply in_map; auto. apply in_app_iff. auto.
  - exfalso. apply N. rewrite (proj2 (save_keys is_init id retry x next d)). now apply in_map.
  - exfalso. apply N. rewrite (proj2 (save_keys (fun _ => true) id retry x next d)). now apply in_map.
  - destruct (nth_error cs j) as [c|] eqn:Ec; [|exfalso; apply N; now apply in_map]. exists j.
    destruct c as [g [|i0 t]|g ids t|g gone t|]; cbn [clean_step k_db b_sv del_events] in N; try (exfalso; apply N; now apply in_map).
    exists g. pose proof (nth_error_In _ _ Ec) as Ic. destruct (i_cl _ _ I _ g Ic eq_refl) as [X Y]. split; auto. split; auto. cbn [cl_todo k_db k_now] in Y.
    set (todo := i0 :: t) in *. cbn [del_deliveries b_sv] in N.
    destruct (String.eqb (sr_service s) (c_service g) && memb (sr_event s) (firstn 10 todo)) eqn:Eb.
    + apply andb_prop in Eb. destruct Eb as [E1 E2]. apply String.eqb_eq in E1. apply memb_In in E2. apply firstn_In in E2. apply (proj2 (Y _ E2) s Hs). unfold key. congruence.
    + exfalso. apply N. apply in_map. apply filter_In. split; auto. now rewrite Eb.
Qed.

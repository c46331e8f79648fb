(** Effects of event handlers: invariants. *)
From Verif Require Import BusModel BusSpec BusProof BusWorld BusWorldSpec BusWorldProof BusWorldProof2 BusWorldProof4 BusWorldProof5 BusWorldProof6 BusLockProof BusLockProps EffectModel EffectSpec.

Lemma in_hand_eq w p : in_hand w p = running (w_poll w p).
Proof. reflexivity. Qed.
Lemma set_nth_length {B} (x : B) l : forall i, length (set_nth i x l) = length l.
Proof. induction l as [|a t IH]; intros [|i]; cbn; auto. Qed.
Lemma nth_set_same {B} (x y : B) l : forall i, nth_error l i = Some y -> nth_error (set_nth i x l) i = Some x.
Proof. induction l as [|a t IH]; intros [|i] H; cbn in *; try discriminate; eauto. Qed.
Lemma nth_set_other {B} (x : B) l : forall i j, i <> j -> nth_error (set_nth i x l) j = nth_error l j.
Proof. induction l as [|a t IH]; intros [|i] [|j] H; cbn in *; auto; try lia. Qed.
(** position after removing another one *)
Definition shift (i j : nat) : nat := if j <? i then j else S j.
Lemma nth_remove {B} (l : list B) : forall i j, nth_error (remove_nth i l) j = nth_error l (shift i j).
Proof.
  induction l as [|a t IH]; intros i j.
  - replace (remove_nth i (@nil B)) with (@nil B) by (destruct i; reflexivity). assert (N : forall k, nth_error (@nil B) k = None) by (intros []; reflexivity). now rewrite !N.
  - destruct i as [|i]; [reflexivity|]. destruct j as [|j]; [reflexivity|]. cbn [remove_nth nth_error]. rewrite IH. unfold shift. change (S j <? S i) with (j <? i). destruct (j <? i); reflexivity.
Qed.
Lemma shift_ne i j : shift i j <> i.
Proof. unfold shift. destruct (Nat.ltb_spec j i); lia. Qed.
Lemma shift_inj i j k : shift i j = shift i k -> j = k.
Proof. unfold shift. destruct (Nat.ltb_spec j i), (Nat.ltb_spec k i); lia. Qed.
Lemma shift_onto i j : i <> j -> exists k, shift i k = j.
Proof. intros H. destruct (Nat.lt_ge_cases j i); [exists j|exists (j - 1)]; unfold shift; [destruct (Nat.ltb_spec j i)|destruct (Nat.ltb_spec (j - 1) i)]; lia. Qed.
Lemma remove_nth_length {B} (l : list B) : forall i, i < length l -> length (remove_nth i l) = length l - 1.
Proof. induction l as [|a t IH]; intros [|i] H; cbn in *; try lia. rewrite IH by lia. lia. Qed.
Lemma upd_same {B} (f : nat -> B) p v : upd f p v p = v.
Proof. unfold upd. now rewrite Nat.eqb_refl. Qed.
Lemma upd_other {B} (f : nat -> B) p q v : q <> p -> upd f p v q = f q.
Proof. intros H. unfold upd. destruct (Nat.eqb_spec q p); congruence. Qed.

Section Bus.
  Variable cfgs : nat -> buscfg.
  (** which actions change the calls in progress *)
  Lemma hand_other w a w' : exec cfgs a w = Some w' -> (forall p i r sv, a <> AEnd p i r sv) -> (forall p, a <> ADie p) -> (forall p l q, a <> ABegin p l q) -> forall p, in_hand w' p = in_hand w p.
  Proof.
    intros Ex N1 N2 N3 p. rewrite !in_hand_eq. destruct w as [d now po lk js h].
    destruct a as [k|name|evs|j evs|j|j|p'|p'|p'|p'|p' lock qok|p' i r saved|p'|p'|v ev x]; cbn [exec] in Ex.
    - injection Ex as <-. reflexivity.
    - injection Ex as <-. reflexivity.
    - destruct evs as [|e0 evs]; [discriminate|]. destruct (dispatch_now (e0 :: evs) d) as [rows d']. injection Ex as <-. reflexivity.
    - destruct evs as [|e0 evs]; [discriminate|]. destruct (js j); [discriminate|]. destruct (insert_events _ _ d) as [rows d']. injection Ex as <-. reflexivity.
    - destruct (js j) as [[|]|]; try discriminate. injection Ex as <-. reflexivity.
    - destruct (js j) as [[|? [|]]|]; try discriminate. injection Ex as <-. reflexivity.
    - destruct (po p') eqn:Ep; try discriminate. injection Ex as <-. cbn. destruct (scan_start _ _ _); auto. apply running_upd. now rewrite Ep.
    - destruct (po p') eqn:Ep; try discriminate. injection Ex as <-. cbn. apply running_upd. rewrite Ep. destruct (earliest _ _ _); auto.
    - destruct (po p') eqn:Ep; try discriminate. injection Ex as <-. cbn. apply running_upd. now rewrite Ep.
    - destruct (po p') eqn:Ep; try discriminate. injection Ex as <-. cbn. apply running_upd. now rewrite Ep.
    - destruct (N3 p' lock qok eq_refl).
    - destruct (N1 p' i r saved eq_refl).
    - destruct (N2 p' eq_refl).
    - destruct (existsb _ _); [discriminate|]. injection Ex as <-. reflexivity.
    - destruct (existsb _ _); [discriminate|]. injection Ex as <-. reflexivity.
  Qed.
  Lemma hand_begin w p l q w' : exec cfgs (ABegin p l q) w = Some w' ->
    (forall p', in_hand w' p' = in_hand w p') \/
    (exists e s, in_hand w' p = in_hand w p ++ [(e, s)] /\ (forall p', p' <> p -> in_hand w' p' = in_hand w p') /\ w_hist w' = HCall (w_now w) (c_service (cfgs p)) e s :: w_hist w).
  Proof.
    intros Ex. destruct w as [d now po lk js h]. cbn [exec] in Ex. destruct (po p) as [| | | |st todo run] eqn:Ep; try discriminate. destruct todo as [|[e s] todo].
    - destruct run; [|discriminate]. injection Ex as <-. left. intros p'. rewrite !in_hand_eq. cbn. apply running_upd. now rewrite Ep.
    - destruct (begin_event _ _ _ _ _ _ _) eqn:Bg; injection Ex as <-.
      1,2: left; intros p'; rewrite !in_hand_eq; cbn; apply running_upd; now rewrite Ep.
      right. exists e, s. unfold in_hand. cbn [w_poll w_hist w_now]. rewrite upd_same, Ep. split; auto. split; auto. intros p' Np. now rewrite upd_other.
  Qed.
  Lemma hand_end w p i r sv w' : exec cfgs (AEnd p i r sv) w = Some w' ->
    exists e s, nth_error (in_hand w p) i = Some (e, s) /\ in_hand w' p = remove_nth i (in_hand w p) /\ (forall q, q <> p -> in_hand w' q = in_hand w q) /\
      w_hist w' = (if sv then HRec (c_service (cfgs p)) e s r (end_event (cfgs p) (w_now w) r s) :: w_hist w else w_hist w).
  Proof.
    intros Ex. destruct w as [d now po lk js h]. cbn [exec] in Ex. destruct (po p) as [| | | |st todo run] eqn:Ep; try discriminate. destruct (nth_error run i) as [[e s]|] eqn:Er; [|discriminate].
    injection Ex as <-. exists e, s. unfold in_hand. cbn [w_poll w_hist w_now]. rewrite upd_same, Ep. split; auto. split; auto. split; auto. intros q Nq. now rewrite upd_other.
  Qed.
  Lemma hand_die w p w' : exec cfgs (ADie p) w = Some w' -> in_hand w' p = [] /\ (forall q, q <> p -> in_hand w' q = in_hand w q) /\ w_hist w' = w_hist w.
  Proof.
    intros Ex. destruct w as [d now po lk js h]. cbn [exec] in Ex. injection Ex as <-. unfold in_hand. cbn [w_poll w_hist]. rewrite upd_same. split; auto. split; auto. intros q Nq. now rewrite upd_other.
  Qed.
End Bus.

Section Inv.
  Context {A : Type}.
  Variable cfgs : nat -> buscfg.
  Variable hs : string -> erow -> list nat.
  Variable eff : string -> erow -> nat -> A -> A.

  (** call [g] of poller [p] is in progress, its [i]-th, for event [e] *)
  Definition live (x : xworld A) (p i : nat) (e : erow) (g : prog) : Prop :=
    (exists s, nth_error (in_hand (x_w x) p) i = Some (e, s)) /\ nth_error (x_prog x p) i = Some g.

  (** the kinds of steps *)
  Inductive kind (a : xact) (x x' : xworld A) : Prop :=
  | KBus b : exec cfgs b (x_w x) = Some (x_w x') -> (forall p i r sv, b <> AEnd p i r sv) -> (forall p, b <> ADie p) ->
      (forall p, in_hand (x_w x') p = in_hand (x_w x) p) -> x_app x' = x_app x -> x_prog x' = x_prog x -> x_next x' = x_next x -> x_log x' = x_log x -> kind a x x'
  | KBegin b p e s : exec cfgs b (x_w x) = Some (x_w x') -> in_hand (x_w x') p = in_hand (x_w x) p ++ [(e, s)] -> (forall q, q <> p -> in_hand (x_w x') q = in_hand (x_w x) q) ->
      w_hist (x_w x') = HCall (w_now (x_w x)) (c_service (cfgs p)) e s :: w_hist (x_w x) ->
      x_app x' = x_app x -> x_prog x' = upd (x_prog x) p (x_prog x p ++ [mkP (x_next x) 0 None]) -> x_next x' = S (x_next x) -> x_log x' = LCall (x_next x) (c_service (cfgs p)) e :: x_log x -> kind a x x'
  | KHandler p i e c k h o : live x p i e (mkP c k None) -> nth_error (hs (c_service (cfgs p)) e) k = Some h -> x_w x' = x_w x ->
      x_app x' = (if committed o then eff (c_service (cfgs p)) e h (x_app x) else x_app x) -> x_prog x' = upd (x_prog x) p (set_nth i (mkP c (S k) (answer o)) (x_prog x p)) ->
      x_next x' = x_next x -> x_log x' = LRun c (c_service (cfgs p)) e h o :: x_log x -> kind a x x'
  | KEnd p i e s g r sv : a = XEnd p i sv -> exec cfgs (AEnd p i r sv) (x_w x) = Some (x_w x') -> nth_error (in_hand (x_w x) p) i = Some (e, s) -> live x p i e g -> result_of hs (c_service (cfgs p)) e g = Some r ->
      in_hand (x_w x') p = remove_nth i (in_hand (x_w x) p) -> (forall q, q <> p -> in_hand (x_w x') q = in_hand (x_w x) q) ->
      w_hist (x_w x') = (if sv then HRec (c_service (cfgs p)) e s r (end_event (cfgs p) (w_now (x_w x)) r s) :: w_hist (x_w x) else w_hist (x_w x)) ->
      x_app x' = x_app x -> x_prog x' = upd (x_prog x) p (remove_nth i (x_prog x p)) -> x_next x' = x_next x ->
      x_log x' = (if sv then LRec (pg_no g) (c_service (cfgs p)) e r :: x_log x else x_log x) -> kind a x x'
  | KDie p : a = XBus (ADie p) -> exec cfgs (ADie p) (x_w x) = Some (x_w x') -> in_hand (x_w x') p = [] -> (forall q, q <> p -> in_hand (x_w x') q = in_hand (x_w x) q) -> w_hist (x_w x') = w_hist (x_w x) ->
      x_app x' = x_app x -> x_prog x' = upd (x_prog x) p [] -> x_next x' = x_next x -> x_log x' = x_log x -> kind a x x'.

  Lemma nth_app_new {B} (l : list B) y : nth_error (l ++ [y]) (length l) = Some y.
  Proof. rewrite nth_error_app2, Nat.sub_diag; auto. Qed.
  Lemma kinds a x x' : xexec cfgs hs eff a x = Some x' -> kind a x x'.
  Proof.
    destruct x as [w app pg n lg]. destruct a as [b|p i o|p i sv].
    - intros Ex. assert (B : (exists p l q, b = ABegin p l q) \/ (exists p, b = ADie p) \/ (exists p i r sv, b = AEnd p i r sv) \/
         ((forall p i r sv, b <> AEnd p i r sv) /\ (forall p, b <> ADie p) /\ (forall p l q, b <> ABegin p l q))).
      { destruct b; try (right; right; right; repeat split; intros; discriminate); eauto 10. }
      destruct B as [(p & l & q & ->)|[(p & ->)|[(p & i & r & sv & ->)|(N1 & N2 & N3)]]].
      + cbn [xexec] in Ex. destruct (exec cfgs (ABegin p l q) w) as [w'|] eqn:E; [|discriminate]. destruct (hand_begin cfgs w p l q w' E) as [H|(e & s & H1 & H2 & H3)].
        * rewrite H in Ex. destruct (nth_error (in_hand w p) (length (in_hand w p))) as [[? ?]|] eqn:Z; [exfalso; assert (Y : length (in_hand w p) < length (in_hand w p)) by (apply nth_error_Some; rewrite Z; discriminate); lia|].
          injection Ex as <-. apply (KBus _ _ _ (ABegin p l q)); cbn; auto; intros; discriminate.
        * rewrite H1, nth_app_new in Ex. injection Ex as <-. apply (KBegin _ _ _ (ABegin p l q) p e s); cbn; auto.
      + cbn [xexec] in Ex. destruct (exec cfgs (ADie p) w) as [w'|] eqn:E; [|discriminate]. injection Ex as <-. destruct (hand_die cfgs w p w' E) as (H1 & H2 & H3). apply (KDie _ _ _ p); cbn; auto.
      + discriminate.
      + assert (Ex' : match exec cfgs b w with Some w' => Some (mkX w' app pg n lg) | None => None end = Some x').
        { destruct b; auto; exfalso; [eapply N3|eapply N1|eapply N2]; reflexivity. }
        destruct (exec cfgs b w) as [w'|] eqn:E; [|discriminate]. injection Ex' as <-. apply (KBus _ _ _ b); cbn; auto. apply (hand_other cfgs w b w' E N1 N2 N3).
    - cbn [xexec]. intros Ex. destruct (nth_error (in_hand w p) i) as [[e s]|] eqn:E1; [|discriminate]. destruct (nth_error (pg p) i) as [[c k [r|]]|] eqn:E2; try discriminate.
      destruct (nth_error (hs _ _) k) as [h|] eqn:E3; [|discriminate]. injection Ex as <-. apply (KHandler _ _ _ p i e c k h o); cbn; auto. split; cbn; eauto.
    - cbn [xexec]. intros Ex. destruct (nth_error (in_hand w p) i) as [[e s]|] eqn:E1; [|discriminate]. destruct (nth_error (pg p) i) as [g|] eqn:E2; [|discriminate].
      destruct (result_of hs (c_service (cfgs p)) e g) as [r|] eqn:E3; [|discriminate]. destruct (exec cfgs (AEnd p i r sv) w) as [w'|] eqn:E; [|discriminate]. injection Ex as <-.
      destruct (hand_end cfgs w p i r sv w' E) as (e' & s' & H1 & H2 & H3 & H4). rewrite E1 in H1. injection H1 as <- <-. apply (KEnd _ _ _ p i e s g r sv); cbn; auto. split; cbn; eauto.
  Qed.
End Inv.

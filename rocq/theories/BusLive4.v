(** Within a batch, senders do not influence each other. *)
From Verif Require Import BusModel BusSpec BusProof BusWorld BusWorldSpec BusWorldProof BusWorldProof3 BusLiveSpec BusLive BusLive2.

Section Indep.
  Variable cfg : buscfg.
  Variables now start : nat.
  Variable snd0 : string.
  Definition of_sender (t : erow * srow) : bool := String.eqb (sender (fst t)) snd0.
  Definition same (evs : list erow) (x y : srow) : Prop :=
    sr_id x = sr_id y /\ sr_service x = sr_service y /\ sr_event x = sr_event y /\ forall r, In r evs -> er_id r = sr_event x -> sender r = snd0 -> sr_status x = sr_status y.
  Definition rel (d d' : bdb) : Prop := b_ev d = b_ev d' /\ Forall2 (same (b_ev d)) (b_sv d) (b_sv d').
  Definition fits (evs : list erow) (s : srow) (d : bdb) : Prop :=
    forall x, In x (b_sv d) -> sr_id x = sr_id s -> sr_service x = sr_service s /\ sr_event x = sr_event s.
  Lemma rel_both d d' s : rel d d' -> rel (save_row s d) (save_row s d').
  Proof.
    intros [E F]. split; auto. cbn. induction F as [|x y l l' S F IH]; cbn; constructor; auto. destruct S as (A & B & C & D). rewrite <- A. destruct (sr_id x =? sr_id s); repeat split; auto.
  Qed.
  Lemma rel_one d d' s e : rel d d' -> In e (b_ev d) -> er_id e = sr_event s -> sender e <> snd0 -> NoDup (map er_id (b_ev d)) -> fits (b_ev d) s d -> rel (save_row s d) d'.
  Proof.
    intros [E F] He Ei Ns N Fi. split; auto. cbn. unfold fits in Fi. revert Fi. induction F as [|x y l l' S F IH]; cbn; intros Fi; constructor; auto. destruct S as (A & B & C & D). destruct (Nat.eqb_spec (sr_id x) (sr_id s)) as [X|X]; [|repeat split; auto].
    destruct (Fi x (or_introl eq_refl) X) as [Y1 Y2]. split; [congruence|]. split; [congruence|]. split; [congruence|]. intros r Hr Er Sr. exfalso. apply Ns. assert (r = e) as <- by (eapply NoDup_map_inj; eauto; congruence). auto.
  Qed.
  Lemma rel_one' d d' s e : rel d d' -> In e (b_ev d) -> er_id e = sr_event s -> sender e <> snd0 -> NoDup (map er_id (b_ev d)) -> fits (b_ev d) s d' -> rel d (save_row s d').
  Proof.
    intros [E F] He Ei Ns N Fi. split; auto. cbn. unfold fits in Fi. revert Fi. induction F as [|x y l l' S F IH]; cbn; intros Fi; constructor; auto. destruct S as (A & B & C & D). destruct (Nat.eqb_spec (sr_id y) (sr_id s)) as [X|X]; [|repeat split; auto].
    destruct (Fi y (or_introl eq_refl) X) as [Y1 Y2]. split; [congruence|]. split; [congruence|]. split; [congruence|]. intros r Hr Er Sr. exfalso. apply Ns. assert (r = e) as <- by (eapply NoDup_map_inj; eauto; congruence). auto.
  Qed.
  Lemma fits_rel s d d' : rel d d' -> fits (b_ev d) s d -> fits (b_ev d) s d'.
  Proof.
    intros [E F] H y Hy Ey. unfold fits in H. induction F as [|x y' l l' S F IH]; [destruct Hy|]. destruct S as (A & B & C & _). destruct Hy as [->|Hy]; [destruct (H x (or_introl eq_refl)); [congruence|]; split; congruence|]. apply IH; auto. intros z Hz. apply H. now right.
  Qed.
  Lemma fits_save s s' evs d : fits evs s d -> fits evs s' d -> fits evs s (save_row s' d).
  Proof.
    intros H H' x Hx Ex. cbn in Hx. apply in_map_iff in Hx. destruct Hx as (y & Ey & Hy). destruct (Nat.eqb_spec (sr_id y) (sr_id s')); subst; auto. destruct (H y Hy); [congruence|]. destruct (H' y Hy); [congruence|]. split; congruence.
  Qed.
  Lemma begin_same d d' lock qok e s : rel d d' -> In e (b_ev d) -> sender e = snd0 -> begin_event cfg lock qok start e s d = begin_event cfg lock qok start e s d'.
  Proof.
    intros [E F] He Es. unfold begin_event. assert (existsb (fun x => sr_id x =? sr_id s) (b_sv d) = existsb (fun x => sr_id x =? sr_id s) (b_sv d')) as ->.
    { clear -F. induction F as [|x y l l' S F IH]; cbn; auto. destruct S as (-> & _). now rewrite IH. }
    assert (check_preceding cfg qok e start d = check_preceding cfg qok e start d') as ->; auto. unfold check_preceding. destruct (String.eqb _ _); auto. destruct (negb qok); auto.
    assert (preceding e d = preceding e d') as <- by (unfold preceding; now rewrite E). pose proof (preceding_spec e d) as P. destruct (preceding e d) as [b|]; auto. destruct P as (P1 & P2 & _). destruct (er_id b <? start); auto.
    assert (X : match find (fun s => String.eqb (sr_service s) (c_service cfg) && (sr_event s =? er_id b)) (b_sv d), find (fun s => String.eqb (sr_service s) (c_service cfg) && (sr_event s =? er_id b)) (b_sv d') with Some x, Some y => sr_status x = sr_status y | None, None => True | _, _ => False end).
    { clear -F P1 P2 Es. induction F as [|x y l l' S F IH]; cbn; auto. destruct S as (A & B & C & D). rewrite <- B, <- C. destruct (String.eqb (sr_service x) (c_service cfg) && (sr_event x =? er_id b)) eqn:Z; auto. apply andb_true_iff in Z. destruct Z as [_ Z]. apply Nat.eqb_eq in Z. apply (D b); auto. congruence. }
    destruct (find _ (b_sv d)), (find _ (b_sv d')); try contradiction; auto. now rewrite X.
  Qed.
  Lemma save_form env e s d : exists s', (fst (handle_event cfg now start env e s d) = d \/ fst (handle_event cfg now start env e s d) = save_row s' d) /\ sr_id s' = sr_id s /\ sr_service s' = sr_service s /\ sr_event s' = sr_event s.
  Proof.
    destruct (end_event_id cfg now (he_res env) s) as (A & B & C & _). unfold handle_event. destruct (begin_event _ _ _ _ _ _ _); destruct (he_save env); cbn; [exists s|exists s|exists s|exists s|exists (end_event cfg now (he_res env) s)|exists s]; auto.
  Qed.
  Lemma batch_indep : forall l envs envs' d d', rel d d' -> NoDup (map er_id (b_ev d)) -> (forall e s, In (e, s) l -> In e (b_ev d) /\ er_id e = sr_event s /\ fits (b_ev d) s d) ->
    (forall i e s, nth_error l i = Some (e, s) -> sender e = snd0 -> envs i = envs' i) ->
    filter of_sender (snd (handle_batch cfg now start envs l d)) = filter of_sender (snd (handle_batch cfg now start envs' l d')).
  Proof.
    induction l as [|[e s] t IH]; intros envs envs' d d' R N H En; auto. cbn [handle_batch]. destruct (H e s (or_introl eq_refl)) as (He & Ei & Fi).
    assert (Step : rel (fst (handle_event cfg now start (envs 0) e s d)) (fst (handle_event cfg now start (envs' 0) e s d')) /\ (sender e = snd0 -> snd (handle_event cfg now start (envs 0) e s d) = snd (handle_event cfg now start (envs' 0) e s d'))).
    { destruct (String.string_dec (sender e) snd0) as [Es|Ns].
      - rewrite <- (En 0 e s eq_refl Es). unfold handle_event. rewrite (begin_same d d' _ _ e s R He Es). destruct (begin_event _ _ _ _ _ _ _); cbn; auto; destruct (he_save (envs 0)); cbn; auto; split; auto; now apply rel_both.
      - split; [|contradiction]. destruct (save_form (envs 0) e s d) as (s1 & F1 & A1 & A2 & A3). destruct (save_form (envs' 0) e s d') as (s2 & F2 & B1 & B2 & B3).
        assert (Fa : fits (b_ev d) s1 d) by (unfold fits in *; rewrite A1, A2, A3; auto). assert (Fb : fits (b_ev d) s2 d) by (unfold fits in *; rewrite B1, B2, B3; auto).
        destruct F1 as [-> | ->], F2 as [-> | ->]; auto.
        + apply (rel_one' d d' s2 e); auto; [congruence|]. now apply (fits_rel s2 d d').
        + apply (rel_one d d' s1 e); auto. congruence.
        + apply (rel_one' _ d' s2 e); auto; [apply (rel_one d d' s1 e); auto; congruence|congruence|]. apply (fits_rel s2 (save_row s1 d) d'); [apply (rel_one d d' s1 e); auto; congruence|]. now apply fits_save. }
    destruct Step as [R1 R2]. pose proof (handle_event_rest cfg now start (envs 0) e s d) as (Ev & _). cbn zeta in Ev.
    assert (H1 : forall e0 s0, In (e0, s0) t -> In e0 (b_ev (fst (handle_event cfg now start (envs 0) e s d))) /\ er_id e0 = sr_event s0 /\ fits (b_ev (fst (handle_event cfg now start (envs 0) e s d))) s0 (fst (handle_event cfg now start (envs 0) e s d))).
    { intros e1 s1 Ht. rewrite Ev. destruct (H e1 s1 (or_intror Ht)) as (A1 & A2 & A3). split; auto. split; auto. destruct (save_form (envs 0) e s d) as (s2 & [-> | ->] & B1 & B2 & B3); auto. apply fits_save; auto. unfold fits in *. rewrite B1, B2, B3. auto. }
    specialize (IH (fun i => envs (S i)) (fun i => envs' (S i)) (fst (handle_event cfg now start (envs 0) e s d)) (fst (handle_event cfg now start (envs' 0) e s d')) R1).
    rewrite Ev in IH at 1. specialize (IH N H1 (fun i e0 s0 Hi => En (S i) e0 s0 Hi)).
    destruct (handle_event cfg now start (envs 0) e s d) as [d1 c1], (handle_event cfg now start (envs' 0) e s d') as [d1' c1']. cbn [fst snd] in *.
    destruct (handle_batch cfg now start (fun i => envs (S i)) t d1) as [d2 cs], (handle_batch cfg now start (fun i => envs' (S i)) t d1') as [d2' cs']. cbn [snd] in *.
    destruct (String.string_dec (sender e) snd0) as [Es|Ns].
    - rewrite (R2 Es). destruct c1'; cbn; rewrite IH; reflexivity.
    - assert (of_sender (e, s) = false) as Of by (unfold of_sender; cbn; now apply String.eqb_neq). destruct c1, c1'; cbn; rewrite ?Of; auto.
  Qed.
  Lemma rel_refl d : rel d d.
  Proof. split; auto. induction (b_sv d); constructor; auto. repeat split; auto. Qed.
End Indep.

(** Effects of event handlers: how often they happen. *)
From Verif Require Import BusModel BusSpec BusProof BusWorld BusWorldSpec BusWorldProof BusWorldProof2 BusWorldProof4 BusWorldProof5 BusWorldProof6 BusLockProof BusLockProps EffectModel EffectSpec EffectProof EffectProof2.

(** every call was dispatched to the service it is made in *)
Lemma allowed_weaken cfgs w a : allowed cfgs reliable_mode w a -> allowed cfgs calm_mode w a.
Proof. destruct a; cbn; auto; intuition congruence. Qed.
Lemma reach_weaken cfgs w : reachable cfgs reliable_mode w -> reachable cfgs calm_mode w.
Proof.
  unfold reachable. remember world0 as w0 eqn:E0. intros R. induction R as [w|w1 w2 w3 R1 IH T]; [constructor|]. destruct T as (a & Al & Ex). econstructor; [exact (IH E0)|]. exists a. split; auto. now apply allowed_weaken.
Qed.
Section Disp.
  Variable cfgs : nat -> buscfg.
  Lemma called_dispatched m w : m_split m = false -> m_cleanrace m = false -> reachable cfgs m w -> forall t v e s, In (HCall t v e s) (w_hist w) -> dispatched_to (w_hist w) v e.
  Proof.
    intros M1 M2 R. unfold reachable in R. remember world0 as w0 eqn:E0. induction R as [w|w1 w2 w3 R1 IH T]; [subst; intros t v e s []|]. specialize (IH E0). subst w1. destruct T as (a & Al & Ex).
    pose proof (inv_reach cfgs m M1 M2 w2 R1) as I.
    assert (Keep : forall t v e s, In (HCall t v e s) (w_hist w2) -> dispatched_to (w_hist w3) v e).
    { intros t v e s H. specialize (IH t v e s H). destruct (hist_grows cfgs a w2 w3 Ex) as [->|(y & ->)]; auto. now apply disp_to_cons. }
    assert (D : (exists p l q, a = ABegin p l q) \/ forall t v e s, In (HCall t v e s) (w_hist w3) -> In (HCall t v e s) (w_hist w2)).
    { clear -Ex. destruct w2 as [d now po lk js h]. destruct a; try (left; eauto; fail); right; cbn [exec] in Ex;
      repeat match goal with
             | E : context [match ?x with _ => _ end] |- _ => match type of E with _ = Some w3 => destruct x eqn:? end
             end; try discriminate; injection Ex as <-; cbn [w_hist]; intros; auto; try (destruct H as [H|H]; [discriminate H|auto]). }
    destruct D as [(p & l & q & ->)|D]; [|intros t v e s H; apply (Keep t v e s), D, H].
    destruct (hist_grows cfgs _ w2 w3 Ex) as [E|(y & E)]; [rewrite E in *; eauto|]. intros t v e s H. rewrite E in H. destruct H as [->|H]; [|eauto].
    destruct w2 as [d now po lk js h]. cbn [exec] in Ex. destruct (po p) as [| | | |st todo run] eqn:Ep; try discriminate. destruct todo as [|[e0 s0] todo].
    { destruct run; [|discriminate]. injection Ex as <-. cbn in E. exfalso. apply (f_equal (@length _)) in E. cbn in E. lia. }
    destruct (begin_event _ _ _ _ _ _ _) eqn:Bg; injection Ex as <-; cbn [w_hist] in *.
    1,2: exfalso; apply (f_equal (@length _)) in E; cbn in E; lia.
    injection E as -> <- -> ->. apply begin_call in Bg. destruct Bg as (_ & _ & (z & Z1 & Z2) & _).
    pose proof (i_poll _ _ I p) as P. cbn [w_poll] in P. rewrite Ep in P. destruct P as (_ & P & _). destruct (P e s) as (T & Te & Td); [now left|]. destruct T as (T1 & _ & _ & T2).
    destruct (T2 z Z1 Z2) as [T3 T4]. destruct (i_row _ _ I z Z1) as (r & R2 & R3). cbn [w_hist w_db] in *. apply disp_to_cons.
    assert (r = e) as <-. { apply (disp_uniq h); auto; [apply (i_good _ _ I)|now apply (disp_to_disp _ _ _ R2)|congruence]. } congruence.
  Qed.
End Disp.

(** all effects for event number [id] in service [svc] happened in call [c] *)
Definition only_in (l : list lev) (svc : string) (id c : nat) : Prop := forall c' e h o, In (LRun c' svc e h o) l -> er_id e = id -> committed o = true -> c' = c.
Definition no_effect (l : list lev) (svc : string) (id : nat) : Prop := forall c e h o, In (LRun c svc e h o) l -> er_id e = id -> committed o = false.

Lemma times_le l svc id c h : only_in l svc id c -> times l svc id h <= count_occ Nat.eq_dec (map fst (runs_of c l)) h.
Proof.
  unfold times. induction l as [|y t IH]; intros O; cbn; [lia|]. assert (O' : only_in t svc id c) by (intros c' e h' o H; apply (O c' e h' o); now right). specialize (IH O').
  destruct y as [c' v' e'|c' v' e' h' o'|c' v' e' r']; auto. destruct (committed o') eqn:Co.
  - rewrite filter_app, app_length. cbn [filter]. destruct (String.eqb v' svc && (er_id e' =? id) && (h' =? h)) eqn:B.
    + apply andb_true_iff in B. destruct B as [B B3]. apply andb_true_iff in B. destruct B as [B1 B2]. apply String.eqb_eq in B1. apply Nat.eqb_eq in B2, B3. subst v' h'.
      assert (c' = c) as -> by (apply (O c' e' h o'); auto; now left). rewrite Nat.eqb_refl, map_app, count_occ_app. cbn [length map fst]. rewrite count_occ_cons_eq by reflexivity. cbn [count_occ]. lia.
    + cbn [length]. destruct (c' =? c); [rewrite map_app, count_occ_app; lia|lia].
  - destruct (c' =? c); [rewrite map_app, count_occ_app; lia|lia].
Qed.
Lemma times_none l svc id h : no_effect l svc id -> times l svc id h = 0.
Proof.
  unfold times. intros O. assert (E : filter (fun x : string * erow * nat => let '(v, e, k) := x in String.eqb v svc && (er_id e =? id) && (k =? h)) (effects l) = []); [|now rewrite E].
  assert (X : forall x, In x (effects l) -> (let '(v, e, k) := x in String.eqb v svc && (er_id e =? id) && (k =? h)) = false).
  { intros [[v e] k] Hx. apply effects_in in Hx. destruct Hx as (c & o & Hx & Ho). destruct (String.eqb_spec v svc) as [->|]; auto. destruct (Nat.eqb_spec (er_id e) id) as [Ei|]; auto. rewrite (O _ _ _ _ Hx Ei) in Ho. discriminate Ho. }
  clear O. induction (effects l) as [|x t IH]; auto. cbn. rewrite (X x) by now left. apply IH. intros y Hy. apply X. now right.
Qed.

Section Once.
  Context {A : Type}.
  Variable cfgs : nat -> buscfg.
  Variable hs : string -> erow -> list nat.
  Variable eff : string -> erow -> nat -> A -> A.
  Variable app0 : A.
  Notation live := (@live A).

  Inductive where_now (x : xworld A) (svc : string) (id : nat) : Prop :=
  | WNone : no_effect (x_log x) svc id -> where_now x svc id
  | WLive p i e g : live x p i e g -> c_service (cfgs p) = svc -> er_id e = id -> pg_res g = None -> only_in (x_log x) svc id (pg_no g) -> where_now x svc id
  | WDone c e : In (LRec c svc e HOk) (x_log x) -> er_id e = id -> only_in (x_log x) svc id c -> where_now x svc id.

  Lemma live_calling x p i e g : live x p i e g -> exists s, calling (x_w x) p i e s.
  Proof. intros [(s & H) _]. exists s. now apply calling_running. Qed.

  Lemma fln_shorter y l : failures_leave_nothing (y :: l) -> failures_leave_nothing l.
  Proof. intros H c v e h o v' e' h' o' H1 H2 H3. apply (H c v e h o v' e' h' o'); auto; now right. Qed.
  Lemma only_other y l svc id c : (forall c' v e h o, y = LRun c' v e h o -> (v <> svc \/ er_id e <> id) \/ committed o = false \/ c' = c) -> only_in l svc id c -> only_in (y :: l) svc id c.
  Proof.
    intros N O c' e h o [H|H] H2 H3; [|eapply O; eauto]. destruct (N c' svc e h o H) as [[X|X]|[X|X]]; try congruence.
  Qed.
  Lemma none_other y l svc id : (forall c' v e h o, y = LRun c' v e h o -> (v <> svc \/ er_id e <> id) \/ committed o = false) -> no_effect l svc id -> no_effect (y :: l) svc id.
  Proof.
    intros N O c' e h o [H|H] H2; [|eapply O; eauto]. destruct (N c' svc e h o H) as [[X|X]|X]; congruence.
  Qed.

  Lemma where_step m x a x' svc id : m_split m = false -> m_cleanrace m = false -> m_overlap m = false -> m_loss m = false ->
    xreach cfgs hs eff m app0 x -> xallowed cfgs m x a -> xexec cfgs hs eff a x = Some x' -> failures_leave_nothing (x_log x') -> where_now x svc id -> where_now x' svc id.
  Proof.
    intros M1 M2 M3 M4 R Al Ex F W. pose proof (invX_reach cfgs hs eff app0 m x R) as IX. pose proof (xreach_bus cfgs hs eff app0 m x R) as RB.
    destruct (invB_reach cfgs m (x_w x) M1 M2 M3 RB) as [IB BB].
    assert (RC : reachable cfgs calm_mode (x_w x)).
    { clear -RB M1 M2 M3 M4. destruct m as [a b c d]. cbn in *. subst. now apply reach_weaken. }
    destruct (kinds cfgs hs eff a x x' Ex) as [b Eb N1 N2 Hh Ha Hp Hn Hl|b p e s Eb Hh Ho Hhist Ha Hp Hn Hl|p i e c k h o Lv Eh Hw Ha Hp Hn Hl|p i e s g r sv Ea Eb Ei Lv Er Hh Ho Hhist Ha Hp Hn Hl|p Ea Eb Hh Ho Hhist Ha Hp Hn Hl].
    - destruct W as [W|p i e g Lg W1 W2 W3 W4|c e W1 W2 W3].
      + apply WNone. now rewrite Hl.
      + apply (WLive _ _ _ p i e g); auto; [|now rewrite Hl]. destruct Lg as [L1 L2]. split; [now rewrite Hh|now rewrite Hp].
      + apply (WDone _ _ _ c e); rewrite ?Hl; auto.
    - destruct W as [W|p0 i e0 g Lg W1 W2 W3 W4|c e0 W1 W2 W3].
      + apply WNone. rewrite Hl. apply none_other; auto. discriminate.
      + apply (WLive _ _ _ p0 i e0 g); auto; [|rewrite Hl; apply only_other; auto; discriminate]. pose proof (live_len x p0 i e0 g Lg) as Li. destruct Lg as [(s0 & L1) L2]. split; [exists s0|].
        * destruct (Nat.eq_dec p0 p) as [->|]; [|rewrite Ho; auto]. rewrite Hh, nth_error_app1; auto. now rewrite <- (x_len _ _ _ _ _ IX).
        * rewrite Hp. destruct (Nat.eq_dec p0 p) as [->|]; [rewrite upd_same, nth_error_app1; auto|rewrite upd_other; auto].
      + apply (WDone _ _ _ c e0); rewrite ?Hl; auto; [now right|]. apply only_other; auto. discriminate.
    - assert (Lv' : live x' p i e (mkP c (S k) (answer o))).
      { destruct Lv as [L1 L2]. split; [now rewrite Hw|]. rewrite Hp, upd_same. eapply nth_set_same; eauto. }
      assert (Dec : (c_service (cfgs p) = svc /\ er_id e = id) \/ (c_service (cfgs p) <> svc \/ er_id e <> id)).
      { destruct (string_dec (c_service (cfgs p)) svc), (Nat.eq_dec (er_id e) id); auto. }
      assert (Oth : (c_service (cfgs p) <> svc \/ er_id e <> id) -> forall c' v e1 h1 o1, LRun c (c_service (cfgs p)) e h o = LRun c' v e1 h1 o1 -> v <> svc \/ er_id e1 <> id).
      { intros N c' v e1 h1 o1 H. injection H as _ <- <- _ _. auto. }
      assert (Fin : only_in (x_log x) svc id c -> c_service (cfgs p) = svc -> er_id e = id -> where_now x' svc id).
      { intros O Es Ei. destruct (answer o) as [r|] eqn:Ea.
        - apply WNone. intros c' e' h' o' H1 H2. destruct (committed o') eqn:Co; auto. assert (c' = c) as ->.
          { rewrite Hl in H1. destruct H1 as [H1|H1]; [now injection H1 as <- _ _ _|]. apply (O c' e' h' o' H1 H2 Co). }
          rewrite <- Co. apply (F c (c_service (cfgs p)) e h o svc e' h' o'); auto; [rewrite Hl; now left|congruence].
        - apply (WLive _ _ _ p i e (mkP c (S k) None)); auto. cbn. rewrite Hl. apply only_other; auto. intros c' v e1 h1 o1 H. injection H as <- _ _ _ _. auto. }
      destruct W as [W|p0 i0 e0 g Lg W1 W2 W3 W4|c0 e0 W1 W2 W3].
      + destruct Dec as [[Es Ei]|N].
        * apply Fin; auto. intros c' e' h' o' H1 H2 H3. rewrite (W c' e' h' o' H1 H2) in H3. discriminate H3.
        * apply WNone. rewrite Hl. apply none_other; auto. intros c' v e1 h1 o1 H. left. eapply Oth; eauto.
      + destruct Dec as [[Es Ei]|N].
        * destruct (live_calling _ _ _ _ _ Lv) as (s1 & C1). destruct (live_calling _ _ _ _ _ Lg) as (s2 & C2).
          destruct (C69_one_call_at_a_time_partial cfgs (x_w x) p p0 i i0 e e0 s1 s2 RC C1 C2) as [<- <-]; [congruence|congruence|].
          assert (g = mkP c k None) as -> by (destruct Lv, Lg; congruence). apply Fin; auto.
        * apply (WLive _ _ _ p0 i0 e0 g); auto.
          -- destruct Lg as [L1 L2]. split; [now rewrite Hw|]. rewrite Hp. destruct (Nat.eq_dec p0 p) as [->|Np]; [|now rewrite upd_other]. rewrite upd_same. destruct (Nat.eq_dec i i0) as [<-|Ni]; [|now rewrite nth_set_other].
             exfalso. destruct Lv as [(s1 & V1) _], L1 as (s2 & V2). rewrite V1 in V2. injection V2 as <- _. destruct N; congruence.
          -- rewrite Hl. apply only_other; auto. intros c' v e1 h1 o1 H. left. eapply Oth; eauto.
      + destruct Dec as [[Es Ei]|N].
        * exfalso. destruct (live_calling _ _ _ _ _ Lv) as (s & st & todo & run & E1 & E2). apply nth_error_In in E2.
          assert (St : In s (tuples (w_poll (x_w x) p))) by (rewrite E1; cbn; apply (in_map snd _ (e, s)), in_app_iff; auto).
          destruct (tuple_mine cfgs (x_w x) p s IB St) as [T1 T2]. pose proof (b_tab _ _ BB p s St) as T. pose proof (i_poll _ _ IB p) as P. rewrite E1 in P. destruct P as (_ & P & _). destruct (P e s) as (_ & Q & _); [apply in_app_iff; auto|].
          apply (pending_unprocessed cfgs (x_w x) s e0 IB BB T T2); [congruence|]. destruct (proj1 (x_hrec _ _ _ _ _ IX svc e0 HOk)) as (s1 & s2 & X); [eauto|]. exists s1, s2. congruence.
        * apply (WDone _ _ _ c0 e0); rewrite ?Hl; auto; [now right|]. apply only_other; auto. intros c' v e1 h1 o1 H. left. eapply Oth; eauto.
    - subst a. cbn in Al. destruct Al as [Al| ->]; [congruence|]. cbv iota in Hl. assert (No : forall c' v e1 h1 o1, LRec (pg_no g) (c_service (cfgs p)) e r <> LRun c' v e1 h1 o1) by discriminate.
      destruct W as [W|p0 i0 e0 g0 Lg W1 W2 W3 W4|c0 e0 W1 W2 W3].
      + apply WNone. rewrite Hl. apply none_other; auto. intros c' v e1 h1 o1 H. destruct (No _ _ _ _ _ H).
      + assert (O' : only_in (x_log x') svc id (pg_no g0)) by (rewrite Hl; apply only_other; auto; intros c' v e1 h1 o1 H; destruct (No _ _ _ _ _ H)).
        destruct (Nat.eq_dec p0 p) as [->|Np].
        * destruct (Nat.eq_dec i i0) as [<-|Ni].
          -- assert (g0 = g) as -> by (destruct Lv, Lg; congruence). assert (e0 = e) as -> by (destruct Lv as [(? & ?) _], Lg as [(? & ?) _]; congruence).
             unfold result_of in Er. rewrite W3 in Er. destruct (_ =? _); [|discriminate]. injection Er as <-. apply (WDone _ _ _ (pg_no g) e); auto. rewrite Hl, W1. now left.
          -- destruct (shift_onto i i0 Ni) as (j & Ej). apply (WLive _ _ _ p j e0 g0); auto. destruct Lg as [(s0 & L1) L2]. split; [exists s0; rewrite Hh, nth_remove, Ej; auto|]. rewrite Hp, upd_same, nth_remove, Ej. auto.
        * apply (WLive _ _ _ p0 i0 e0 g0); auto. destruct Lg as [(s0 & L1) L2]. split; [exists s0; rewrite Ho; auto|]. rewrite Hp, upd_other; auto.
      + apply (WDone _ _ _ c0 e0); rewrite ?Hl; auto; [now right|]. apply only_other; auto. intros c' v e1 h1 o1 H. destruct (No _ _ _ _ _ H).
    - subst a. cbn in Al. congruence.
  Qed.

  Lemma log_grows a x x' : xexec cfgs hs eff a x = Some x' -> x_log x' = x_log x \/ exists y, x_log x' = y :: x_log x.
  Proof. intros Ex. destruct (kinds cfgs hs eff a x x' Ex); eauto. destruct sv; eauto. Qed.
  Lemma where_reach m x svc id : m_split m = false -> m_cleanrace m = false -> m_overlap m = false -> m_loss m = false ->
    xreach cfgs hs eff m app0 x -> failures_leave_nothing (x_log x) -> where_now x svc id.
  Proof.
    intros M1 M2 M3 M4 R. induction R as [|x a x' R IH Al Ex]; intros F; [apply WNone; intros c e h o []|]. apply (where_step m x a x'); auto. apply IH.
    destruct (log_grows a x x' Ex) as [E|(y & E)]; rewrite E in F; auto. eapply fln_shorter; eauto.
  Qed.
End Once.

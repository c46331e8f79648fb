(** Invariants of the memory bus. *)
From Verif Require Import MemBusSpec.

Lemma mfind_mset p q evs l : mfind p (mset q evs l) = if p =? q then match mfind q l with Some _ => Some evs | None => None end else mfind p l.
Proof.
  induction l as [|[k x] t IH]; cbn; [now destruct (p =? q)|].
  destruct (Nat.eqb_spec q k) as [->|N]; cbn.
  - destruct (Nat.eqb_spec p k); reflexivity.
  - destruct (Nat.eqb_spec p k) as [->|N2].
    + rewrite (proj2 (Nat.eqb_neq k q)) by congruence. reflexivity.
    + apply IH.
Qed.
Lemma mset_keys q evs l : map fst (mset q evs l) = map fst l.
Proof. induction l as [|[k x] t IH]; cbn; [reflexivity|]. destruct (Nat.eqb_spec q k) as [->|N]; cbn; [reflexivity|now f_equal]. Qed.
Lemma mfind_In p l : mfind p l <> None <-> In p (map fst l).
Proof.
  induction l as [|[k x] t IH]; cbn; [split; [congruence|tauto]|].
  destruct (Nat.eqb_spec p k) as [->|N].
  - split; [auto|congruence].
  - rewrite IH. split; [auto|intros [H|H]; [congruence|assumption]].
Qed.
Lemma mdel_keys_in p q l : In p (map fst (mdel q l)) -> In p (map fst l).
Proof.
  induction l as [|[k x] t IH]; cbn; [tauto|]. destruct (Nat.eqb_spec q k) as [->|N]; cbn; [tauto|]. intros [H|H]; auto.
Qed.
Lemma mdel_nodup q l : NoDup (map fst l) -> NoDup (map fst (mdel q l)).
Proof.
  induction l as [|[k x] t IH]; cbn; [intros; constructor|]. intros H. inversion H; subst.
  destruct (Nat.eqb_spec q k) as [->|N]; cbn; [assumption|]. constructor; [|auto]. intros K. now apply mdel_keys_in in K.
Qed.
Lemma mfind_mdel p q l : NoDup (map fst l) -> mfind p (mdel q l) = if p =? q then None else mfind p l.
Proof.
  induction l as [|[k x] t IH]; cbn; [now destruct (p =? q)|]. intros H. inversion H; subst.
  destruct (Nat.eqb_spec q k) as [->|N]; cbn.
  - destruct (Nat.eqb_spec p k) as [->|N2]; [|reflexivity].
    destruct (mfind k t) eqn:E; [|reflexivity]. exfalso. apply H2. apply mfind_In. congruence.
  - destruct (Nat.eqb_spec p k) as [->|N2]; [|auto].
    rewrite (proj2 (Nat.eqb_neq k q)) by congruence. reflexivity.
Qed.

Lemma mby_app s a b : mby s (a ++ b) = mby s a ++ mby s b.
Proof. unfold mby. now rewrite filter_app, map_app. Qed.
Lemma mby_one s t e : mby s [(t, e)] = if mis s (t, e) then [e] else [].
Proof. unfold mby. cbn [filter]. now destruct (mis s (t, e)). Qed.

Definition mrest (p : nat) (d : list (nat * list nat)) : list nat := match mfind p d with Some x => x | None => [] end.
Definition mtodo (c : mcons) : list nat := match c with MInHandler _ t => t | _ => [] end.
Definition minh (c : mcons) : nat := match c with MInHandler _ _ => 1 | _ => 0 end.
Definition mindisp (p : nat) (d : list (nat * list nat)) : nat := match mfind p d with Some _ => 1 | None => 0 end.

Record minv (cap : nat) (s : mstate) : Prop := MkMinv {
  mi_queue : map snd (msent (m_hist s)) = mhanded (m_hist s) ++ map snd (m_queue s);
  mi_len : length (m_queue s) <= cap;
  mi_nodup : NoDup (map fst (m_disp s));
  mi_ask : forall p, masked p (m_hist s) = mby (MExt p) (msent (m_hist s)) ++ mrest p (m_disp s);
  mi_pubs : mpubs (m_hist s) = mby MHandler (msent (m_hist s)) ++ mtodo (m_cons s);
  mi_hands : mcount is_hand (m_hist s) = mcount is_done (m_hist s) + minh (m_cons s);
  mi_calls : forall p, mcount (is_call p) (m_hist s) = mcount (is_ret p) (m_hist s) + mindisp p (m_disp s) }.

Lemma minv_init cap : minv cap minit.
Proof. split; cbn; auto with arith; constructor. Qed.

Lemma mcount_cons f x h : mcount f (x :: h) = (if f x then 1 else 0) + mcount f h.
Proof. unfold mcount. cbn. now destruct (f x). Qed.

Lemma minv_step cap l s s' : minv cap s -> mstep cap l s = Some s' -> minv cap s'.
Proof.
  intros I E. destruct s as [q d c x h]. pose proof I as I0. destruct I as [Iq Il In_ Ia Ip Ih Ic]. cbn [m_queue m_disp m_cons m_cancel m_hist] in *.
  destruct l as [|p evs|p|p pubs|p|pubs| | | |]; cbn [mstep] in E.
  - destruct c; injection E as <-; try assumption. split; cbn [m_queue m_disp m_cons m_cancel m_hist mtodo minh] in *; auto.
  - destruct (mfind p d) eqn:F; [discriminate|]. injection E as <-.
    split; cbn [m_queue m_disp m_cons m_cancel m_hist msent mhanded masked mpubs map fst] in *; auto.
    + constructor; [|assumption]. intros K. apply mfind_In in K. congruence.
    + intros r. unfold mrest in *. cbn [mfind]. rewrite (Ia r). destruct (Nat.eqb_spec r p) as [->|N]; [|reflexivity].
      rewrite F. now rewrite app_nil_r.
    + intros r. rewrite !mcount_cons. cbn [is_call is_ret]. unfold mindisp in *. cbn [mfind]. rewrite (Ic r).
      destruct (Nat.eqb_spec r p) as [->|N]; [rewrite F; lia|lia].
  - destruct (mfind p d) as [[|e t]|] eqn:F; try discriminate. destruct (length q <? cap) eqn:L; [|discriminate]. injection E as <-.
    apply Nat.ltb_lt in L.
    split; cbn [m_queue m_disp m_cons m_cancel m_hist msent mhanded masked mpubs] in *; auto.
    + rewrite !map_app, Iq. cbn. now rewrite app_assoc.
    + rewrite app_length. cbn. lia.
    + now rewrite mset_keys.
    + intros r. rewrite mby_app, mby_one. cbn [mis fst]. rewrite (Ia r). unfold mrest. rewrite mfind_mset, F.
      destruct (Nat.eqb_spec r p) as [->|N]; [rewrite F, <- app_assoc; reflexivity|now rewrite app_nil_r].
    + rewrite mby_app, mby_one. cbn [mis fst]. now rewrite app_nil_r.
    + intros r. rewrite !mcount_cons. cbn [is_call is_ret]. cbn. unfold mindisp. rewrite mfind_mset, F. rewrite (Ic r). unfold mindisp.
      destruct (Nat.eqb_spec r p) as [->|N]; [now rewrite F|reflexivity].
  - destruct (mfind p d) as [[|e t]|] eqn:F; try discriminate. destruct q as [|y q]; [|discriminate]. destruct c; try discriminate.
    injection E as <-.
    split; cbn [m_queue m_disp m_cons m_cancel m_hist msent mhanded masked mpubs mtodo minh] in *; auto.
    + rewrite !map_app, Iq. cbn. now rewrite !app_nil_r.
    + now rewrite mset_keys.
    + intros r. rewrite mby_app, mby_one. cbn [mis fst]. rewrite (Ia r). unfold mrest. rewrite mfind_mset, F.
      destruct (Nat.eqb_spec r p) as [->|N]; [rewrite F, <- app_assoc; reflexivity|now rewrite app_nil_r].
    + rewrite mby_app, mby_one. cbn [mis fst]. rewrite Ip. now rewrite !app_nil_r.
    + rewrite !mcount_cons. cbn [is_hand is_done]. lia.
    + intros r. rewrite !mcount_cons. cbn [is_call is_ret]. cbn. unfold mindisp. rewrite mfind_mset, F. rewrite (Ic r). unfold mindisp.
      destruct (Nat.eqb_spec r p) as [->|N]; [now rewrite F|reflexivity].
  - destruct (mfind p d) as [[|e t]|] eqn:F; try discriminate. injection E as <-.
    split; cbn [m_queue m_disp m_cons m_cancel m_hist msent mhanded masked mpubs] in *; auto.
    + now apply mdel_nodup.
    + intros r. rewrite (Ia r). unfold mrest. rewrite mfind_mdel by assumption. destruct (Nat.eqb_spec r p) as [->|N]; [now rewrite F|reflexivity].
    + intros r. rewrite !mcount_cons. cbn [is_call is_ret]. unfold mindisp in *. rewrite mfind_mdel by assumption. rewrite (Ic r).
      destruct (Nat.eqb_spec r p) as [->|N]; [rewrite F; lia|lia].
  - destruct q as [|[y e] q]; [discriminate|]. destruct c; try discriminate. injection E as <-.
    split; cbn [m_queue m_disp m_cons m_cancel m_hist msent mhanded masked mpubs mtodo minh map snd length] in *; auto.
    + rewrite Iq. now rewrite <- app_assoc.
    + lia.
    + rewrite Ip. now rewrite app_nil_r.
    + rewrite !mcount_cons. cbn [is_hand is_done]. lia.
  - destruct c as [| |e [|y t]]; try discriminate. destruct (length q <? cap) eqn:L; [|discriminate]. injection E as <-.
    apply Nat.ltb_lt in L.
    split; cbn [m_queue m_disp m_cons m_cancel m_hist msent mhanded masked mpubs mtodo minh] in *; auto.
    + rewrite !map_app, Iq. cbn. now rewrite app_assoc.
    + rewrite app_length. cbn. lia.
    + intros r. rewrite mby_app, mby_one. cbn [mis fst]. rewrite (Ia r). now rewrite app_nil_r.
    + rewrite mby_app, mby_one. cbn [mis fst]. rewrite Ip, <- app_assoc. reflexivity.
  - destruct c as [| |e [|y t]]; try discriminate. injection E as <-.
    split; cbn [m_queue m_disp m_cons m_cancel m_hist msent mhanded masked mpubs mtodo minh] in *; auto.
    rewrite !mcount_cons. cbn [is_hand is_done]. lia.
  - injection E as <-. split; cbn [m_queue m_disp m_cons m_cancel m_hist msent mhanded masked mpubs mtodo minh] in *; auto.
  - destruct c; try discriminate. destruct x; [|discriminate]. injection E as <-. assumption.
Qed.
Lemma minv_run cap ls s s' : minv cap s -> mrun cap ls s = Some s' -> minv cap s'.
Proof.
  revert s. induction ls as [|l t IH]; cbn; intros s I E; [injection E as <-; assumption|].
  destruct (mstep cap l s) eqn:F; [|discriminate]. eapply IH; [|eassumption]. eapply minv_step; eassumption.
Qed.
Lemma minv_reach cap s : mreach cap s -> minv cap s.
Proof. intros (ls & E). eapply minv_run; [apply minv_init|eassumption]. Qed.

(** ** Progress *)
Lemma mrun_app cap a b s : mrun cap (a ++ b) s = match mrun cap a s with Some s' => mrun cap b s' | None => None end.
Proof. revert s. induction a as [|l t IH]; cbn; intros s; [reflexivity|]. destruct (mstep cap l s); auto. Qed.

Definition mwork (l : list (nat * list nat)) : nat := list_sum (map (fun x => 1 + 3 * length (snd x)) l).
Lemma mwork_cons k x l : mwork ((k, x) :: l) = 1 + 3 * length x + mwork l.
Proof. reflexivity. Qed.
Lemma mwork_mset p e t l : mfind p l = Some (e :: t) -> mwork l = 3 + mwork (mset p t l).
Proof.
  induction l as [|[k x] u IH]; cbn [mfind mset]; [discriminate|].
  destruct (Nat.eqb_spec p k) as [->|N]; intros H; rewrite !mwork_cons.
  - injection H as ->. cbn [length]. lia.
  - rewrite (IH H). lia.
Qed.
Lemma mwork_mdel p l : mfind p l = Some [] -> mwork l = 1 + mwork (mdel p l).
Proof.
  induction l as [|[k x] u IH]; cbn [mfind mdel]; [discriminate|].
  destruct (Nat.eqb_spec p k) as [->|N]; intros H; rewrite !mwork_cons.
  - injection H as ->. reflexivity.
  - rewrite (IH H). lia.
Qed.
Definition mmeasure (s : mstate) : nat :=
  mwork (m_disp s) + 2 * length (m_queue s) + minh (m_cons s) + 3 * length (mtodo (m_cons s)).
Lemma mmeasure_step cap l s s' : minternal l = true -> mquiet l = true -> mstep cap l s = Some s' -> mmeasure s' < mmeasure s.
Proof.
  intros Hi Hq E. destruct s as [q d c x h]. unfold mmeasure.
  destruct l as [|p evs|p|p pubs|p|pubs| | | |]; try discriminate; cbn [mstep] in E.
  - destruct (mfind p d) as [[|e t]|] eqn:F; try discriminate. destruct (length q <? cap); [|discriminate]. injection E as <-.
    cbn [m_disp m_queue m_cons]. rewrite (mwork_mset _ _ _ _ F), app_length. cbn [length]. lia.
  - destruct (mfind p d) as [[|e t]|] eqn:F; try discriminate. destruct q as [|y q]; [|discriminate]. destruct c; try discriminate.
    injection E as <-. cbn [m_disp m_queue m_cons mtodo minh]. destruct pubs; [|discriminate].
    rewrite (mwork_mset _ _ _ _ F). cbn [length]. lia.
  - destruct (mfind p d) as [[|e t]|] eqn:F; try discriminate. injection E as <-.
    cbn [m_disp m_queue m_cons]. rewrite (mwork_mdel _ _ F). lia.
  - destruct q as [|[y e] q]; [discriminate|]. destruct c; try discriminate. injection E as <-.
    destruct pubs; [|discriminate]. cbn [m_disp m_queue m_cons mtodo minh length]. lia.
  - destruct c as [| |e [|y t]]; try discriminate. destruct (length q <? cap); [|discriminate]. injection E as <-.
    cbn [m_disp m_queue m_cons mtodo minh]. rewrite app_length. cbn [length]. lia.
  - destruct c as [| |e [|y t]]; try discriminate. injection E as <-.
    cbn [m_disp m_queue m_cons mtodo minh length]. lia.
Qed.
Lemma mmeasure_run cap ls s s' :
  forallb minternal ls = true -> forallb mquiet ls = true -> mrun cap ls s = Some s' -> length ls + mmeasure s' <= mmeasure s.
Proof.
  revert s. induction ls as [|l t IH]; cbn [mrun forallb length]; intros s Hi Hq E; [injection E as <-; lia|].
  apply andb_true_iff in Hi, Hq. destruct Hi as (Hi & Hi'), Hq as (Hq & Hq').
  destruct (mstep cap l s) as [s1|] eqn:F; [|discriminate].
  pose proof (mmeasure_step cap l s s1 Hi Hq F). specialize (IH s1 Hi' Hq' E). lia.
Qed.

(** A stuck bus that was started: either all is done, or the handler waits for room for itself. *)
Lemma mstuck_cases cap s :
  mstuck cap s -> m_cons s <> MNotStarted ->
  (m_cons s = MAtSelect /\ m_queue s = [] /\ m_disp s = []) \/ (exists e y t, m_cons s = MInHandler e (y :: t) /\ cap <= length (m_queue s)).
Proof.
  intros St Hs. destruct s as [q d c x h]. cbn in *. destruct c as [| |e todo]; [congruence| |].
  - left. split; [reflexivity|]. destruct q as [|[y e] q].
    + split; [reflexivity|]. destruct d as [|[p evs] d]; [reflexivity|]. exfalso. destruct evs as [|e evs].
      * specialize (St (LRet p) eq_refl). cbn in St. rewrite Nat.eqb_refl in St. discriminate.
      * specialize (St (LHand p []) eq_refl). cbn in St. rewrite Nat.eqb_refl in St. discriminate.
    + specialize (St (LTake []) eq_refl). cbn in St. discriminate.
  - right. destruct todo as [|y t].
    + specialize (St LHEnd eq_refl). cbn in St. discriminate.
    + exists e, y, t. split; [reflexivity|]. specialize (St LHSend eq_refl). cbn [mstep] in St.
      destruct (length q <? cap) eqn:L; [discriminate|]. now apply Nat.ltb_ge in L.
Qed.

(** ** Deadlock *)
Definition mdead (cap : nat) (s : mstate) : Prop :=
  exists e t, m_cons s = MInHandler e t /\ cap < length (m_queue s) + length t /\ length (m_queue s) <= cap.
Lemma mdead_step cap l s s' : mdead cap s -> mstep cap l s = Some s' ->
  mdead cap s' /\ mhanded (m_hist s') = mhanded (m_hist s) /\ mcount is_done (m_hist s') = mcount is_done (m_hist s)
  /\ mcount is_hand (m_hist s') = mcount is_hand (m_hist s).
Proof.
  intros (e & t & Ec & Hd & Hl) E. destruct s as [q d c x h]. cbn in Ec, Hd, Hl. subst c. unfold mdead.
  destruct l as [|p evs|p|p pubs|p|pubs| | | |]; cbn [mstep] in E.
  - injection E as <-. cbn. eauto 8.
  - destruct (mfind p d); [discriminate|]. injection E as <-. cbn. eauto 8.
  - destruct (mfind p d) as [[|y u]|]; try discriminate. destruct (length q <? cap) eqn:L; [|discriminate]. injection E as <-.
    apply Nat.ltb_lt in L. cbn. rewrite app_length. cbn. split; [|auto]. exists e, t. repeat split; lia.
  - destruct (mfind p d) as [[|y u]|]; try discriminate. destruct q; discriminate.
  - destruct (mfind p d) as [[|y u]|]; try discriminate. injection E as <-. cbn. eauto 8.
  - destruct q as [|[? ?] ?]; discriminate.
  - destruct t as [|y u]; [discriminate|]. destruct (length q <? cap) eqn:L; [|discriminate]. injection E as <-.
    apply Nat.ltb_lt in L. cbn in *. rewrite app_length. cbn. split; [|auto]. exists e, u. repeat split; lia.
  - destruct t as [|y u]; [|discriminate]. cbn in Hd. lia.
  - injection E as <-. cbn. eauto 8.
  - discriminate.
Qed.
Lemma mdead_run cap ls s s' : mdead cap s -> mrun cap ls s = Some s' ->
  mdead cap s' /\ mhanded (m_hist s') = mhanded (m_hist s) /\ mcount is_done (m_hist s') = mcount is_done (m_hist s)
  /\ mcount is_hand (m_hist s') = mcount is_hand (m_hist s).
Proof.
  revert s. induction ls as [|l t IH]; cbn [mrun]; intros s D E; [injection E as <-; auto|].
  destruct (mstep cap l s) as [s1|] eqn:F; [|discriminate].
  destruct (mdead_step cap l s s1 D F) as (D1 & A & B & C). destruct (IH s1 D1 E) as (D2 & A2 & B2 & C2).
  repeat split; [assumption|congruence|congruence|congruence].
Qed.

(** Schedules used in the counterexamples. *)
Lemma mfill cap n d0 c x h evs p : n + length evs <= cap -> forall q, length q = n ->
  exists s, mrun cap (repeat (LSend p) (length evs)) (mkM q ((p, evs) :: d0) c x h) = Some s
            /\ m_cons s = c /\ length (m_queue s) = n + length evs /\ mhanded (m_hist s) = mhanded h /\ mpubs (m_hist s) = mpubs h
            /\ m_cancel s = x /\ mcount is_hand (m_hist s) = mcount is_hand h /\ mcount is_done (m_hist s) = mcount is_done h.
Proof.
  revert n h. induction evs as [|e t IH]; intros n h Hn q Hq; cbn [length repeat mrun].
  - eexists. split; [reflexivity|]. cbn. repeat split; lia.
  - cbn [mstep mfind mset]. rewrite Nat.eqb_refl.
    cbn [length] in Hn. assert (L : length q <? cap = true) by (apply Nat.ltb_lt; lia). rewrite L.
    destruct (IH (S n) (HSent (MExt p) e :: h) ltac:(lia) (q ++ [(MExt p, e)])) as (s & E & A).
    { rewrite app_length. cbn. lia. }
    exists s. split; [exact E|]. cbn [mhanded mpubs] in A. rewrite !mcount_cons in A. cbn [is_hand is_done Nat.add] in A.
    destruct A as (A1 & A2 & A3). split; [exact A1|]. split; [lia|]. exact A3.
Qed.

(** ** Cancelling changes nothing *)
Definition muncancel (h : list mhev) : list mhev := filter (fun x => match x with HCancel => false | _ => true end) h.
Definition msame (s s' : mstate) : Prop :=
  m_queue s' = m_queue s /\ m_disp s' = m_disp s /\ m_cons s' = m_cons s /\ (m_cancel s = true -> m_cancel s' = true)
  /\ muncancel (m_hist s') = muncancel (m_hist s).
Lemma msame_step cap l s1 s1' s2 : msame s1 s2 -> mstep cap l s1 = Some s1' -> exists s2', mstep cap l s2 = Some s2' /\ msame s1' s2'.
Proof.
  destruct s1 as [q d c x h], s2 as [q2 d2 c2 x2 h2]. unfold msame, muncancel. cbn [m_queue m_disp m_cons m_cancel m_hist].
  intros (-> & -> & -> & Hx & Hh) E.
  destruct l as [|p evs|p|p pubs|p|pubs| | | |]; cbn [mstep] in *.
  - destruct c; injection E as <-; eexists; (split; [reflexivity|]); cbn; auto.
  - destruct (mfind p d); [discriminate|]. injection E as <-. eexists; (split; [reflexivity|]); cbn -[length]; rewrite ?Hh; auto.
  - destruct (mfind p d) as [[|y u]|]; try discriminate. destruct (length q <? cap); [|discriminate]. injection E as <-.
    eexists; (split; [reflexivity|]); cbn -[length]; rewrite ?Hh; auto.
  - destruct (mfind p d) as [[|y u]|]; try discriminate. destruct q; [|discriminate]. destruct c; try discriminate. injection E as <-.
    eexists; (split; [reflexivity|]); cbn -[length]; rewrite ?Hh; auto.
  - destruct (mfind p d) as [[|y u]|]; try discriminate. injection E as <-. eexists; (split; [reflexivity|]); cbn -[length]; rewrite ?Hh; auto.
  - destruct q as [|[? ?] ?]; [discriminate|]. destruct c; try discriminate. injection E as <-.
    eexists; (split; [reflexivity|]); cbn -[length]; rewrite ?Hh; auto.
  - destruct c as [| |e [|y t]]; try discriminate. destruct (length q <? cap); [|discriminate]. injection E as <-.
    eexists; (split; [reflexivity|]); cbn -[length]; rewrite ?Hh; auto.
  - destruct c as [| |e [|y t]]; try discriminate. injection E as <-. eexists; (split; [reflexivity|]); cbn -[length]; rewrite ?Hh; auto.
  - injection E as <-. eexists; (split; [reflexivity|]); cbn. auto.
  - destruct c; try discriminate. destruct x; [|discriminate]. rewrite (Hx eq_refl). injection E as <-.
    eexists; (split; [reflexivity|]); cbn. auto.
Qed.
Lemma msame_run cap ls s1 s1' s2 : msame s1 s2 -> mrun cap ls s1 = Some s1' -> exists s2', mrun cap ls s2 = Some s2' /\ msame s1' s2'.
Proof.
  revert s1 s2. induction ls as [|l t IH]; cbn [mrun]; intros s1 s2 H E; [injection E as <-; eauto|].
  destruct (mstep cap l s1) as [s|] eqn:F; [|discriminate].
  destruct (msame_step cap l s1 s s2 H F) as (s' & F' & H'). rewrite F'. eauto.
Qed.
Lemma muncancel_handed h : mhanded (muncancel h) = mhanded h.
Proof. unfold muncancel. induction h as [|[] t IH]; cbn; congruence. Qed.
Lemma muncancel_sent h : msent (muncancel h) = msent h.
Proof. unfold muncancel. induction h as [|[] t IH]; cbn; congruence. Qed.

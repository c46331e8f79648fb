(** C53-C55: the memory event bus. *)
From Verif Require Import MemBusSpec MemBusProof.

(** C53: events are handed over exactly in the order their sends completed, each once, at most [cap] waiting. *)
Theorem C53_handed_over_in_send_order_each_once cap s :
  mreach cap s ->
  exists waiting, map snd (msent (m_hist s)) = mhanded (m_hist s) ++ waiting /\ length waiting <= cap.
Proof.
  intros R. destruct (minv_reach _ _ R) as [Iq Il _ _ _ _ _]. exists (map snd (m_queue s)). rewrite map_length. auto.
Qed.

(** C53: what was handed over from one goroutine is a prefix of what it dispatched, over all its Dispatch calls in order;
    once its last call has returned, everything it dispatched was sent. *)
Theorem C53_each_dispatcher_in_order cap s p :
  mreach cap s ->
  let delivered := firstn (length (mhanded (m_hist s))) (msent (m_hist s)) in
  map snd delivered = mhanded (m_hist s)
  /\ mprefix (mby (MExt p) delivered) (masked p (m_hist s))
  /\ mprefix (mby MHandler delivered) (mpubs (m_hist s))
  /\ (~ mblocked p (m_hist s) -> mby (MExt p) (msent (m_hist s)) = masked p (m_hist s)).
Proof.
  intros R. destruct (minv_reach _ _ R) as [Iq Il _ Ia Ip _ Ic]. cbn zeta.
  set (n := length (mhanded (m_hist s))). repeat split.
  - rewrite <- firstn_map, Iq, firstn_app. unfold n. rewrite firstn_all, Nat.sub_diag. cbn. now rewrite app_nil_r.
  - rewrite (Ia p). rewrite <- (firstn_skipn n (msent (m_hist s))) at 2. rewrite mby_app, <- app_assoc.
    eexists. reflexivity.
  - rewrite Ip. rewrite <- (firstn_skipn n (msent (m_hist s))) at 2. rewrite mby_app, <- app_assoc.
    eexists. reflexivity.
  - intros B. rewrite (Ia p). unfold mblocked in B. specialize (Ic p). unfold mindisp in Ic. unfold mrest.
    destruct (mfind p (m_disp s)); [lia|now rewrite app_nil_r].
Qed.

(** C53: the handler is never called while another call is under way, however often Start is called. *)
Theorem C53_one_handler_call_at_a_time cap s :
  mreach cap s -> mcount is_hand (m_hist s) <= S (mcount is_done (m_hist s)).
Proof. intros R. destruct (minv_reach _ _ R) as [_ _ _ _ _ Ih _]. rewrite Ih. destruct (m_cons s); cbn; lia. Qed.

(** C53: nothing is lost. As long as the handlers dispatch nothing themselves, a started bus comes to rest after boundedly many
    steps, and when it is at rest every dispatched event was handed over and every call has returned. *)
Theorem C53_started_bus_delivers_everything cap s :
  mreach cap s -> m_cons s <> MNotStarted ->
  (exists n, forall ls s', forallb minternal ls = true -> forallb mquiet ls = true -> mrun cap ls s = Some s' -> length ls <= n)
  /\ (mstuck cap s -> mpubs (m_hist s) = [] ->
      mhanded (m_hist s) = map snd (msent (m_hist s)) /\ ~ mbusy (m_hist s)
      /\ forall p, mby (MExt p) (msent (m_hist s)) = masked p (m_hist s) /\ ~ mblocked p (m_hist s)).
Proof.
  intros R Hs. split.
  - exists (mmeasure s). intros ls s' Hi Hq E. pose proof (mmeasure_run _ _ _ _ Hi Hq E). lia.
  - intros St Hp. destruct (minv_reach _ _ R) as [Iq Il _ Ia Ip Ih Ic].
    destruct (mstuck_cases _ _ St Hs) as [(A & B & C)|(e & y & t & A & B)].
    + rewrite B in Iq. rewrite A in Ih. cbn in Iq, Ih. rewrite app_nil_r in Iq.
      split; [congruence|]. split; [unfold mbusy; lia|]. intros p. rewrite (Ia p). unfold mrest, mblocked. rewrite (Ic p). unfold mindisp.
      rewrite C. cbn. rewrite app_nil_r. split; [reflexivity|lia].
    + rewrite A, Hp in Ip. cbn in Ip. destruct (mby MHandler (msent (m_hist s))); discriminate.
Qed.

(** The hypotheses are met: two goroutines, three events, capacity 1. *)
Definition ex_run : list mlabel :=
  [LStart; LCall 1 [10; 11]; LCall 2 [20]; LSend 1; LTake []; LSend 2; LHEnd; LTake []; LSend 1; LRet 1; LHEnd; LTake []; LHEnd; LRet 2].
Example C53_nontrivial :
  option_map (fun s => (mhanded (m_hist s), masked 1 (m_hist s), masked 2 (m_hist s), m_queue s, m_cons s)) (mrun 1 ex_run minit)
  = Some ([10; 20; 11], [10; 11], [20], [], MAtSelect).
Proof. reflexivity. Qed.
(** ... and without a buffer. *)
Example C53_nontrivial_unbuffered :
  option_map (fun s => (mhanded (m_hist s), m_queue s)) (mrun 0 [LStart; LCall 1 [10; 11]; LHand 1 []; LHEnd; LHand 1 []; LHEnd; LRet 1] minit)
  = Some ([10; 11], []).
Proof. reflexivity. Qed.

(** C54 is false: a handler that dispatches more than the capacity waits for itself. Whatever happens afterwards, its call never
    returns and no event is ever handed over again. *)
Theorem C54_publishing_beyond_capacity_refuted cap s s1 pubs :
  mreach cap s -> mstep cap (LTake pubs) s = Some s1 -> cap < length pubs ->
  forall ls s', mrun cap ls s1 = Some s' -> mbusy (m_hist s') /\ mhanded (m_hist s') = mhanded (m_hist s1).
Proof.
  intros R E Hc ls s' E'.
  assert (I1 : minv cap s1) by (eapply minv_step; [apply minv_reach; exact R|exact E]).
  assert (D : mdead cap s1).
  { destruct s as [q d c x h]. cbn in E. destruct q as [|[y e] q]; [discriminate|]. destruct c; try discriminate.
    pose proof (mi_len _ _ I1) as L. injection E as <-. exists e, pubs. cbn in *. repeat split; lia. }
  destruct (mdead_run _ _ _ _ D E') as (_ & A & B & C). split; [|exact A].
  pose proof (mi_hands _ _ I1) as H. destruct D as (e & t & Ec & _). rewrite Ec in H. cbn in H.
  unfold mbusy. lia.
Qed.

(** C54 is false even for handlers that dispatch a single event: for every capacity there is a schedule in which another
    goroutine fills the buffer first, after which no event is ever handed over again. *)
Theorem C54_publishing_one_event_refuted cap :
  exists s, mreach cap s /\ mpubs (m_hist s) = [7]
            /\ forall ls s', mrun cap ls s = Some s' -> mbusy (m_hist s') /\ mhanded (m_hist s') = mhanded (m_hist s).
Proof.
  set (h0 := HCall 2 (repeat 2 cap) :: HHand 1 [7] :: HSent (MExt 1) 1 :: HCall 1 [1] :: []).
  destruct (mfill cap 0 [(1, [])] (MInHandler 1 [7]) false h0 (repeat 2 cap) 2) with (q := @nil (msender * nat)) as (s & E & A).
  { rewrite repeat_length. cbn. lia. }
  { reflexivity. }
  destruct A as (A1 & A2 & A3 & A4 & A5 & A6 & A7). exists s. rewrite repeat_length in A2.
  assert (D : mdead cap s). { exists 1, [7]. rewrite A1, A2. cbn. repeat split; lia. }
  split; [|split].
  - exists ([LStart; LCall 1 [1]; LHand 1 [7]; LCall 2 (repeat 2 cap)] ++ repeat (LSend 2) (length (repeat 2 cap))).
    rewrite mrun_app. cbn [mrun mstep minit mfind mset]. rewrite Nat.eqb_refl. cbn [mrun mstep mfind mset Nat.eqb]. exact E.
  - rewrite A4. reflexivity.
  - intros ls s' E'. destruct (mdead_run _ _ _ _ D E') as (_ & B1 & B2 & B3). split; [|exact B1].
    unfold mbusy. rewrite B2, B3, A6, A7. cbn. lia.
Qed.

(** What does hold: as long as the events dispatched but not yet handed over never exceed the capacity, the bus does not block:
    unless everything is done, some step is possible. *)
Theorem C54_enough_room_never_blocks_partial cap s ps :
  mreach cap s -> m_cons s <> MNotStarted -> NoDup ps -> (forall p, masked p (m_hist s) <> [] -> In p ps) ->
  list_sum (map (fun p => length (masked p (m_hist s))) ps) + length (mpubs (m_hist s)) <= cap + length (mhanded (m_hist s)) ->
  mstuck cap s ->
  mhanded (m_hist s) = map snd (msent (m_hist s)) /\ ~ mbusy (m_hist s)
  /\ forall p, mby (MExt p) (msent (m_hist s)) = masked p (m_hist s) /\ ~ mblocked p (m_hist s).
Proof.
  intros R Hs ND Hps Hroom St. destruct (minv_reach _ _ R) as [Iq Il _ Ia Ip Ih Ic].
  destruct (mstuck_cases _ _ St Hs) as [(A & B & C)|(e & y & t & A & B)].
  - rewrite B in Iq. rewrite A in Ih. cbn in Iq, Ih. rewrite app_nil_r in Iq.
    split; [congruence|]. split; [unfold mbusy; lia|]. intros p. rewrite (Ia p). unfold mrest, mblocked. rewrite (Ic p). unfold mindisp.
    rewrite C. cbn. rewrite app_nil_r. split; [reflexivity|lia].
  - exfalso. rewrite A in Ip. cbn [mtodo] in Ip.
    assert (Hsum : length (msent (m_hist s)) <= list_sum (map (fun p => length (mby (MExt p) (msent (m_hist s)))) ps)
                                                + length (mby MHandler (msent (m_hist s)))).
    { assert (Hin : forall p ev, In (MExt p, ev) (msent (m_hist s)) -> In p ps).
      { intros p ev Hx. apply Hps. rewrite (Ia p). intros K. apply app_eq_nil in K. destruct K as (K & _).
        assert (F : In ev (mby (MExt p) (msent (m_hist s)))).
        { unfold mby. apply in_map_iff. exists (MExt p, ev). split; [reflexivity|]. apply filter_In. split; [assumption|]. cbn. apply Nat.eqb_refl. }
        rewrite K in F. destruct F. }
      clear - ND Hin. induction (msent (m_hist s)) as [|[[p|] ev] l IH]; [cbn; lia| |].
      - assert (IHl := IH (fun p ev H => Hin p ev (or_intror H))). clear IH.
        assert (Hp : In p ps) by (eapply Hin; left; reflexivity). clear Hin.
        assert (G : list_sum (map (fun r => length (mby (MExt r) ((MExt p, ev) :: l))) ps)
                    = 1 + list_sum (map (fun r => length (mby (MExt r) l)) ps)).
        { clear IHl. induction ps as [|r ps IH]; [destruct Hp|]. inversion ND; subst.
          unfold list_sum in *. cbn [map fold_right]. unfold mby at 1. cbn [filter mis fst].
          destruct (Nat.eqb_spec r p) as [->|N].
          - replace (fold_right Nat.add 0 (map (fun r => length (mby (MExt r) ((MExt p, ev) :: l))) ps))
              with (fold_right Nat.add 0 (map (fun r => length (mby (MExt r) l)) ps)).
            + unfold mby. cbn. reflexivity.
            + f_equal. apply map_ext_in. intros r Hr. unfold mby. cbn [filter mis fst].
              destruct (Nat.eqb_spec r p) as [->|N]; [contradiction|reflexivity].
          - destruct Hp as [->|Hp]; [contradiction|]. rewrite IH by assumption. unfold mby. lia. }
        rewrite G. change (mby MHandler ((MExt p, ev) :: l)) with (mby MHandler l). cbn [length]. lia.
      - assert (IHl := IH (fun p ev H => Hin p ev (or_intror H))). 
        change (length (mby MHandler ((MHandler, ev) :: l))) with (S (length (mby MHandler l))).
        change (map (fun p => length (mby (MExt p) ((MHandler, ev) :: l))) ps) with (map (fun p => length (mby (MExt p) l)) ps).
        cbn [length]. lia. }
    assert (Hle : list_sum (map (fun p => length (mby (MExt p) (msent (m_hist s)))) ps) <= list_sum (map (fun p => length (masked p (m_hist s))) ps)).
    { clear - Ia. induction ps as [|p ps IH]; [cbn; lia|]. unfold list_sum in *. cbn [map fold_right]. rewrite (Ia p), app_length. lia. }
    pose proof (f_equal (@length _) Iq) as Lq. rewrite app_length, !map_length in Lq.
    pose proof (f_equal (@length _) Ip) as Lp. rewrite app_length in Lp. cbn [length] in Lp. lia.
Qed.
(** Met: the handler of event 10 publishes 11, whose handler publishes 12; capacity 1. *)
Example C54_nontrivial :
  option_map (fun s => (mhanded (m_hist s), mpubs (m_hist s), m_cons s))
    (mrun 1 [LStart; LCall 1 [10]; LSend 1; LRet 1; LTake [11]; LHSend; LHEnd; LTake [12]; LHSend; LHEnd; LTake []; LHEnd] minit)
  = Some ([10; 11; 12], [11; 12], MAtSelect).
Proof. reflexivity. Qed.

Lemma mfilter_le {A} (f : A -> bool) l : length (filter f l) <= length l.
Proof. induction l as [|x t IH]; cbn; [lia|]. destruct (f x); cbn; lia. Qed.
(** Without Start, Dispatch of more events than the capacity never returns. *)
Theorem C53_before_start_dispatch_waits cap p evs :
  cap < length evs -> forall ls s, forallb (fun l => match l with LStart => false | LCall q _ => negb (q =? p) | _ => true end) ls = true ->
  mrun cap (LCall p evs :: ls) minit = Some s -> mblocked p (m_hist s) /\ mhanded (m_hist s) = [].
Proof.
  intros Hc ls s Hls E. cbn in E. revert Hls E.
  assert (G : forall ls s0, minv cap s0 -> m_cons s0 = MNotStarted -> mhanded (m_hist s0) = [] -> masked p (m_hist s0) = evs -> mindisp p (m_disp s0) = 1 ->
    forallb (fun l => match l with LStart => false | LCall q _ => negb (q =? p) | _ => true end) ls = true ->
    mrun cap ls s0 = Some s -> mblocked p (m_hist s) /\ mhanded (m_hist s) = []).
  { clear ls. induction ls as [|l t IH]; intros s0 I0 A B C D Hls E; cbn [mrun] in E.
    - injection E as <-. split; [|exact B]. unfold mblocked. rewrite (mi_calls _ _ I0 p), D. lia.
    - cbn [forallb] in Hls. apply andb_true_iff in Hls. destruct Hls as (H1 & H2).
      destruct (mstep cap l s0) as [s1|] eqn:F; [|discriminate].
      assert (I1 : minv cap s1) by (eapply minv_step; eassumption). apply (IH s1 I1); [| | | |assumption|assumption].
      all: destruct s0 as [q d c x h]; cbn in A, B, C, D; subst c; destruct l as [|r evs2|r|r pubs|r|pubs| | | |]; cbn [mstep] in F.
      all: try discriminate.
      all: try (destruct (mfind r d) as [[|y u]|] eqn:G; try discriminate).
      all: try (destruct q as [|[? ?] q]; discriminate).
      all: try (destruct (length q <? cap) eqn:L; [|discriminate]).
      all: try (destruct x; discriminate).
      all: try (injection F as <-; cbn; try reflexivity; try assumption).
      + apply negb_true_iff in H1. rewrite Nat.eqb_sym, H1. assumption.
      + apply negb_true_iff in H1. unfold mindisp in *. cbn. rewrite Nat.eqb_sym, H1. assumption.
      + unfold mindisp in *. rewrite mfind_mset, G. destruct (Nat.eqb_spec p r) as [->|N]; [reflexivity|assumption].
      + unfold mindisp in *. rewrite mfind_mdel by apply (mi_nodup _ _ I0). destruct (Nat.eqb_spec p r) as [->|N]; [|assumption].
        exfalso. pose proof (mi_ask _ _ I0 r) as K. cbn in K. unfold mrest in K. rewrite G, app_nil_r in K. fold (masked r h) in C.
        pose proof (mi_queue _ _ I0) as Kq. cbn in Kq. fold (mhanded h) in B. rewrite B in Kq. cbn in Kq.
        pose proof (mi_len _ _ I0) as Kl. cbn in Kl. pose proof (f_equal (@length _) Kq) as Kn. rewrite !map_length in Kn.
        rewrite C in K. pose proof (f_equal (@length _) K) as Km. unfold mby in Km. rewrite map_length in Km.
        pose proof (mfilter_le (mis (MExt r)) (msent h)). lia. }
  intros Hls E. apply (G ls (mkM [] [(p, evs)] MNotStarted false [HCall p evs])); [|reflexivity|reflexivity| | |exact Hls|exact E].
  - eapply minv_step; [apply (minv_init cap)|]. instantiate (1 := LCall p evs). reflexivity.
  - cbn. now rewrite Nat.eqb_refl.
  - unfold mindisp. cbn. now rewrite Nat.eqb_refl.
Qed.

(** C55 is false: cancelling the context changes nothing. Every schedule stays possible when a cancellation is put anywhere into
    it, and hands over exactly the same events. *)
Theorem C55_cancelling_has_no_effect_refuted cap pre post s :
  mrun cap (pre ++ post) minit = Some s ->
  exists s', mrun cap (pre ++ LCancel :: post) minit = Some s'
             /\ mhanded (m_hist s') = mhanded (m_hist s) /\ msent (m_hist s') = msent (m_hist s).
Proof.
  rewrite !mrun_app. destruct (mrun cap pre minit) as [s0|]; [|discriminate]. intros E. cbn [mrun mstep]. destruct s0 as [q d c x h].
  destruct (msame_run cap post (mkM q d c x h) s (mkM q d c true (HCancel :: h))) as (s' & E' & (_ & _ & _ & _ & K)); [|assumption|].
  - unfold msame, muncancel. cbn. auto.
  - exists s'. split; [assumption|]. rewrite <- (muncancel_handed (m_hist s')), <- (muncancel_sent (m_hist s')), K, muncancel_handed, muncancel_sent. auto.
Qed.
(** In particular, for every capacity and every number of events dispatched after the cancellation, all of them are handed over. *)
Theorem C55_handing_over_goes_on_refuted cap evs :
  exists ls s, mrun cap ([LStart; LCancel; LCall 1 evs] ++ ls) minit = Some s /\ mhanded (m_hist s) = evs.
Proof.
  assert (G : forall evs d h, exists ls s, mrun cap ls (mkM [] ((1, evs) :: d) MAtSelect true h) = Some s /\ mhanded (m_hist s) = mhanded h ++ evs).
  { clear evs. induction evs as [|e t IH]; intros d h.
    - exists [], (mkM [] ((1, []) :: d) MAtSelect true h). cbn. now rewrite app_nil_r.
    - destruct (IH d (HDone e :: HHand e [] :: HSent (MExt 1) e :: h)) as (ls & s & E & A).
      exists (LHand 1 [] :: LHEnd :: ls), s. split; [exact E|]. rewrite A. cbn. now rewrite <- app_assoc. }
  destruct (G evs [] [HCall 1 evs; HCancel]) as (ls & s & E & A). exists ls, s. split; [exact E|exact A].
Qed.
(** After a cancellation the idle bus goroutine spins: the select returns at once, and nothing has changed. *)
Theorem C55_idle_bus_spins_refuted cap s :
  m_cancel s = true -> m_cons s = MAtSelect -> forall n, mrun cap (repeat LSpin n) s = Some s.
Proof.
  intros A B. destruct s as [q d c x h]. cbn in A, B. subst. induction n as [|n IH]; [reflexivity|]. cbn [repeat mrun mstep]. exact IH.
Qed.
(** What does hold: the handler is never called before Start. *)
Theorem C55_nothing_before_start_partial cap ls s :
  forallb (fun l => match l with LStart => false | _ => true end) ls = true -> mrun cap ls minit = Some s -> mhanded (m_hist s) = [].
Proof.
  assert (G : forall ls s0, m_cons s0 = MNotStarted -> mhanded (m_hist s0) = [] ->
    forallb (fun l => match l with LStart => false | _ => true end) ls = true -> mrun cap ls s0 = Some s -> mhanded (m_hist s) = []).
  { clear ls. induction ls as [|l t IH]; intros s0 A B Hls E; cbn [mrun] in E; [injection E as <-; assumption|].
    cbn [forallb] in Hls. apply andb_true_iff in Hls. destruct Hls as (H1 & H2).
    destruct (mstep cap l s0) as [s1|] eqn:F; [|discriminate]. apply (IH s1); [| |assumption|assumption].
    all: destruct s0 as [q d c x h]; cbn in A, B; subst c; destruct l as [|r evs2|r|r pubs|r|pubs| | | |]; cbn [mstep] in F.
    all: try discriminate.
    all: try (destruct (mfind r d) as [[|y u]|] eqn:G; try discriminate).
    all: try (destruct q as [|[? ?] q]; discriminate).
    all: try (destruct (length q <? cap) eqn:L; [|discriminate]).
    all: try (destruct x; discriminate).
    all: injection F as <-; cbn; try reflexivity; assumption. }
  intros Hls E. apply (G ls minit); [reflexivity|reflexivity|exact Hls|exact E].
Qed.

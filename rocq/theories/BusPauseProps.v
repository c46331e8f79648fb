(** C40: the pause before a retry, and which strategy the options select. *)
From Verif Require Import BusModel BusSpec BusProof BusWorld BusWorldSpec BusWorldProof BusWorldProof2 BusWorldProof4 BusWorldProof5 BusWorldProof6 BusPauseProof BusWorldProps.
Local Open Scope string_scope.
Local Open Scope list_scope.
Local Open Scope nat_scope.

(** How long the strategies wait. *)
Theorem C40_pauses_of_strategies : forall l i is,
  pauses (LimitRetry l) (fun _ => 0) /\ pauses (IntervalRetry i l) (fun _ => i) /\ pauses (CustomRetry is) (fun count => nth count is 0).
Proof.
  intros l i is. split; [|split]; intros count now n t H; cbn [strat_next] in H.
  - destruct (l <? count); [discriminate|]. injection H as <- <-. lia.
  - destruct (l <? count); [discriminate|]. injection H as <- <-. lia.
  - destruct (nth_error is count) as [d|] eqn:E; [|discriminate]. injection H as <- <-. now rewrite (nth_error_nth is count 0 E).
Qed.
Print Assumptions C40_pauses_of_strategies.
(** What the options of the bus mean: a strategy given by the user is used as it is; otherwise a positive interval means
    [limit]+1 retries that far apart, even if a list of intervals is given too; otherwise a non-empty list of intervals
    means one retry after each of them; otherwise there are six retries, three seconds apart. *)
Theorem C40_options_select_strategy : forall limit,
  (forall s interval custom, choose_strategy (Some s) interval limit custom = s) /\
  (forall interval custom, 0 < interval -> grants (choose_strategy None interval limit custom) (S limit) /\ pauses (choose_strategy None interval limit custom) (fun _ => interval)) /\
  (forall custom, custom <> [] -> grants (choose_strategy None 0 limit custom) (length custom) /\ pauses (choose_strategy None 0 limit custom) (fun count => nth count custom 0)) /\
  grants (choose_strategy None 0 limit []) 6 /\ pauses (choose_strategy None 0 limit []) (fun _ => 3000).
Proof.
  intros limit. split; [reflexivity|]. split; [|split].
  - intros interval custom H. unfold choose_strategy. rewrite (proj2 (Nat.ltb_lt 0 interval) H). split; [apply grants_interval|apply (C40_pauses_of_strategies limit interval [])].
  - intros [|i is] H; [contradiction|]. split; [apply (grants_custom (i :: is))|apply (C40_pauses_of_strategies 0 0 (i :: is))].
  - split; [apply (grants_interval 3000 5)|apply (C40_pauses_of_strategies 5 3000 [])].
Qed.
Print Assumptions C40_options_select_strategy.
(** If the polls of a service do not overlap: when the handler is called for an event after [k]+1 recorded attempts, at least
    the pause for retry [k]+1 has passed since every call made before the last recorded attempt ended - whatever crashes and
    lost saves happen in between. *)
Theorem C40_retry_waits :
  forall cfgs svc n pause w, (forall p, c_service (cfgs p) = svc -> grants (c_strategy (cfgs p)) n /\ pauses (c_strategy (cfgs p)) pause) -> reachable cfgs single_mode w ->
    forall later t2 e s h older t1 e1 s1,
      w_hist w = later ++ HCall t2 svc e s :: h -> before_last_record h svc (er_id e) older -> In (HCall t1 svc e1 s1) older -> er_id e1 = er_id e ->
      t1 + pause (recs older svc (er_id e)) <= t2.
Proof.
  intros cfgs svc n pause w G R later t2 e s h older t1 e1 s1 E B H He.
  pose proof (paused_reach cfgs svc n pause (fun p Hp => proj1 (G p Hp)) (fun p Hp => proj2 (G p Hp)) single_mode w eq_refl eq_refl eq_refl R) as P.
  destruct (all_suffix_at _ _ _ _ _ P E) as [X _]. exact (X eq_refl older t1 e1 s1 B H He).
Qed.
Print Assumptions C40_retry_waits.
(** Two retries, after 5 and 7: the calls take place at 0, 5 and 12; just before that the polls find nothing. *)
Definition slow : buscfg := mkBus "a" (choose_strategy None 0 0 [5; 7]) 10 100 0.
Definition c40_slow : list act :=
  [ARegister "a"; ADispatch [nev 1 "e1" "x" STNormal]; ATick 1] ++ poll_of 0 ++ handle_of 0 HErr ++ [ABegin 0 true true; ATick 4] ++ poll_of 0 ++ [ABegin 0 true true; ATick 1] ++ poll_of 0 ++ handle_of 0 HErr
  ++ [ABegin 0 true true; ATick 7] ++ poll_of 0 ++ [ABegin 0 true true].
Definition call_times (h : list hev) : list nat := flat_map (fun x => match x with HCall t _ _ _ => [t] | _ => [] end) h.
Example C40_pause_example : exists w, reachable (one slow) single_mode w /\ call_times (w_hist w) = [13; 6; 1] /\
  exists h older t1 e1 s1 e s, w_hist w = HCall 13 "a" e s :: h /\ before_last_record h "a" (er_id e) older /\ In (HCall t1 "a" e1 s1) older /\ er_id e1 = er_id e /\ t1 = 6 /\ recs older "a" (er_id e) = 1.
Proof.
  demo seen (one slow) [0] single_mode c40_slow w R E. exists w. unfold seen in E. injection E as E1 E2. rewrite E1. split; [exact R|]. split; [reflexivity|].
  eexists. eexists. exists 6. eexists. eexists. eexists. eexists. split; [reflexivity|]. split; [exists []; do 4 eexists; split; [reflexivity|]; split; reflexivity|]. split; [left; reflexivity|]. split; [reflexivity|]. split; reflexivity.
Qed.

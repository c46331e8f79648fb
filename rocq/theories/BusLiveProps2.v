(** C45: LaxFIFO events are handed over although handlers fail. *)
From Verif Require Import BusModel BusSpec BusProof BusWorld BusWorldSpec BusWorldProof BusWorldProof3 BusLiveSpec BusLiveSpec2 BusLive BusLive2 BusLive3 BusLive5 BusLiveProps.
Local Open Scope string_scope. Local Open Scope list_scope. Local Open Scope nat_scope.

(** A pending event of any type but FIFO, with no FIFO event before it, is handed over although handlers - its predecessors'
    included - fail as they like: if LaxFIFO events have a sender, the strategy grants [n] retries with pauses of at most [D],
    the pending records up to it are due when the first poll happens and the polls are [D] apart, it takes at most
    [(n+1) * pending records before it + 1] polls. *)
Theorem C45_lax_progress_partial :
  forall cfg n D T d l e0 s0, wf d -> grants (c_strategy cfg) n -> pauses_within D (c_strategy cfg) -> 1 <= c_limit cfg -> foreign_ok cfg l ->
    In s0 (b_sv d) -> sr_service s0 = c_service cfg -> sr_status s0 = SInit -> In e0 (b_ev d) -> er_id e0 = sr_event s0 ->
    (forall s r, In s (b_sv d) -> sr_service s = c_service cfg -> sr_event s <= sr_event s0 -> In r (b_ev d) -> er_id r = sr_event s ->
       type r <> STFIFO /\ (type r = STLaxFIFO -> sender r <> "") /\ (sr_status s = SInit -> sr_next s <= T)) ->
    apart D T l ->
    (forall now envs, In (BPoll now envs) l -> now <= er_created e0 + c_window cfg /\ forall i, he_lock (envs i) = true /\ he_query (envs i) = true /\ he_save (envs i) = true) ->
    (n + 1) * length (pending_before cfg d (sr_event s0)) < polls l ->
    In (e0, s0) (snd (bus_run cfg l d)).
Proof.
  intros cfg n D T d l e0 s0 W G So Lim F H1 H2 H3 H4 H5 H6 A H7 H8. apply (progress_lax cfg n D e0 s0 H2 H3 H5 Lim G So l T d); auto.
  - split; auto. split; auto. split; auto. intros s r X M L R E. unfold mine in M. apply String.eqb_eq in M. exact (H6 s r X M L R E).
  - pose proof (total_bound cfg n e0 s0 H5 d). lia.
Qed.
Print Assumptions C45_lax_progress_partial.
(** The pauses of the shipped strategies. *)
Theorem C45_pauses : forall st, match st with LimitRetry _ => pauses_within 0 st | IntervalRetry i _ => pauses_within i st | CustomRetry is => pauses_within (list_max is) st | UserRetry _ => True end.
Proof.
  intros [l|i l|is|f]; cbv beta iota; auto; unfold pauses_within, strat_next; intros count now c t.
  - destruct (l <? count); [intros H; discriminate H|]. intros H; injection H as <- <-. lia.
  - destruct (l <? count); [intros H; discriminate H|]. intros H; injection H as <- <-. lia.
  - destruct (nth_error is count) as [i|] eqn:E; [|discriminate]. intros H; injection H as <- <-. apply nth_error_In in E. assert (X : Forall (fun k => k <= list_max is) is) by (apply list_max_le; lia). rewrite Forall_forall in X. specialize (X i E). lia.
Qed.
Print Assumptions C45_pauses.
(** Three LaxFIFO events of one sender; the handler fails at the first and second one every time; one retry each; the third
    is handed over by the fifth poll. *)
Definition retry_once : buscfg := mkBus "a" (CustomRetry [3]) 1 100 0.
Example C45_lax_example :
  let l := [BPoll 5 env_bad; BPoll 8 env_bad; BPoll 11 env_bad; BPoll 14 env_bad; BPoll 17 env_bad] in
  In (mkE 3 (lev 3 "e3" "x" STLaxFIFO) 0, mkS 3 "a" 3 0 SInit 0 0) (snd (bus_run retry_once l (ex_db STLaxFIFO))) /\
  length (filter (fun c => er_id (fst c) =? 1) (snd (bus_run retry_once l (ex_db STLaxFIFO)))) = 2.
Proof.
  cbn zeta. split; [|vm_compute; reflexivity]. apply (C45_lax_progress_partial retry_once 1 3 0).
  - apply ex_db_wf.
  - intros c now. cbn. destruct c as [|c]; cbn; [split; [eexists; reflexivity|lia]|split; [lia|destruct c; reflexivity]].
  - exact (C45_pauses (CustomRetry [3])).
  - cbn. lia.
  - intros o now envs [H|[H|[H|[H|[H|[]]]]]]; discriminate.
  - vm_compute. auto.
  - reflexivity.
  - reflexivity.
  - vm_compute. auto.
  - reflexivity.
  - intros s r Hs _ _ Hr _. vm_compute in Hr, Hs. split; [|split; [|intros _]].
    + destruct Hr as [<-|[<-|[<-|[]]]]; discriminate.
    + destruct Hr as [<-|[<-|[<-|[]]]]; discriminate.
    + destruct Hs as [<-|[<-|[<-|[]]]]; cbn; lia.
  - cbn [apart]. repeat split; lia.
  - intros now envs [H|[H|[H|[H|[H|[]]]]]]; injection H as <- <-; cbn; repeat split; lia.
  - vm_compute. lia.
Qed.

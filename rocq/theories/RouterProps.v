(** C56, C57: the event router. *)
From Verif Require Import RouterModel.

(** * Specification *)
(** Which registrations are accepted: a function of two arguments whose first is a context, with a pointer as second argument and
    one result that is an error. *)
Definition handler_ok (s : hshape) : bool :=
  match s with
  | VFun c a e => match c with CtxNo => false | _ => true end && match a with ANotPointer => false | _ => true end && match e with EtNo => false | _ => true end
  | _ => false
  end.
Definition checker_ok (s : cshape) : bool :=
  match s with
  | KFun a x => match a with ANotPointer => false | _ => true end && match x with TxNo => false | _ => true end
  | _ => false
  end.
(** The well-behaved shapes the documentation asks for: func(ctx context.Context, evt *T) error; func(evt *T) TXStatus. *)
Definition handler_documented (s : hshape) : bool :=
  match s with VFun CtxContext (ADomainEvent | AEvent _) EtNilable => true | _ => false end.
Definition checker_documented (s : cshape) : bool :=
  match s with KFun (ADomainEvent | AEvent _) TxStatus => true | _ => false end.
(** The accepted handler registrations for a type, in order. *)
Fixpoint handlers_of (t : string) (os : list regop) : list (nat * argty) :=
  match os with
  | [] => []
  | RegHandler t' id s :: u =>
    if String.eqb t t' && handler_ok s then match s with VFun _ a _ => (id, a) :: handlers_of t u | _ => handlers_of t u end else handlers_of t u
  | _ :: u => handlers_of t u
  end.
(** The first accepted checker registration for a type. *)
Fixpoint checker_of (t : string) (os : list regop) : option (nat * argty) :=
  match os with
  | [] => None
  | RegChecker t' id s :: u =>
    if String.eqb t t' && checker_ok s then match s with KFun a _ => Some (id, a) | _ => checker_of t u end else checker_of t u
  | _ :: u => checker_of t u
  end.

(** * Proofs *)
Lemma assoc_rappend t t' x l : assoc t (rappend t' x l)
  = if String.eqb t t' then Some (match assoc t l with Some v => v ++ [x] | None => [x] end) else assoc t l.
Proof.
  induction l as [|[k v] u IH]; cbn.
  - destruct (String.eqb_spec t t'); reflexivity.
  - destruct (String.eqb_spec t' k) as [->|N]; cbn.
    + destruct (String.eqb_spec t k); reflexivity.
    + destruct (String.eqb_spec t k) as [->|N2].
      * destruct (String.eqb_spec k t') as [->|]; [congruence|reflexivity].
      * exact IH.
Qed.

Definition rh_of (t : string) (o : regop) : list rhandler :=
  match o with
  | RegHandler t' id (VFun c a e) => if String.eqb t t' && handler_ok (VFun c a e) then [mkH id c a e] else []
  | _ => []
  end.
Lemma rhandlers_step t o r : rhandlers t (match reg_step o r with Some r' => r' | None => r end) = rhandlers t r ++ rh_of t o.
Proof.
  destruct o as [t' id s|t' id s]; cbn [reg_step rh_of].
  - destruct s as [| |c a e]; cbn [register_handler]; [now rewrite app_nil_r|now rewrite app_nil_r|].
    destruct c, a, e; cbn [register_handler handler_ok andb]; rewrite ?andb_false_r, ?app_nil_r, ?andb_true_r; try reflexivity.
    all: unfold rhandlers; cbn [r_handlers]; rewrite assoc_rappend; destruct (String.eqb t t'); [|now rewrite app_nil_r];
         destruct (assoc t (r_handlers r)); reflexivity.
  - rewrite app_nil_r. unfold register_checker. destruct (assoc t' (r_checkers r)); [reflexivity|].
    destruct s as [| |a x]; [reflexivity|reflexivity|]. destruct a, x; reflexivity.
Qed.
Lemma rhandlers_all t os r : rhandlers t (reg_all os r) = rhandlers t r ++ flat_map (rh_of t) os.
Proof.
  revert r. induction os as [|o u IH]; intros r; cbn; [now rewrite app_nil_r|].
  rewrite IH, rhandlers_step, app_assoc. reflexivity.
Qed.
Lemma handlers_of_flat t os : handlers_of t os = map (fun h => (rh_id h, rh_arg h)) (flat_map (rh_of t) os).
Proof.
  induction os as [|o u IH]; [reflexivity|]. destruct o as [t' id s|t' id s]; cbn [handlers_of flat_map rh_of]; [|exact IH].
  destruct s as [| |c a e]; cbn [handler_ok]; rewrite ?andb_false_r; cbn [app]; try exact IH.
  destruct (_ && _); cbn; [now f_equal|exact IH].
Qed.

Definition good (h : rhandler) : Prop := rh_ctx h = CtxContext /\ rh_err h = EtNilable.
Definition all_documented (os : list regop) : Prop :=
  forall t id s, In (RegHandler t id s) os -> handler_ok s = true -> handler_documented s = true.
Lemma good_flat t os : all_documented os -> Forall good (flat_map (rh_of t) os).
Proof.
  intros D. apply Forall_forall. intros h Hh. apply in_flat_map in Hh. destruct Hh as (o & Ho & Hh).
  destruct o as [t' id s|]; [|destruct Hh]. destruct s as [| |c a e]; try destruct Hh. cbn [rh_of] in Hh.
  destruct (String.eqb t t' && handler_ok (VFun c a e)) eqn:K; [|destruct Hh]. destruct Hh as [<-|[]].
  apply andb_true_iff in K. destruct K as (_ & K). specialize (D _ _ _ Ho K). cbn in D. unfold good. cbn.
  destruct c, a, e; cbn in D; try discriminate; auto.
Qed.

(** C56: the handlers called for an event are those registered for its type, in registration order, each with the decoded event
    or the event itself; all of them if none fails, and otherwise only up to the first that fails, whose error is returned
    (a payload that cannot be decoded counts as a failure, before the call). Whatever the handlers do. *)
Theorem C56_registration_order_until_first_failure os beh e past res calls :
  all_documented os ->
  on_event beh (reg_all os rinit) e past = (res, calls) ->
  exists done rest,
    handlers_of (ev_type e) os = done ++ rest
    /\ exists args, length args = length done
    /\ calls = rev (combine (map fst done) args) ++ past
    /\ Forall2 (fun h g => biz_arg (snd h) e = Some g) done args
    /\ (forall k, k + 1 < length done -> forall id g, nth_error (combine (map fst done) args) k = Some (id, g) ->
         beh (rev (firstn k (combine (map fst done) args)) ++ past) id g = HNil)
    /\ match res with
       | OnNil => rest = [] /\ (forall id g before, calls = (id, g) :: before -> done <> [] -> beh before id g = HNil)
       | OnErr n => exists id g before, calls = (id, g) :: before /\ done <> [] /\ beh before id g = HErr n
       | OnPanic => exists id g before, calls = (id, g) :: before /\ done <> [] /\ beh before id g = HPanic
       | OnDecode => exists id a rest', rest = (id, a) :: rest' /\ biz_arg a e = None
                     /\ (forall id g before, calls = (id, g) :: before -> done <> [] -> beh before id g = HNil)
       end.
Proof.
  intros D. unfold on_event. rewrite rhandlers_all. unfold rhandlers. cbn [rinit r_handlers assoc app].
  rewrite handlers_of_flat. pose proof (good_flat (ev_type e) os D) as G.
  generalize dependent (flat_map (rh_of (ev_type e)) os). intros hs G. clear D. revert past res calls.
  induction hs as [|h t IH]; intros past res calls E; cbn [call_handlers] in E.
  - injection E as <- <-. exists [], []. split; [reflexivity|]. exists []. repeat split; cbn; auto; try lia; try congruence.
  - inversion G as [|? ? (G1 & G2) Gt]; subst. cbn [map].
    destruct (biz_arg (rh_arg h) e) as [g|] eqn:B.
    2: { injection E as <- <-. exists [], ((rh_id h, rh_arg h) :: map (fun h => (rh_id h, rh_arg h)) t). split; [reflexivity|].
         exists []. repeat split; cbn; auto; try lia. exists (rh_id h), (rh_arg h), (map (fun h => (rh_id h, rh_arg h)) t). repeat split; auto. congruence. }
    rewrite G1, G2 in E. destruct (beh past (rh_id h) g) as [|n|] eqn:Bh.
    + specialize (IH Gt _ _ _ E). destruct IH as (done & rest & E1 & args & L & Ec & F2 & Hk & Hr).
      exists ((rh_id h, rh_arg h) :: done), rest. split; [cbn; now rewrite E1|]. exists (g :: args).
      split; [cbn; lia|]. split; [cbn [map fst combine rev]; rewrite Ec, <- app_assoc; reflexivity|].
      split; [constructor; assumption|]. split.
      * intros [|k] Hk' id g' N.
        -- cbn in N. injection N as <- <-. cbn. assumption.
        -- cbn [map fst combine nth_error firstn rev] in N |- *. rewrite <- app_assoc. apply Hk; [cbn in Hk'; lia|assumption].
      * assert (Hlast : done = [] -> forall id g0 before, calls = (id, g0) :: before -> beh before id g0 = HNil).
        { intros -> id g0 before Hc. destruct args; [|discriminate]. rewrite Ec in Hc. cbn in Hc. injection Hc as <- <- <-. assumption. }
        destruct res.
        -- destruct Hr as (Hr1 & Hr2). split; [assumption|]. intros id g0 before Hc _. destruct done as [|d done]; [now eapply Hlast|].
           eapply Hr2; [eassumption|discriminate].
        -- destruct Hr as (id & a & rest' & H1 & H2 & H3). exists id, a, rest'. repeat split; auto.
           intros id0 g0 before Hc _. destruct done as [|d done]; [now eapply Hlast|]. eapply H3; [eassumption|discriminate].
        -- destruct Hr as (id & g0 & before & H1 & H2 & H3). exists id, g0, before. repeat split; auto. discriminate.
        -- destruct Hr as (id & g0 & before & H1 & H2 & H3). exists id, g0, before. repeat split; auto. discriminate.
    + injection E as <- <-. exists [(rh_id h, rh_arg h)], (map (fun h => (rh_id h, rh_arg h)) t). split; [reflexivity|].
      exists [g]. repeat split; cbn; auto; try lia. exists (rh_id h), g, past. repeat split; auto. discriminate.
    + injection E as <- <-. exists [(rh_id h, rh_arg h)], (map (fun h => (rh_id h, rh_arg h)) t). split; [reflexivity|].
      exists [g]. repeat split; cbn; auto; try lia. exists (rh_id h), g, past. repeat split; auto. discriminate.
Qed.

(** C56: hence, if all payloads decode and no handler fails, all handlers of the type are called, and nil is returned. *)
Theorem C56_all_handlers_called os beh e :
  all_documented os ->
  (forall id a, In (id, a) (handlers_of (ev_type e) os) -> biz_arg a e <> None) ->
  (forall past id g, beh past id g = HNil) ->
  exists calls, on_event beh (reg_all os rinit) e [] = (OnNil, calls) /\ map fst (rev calls) = map fst (handlers_of (ev_type e) os).
Proof.
  intros D Hd Hb. destruct (on_event beh (reg_all os rinit) e []) as (res, calls) eqn:E.
  destruct (C56_registration_order_until_first_failure os beh e [] res calls D E) as (done & rest & E1 & args & L & Ec & _ & _ & Hr).
  destruct res.
  - destruct Hr as (-> & _). exists calls. split; [reflexivity|]. rewrite app_nil_r in E1, Ec. rewrite E1, Ec, rev_involutive.
    clear - L. revert args L. induction done as [|d t IH]; intros [|a args] L; cbn in *; try lia; [reflexivity|]. f_equal. apply IH. lia.
  - destruct Hr as (id & a & rest' & H1 & H2 & _). exfalso. apply (Hd id a); [|assumption]. rewrite E1, H1. apply in_or_app. right. now left.
  - destruct Hr as (id & g & before & _ & _ & H). rewrite Hb in H. discriminate.
  - destruct Hr as (id & g & before & _ & _ & H). rewrite Hb in H. discriminate.
Qed.

(** C56: a redelivered event starts again with the first handler: handlers before the failing one are called again. *)
Theorem C56_redelivery_repeats_earlier_handlers os beh e :
  all_documented os ->
  forall id1 a1 id2 a2 rest, handlers_of (ev_type e) os = (id1, a1) :: (id2, a2) :: rest ->
  forall g1 g2 n, biz_arg a1 e = Some g1 -> biz_arg a2 e = Some g2 ->
  (forall past, beh past id1 g1 = HNil) -> (forall past, beh past id2 g2 = HErr n) ->
  forall past, on_event beh (reg_all os rinit) e past = (OnErr n, (id2, g2) :: (id1, g1) :: past).
Proof.
  intros D id1 a1 id2 a2 rest E g1 g2 n B1 B2 H1 H2 past.
  unfold on_event. rewrite rhandlers_all. unfold rhandlers. cbn [rinit r_handlers assoc app].
  rewrite handlers_of_flat in E. pose proof (good_flat (ev_type e) os D) as G.
  destruct (flat_map (rh_of (ev_type e)) os) as [|h1 [|h2 hs]]; try discriminate. cbn in E. injection E as <- <- <- <- _.
  inversion G as [|? ? (Ga & Gb) Gt]; subst. inversion Gt as [|? ? (Gc & Gd) _]; subst.
  cbn. rewrite B1, Ga, H1, Gb, B2, Gc, H2, Gd. reflexivity.
Qed.

(** C56: registrations of other types never matter, and hasEventHandler says whether there is one. *)
Theorem C56_has_handler os t :
  has_handler t (reg_all os rinit) = true <-> handlers_of t os <> [].
Proof.
  assert (NE : forall os r, (forall t l, assoc t (r_handlers r) = Some l -> l <> []) -> forall t l, assoc t (r_handlers (reg_all os r)) = Some l -> l <> []).
  { clear. induction os as [|o u IH]; intros r H; [exact H|]. cbn. apply IH. intros t l. destruct (reg_step o r) as [r'|] eqn:E; [|apply H].
    destruct o as [t' id s|t' id s]; cbn in E.
    - destruct s as [| |c a e]; try discriminate. destruct c, a, e; try discriminate; cbn in E; injection E as <-; cbn [r_handlers]; rewrite assoc_rappend;
        destruct (String.eqb t t'); try apply H; intros K; injection K as <-; destruct (assoc t (r_handlers r)) as [[|]|]; discriminate.
    - unfold register_checker in E. destruct (assoc t' (r_checkers r)); [discriminate|].
      destruct s as [| |a x]; try discriminate. destruct a, x; try discriminate; injection E as <-; apply H. }
  specialize (NE os rinit). rewrite handlers_of_flat. pose proof (rhandlers_all t os rinit) as R. unfold rhandlers at 2 in R. cbn [rinit r_handlers assoc app] in R.
  rewrite <- R. unfold has_handler, rhandlers. destruct (assoc t (r_handlers (reg_all os rinit))) as [l|] eqn:E.
  - split; [intros _|reflexivity]. assert (l <> []) by (eapply NE; [intros ? ? K; discriminate|exact E]). destruct l; [congruence|discriminate].
  - split; [discriminate|intros H; now elim H].
Qed.

(** C56 fails for handlers RegisterEventHandler accepts although they do not have the documented type: a result type that
    implements error but cannot be nil makes every event panic although the handler succeeds... *)
Theorem C56_value_error_type_refuted t id a p g beh :
  biz_arg a (mkE t p) = Some g -> beh [] id g = HNil ->
  exists r, register_handler t id (VFun CtxContext a EtValue) rinit = Some r /\ on_event beh r (mkE t p) [] = (OnPanic, [(id, g)]).
Proof.
  intros B H. destruct a; try discriminate.
  all: eexists; split; [reflexivity|]; unfold on_event, rhandlers; cbn [r_handlers rappend assoc rinit ev_type]; rewrite String.eqb_refl;
    cbn [call_handlers rh_arg rh_ctx rh_id rh_err]; cbn in B |- *.
  - injection B as <-. now rewrite H.
  - rewrite B. cbn. now rewrite H.
Qed.
(** ... and a context type of one's own makes every event panic without the handler being called. *)
Theorem C56_own_context_type_refuted t id a p g beh :
  biz_arg a (mkE t p) = Some g ->
  exists r, register_handler t id (VFun CtxOther a EtNilable) rinit = Some r /\ on_event beh r (mkE t p) [] = (OnPanic, []).
Proof.
  intros B. destruct a; try discriminate.
  all: eexists; split; [reflexivity|]; unfold on_event, rhandlers; cbn [r_handlers rappend assoc rinit ev_type]; rewrite String.eqb_refl;
    cbn [call_handlers rh_arg rh_ctx rh_id rh_err]; now rewrite B.
Qed.

(** * C57 *)
Lemma assoc_checkers t os : forall r,
  assoc t (r_checkers (reg_all os r)) =
  match assoc t (r_checkers r) with
  | Some c => Some c
  | None => (fix first l := match l with
             | [] => None
             | RegChecker t' id (KFun a x) :: u => if String.eqb t t' && checker_ok (KFun a x) then Some (mkC id a x) else first u
             | _ :: u => first u
             end) os
  end.
Proof.
  induction os as [|o u IH]; intros r; [cbn; now destruct (assoc t (r_checkers r))|]. cbn [reg_all]. rewrite IH. clear IH.
  destruct o as [t' id s|t' id s]; cbn [reg_step].
  - destruct s as [| |c a e]; try reflexivity. destruct c, a, e; reflexivity.
  - unfold register_checker. destruct (assoc t' (r_checkers r)) as [c0|] eqn:A.
    + destruct (assoc t (r_checkers r)) as [c|] eqn:B; [reflexivity|]. destruct s as [| |a x]; try reflexivity.
      destruct (String.eqb_spec t t') as [->|N]; [congruence|reflexivity].
    + destruct s as [| |a x]; try reflexivity.
      destruct a, x; cbn [checker_ok andb r_checkers assoc]; rewrite ?andb_false_r, ?andb_true_r; try reflexivity.
      all: destruct (String.eqb_spec t t') as [->|N]; [rewrite A|]; try reflexivity.
Qed.
Definition all_checkers_documented (os : list regop) : Prop :=
  forall t id s, In (RegChecker t id s) os -> checker_ok s = true -> checker_documented s = true.

(** C57: the answer is that of the first checker registered for the type, with the decoded payload; rollback if there is no
    checker or the payload cannot be decoded. *)
Theorem C57_answer os says e :
  all_checkers_documented os ->
  on_tx_checker says (reg_all os rinit) e
  = match checker_of (ev_type e) os with
    | None => Some TXRollBack
    | Some (id, a) => match biz_arg a e with None => Some TXRollBack | Some g => says id g end
    end.
Proof.
  intros D. unfold on_tx_checker. rewrite assoc_checkers. cbn [rinit r_checkers assoc].
  induction os as [|o u IH]; [reflexivity|].
  assert (Du : all_checkers_documented u) by (intros ? ? ? H; exact (D _ _ _ (or_intror H))).
  destruct o as [t' id s|t' id s]; cbn [checker_of]; [exact (IH Du)|].
  destruct s as [| |a x]; cbn [checker_ok]; rewrite ?andb_false_r; try exact (IH Du).
  destruct (String.eqb (ev_type e) t' && _) eqn:K; [|exact (IH Du)].
  apply andb_true_iff in K. destruct K as (_ & K). pose proof (D _ _ _ (or_introl eq_refl) K) as Dc. cbn [rc_arg rc_id rc_tx].
  destruct a, x; try discriminate; cbn; try (destruct (says _ _); reflexivity).
  all: destruct (unmarshal (ev_payload e)); cbn; [destruct (says _ _)|]; reflexivity.
Qed.
(** C57: a second checker for a type is refused (the call panics) and changes nothing. *)
Theorem C57_second_checker_refused os t id s :
  checker_of t os <> None -> register_checker t id s (reg_all os rinit) = None.
Proof.
  intros H. unfold register_checker. assert (A : assoc t (r_checkers (reg_all os rinit)) <> None).
  { rewrite assoc_checkers. cbn [rinit r_checkers assoc]. induction os as [|o u IH]; [now elim H|].
    destruct o as [t' id' s'|t' id' s']; cbn [checker_of] in H; [now apply IH|].
    destruct s' as [| |a x]; cbn [checker_ok] in H; rewrite ?andb_false_r in H; try (now apply IH).
    cbn [checker_ok]. destruct (String.eqb t t' && _); [discriminate|now apply IH]. }
  destruct (assoc t (r_checkers (reg_all os rinit))); [reflexivity|congruence].
Qed.
(** C57 fails for checkers RegisterEventTXChecker accepts although their result type is not TXStatus (an int, say): every check
    that reaches the checker panics. *)
Theorem C57_convertible_result_type_refuted t id a p g says :
  biz_arg a (mkE t p) = Some g ->
  exists r, register_checker t id (KFun a TxConvertible) rinit = Some r /\ on_tx_checker says r (mkE t p) = None.
Proof.
  intros B. destruct a; try discriminate.
  all: eexists; split; [reflexivity|]; unfold on_tx_checker; cbn [r_checkers assoc ev_type]; rewrite String.eqb_refl;
    cbn [rc_arg rc_id rc_tx]; rewrite B; now destruct (says id g).
Qed.

(** The hypotheses are met: two types, three handlers, one refused registration, two checkers. *)
Local Open Scope string_scope.
Local Open Scope list_scope.
Local Open Scope nat_scope.
Definition ex_regs : list regop :=
  [RegHandler "a" 1 (VFun CtxContext (AEvent (fun n => if n <? 100 then Some (n + 1) else None)) EtNilable); RegHandler "b" 2 (VFun CtxContext ADomainEvent EtNilable);
   RegHandler "a" 9 VArity; RegHandler "a" 3 (VFun CtxContext ADomainEvent EtNilable); RegChecker "a" 4 (KFun ADomainEvent TxStatus);
   RegChecker "a" 5 (KFun ADomainEvent TxStatus)].
Example ex_regs_documented : all_documented ex_regs /\ all_checkers_documented ex_regs.
Proof.
  split; intros t id s H K; repeat (destruct H as [H|H]; [try discriminate; injection H as <- <- <-; try reflexivity; discriminate|]); destruct H.
Qed.
Example C56_nontrivial :
  map fst (handlers_of "a" ex_regs) = [1; 3]
  /\ on_event (fun _ id _ => if id =? 3 then HErr 77 else HNil) (reg_all ex_regs rinit) (mkE "a" 5) []
     = (OnErr 77, [(3, GotEvent (mkE "a" 5)); (1, GotPayload 6)])
  /\ on_event (fun _ _ _ => HNil) (reg_all ex_regs rinit) (mkE "a" 200) [] = (OnDecode, []).
Proof. repeat split. Qed.
Example C57_nontrivial :
  option_map fst (checker_of "a" ex_regs) = Some 4
  /\ on_tx_checker (fun id _ => if id =? 4 then Some TXCommit else None) (reg_all ex_regs rinit) (mkE "a" 5) = Some TXCommit
  /\ on_tx_checker (fun _ _ => Some TXCommit) (reg_all ex_regs rinit) (mkE "b" 5) = Some TXRollBack.
Proof. repeat split. Qed.

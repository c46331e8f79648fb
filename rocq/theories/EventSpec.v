(** What an outside observer sees of the events of a run. *)
From Verif Require Export GraphSpec DbSpec.

(** All events handed to the event bus by the calls [tr], in order. *)
Definition published (tr : list (call * resp)) : list event :=
  flat_map (fun c => match fst c with KDispatch l | KDispatchBegin l => l | _ => [] end) tr.

(** Creation time, then id. *)
Definition ev_before (a b : event) : Prop :=
  (ev_created a < ev_created b)%Z \/ (ev_created a = ev_created b /\ str_ltb (ev_id a) (ev_id b) = true).

(** [e] is attached to an entity in the tree of a current root or of a removed entity. *)
Definition attached (s : st) (e : event) : Prop :=
  exists p, ((reach (kids_now s) meta p /\ p <> meta) \/
             (exists r, In r (ct_deleted (s_cont s)) /\ reach (kids_now s) r p)) /\
            In e (e_events (s_heap s p)).

(** Event ids identify events (event.go 203, 216: generated by xid). *)
Definition event_ids_unique (s : st) : Prop :=
  forall a b, attached s a -> attached s b -> ev_id a = ev_id b -> a = b.

(** The arbitrary iteration orders are orders. *)
Definition orders_ok (cfg : config) : Prop :=
  (forall n, order_ok (c_ord cfg n)) /\ (forall n l, Permutation (c_evord cfg n l) l).

(** The context of a transactional publication: the bus accepted a DispatchBegin and gave a context. *)
Definition tx_registered (tr : list (call * resp)) : Prop :=
  exists l r, In (KDispatchBegin l, r) tr /\ r_ans r <> APanic /\ r_ctx r = true.

(** The life of one service on the bus, one operation after the other. *)
From Verif Require Import BusModel BusWorld BusWorldSpec.

(** A poll of the service; a poll of another service; a Dispatch without statement errors; the registration of a service; a
    cleaning run of any service. *)
Inductive busop :=
| BPoll (now : nat) (envs : nat -> henv)
| BForeign (other : buscfg) (now : nat) (envs : nat -> henv)
| BDispatch (evs : list devent)
| BRegister (name : string)
| BClean (any : buscfg) (now : nat).
(** the operations one after the other; the result also lists the calls of the handler of the service *)
Fixpoint bus_run (cfg : buscfg) (l : list busop) (d : bdb) : bdb * list (erow * srow) :=
  match l with
  | [] => (d, [])
  | BPoll now envs :: t => let '(d1, c1) := handle_events cfg now envs d in let '(d2, c2) := bus_run cfg t d1 in (d2, c1 ++ c2)
  | BForeign o now envs :: t => bus_run cfg t (fst (handle_events o now envs d))
  | BDispatch evs :: t => bus_run cfg t (snd (dispatch_now evs d))
  | BRegister name :: t => bus_run cfg t (init_service name d)
  | BClean c now :: t => bus_run cfg t (clean_events c now d)
  end.
Definition is_poll (o : busop) : bool := match o with BPoll _ _ => true | _ => false end.
Definition polls (l : list busop) : nat := length (filter is_poll l).
(** the polls of other services really are of other services *)
Definition foreign_ok (cfg : buscfg) (l : list busop) : Prop := forall o now envs, In (BForeign o now envs) l -> c_service o <> c_service cfg.
(** the pending deliveries of the service for events before [id] *)
Definition pending_before (cfg : buscfg) (d : bdb) (id : nat) : list srow :=
  filter (fun s => String.eqb (sr_service s) (c_service cfg) && is_init (sr_status s) && (sr_event s <? id)) (b_sv d).

(** Vocabulary for event transactions under interleaving: what the log says. *)
From Verif Require Import InterModel.

(** how often the events of the transaction were inserted; how often a Commit was called for it *)
Definition copies (i : nat) (h : list hev) : nat := length (filter (fun e => match e with HStored j _ => j =? i | _ => false end) h).
Definition attempts (i : nat) (h : list hev) : nat := length (filter (fun e => match e with HAsked j => j =? i | _ => false end) h).
(** the events of the transaction were inserted, and delivery records for each of the services [sv] *)
Definition sent (t : trow) (sv : list string) (h : list hev) : Prop :=
  In (HStored (tr_id t) (tr_events t)) h /\ forall v, In v sv -> exists ids, In (HDelivered (tr_id t) v ids) h.
(** the events inserted for the transaction, according to the log and according to the table *)
Definition logged (i : nat) (h : list hev) : list devent := flat_map (fun e => match e with HStored j evs => if j =? i then evs else [] | _ => [] end) h.
Definition tabled (i : nat) (d : bdb) : list devent := map er_ev (filter (fun r => er_trans r =? i) (b_ev d)).
Definition no_removal (a : iact) : Prop := match a with IRemove _ => False | _ => True end.
(** nobody can still work on transaction [i]: its row is gone, no publisher is before or inside the storing part of a
    Commit for it, no checker holds it *)
Definition settled (i : nat) (st : ist) : Prop :=
  i < b_nt (i_db st) /\ (forall t, In t (b_tx (i_db st)) -> tr_id t <> i) /\
  (forall p, In p (i_pub st) -> match p with PHave t | PFind t | PIns t => tr_id t <> i | _ => True end) /\
  (forall k t, In k (i_chk st) -> In t (held k) -> tr_id t <> i).

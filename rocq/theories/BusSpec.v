(** Vocabulary for the properties of the MySQL event bus, independent of the way the bus computes. *)
From Verif Require Import BusModel.

(** A consistent database: primary keys unique and below the next auto-increment value, at most one delivery record per
    service and event (the unique index of po.go 152), every delivery record refers to a stored event, services unique. *)
Record wf (d : bdb) : Prop := {
  wf_ev : NoDup (map er_id (b_ev d));
  wf_evn : forall r, In r (b_ev d) -> 1 <= er_id r < b_ne d;
  wf_sv : NoDup (map sr_id (b_sv d));
  wf_svn : forall s, In s (b_sv d) -> 1 <= sr_id s < b_ns d;
  wf_key : NoDup (map (fun s => (sr_service s, sr_event s)) (b_sv d));
  wf_ref : forall s, In s (b_sv d) -> exists r, In r (b_ev d) /\ er_id r = sr_event s;
  wf_svc : NoDup (b_svc d);
  wf_pos : 1 <= b_ne d /\ 1 <= b_ns d }.

(** The delivery is pending for the service, at or after the scan start, and its time has come. *)
Definition eligible (cfg : buscfg) (now start : nat) (s : srow) : Prop :=
  sr_service s = c_service cfg /\ sr_status s = SInit /\ start <= sr_event s /\ sr_next s <= now.
(** [start] is the smallest id of an event created inside the window. *)
Definition window_start (cfg : buscfg) (now : nat) (d : bdb) (start : nat) : Prop :=
  (exists r, In r (b_ev d) /\ er_id r = start /\ now <= er_created r + c_window cfg) /\
  (forall r, In r (b_ev d) -> now <= er_created r + c_window cfg -> start <= er_id r).
(** [l] are the first [n] elements, by event id, of those satisfying [P]. *)
Definition first_by_event (P : srow -> Prop) (n : nat) (all l : list srow) : Prop :=
  StronglySorted (fun a b => sr_event a < sr_event b) l /\ (forall s, In s l -> In s all /\ P s) /\ length l <= n /\
  (forall s, In s all -> P s -> In s l \/ (length l = n /\ forall x, In x l -> sr_event x < sr_event s)).

(** A finished delivery of the service older than the retention time. *)
Definition finished (cfg : buscfg) (now : nat) (s : srow) : Prop :=
  sr_service s = c_service cfg /\ sr_status s = SSuccess /\ sr_created s + c_retention cfg < now.
(** [l'] is what remains of [l] when exactly the elements satisfying [P] are taken out, order kept. *)
Inductive taken_out {A} (P : A -> Prop) : list A -> list A -> Prop :=
| to_nil : taken_out P [] []
| to_out x l l' : P x -> taken_out P l l' -> taken_out P (x :: l) l'
| to_keep x l l' : ~ P x -> taken_out P l l' -> taken_out P (x :: l) (x :: l').
(** the delivery records of the other services *)
Definition others (cfg : buscfg) (d : bdb) : list srow := filter (fun s => negb (String.eqb (sr_service s) (c_service cfg))) (b_sv d).

(** The effect of a Dispatch that got as far as inserting its events and their deliveries to [svcs]. *)
Definition dispatched (trans : nat) (evs : list devent) (svcs : list string) (d d' : bdb) : Prop :=
  exists rows dels,
    b_ev d' = b_ev d ++ rows /\ map er_ev rows = evs /\ map er_id rows = seq (b_ne d) (length evs) /\ (forall r, In r rows -> er_trans r = trans) /\
    b_sv d' = b_sv d ++ dels /\ map (fun s => (sr_service s, sr_event s)) dels = list_prod svcs (map er_id rows) /\
    map sr_id dels = seq (b_ns d) (length dels) /\
    (forall s, In s dels -> sr_status s = SInit /\ sr_retry s = 0 /\ exists r, In r rows /\ er_id r = sr_event s /\ sr_created s = er_created r /\ sr_next s = er_created r) /\
    b_svc d' = b_svc d /\ b_tx d' = b_tx d /\ b_ne d' = b_ne d + length evs /\ b_ns d' = b_ns d + length dels /\ b_nt d' = b_nt d.

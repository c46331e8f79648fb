(** Vocabulary for the properties of the database lock: who holds what, until when, read off the clients and the history
    of executed SQL statements. *)
From Verif Require Import DbLockModel.

(** The client's Lock call returned successfully for key [k] and it has not called UnLock. *)
Definition holding (w : world) (c : nat) (k : string) : Prop := exists h, c_ph (w_cl w c) = PHeld h /\ h_key h = k.
(** The time stamp a statement stores in a row, if it was executed and confirmed. *)
Definition confirmed_ts (e : levent) : option nat :=
  match e_stmt e, e_reply e with
  | QInsert _ _ ts, RCount (S _) => Some ts
  | QUpdate _ _ _ ts, RCount (S _) => Some ts
  | _, _ => None
  end.
(** The beginning of the client's lease: the time stamp of its last confirmed write. *)
Definition lease_of (hist : list levent) (c : nat) : option nat :=
  fold_left (fun acc e => if Nat.eqb (e_who e) c then match confirmed_ts e with Some ts => Some ts | None => acc end else acc) hist None.
(** The lease is valid: ttl has not elapsed since its beginning. *)
Definition lease_valid (ttl : nat) (w : world) (c : nat) : Prop := exists ts, lease_of (w_hist w) c = Some ts /\ w_now w < ts + ttl.
(** The row identity a statement puts into the table. *)
Definition writes_id (e : levent) (i : nat) : Prop :=
  match e_stmt e with QInsert _ id _ => id = i | QUpdate _ _ id _ => id = i | _ => False end.
(** Every client that holds a key renewed it early enough: at least [margin] of its lease is left. *)
Definition in_time (ttl margin : nat) (w : world) : Prop :=
  forall c k, holding w c k -> exists ts, lease_of (w_hist w) c = Some ts /\ w_now w + margin < ts + ttl.
(** Each Lock call takes at most [margin] from reading the row to trying to take it over. *)
Definition prompt (margin : nat) (hist : list levent) : Prop :=
  forall p m q e1 e2 key, hist = p ++ e1 :: m ++ e2 :: q -> e_who e2 = e_who e1 -> (forall e, In e m -> e_who e <> e_who e1) ->
  e_stmt e1 = QSelect key -> (exists wid id ts, e_stmt e2 = QUpdate key wid id ts) -> e_time e2 <= e_time e1 + margin.
(** An execution all of whose states satisfy [P]. *)
Inductive steps_in (ttl : nat) (retry runs : bool) (P : world -> Prop) : world -> world -> Prop :=
| si_nil w : P w -> steps_in ttl retry runs P w w
| si_cons w1 w2 w3 : steps_in ttl retry runs P w1 w2 -> step ttl retry runs w2 w3 -> P w3 -> steps_in ttl retry runs P w1 w3.
(** A call executed with nobody else acting and no failing statement; time may pass before each operation. *)
Definition later (d : nat) (w : world) : world := mkW (w_tab w) (w_now w + d) (w_next w) (w_cl w) (w_hist w).
Definition is_ret {R} (p : prog R) : bool := match p with Ret _ => true | _ => false end.
Inductive solo {R} (c : nat) : world -> prog R -> world -> R -> Prop :=
| solo_ret w r : solo c w (Ret r) w r
| solo_op w p d p' w' w'' r : is_ret p = false -> op c OOk p (later d w) = (p', w') -> solo c w' p' w'' r -> solo c w p w'' r.
(** A call against an arbitrary environment: any ids, clock readings and answers. *)
Inductive ioev := IId (n : nat) | INow (t : nat) | IStmt (q : sqlq) (r : reply).
Inductive calls {R} : prog R -> list ioev -> R -> Prop :=
| calls_ret r : calls (Ret r) [] r
| calls_id f n tr r : calls (f n) tr r -> calls (NewID f) (IId n :: tr) r
| calls_now f t tr r : calls (f t) tr r -> calls (Now f) (INow t :: tr) r
| calls_stmt q f y tr r : calls (f y) tr r -> calls (Stmt q f) (IStmt q y :: tr) r.
Definition is_select (e : ioev) : bool := match e with IStmt (QSelect _) _ => true | _ => false end.

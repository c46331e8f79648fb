(** Concurrent runs (SerialModel) with the locks the repository ships: lock/db/sql.go 70-144 and lock/redis/redis.go 32-49.  The
    engine calls Lock and UnLock only (engine.go 1218-1234), never DBLock.Run (sql.go 161-189), which is the only place where a
    lease is renewed: a key is taken for the ttl and no longer, whether or not the run that took it has ended.
    Simplifications: one clock; both locks as one table of leases (key, run, end of the lease): a call of Lock finds the key free if
    there is no lease or if it ended (sql.go 108-116, 119-131; SET NX PX), UnLock deletes the lease only if it still is the run's own
    (sql.go 136, the token of redislock); the retries of Lock are time passing before the one attempt that counts.  The statements
    inside one Lock call are modelled in DbLockModel and RedisModel. *)
From Verif Require Export SerialModel.

Record lst := mkL { l_db : dbase; l_ph : list phase; l_log : list done;
                    l_lease : string -> option (nat * nat);      (* the run that has the key, and until when *)
                    l_now : nat;
                    l_got : list (nat * string * nat) }.         (* observed: run i was given key k at time t *)
Inductive lact :=
| LTick (n : nat)
| LStep (i : nat)     (* the next step of run i *)
| LFail (i : nat)     (* its next lock call, query, statement or Commit fails *)
| LLost (i : nat)     (* its lock call takes effect, but the answer is lost: an error for the run *)
| LKeep (i : nat)     (* its UnLock call fails without effect (logged only, engine.go 1230-1232) *)
| LDie (i : nat).
(** lock/db/sql.go 108-116: the row is not older than the ttl; redis: the key exists (PX ttl) *)
Definition l_live (st : lst) (k : string) : bool := match l_lease st k with Some (_, e) => l_now st <? e | None => false end.
(** insert, update or delete of the lease of one key *)
Definition lset (f : string -> option (nat * nat)) (k : string) (x : option (nat * nat)) : string -> option (nat * nat) :=
  fun k' => if String.eqb k' k then x else f k'.
(** the part of the state SerialModel has *)
Definition core (st : lst) : sst := mkSt (l_db st) (l_ph st) (l_log st).
(** a step of SerialModel leaves the leases alone *)
Definition with_core (st : lst) (s : sst) : lst := mkL (s_db s) (s_ph s) (s_log s) (l_lease st) (l_now st) (l_got st).
(** run i goes on *)
Definition set_phase (st : lst) (i : nat) (p : phase) : lst := mkL (l_db st) (put i p (l_ph st)) (l_log st) (l_lease st) (l_now st) (l_got st).
(** lock/db/sql.go 119-131, 136; redis SET NX PX, DEL: the lease of k is written *)
Definition set_lease (st : lst) (k : string) (x : option (nat * nat)) : lst := mkL (l_db st) (l_ph st) (l_log st) (lset (l_lease st) k x) (l_now st) (l_got st).
(** observed: run i was given k now (bookkeeping of the model) *)
Definition set_got (st : lst) (i : nat) (k : string) : lst := mkL (l_db st) (l_ph st) (l_log st) (l_lease st) (l_now st) (l_got st ++ [(i, k, l_now st)]).

Section Lease.
  Variable ttl : nat.
  Definition lexec (rs : list runp) (a : lact) (st : lst) : lst :=
    match a with
    | LTick n => mkL (l_db st) (l_ph st) (l_log st) (l_lease st) (l_now st + n) (l_got st)
    | LStep i =>
        match nth_error (l_ph st) i with
        | Some (PLock x (k :: t) held) =>                                          (* engine.go 1218-1227 *)
            match nth_error rs i with
            | None => st
            | Some _ =>
                if l_live st k then set_phase st i (PFree held)
                else set_got (set_lease (set_phase st i (PLock x t (k :: held))) k (Some (i, l_now st + ttl))) i k
            end
        | Some (PFree (k :: t)) =>                                                  (* engine.go 1228-1234 *)
            match nth_error rs i with
            | None => st
            | Some _ => match l_lease st k with
                        | Some (j, _) => if Nat.eqb j i then set_lease (set_phase st i (PFree t)) k None else set_phase st i (PFree t)
                        | None => set_phase st i (PFree t)
                        end
            end
        | _ => with_core st (sexec rs (SStep i) (core st))
        end
    | LFail i => with_core st (sexec rs (SFail i) (core st))
    | LLost i =>
        match nth_error (l_ph st) i with
        | Some (PLock x (k :: t) held) => if l_live st k then set_phase st i (PFree held) else set_lease (set_phase st i (PFree held)) k (Some (i, l_now st + ttl))
        | _ => st
        end
    | LKeep i => match nth_error rs i, nth_error (l_ph st) i with Some _, Some (PFree (k :: t)) => set_phase st i (PFree t) | _, _ => st end
    | LDie i => with_core st (sexec rs (SDie i) (core st))
    end.
  (** a history: the actions one after the other *)
  Fixpoint lrun (rs : list runp) (acts : list lact) (st : lst) : lst := match acts with [] => st | a :: t => lrun rs t (lexec rs a st) end.
  (** [ls]: the leases others left behind *)
  Definition lstart (rs : list runp) (d : dbase) (ls : string -> option (nat * nat)) (now : nat) : lst := mkL d (map (fun _ => PInit) rs) [] ls now [].
End Lease.

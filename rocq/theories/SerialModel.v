(** Model of the data accesses of concurrent runs of the engine with transaction (engine.go 765-845, 1200-1300): Init
    outside lock and transaction, then the lock keys one by one, Begin, the queries and statements of the command and of
    persist, Commit or RollBack, UnLock.  Any number of runs, one step per lock call, query or statement, any order. *)
From Verif Require Export GoBase.

(** The database: rows (named by table and id) with their contents, [None]: no such row. *)
Definition dbase := string -> option string.
(** The part of a run inside the transaction: ended with the result of the command ([ok]: Commit, otherwise RollBack) and
    its output; a query, whose answer decides how the run goes on; a statement that sets (or deletes) a row. *)
Inductive prog :=
| Ret (ok : bool) (out : string)
| Query (q : dbase -> string) (k : string -> prog)
| Write (r : string) (v : option string) (k : prog).
(** A run: the query made in Init (776; outside of lock and transaction), and, depending on its answer, the lock keys
    (754-757) and what is done in the transaction.  [r_snap]: the isolation level is repeatable read (queries see the
    database at the first query of the transaction), otherwise read committed. *)
Record runp := mkRun { r_init : dbase -> string; r_keys : string -> list string; r_prog : string -> prog; r_snap : bool }.

(** Where a run is: before Init; acquiring keys (1218-1227), sorted by 1210; in the transaction with the snapshot, its own
    writes (newest first) and the rest of the program; releasing the keys (1228-1234); over; dead with its keys taken. *)
Inductive phase :=
| PInit
| PLock (x : string) (todo held : list string)
| PRun (x : string) (held : list string) (snap : option dbase) (buf : list (string * option string)) (rest : prog)
| PFree (held : list string)
| POver
| PDead (held : list string).
(** engine.go 1217-1227 (ls): the keys a run has *)
Definition holds (p : phase) : list string := match p with PLock _ _ h | PRun _ h _ _ _ | PFree h | PDead h => h | _ => [] end.
(** another run has the key: Lock is refused *)
Definition taken (k : string) (ps : list phase) : bool := existsb (fun p => existsb (String.eqb k) (holds p)) ps.
(** what a query of a transaction sees of a row: its own last write, otherwise the database *)
Fixpoint seen (buf : list (string * option string)) (d : dbase) (r : string) : option string :=
  match buf with [] => d r | (r', v) :: t => if String.eqb r' r then v else seen t d r end.
(** assignment to the i-th run *)
Fixpoint put {A} (i : nat) (x : A) (l : list A) : list A :=
  match l, i with [], _ => [] | _ :: t, 0 => x :: t | y :: t, S j => y :: put j x t end.

(** A finished transaction: the run, what its Init answered, whether it was committed, its output. *)
Record done := mkDone { e_run : nat; e_init : string; e_ok : bool; e_out : string }.
(** committed rows, runs, finished transactions (bookkeeping of the interleaving) *)
Record sst := mkSt { s_db : dbase; s_ph : list phase; s_log : list done }.
Inductive sact :=
| SStep (i : nat)     (* run i takes its next step *)
| SFail (i : nat)     (* its next lock call, query or statement fails, or Commit: RollBack, UnLock *)
| SDie (i : nat)      (* its process dies: the database rolls back, the keys stay taken *)
| SExpire (i : nat).  (* the keys of a dead run expire *)
Definition step1 (i : nat) (r : runp) (p : phase) (st : sst) : sst :=
  let at' p' := mkSt (s_db st) (put i p' (s_ph st)) (s_log st) in
  match p with
  | PInit => let x := r_init r (s_db st) in at' (PLock x (r_keys r x) [])
  | PLock x [] held => at' (PRun x held None [] (r_prog r x))
  | PLock x (k :: t) held => if taken k (s_ph st) then at' (PFree held) else at' (PLock x t (k :: held))
  | PRun x held snap buf (Ret ok out) =>
      mkSt (if ok then seen buf (s_db st) else s_db st) (put i (PFree held) (s_ph st)) (s_log st ++ [mkDone i x ok out])
  | PRun x held snap buf (Query q k) =>
      let base := match snap with Some d => d | None => s_db st end in
      at' (PRun x held (if r_snap r then Some base else None) buf (k (q (seen buf base))))
  | PRun x held snap buf (Write rw v k) => at' (PRun x held snap ((rw, v) :: buf) k)
  | PFree (k :: t) => at' (PFree t)
  | PFree [] => at' POver
  | POver | PDead _ => st
  end.
(** one step of one run, its failure, its death, the expiry of a dead run's keys *)
Definition sexec (rs : list runp) (a : sact) (st : sst) : sst :=
  match a with
  | SStep i => match nth_error rs i, nth_error (s_ph st) i with Some r, Some p => step1 i r p st | _, _ => st end
  | SFail i => match nth_error (s_ph st) i with
               | Some (PLock _ _ h) | Some (PRun _ h _ _ _) => mkSt (s_db st) (put i (PFree h) (s_ph st)) (s_log st)
               | Some PInit => mkSt (s_db st) (put i POver (s_ph st)) (s_log st)
               | _ => st
               end
  | SDie i => match nth_error (s_ph st) i with Some p => mkSt (s_db st) (put i (PDead (holds p)) (s_ph st)) (s_log st) | None => st end
  | SExpire i => match nth_error (s_ph st) i with Some (PDead _) => mkSt (s_db st) (put i POver (s_ph st)) (s_log st) | _ => st end
  end.
(** a history: the actions one after the other *)
Fixpoint srun (rs : list runp) (acts : list sact) (st : sst) : sst := match acts with [] => st | a :: t => srun rs t (sexec rs a st) end.
(** the beginning: no run has begun *)
Definition sstart (rs : list runp) (d : dbase) : sst := mkSt d (map (fun _ => PInit) rs) [].

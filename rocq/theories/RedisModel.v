(** Model of lock/redis/redis.go: the distributed lock over Redis, through the library github.com/bsm/redislock v0.9.3, of
    which the documented behaviour is modelled: Obtain is SET key token NX PX ttl (a key that already carries the caller's own
    token is taken again), repeated as the retry strategy says; Release deletes the key if it still carries the token.
    Times are milliseconds on the server's clock; an expired key counts as absent. *)
From Verif Require Export GoBase.

(** A Redis key with its value - the token - and the time it expires. *)
Record rentry := mkRE { re_tok : nat; re_exp : nat }.
(** What Lock reports: obtained; ErrEntityLocked (40-42); another error (of Redis or of the context), passed on (43). *)
Inductive lres := LGot | LLocked | LErr.
(** A process: nothing; inside Lock, since [start], with [lf] retries left and the next attempt not before [at_]; holding
    the lock obtained at time [since]; inside UnLock, the answer of the server being awaited. *)
Inductive client := CIdle | CTrying (key : string) (tok start lf at_ : nat) | CHolding (key : string) (tok since : nat) | CReleasing (key : string) (tok : nat).
(** What an observer sees, newest first: a Lock call returned; the server set the key although the caller was told otherwise;
    UnLock returned ([ok]: nil). *)
Inductive rev :=
| ELock (start now c : nat) (key : string) (r : lres)
| ESet (now c : nat) (key : string)
| EUnlock (now c : nat) (key : string) (ok : bool).
(** the keys of the server, its clock, the clients, the tokens given out, the history (bookkeeping of the interleaving) *)
Record rworld := mkRW { rw_db : string -> option rentry; rw_now : nat; rw_cl : nat -> client; rw_tok : nat; rw_hist : list rev }.

(** What happens to a request: it fails without effect; it works; it works but the answer is lost and the caller gets an error;
    it works, the answer is lost, and the client library sends it again. *)
Inductive rans := AFail | AOk | ALost | AResend.
(** time passes; lock/redis/redis.go 37-45 (Lock: begins, one attempt, context over); 47-49 (UnLock); the process dies *)
Inductive ract :=
| RTick (n : nat)
| RLock (c : nat) (key : string)
| RTry (c : nat) (a : rans)
| RCancel (c : nat)
| RUnlock (c : nat) (a : rans)
| RDie (c : nat).

(** a client goes on *)
Definition set_cl (f : nat -> client) (c : nat) (x : client) : nat -> client := fun c' => if Nat.eqb c' c then x else f c'.
(** SET or DEL of one key *)
Definition set_key (f : string -> option rentry) (k : string) (x : option rentry) : string -> option rentry := fun k' => if String.eqb k' k then x else f k'.

Section Redis.
  (** the ttl each process passed to NewRedisLock, in whole milliseconds (redislock truncates) *)
  Variable ttl : nat -> nat.

  (** the value of a key that has not expired *)
  Definition live (w : rworld) (k : string) : option nat :=
    match rw_db w k with Some e => if rw_now w <? re_exp e then Some (re_tok e) else None | None => None end.
  (** SET NX: possible if the key is absent or carries the same token *)
  Definition can_set (w : rworld) (k : string) (tok : nat) : bool := match live w k with None => true | Some t => Nat.eqb t tok end.

  (** One step; None: not possible now. *)
  Definition rexec (a : ract) (w : rworld) : option rworld :=
    let '(mkRW db now cl tk h) := w in
    match a with
    | RTick n => Some (mkRW db (now + n) cl tk h)
    (* redis.go 36-39: Obtain makes a random token (here: a fresh number); 30 retries *)
    | RLock c key => match cl c with CIdle => Some (mkRW db now (set_cl cl c (CTrying key tk now 30 now)) (S tk) h) | _ => None end
    (* redis.go 37-43: one attempt; 100 ms to the next.  Redis refuses an expiry of 0. *)
    | RTry c a =>
        match cl c with
        | CTrying key tok start lf at_ =>
            if now <? at_ then None else
            match a with
            | AFail => Some (mkRW db now (set_cl cl c CIdle) tk (ELock start now c key LErr :: h))
            | _ =>
                if ttl c =? 0 then Some (mkRW db now (set_cl cl c CIdle) tk (ELock start now c key LErr :: h)) else
                if can_set w key tok then
                  let db' := set_key db key (Some (mkRE tok (now + ttl c))) in
                  match a with
                  | AOk => Some (mkRW db' now (set_cl cl c (CHolding key tok now)) tk (ELock start now c key LGot :: h))
                  | ALost => Some (mkRW db' now (set_cl cl c CIdle) tk (ELock start now c key LErr :: ESet now c key :: h))
                  | _ => Some (mkRW db' now cl tk (ESet now c key :: h))
                  end
                else
                  match a with
                  | AOk => match lf with
                           | O => Some (mkRW db now (set_cl cl c CIdle) tk (ELock start now c key LLocked :: h))
                           | S lf' => Some (mkRW db now (set_cl cl c (CTrying key tok start lf' (now + 100))) tk h)
                           end
                  | ALost => Some (mkRW db now (set_cl cl c CIdle) tk (ELock start now c key LErr :: h))
                  | _ => Some w
                  end
            end
        | _ => None
        end
    (* the context ends while waiting: its error is returned (Obtain gives the context a deadline of one ttl if it has none) *)
    | RCancel c =>
        match cl c with
        | CTrying key tok start lf at_ => Some (mkRW db now (set_cl cl c CIdle) tk (ELock start now c key LErr :: h))
        | _ => None
        end
    (* redis.go 46-49: Release deletes the key if it carries the token; otherwise ErrLockNotHeld *)
    | RUnlock c a =>
        match (match cl c with CHolding key tok _ => Some (key, tok) | CReleasing key tok => Some (key, tok) | _ => None end) with
        | Some (key, tok) =>
            match a with
            | AFail => Some (mkRW db now (set_cl cl c CIdle) tk (EUnlock now c key false :: h))
            | _ =>
                let mine := match live w key with Some t => Nat.eqb t tok | None => false end in
                let db' := if mine then set_key db key None else db in
                match a with
                | AOk => Some (mkRW db' now (set_cl cl c CIdle) tk (EUnlock now c key mine :: h))
                | ALost => Some (mkRW db' now (set_cl cl c CIdle) tk (EUnlock now c key false :: h))
                | _ => Some (mkRW db' now (set_cl cl c (CReleasing key tok)) tk h)
                end
            end
        | None => None
        end
    (* the process dies *)
    | RDie c => Some (mkRW db now (set_cl cl c CIdle) tk h)
    end.
  (** the beginning: an empty server *)
  Definition rworld0 : rworld := mkRW (fun _ => None) 0 (fun _ => CIdle) 0 [].
  (** the states all histories lead to *)
  Inductive rreach : rworld -> Prop :=
  | rr_start : rreach rworld0
  | rr_step w a w' : rreach w -> rexec a w = Some w' -> rreach w'.
  (** a history: the actions one after the other, if each is possible *)
  Fixpoint rrun (l : list ract) (w : rworld) : option rworld :=
    match l with [] => Some w | a :: t => match rexec a w with Some w' => rrun t w' | None => None end end.
End Redis.

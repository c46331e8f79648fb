(** The slice of lock keys: the engine sorts the caller's slice in place, and runs may share it (engine.go 754-757, 774-778,
    1208-1242). *)
From Coq Require Export String List Arith Lia Bool.
From Verif Require Export GoBase.
Export ListNotations.
Local Open Scope string_scope. Local Open Scope list_scope. Local Open Scope nat_scope.

(** Where a run is: the two index variables and the values read are its own, the slice is shared.
    engine.go 1210 sort.Strings: insertion sort, [for i := 1; i < n; i++ { for j := i; j > 0 && data[j] < data[j-1]; j-- { swap } }].
    Simplification: this is what Go does for up to 12 keys; every read and write of an element is a step of its own, reading
    a string (pointer and length) is one step.
    1211-1215: the search for a repeated key.  1219-1228: the lock calls.  1240: the run itself. *)
Inductive kpc :=
| KIdle                                      (* not begun *)
| KCmpA (i j : nat)                          (* about to read data[j] for the comparison *)
| KCmpB (i j : nat) (x : string)             (* about to read data[j-1] for the comparison *)
| KSwA (i j : nat)                           (* swap: about to read data[j-1] *)
| KSwB (i j : nat) (a : string)              (* swap: about to read data[j] *)
| KSwC (i j : nat) (a b : string)            (* swap: about to write data[j] *)
| KSwD (i j : nat) (b : string)              (* swap: about to write data[j-1] *)
| KChkA (k : nat)                            (* 1211: about to read data[k] *)
| KChkB (k : nat) (x : string)               (* 1212: about to read data[k-1] *)
| KRepeated                                  (* 1213: ended with "lockKey repeated" *)
| KLock (k : nat)                            (* 1219: about to read data[k] and lock it *)
| KGo                                        (* 1240: holds its locks and runs *)
| KFailed                                    (* 1237: a lock call failed, its locks released *)
| KDone.                                     (* 1229-1235: over, its locks released *)

(** The shared slice, the runs, the keys held (by which run), the keys locked so far by each run (oldest first). *)
Record kworld := mkK { k_keys : list string; k_pc : nat -> kpc; k_held : list (nat * string); k_log : list (nat * string) }.

(** the next place after a loop variable is advanced: 1210 outer loop, inner loop; 1211; 1219 *)
Definition enter_lock (n k : nat) : kpc := if k <? n then KLock k else KGo.
(** 1211: the loop over the indices from 1 *)
Definition enter_chk (n k : nat) : kpc := if k <? n then KChkA k else enter_lock n 0.
(** 1210: the outer loop of the insertion sort *)
Definition enter_i (n i : nat) : kpc := if i <? n then KCmpA i i else enter_chk n 1.
(** 1210: the inner loop of the insertion sort *)
Definition enter_j (n i j : nat) : kpc := if 0 <? j then KCmpA i j else enter_i n (S i).

(** data[k] := v *)
Fixpoint put (k : nat) (v : string) (l : list string) : list string :=
  match l, k with [] , _ => [] | _ :: t, 0 => v :: t | x :: t, S k' => x :: put k' v t end.
(** data[k] *)
Definition at_ (l : list string) (k : nat) : string := nth k l "".

(** A step of the sorting and checking part: 1210-1215.  No step from the other places. *)
Definition sort_step (m : list string) (pc : kpc) : list string * kpc :=
  let n := length m in
  match pc with
  | KIdle => (m, enter_i n 1)
  | KCmpA i j => (m, KCmpB i j (at_ m j))
  | KCmpB i j x => (m, if str_ltb x (at_ m (j - 1)) then KSwA i j else enter_i n (S i))
  | KSwA i j => (m, KSwB i j (at_ m (j - 1)))
  | KSwB i j a => (m, KSwC i j a (at_ m j))
  | KSwC i j a b => (put j a m, KSwD i j b)
  | KSwD i j b => (put (j - 1) b m, enter_j n i (j - 1))
  | KChkA k => (m, KChkB k (at_ m k))
  | KChkB k x => (m, if String.eqb x (at_ m (k - 1)) then KRepeated else enter_chk n (S k))
  | other => (m, other)
  end.
(** the locks of a run given back: 1229-1235 *)
Definition give_back (p : nat) (h : list (nat * string)) : list (nat * string) := filter (fun x => negb (fst x =? p)) h.
(** a place changed *)
Definition kset (f : nat -> kpc) (p : nat) (c : kpc) : nat -> kpc := fun q => if q =? p then c else f q.
(** A step of run [p].  [ok = false]: the lock call fails (1221-1225: the time ran out, an error of the database) and the run
    gives back what it holds.  [ok = true]: the call waits as long as somebody - the run itself included - holds the key. *)
Definition kstep (p : nat) (ok : bool) (w : kworld) : kworld :=
  match k_pc w p with
  | KRepeated | KFailed | KDone => w
  | KLock k =>
      let key := at_ (k_keys w) k in
      if negb ok then mkK (k_keys w) (kset (k_pc w) p KFailed) (give_back p (k_held w)) (k_log w)
      else if existsb (fun x => String.eqb (snd x) key) (k_held w) then w
      else mkK (k_keys w) (kset (k_pc w) p (enter_lock (length (k_keys w)) (S k))) (k_held w ++ [(p, key)]) (k_log w ++ [(p, key)])
  | KGo => mkK (k_keys w) (kset (k_pc w) p KDone) (give_back p (k_held w)) (k_log w)
  | c => let '(m, c') := sort_step (k_keys w) c in mkK m (kset (k_pc w) p c') (k_held w) (k_log w)
  end.
(** a schedule: who makes the next step *)
Fixpoint krun (l : list (nat * bool)) (w : kworld) : kworld := match l with [] => w | (p, ok) :: t => krun t (kstep p ok w) end.
(** nothing has begun; [keys] is the slice the runs were given *)
Definition kstart (keys : list string) : kworld := mkK keys (fun _ => KIdle) [] [].

(** Specification vocabulary for the output of a run. *)
From Verif Require Export DbSpec.

(** The same command body, which also remembers the data it has passed to Output. *)
Fixpoint logged {R} (b : body R) (l : list string) : body (R * list string) :=
  match b with
  | BRet r => BRet (r, l)
  | BPanic => BPanic
  | BLook k => BLook (fun h => logged (k h) l)
  | BMut f k => BMut f (logged k l)
  | BGet p k => BGet p (fun e => logged (k e) l)
  | BCustomGet f ps k => BCustomGet f ps (fun e => logged (k e) l)
  | BAdd ps k => BAdd ps (logged k l)
  | BRemove ps k => BRemove ps (logged k l)
  | BSave k => BSave (fun e => logged (k e) l)
  | BOutput d k => BOutput d (logged k (l ++ [d]))
  | BBuild p k => BBuild p (fun e => logged (k e) l)
  | BLoad ps k => BLoad ps (fun e => logged (k e) l)
  | BRootAdd p k => BRootAdd p (logged k l)
  | BRootRemove p k => BRootRemove p (logged k l)
  end.
(** The data of the last Output call, if any; otherwise what was there before (Init may call Output, too). *)
Definition last_output (l : list string) (before : option string) : option string :=
  match rev l with d :: _ => Some d | [] => before end.
(** Taking locks and opening the transaction. *)
Definition opening (c : call) : bool := match c with KLock _ | KBegin => true | _ => false end.

(** Vocabulary for serializability: a run alone on a database, runs one after the other, which rows a run touches. *)
From Verif Require Import SerialModel.

Definition same (d d' : dbase) : Prop := forall r, d r = d' r.
Definition update (d : dbase) (r : string) (v : option string) : dbase := fun r' => if String.eqb r r' then v else d r'.
(** the transaction alone on the database, writing directly: result, output, the database after it *)
Fixpoint direct (p : prog) (d : dbase) : bool * string * dbase :=
  match p with
  | Ret ok out => (ok, out, d)
  | Query q k => direct (k (q d)) d
  | Write r v k => direct k (update d r v)
  end.
(** [one p d ok out d']: it can be run alone from [d], ends with [ok] and [out], and leaves [d'] *)
Definition one (p : prog) (d : dbase) (ok : bool) (out : string) (d' : dbase) : Prop :=
  exists dw, direct p d = (ok, out, dw) /\ same d' (if ok then dw else d).
(** the finished transactions, one after the other *)
Inductive serial (rs : list runp) : list done -> dbase -> dbase -> Prop :=
| serial_nil d d' : same d d' -> serial rs [] d d'
| serial_cons e l d d1 d2 r : nth_error rs (e_run e) = Some r -> one (r_prog r (e_init e)) d (e_ok e) (e_out e) d1 -> serial rs l d1 d2 -> serial rs (e :: l) d d2.

(** [cov]: the lock key that protects a row.  The transaction reads and writes only rows protected by keys of [K]: each
    query has the same answer on databases that agree on these rows. *)
Definition agree (cov : string -> string) (K : list string) (d d' : dbase) : Prop := forall r, In (cov r) K -> d r = d' r.
Inductive within (cov : string -> string) (K : list string) : prog -> Prop :=
| within_ret ok out : within cov K (Ret ok out)
| within_query q k : (forall d d', agree cov K d d' -> q d = q d') -> (forall a, within cov K (k a)) -> within cov K (Query q k)
| within_write r v k : In (cov r) K -> within cov K k -> within cov K (Write r v k).
Definition protected (cov : string -> string) (rs : list runp) : Prop := forall r x, In r rs -> within cov (r_keys r x) (r_prog r x).
(** as [serial], and every run's Init was answered from the database its transaction then started with *)
Inductive serial_fresh (rs : list runp) : list done -> dbase -> dbase -> Prop :=
| fresh_nil d d' : same d d' -> serial_fresh rs [] d d'
| fresh_cons e l d d1 d2 r : nth_error rs (e_run e) = Some r -> e_init e = r_init r d -> one (r_prog r (e_init e)) d (e_ok e) (e_out e) d1 -> serial_fresh rs l d1 d2 -> serial_fresh rs (e :: l) d d2.
(** the query of Init reads only rows that no run can write: the key of the row is in no run's key set *)
Definition still (cov : string -> string) (rs : list runp) (r : string) : Prop := forall r' x, In r' rs -> ~ In (cov r) (r_keys r' x).
Definition init_still (cov : string -> string) (rs : list runp) : Prop :=
  forall r d d', In r rs -> (forall y, still cov rs y -> d y = d' y) -> r_init r d = r_init r d'.

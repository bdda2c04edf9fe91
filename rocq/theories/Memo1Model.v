(** One thread using a [Memoizer] (src/datatypes/wrapper/memoizer.rs 105-258)
    with functions that may have effects, may panic and may use the same
    Memoizer themselves.  (Several threads: ConcModel.v.)

    The lock is [std::sync::RwLock]: a thread that asks for the lock while it
    holds the write guard itself never gets it (the standard library allows a
    panic instead; either way the call does not return). *)
From Coq Require Import List Bool.
From Verif Require Import Base.
Import ListNotations.

Section Memo.
Context {K V E : Type} (eqb : K -> K -> bool).

(** Code that uses one Memoizer *)
Inductive prog : Type :=
| PRet (v : V)
| PPanic
| PEmit (e : E) (rest : prog)                                 (* some effect *)
| PGet (k : K) (f : K -> prog) (rest : V -> prog)             (* [get_or_compute(k, f)] *)
| PClear (rest : prog).                                       (* [clear()] *)

(** memoizer.rs 105-107 the map, whether the lock is poisoned, and the effects so far *)
Record mem := mkMem { cache : K -> option V; poisoned : bool; effects : list E }.
(** memoizer.rs 144-148 [new] *)
Definition mem_new : mem := mkMem (fun _ => None) false [].
Inductive ending := Returned (v : V) | Panicking | Blocked.

(** memoizer.rs 215 [insert], 256 [clear] *)
Definition insert (k : K) (v : V) (s : mem) : mem :=
  mkMem (fun k' => if eqb k' k then Some v else cache s k') (poisoned s) (effects s).
Definition clear_cache (s : mem) : mem := mkMem (fun _ => None) (poisoned s) (effects s).
Definition emit (e : E) (s : mem) : mem := mkMem (cache s) (poisoned s) (effects s ++ [e]).
(** a panic while the write guard is alive *)
Definition poison (s : mem) : mem := mkMem (cache s) true (effects s).

(** Running code; [held] says whether this thread holds the write guard. *)
Fixpoint exec (held : bool) (p : prog) (s : mem) : mem * ending :=
  match p with
  | PRet v => (s, Returned v)
  | PPanic => (s, Panicking)
  | PEmit e rest => exec held rest (emit e s)
  | PGet k f rest =>
      if held then (s, Blocked)                          (* 203: read() *)
      else if poisoned s then (s, Panicking)             (* 203: unwrap() *)
      else match cache s k with
           | Some v => exec held (rest v) s              (* 204-206 *)
           | None =>                                     (* 209-213: nobody else writes *)
               match exec true (f k) s with              (* 214 *)
               | (s', Returned v) => exec held (rest v) (insert k v s')  (* 215-216 *)
               | (s', Panicking) => (poison s', Panicking)
               | (s', Blocked) => (s', Blocked)
               end
           end
  | PClear rest =>
      if held then (s, Blocked)
      else if poisoned s then (s, Panicking)
      else exec held rest (clear_cache s)                (* 255-256 *)
  end.

(** One call of [get_or_compute] on its own *)
Definition get_or_compute (k : K) (f : K -> prog) : mem -> mem * ending :=
  exec false (PGet k f PRet).
(** memoizer.rs 254-257 [clear] on its own; the unit result is left out *)
Definition clear (s : mem) : mem * bool :=
  if poisoned s then (s, false) else (clear_cache s, true).
End Memo.
Arguments prog K V E : clear implicits.
Arguments mem K V E : clear implicits.
Arguments ending V : clear implicits.
Arguments PPanic {K V E}.
Arguments Panicking {V}.
Arguments Blocked {V}.

(** The sum types shared by the models.  Constructor names follow Rust. *)
From Coq Require Import List.
Import ListNotations.

(** [std::result::Result] *)
Inductive result (T E : Type) : Type := Ok (t : T) | Err (e : E).
Arguments Ok {T E} t.
Arguments Err {T E} e.

(** [Either<L, R>], either.rs 264-269 *)
Inductive either (L R : Type) : Type := Left (l : L) | Right (r : R).
Arguments Left {L R} l.
Arguments Right {L R} r.

(** [Validated<E, A>], validated/core.rs 139-145; the [SmallVec] is a list *)
Inductive validated (E A : Type) : Type := Valid (a : A) | Invalid (es : list E).
Arguments Valid {E A} a.
Arguments Invalid {E A} es.

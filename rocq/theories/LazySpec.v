(** A world that records which messages have been built. *)
From Coq Require Import String List.
From Verif Require Import Base.
Import ListNotations.

(** The message [s], whose construction leaves a trace. *)
Definition traced (s : string) (w : list string) : outcome string * list string := (Ret s, w ++ [s]).
(** A closure without effects. *)
Definition quiet {W A B} (f : A -> B) (a : A) (w : W) : outcome B * W := (Ret (f a), w).

(** The calls of a pipeline, with messages and closures that have no effects. *)
Inductive call (T E : Type) :=
| Ctx (s : string) | MapE (f : E -> E) | Rec (f : E -> T + E) | Then (f : T -> T + E) | MapT (f : T -> T).
Arguments Ctx {T E} s. Arguments MapE {T E} f. Arguments Rec {T E} f.
Arguments Then {T E} f. Arguments MapT {T E} f.
(** The value or error after each call, and the messages needed on the way:
    those attached while there is an error. *)
Fixpoint needed {T E} (cs : list (call T E)) (r : T + E) : (T + E) * list string :=
  match cs with
  | [] => (r, [])
  | c :: cs' =>
      match c, r with
      | Ctx s, inr e => let '(r', l) := needed cs' r in (r', s :: l)
      | MapE f, inr e => needed cs' (inr (f e))
      | Rec f, inr e => needed cs' (f e)
      | Then f, inl t => needed cs' (f t)
      | MapT f, inl t => needed cs' (inl (f t))
      | _, _ => needed cs' r
      end
  end.

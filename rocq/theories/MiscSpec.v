(** Specifications for [MiscProps]: contravariant functors, and what it means
    for a shrinker to be usable. *)
From Coq Require Import List.

Section Contra.
Variable F : Type -> Type.
Variable eqv : forall A, F A -> F A -> Prop.
Variable contramap : forall A U, (U -> A) -> F A -> F U.
Definition contravariant_laws : Prop :=
  (forall A x, eqv A (contramap A A (fun a => a) x) x) /\
  (forall A B C (f : B -> A) (g : C -> B) x,
     eqv C (contramap A C (fun c => f (g c)) x) (contramap B C g (contramap A B f x))).
End Contra.

(** [y] is offered as a simpler version of [x]. *)
Definition offers {A} (shrink : A -> list A) (y x : A) : Prop := In y (shrink x).
(** Shrinking cannot go on for ever. *)
Definition terminating {A} (shrink : A -> list A) : Prop := well_founded (offers shrink).

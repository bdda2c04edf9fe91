(** Model of the lifting helpers of [/repo/src/traits/pure.rs], of the
    contravariant helpers of [/repo/src/traits/contravariant_functor.rs], of the
    identity transformation of [/repo/src/traits/natural_transformation.rs] and
    of the methods of [Maybe] that call a closure or an iterator.  Definitions
    only.  Cloning is the identity; a closure that may have effects or panic is
    a function into [eff]. *)
From Coq Require Import String List.
From Verif Require Import Base Types SumModel ErrModel WrapModel.
Import ListNotations.
Open Scope outcome_scope.

(** ** pure.rs *)
Section Pure.
Context {P : Type -> Type} (pure : forall T, T -> P T).
(** pure.rs 307-313 [to_pure], 339-345 [to_pure_owned], 583-585 [PureType::lift],
    616-618 [lift_owned] *)
Definition px_to_pure {T} (self : T) : P T := pure T self.
(** pure.rs 384-392 [pair_with] *)
Definition px_pair_with {T U} (self : T) (other : U) : P (T * U)%type := pure _ (self, other).
(** pure.rs 426-432 [lift_other] *)
Definition px_lift_other {T U} (self : T) (other : U) : P U := pure U other.
(** pure.rs 469-478 [combine_with] *)
Definition px_combine_with {T U V} (self : T) (other : U) (f : T -> U -> V) : P V :=
  pure V (f self other).
End Pure.

(** ** contravariant_functor.rs *)
Section Contravariant.
Context {F : Type -> Type} (contramap : forall A U, (U -> A) -> F A -> F U).
(** contravariant_functor.rs 111-117 [contramap_with] *)
Definition cf_contramap_with {A U} (self : F A) (f : U -> A) : F U := contramap A U f self.
(** contravariant_functor.rs 136-143 [contramap_const] *)
Definition cf_contramap_const {A U} (self : F A) (value : A) : F U := contramap A U (fun _ => value) self.
(** contravariant_functor.rs 159-166 [contra_compose]; [from] is [Self::Source::from] *)
Definition cf_contra_compose {A B} (from : B -> A) (self : F A) (g : F B) : F B :=
  contramap A B (fun x => from x) self.
End Contravariant.

(** ** natural_transformation.rs 71-83 [identity_nat]; 61-67 [transform_owned] *)
Definition nt_identity {F : Type -> Type} {A} (fa : F A) : F A := fa.

(** ** maybe.rs *)
Section Effects.
Context {W : Type}.
Notation eff := (eff W).
(** maybe.rs 607-615 [unwrap_or_else] *)
Definition mb_unwrap_or_else {T} (m : maybe T) (f : eff T) : eff T :=
  match m with Just val => eff_ret val | Nothing => f end.
(** maybe.rs 679-687 [tap] *)
Definition mb_tap {T} (m : maybe T) (f : T -> eff unit) : eff (maybe T) :=
  match m with
  | Just value => eff_bind (f value) (fun _ => eff_ret m)
  | Nothing => eff_ret m
  end.
(** maybe.rs 1305-1309 [from_iter]; the iterator is its [next] *)
Definition mb_from_iterator {T} (next : eff (option T)) : eff (maybe T) :=
  eff_bind next (fun o => eff_ret (match o with Some x => Just x | None => Nothing end)).
End Effects.
(** maybe.rs 454-456 [to_standard_result], 1347-1352 *)
Definition mb_to_standard_result {T} (m : maybe T) : result T maybe_error :=
  mb_to_result m ValueNotPresent.
(** maybe.rs 479-487, 1384-1392 [try_unwrap] *)
Definition mb_try_unwrap {T} (m : maybe T) : result T (cerr string) :=
  match m with
  | Just val => Ok val
  | Nothing => Err (ce_with_context (ce_new "Cannot unwrap Nothing value"%string)
                      "Called `try_unwrap()` on a `Nothing` value"%string)
  end.
(** maybe.rs 1499-1508 [shrink]; [sh] is the element's [shrink], a finite iterator *)
Definition mb_shrink {T} (sh : T -> list T) (m : maybe T) : list (maybe T) :=
  match m with Just a => map Just (sh a) ++ [Nothing] | Nothing => [] end.

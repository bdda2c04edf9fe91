(** What it means to compare, and which order each container has, as rules. *)
From Coq Require Import List.
From Verif Require Import Types SumModel EffModel OrdSpec.
Import ListNotations.

(** Equality decided by a test. *)
Definition decides {A} (eqb : A -> A -> bool) : Prop := forall x y, eqb x y = true <-> x = y.
(** [f] neither loses nor reverses any comparison. *)
Definition same_order {A B} (ca : A -> A -> comparison) (cb : B -> B -> comparison) (f : A -> B) : Prop :=
  forall x y, cb (f x) (f y) = ca x y.
(** [f] reverses no comparison, but may make different values equal. *)
Definition keeps_order {A B} (ca : A -> A -> comparison) (cb : B -> B -> comparison) (f : A -> B) : Prop :=
  forall x y, ca x y <> Gt -> cb (f x) (f y) <> Gt.
(** [m] is the least, or the greatest, of two values. *)
Definition least_of {A} (cmp : A -> A -> comparison) (a b m : A) : Prop :=
  (m = a \/ m = b) /\ cmp m a <> Gt /\ cmp m b <> Gt.
Definition greatest_of {A} (cmp : A -> A -> comparison) (a b m : A) : Prop :=
  (m = a \/ m = b) /\ cmp a m <> Gt /\ cmp b m <> Gt.

(** Present values come first, absence last. *)
Inductive maybe_before {A} (lt : A -> A -> Prop) : maybe A -> maybe A -> Prop :=
| both_present x y : lt x y -> maybe_before lt (Just x) (Just y)
| absent_last x : maybe_before lt (Just x) Nothing.
(** All left values come before all right ones. *)
Inductive either_before {L R} (ltl : L -> L -> Prop) (ltr : R -> R -> Prop) : either L R -> either L R -> Prop :=
| both_left x y : ltl x y -> either_before ltl ltr (Left x) (Left y)
| left_first x y : either_before ltl ltr (Left x) (Right y)
| both_right x y : ltr x y -> either_before ltl ltr (Right x) (Right y).
(** Values come before errors, errors are compared as sequences. *)
Inductive validated_before {E A} (cmpe : E -> E -> comparison) (lt : A -> A -> Prop)
  : validated E A -> validated E A -> Prop :=
| both_valid x y : lt x y -> validated_before cmpe lt (Valid x) (Valid y)
| valid_first x es : validated_before cmpe lt (Valid x) (Invalid es)
| both_invalid es fs : before cmpe es fs -> validated_before cmpe lt (Invalid es) (Invalid fs).
(** The logs decide, the values only when the logs agree. *)
Inductive writer_before {W A} (ltw : W -> W -> Prop) (lt : A -> A -> Prop) : writer W A -> writer W A -> Prop :=
| by_log k l x y : ltw k l -> writer_before ltw lt (mkWriter k x) (mkWriter l y)
| by_value l x y : lt x y -> writer_before ltw lt (mkWriter l x) (mkWriter l y).
(** Absence first, as in [Option]. *)
Inductive option_before {A} (lt : A -> A -> Prop) : option A -> option A -> Prop :=
| none_first x : option_before lt None (Some x)
| both_some x y : lt x y -> option_before lt (Some x) (Some y).

(** Specification vocabulary for semigroups, finite maps and folds. *)
From Coq Require Import List Sorted.
From Verif Require Import Base.
Import ListNotations.

(** Some way of bracketing the list combines to [x]. *)
Inductive combines {M} (op : M -> M -> M) : list M -> M -> Prop :=
| combines_one x : combines op [x] x
| combines_app l r x y : combines op l x -> combines op r y -> combines op (l ++ r) (op x y).

(** The container holds the elements [l], in this order. *)
Definition folds_to {A} (fl : forall U, U -> (U -> A -> U) -> U) (l : list A) : Prop :=
  forall U init f, fl U init f = List.fold_left f l init.
Definition folds_right_to {A} (fr : forall U, U -> (A -> U -> U) -> U) (l : list A) : Prop :=
  forall U init f, fr U init f = List.fold_right f init l.

(** [m] is the first of the elements of [l] that are maximal (minimal) among [l]. *)
Definition first_max {A} (cmp : A -> A -> comparison) (l : list A) (m : A) : Prop :=
  exists l1 l2, l = l1 ++ m :: l2 /\ Forall (fun x => cmp x m = Lt) l1 /\ Forall (fun x => cmp x m <> Gt) l2.
Definition first_min {A} (cmp : A -> A -> comparison) (l : list A) (m : A) : Prop :=
  exists l1 l2, l = l1 ++ m :: l2 /\ Forall (fun x => cmp x m = Gt) l1 /\ Forall (fun x => cmp x m <> Lt) l2.

(** Values of two optional entries, combined. *)
Definition merge {V} (op : V -> V -> V) (a b : option V) : option V :=
  match a, b with Some x, Some y => Some (op x y) | None, y => y | x, None => x end.

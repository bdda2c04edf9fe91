(** Total orders and the lexicographic order of sequences, stated without a
    comparison function on lists. *)
From Coq Require Import List.
Import ListNotations.

Definition total_order {A} (cmp : A -> A -> comparison) : Prop :=
  (forall x y, cmp x y = Eq <-> x = y) /\
  (forall x y, cmp y x = CompOpp (cmp x y)) /\
  (forall x y z, cmp x y = Lt -> cmp y z = Lt -> cmp x z = Lt).

(** [l] comes before [m]: it is a proper beginning of [m], or smaller at the
    first place where they differ. *)
Definition before {A} (cmp : A -> A -> comparison) (l m : list A) : Prop :=
  (exists x r, m = l ++ x :: r) \/
  (exists p x r y s, l = p ++ x :: r /\ m = p ++ y :: s /\ cmp x y = Lt).

(** What is written for a value can be told apart from what is written for any
    other value, whatever follows. *)
Definition self_delimiting {A} (write : A -> list nat) : Prop :=
  forall x y r s, write x ++ r = write y ++ s -> x = y /\ r = s.

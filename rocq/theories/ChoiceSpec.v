(** Specification vocabulary for [Choice]; plain lists only. *)
From Coq Require Import List Arith Bool.
Import ListNotations.
Set Implicit Arguments.

(** What [Eq] promises of [==]. *)
Definition equivalence {K} (keq : K -> K -> bool) : Prop :=
  (forall x, keq x x = true) /\
  (forall x y, keq x y = true -> keq y x = true) /\
  (forall x y z, keq x y = true -> keq y z = true -> keq x z = true).

(** The elements of [l] at those positions whose key occurs at no earlier
    position, in order. *)
Definition first_occurrences {T K} (keq : K -> K -> bool) (key : T -> K) (l : list T) : list T :=
  flat_map (fun i =>
    match nth_error l i with
    | Some x => if existsb (fun y => keq (key x) (key y)) (firstn i l) then [] else [x]
    | None => []
    end) (seq 0 (length l)).

(** Delete position [i]. *)
Definition delete_at {T} (i : nat) (l : list T) : list T := firstn i l ++ skipn (S i) l.

(** Exchange positions [0] and [j]. *)
Definition swapped {T} (j : nat) (l l' : list T) : Prop :=
  length l' = length l /\
  nth_error l' 0 = nth_error l j /\ nth_error l' j = nth_error l 0 /\
  forall k, k <> 0 -> k <> j -> nth_error l' k = nth_error l k.

(** Specification for C05, C11: what any nesting of concatenations of slices holds. *)
From Coq Require Import List Arith Bool.
Import ListNotations.

(** a nesting of concatenations *)
Inductive nest (T : Type) :=
| Slice (l : list T)
| Cat (a b : nest T).
Arguments Slice {T} _.
Arguments Cat {T} _ _.

(** what it should hold *)
Fixpoint in_order {T} (e : nest T) : list T :=
  match e with
  | Slice l => l
  | Cat a b => in_order a ++ in_order b
  end.
Definition size {T} (e : nest T) : nat := length (in_order e).

(** The tree levels a slice of [n] elements needs: the least [h] with
    [n / 64 <= 32 ^ h]. *)
Definition slice_level (n : nat) : nat := (Nat.log2_up (n / 64) + 4) / 5.

(** kept without a tree *)
Fixpoint small {T} (e : nest T) : bool :=
  match e with
  | Slice l => length l <=? 64
  | Cat a b => small a && small b && (size a + size b <=? 64)
  end.
Fixpoint level {T} (e : nest T) : nat :=
  match e with
  | Slice l => slice_level (length l)
  | Cat a b => if small a && small b then slice_level (size a + size b)
               else Nat.max (level a) (level b)
  end.
(** the part with more levels comes first, the left one when they have as many *)
Fixpoint held {T} (e : nest T) : list T :=
  match e with
  | Slice l => l
  | Cat a b => if level a <? level b then held b ++ held a else held a ++ held b
  end.
(** every right part has at most as many levels as the left part *)
Fixpoint descending {T} (e : nest T) : Prop :=
  match e with
  | Slice _ => True
  | Cat a b => descending a /\ descending b /\ level b <= level a
  end.

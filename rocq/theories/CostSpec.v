(** Specification for the cost of vector operations: what "logarithmic" means,
    and one way of making vectors that the theorems speak about. *)
From Coq Require Import List Arith.
From Verif Require Import PvecModel.
Set Implicit Arguments.

(** Some constant bounds the work on every input by a multiple of the binary
    logarithm of its size ([1 +] so that size one may cost something).
    Mentions nothing of the model. *)
Definition logarithmic {X : Type} (size work : X -> nat) : Prop :=
  exists c, forall x, work x <= c * (1 + Nat.log2 (size x)).

(** [b.concat(&b).concat(&b)...], [k] calls *)
Definition joined {T} (b : list T) (k : nat) : pvec T :=
  Nat.iter k (fun v => pv_concat v (pv_from_iter b)) (pv_from_iter b).

(** Work on the way from the root of a full 32-way tree over [n] leaves down to
    leaf number [j]: on every level one branch, and the table entries up to and
    including the child taken, whose number is a base 32 digit of [j].
    Mentions nothing of the model. *)
Fixpoint descent (fuel n j : nat) : nat :=
  match fuel with
  | 0 => 0
  | S fuel' => if n <=? 1 then 0 else 2 + j mod 32 + descent fuel' ((n + 31) / 32) (j / 32)
  end.

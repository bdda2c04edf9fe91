(** Shared vocabulary of the models: outcomes with an explicit panic, and the
    few list helpers that stand for Rust's slice primitives. *)
From Coq Require Import List Arith Lia Bool.
Import ListNotations.
Set Implicit Arguments.

(** Result of running Rust code that may panic. *)
Inductive outcome (A : Type) : Type :=
| Ret (a : A)
| Panic.
Arguments Ret {A} a.
Arguments Panic {A}.

Definition obind {A B} (m : outcome A) (k : A -> outcome B) : outcome B :=
  match m with Ret a => k a | Panic => Panic end.
Definition omap {A B} (f : A -> B) (m : outcome A) : outcome B :=
  match m with Ret a => Ret (f a) | Panic => Panic end.

Declare Scope outcome_scope.
Notation "'do' x <- m ; k" := (obind m (fun x => k))
  (at level 200, x pattern, m at level 100, k at level 200, right associativity)
  : outcome_scope.


(** Rust [a - b] on [usize] with overflow checks: panics on underflow. *)
Definition usub (a b : nat) : outcome nat :=
  if b <=? a then Ret (a - b) else Panic.

(** Rust [v[i] = x] after a bounds check (no effect when out of range). *)
Fixpoint list_set {A} (l : list A) (i : nat) (x : A) : list A :=
  match l, i with
  | [], _ => []
  | _ :: t, 0 => x :: t
  | h :: t, S i' => h :: list_set t i' x
  end.

(** Rust [slice.chunks(k)] for [k >= 1]; [fuel] bounds the number of chunks. *)
Fixpoint chunks_fuel {A} (fuel k : nat) (l : list A) : list (list A) :=
  match fuel with
  | 0 => []
  | S fuel' =>
      match l with
      | [] => []
      | _ => firstn k l :: chunks_fuel fuel' k (skipn k l)
      end
  end.
Definition chunks {A} (k : nat) (l : list A) : list (list A) :=
  chunks_fuel (length l) k l.

(** Rust [Option::ok_or]-like splitting off the last element ([Vec::pop]). *)
Definition pop_last {A} (l : list A) : option (list A * A) :=
  match rev l with
  | [] => None
  | x :: r => Some (rev r, x)
  end.

Definition sum_list (l : list nat) : nat := fold_right Nat.add 0 l.

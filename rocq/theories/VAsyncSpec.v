(** Vocabulary for the asynchronous methods of [Validated]. *)
From Coq Require Import List Arith.
From Verif Require Import Base WrapModel AsyncModel AsyncSpec.
Import ListNotations.

(** The future ends this way in some run: some start world, some environment *)
Definition can_end {W A} (x : fut W A) (o : outcome A) : Prop := exists env w w' rest, await env x w = Ended o w' rest.
(** The future is ready, without a panic, after at most [k] pending polls, in every world *)
Fixpoint ready_within {W A} (k : nat) (x : fut W A) : Prop := forall w,
  match poll x w with
  | (Ready _, _) => True
  | (Panicked, _) => False
  | (Pending x', _) => match k with 0 => False | S k' => ready_within k' x' end
  end.
(** Pieces of code run one after the other, up to the first panic *)
Fixpoint in_order {W A} (l : list (eff W A)) (w : W) : outcome (list A) * W :=
  match l with
  | [] => (Ret [], w)
  | e :: l' =>
      match e w with
      | (Ret a, w1) => match in_order l' w1 with (Ret r, w2) => (Ret (a :: r), w2) | (Panic, w2) => (Panic, w2) end
      | (Panic, w1) => (Panic, w1)
      end
  end.
(** A world with one component per position; a future that uses its own only *)
Definition put {V} (i : nat) (v : V) (w : nat -> V) : nat -> V := fun j => if j =? i then v else w j.
CoFixpoint on_at {V A} (i : nat) (x : fut V A) : fut (nat -> V) A :=
  Fut (fun w =>
    match poll x (w i) with
    | (Ready a, v) => (Ready a, put i v w)
    | (Panicked, v) => (Panicked, put i v w)
    | (Pending x', v) => (Pending (on_at i x'), put i v w)
    end).
Definition on_each {V} (g : nat -> V -> V) (w : nat -> V) : nat -> V := fun i => g i (w i).
Fixpoint on_positions {V A} (i : nat) (xs : list (fut V A)) : list (fut (nat -> V) A) :=
  match xs with [] => [] | x :: xs' => on_at i x :: on_positions (S i) xs' end.

(** Specification vocabulary for the wrappers.  Nothing here mentions a model,
    except the type of outcomes. *)
From Coq Require Import List ZArith.
From Verif Require Import Base.
Import ListNotations.

(** A way of putting parentheses around a non-empty sequence. *)
Inductive grouping (A : Type) := Leaf (a : A) | Node (l r : grouping A).
Arguments Leaf {A} _.
Arguments Node {A} _ _.
Fixpoint leaves {A} (t : grouping A) : list A :=
  match t with Leaf a => [a] | Node l r => leaves l ++ leaves r end.
(** The runs of elements that some step of the grouping adds up: one for every inner node. *)
Fixpoint runs {A} (t : grouping A) : list (list A) :=
  match t with Leaf _ => [] | Node l r => runs l ++ runs r ++ [leaves l ++ leaves r] end.
(** The value of the grouping; the left part is evaluated first. *)
Fixpoint grouped {A} (op : A -> A -> outcome A) (t : grouping A) : outcome A :=
  match t with
  | Leaf a => Ret a
  | Node l r =>
      match grouped op l with
      | Panic => Panic
      | Ret x => match grouped op r with Panic => Panic | Ret y => op x y end
      end
  end.
Definition Zsum (l : list Z) : Z := fold_right Z.add 0%Z l.
Definition Zprod (l : list Z) : Z := fold_right Z.mul 1%Z l.

(** What Rust's [Ord] promises; [cmp x y = Eq] need not mean [x = y]. *)
Definition total_preorder {T} (cmp : T -> T -> comparison) : Prop :=
  (forall x, cmp x x = Eq) /\ (forall x y, cmp y x = CompOpp (cmp x y)) /\
  (forall x y z, cmp x y <> Gt -> cmp y z <> Gt -> cmp x z <> Gt).
Definition total_order {T} (cmp : T -> T -> comparison) : Prop :=
  total_preorder cmp /\ forall x y, cmp x y = Eq -> x = y.

(** All values that are present, in order. *)
Fixpoint present {T} (l : list (option T)) : list T :=
  match l with [] => [] | Some x :: l' => x :: present l' | None :: l' => present l' end.

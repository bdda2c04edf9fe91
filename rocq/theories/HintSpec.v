(** What it means for an iterator's estimates to be right, and what should be
    built from it: only the items it yields count. *)
From Coq Require Import List Arith.
From Verif Require Import Base HintModel.
Import ListNotations.

(** the items an iterator yields, in order *)
Fixpoint yields {A} (s : source A) : list A :=
  match s with Stop _ _ => [] | More _ _ x r => x :: yields r end.

(** the documented contract of [size_hint], at every point of the iteration *)
Fixpoint honest {A} (s : source A) : Prop :=
  let n := length (yields s) in
  fst (size_hint s) <= n /\
  (match snd (size_hint s) with Some u => n <= u | None => True end) /\
  (match s with Stop _ _ => True | More _ _ _ r => honest r end).

(** the most memory an iterator's upper estimate stands for *)
Definition upper_within {A} (limit : nat) (s : source A) : Prop :=
  match snd (size_hint s) with Some u => u <= limit | None => True end.

(** all combinations, the last list varying fastest *)
Definition all2 {A B C} (f : A -> B -> C) (la : list A) (lb : list B) : list C :=
  flat_map (fun a => map (f a) lb) la.
Definition all3 {A B C D} (f : A -> B -> C -> D) (la : list A) (lb : list B) (lc : list C) : list D :=
  flat_map (fun a => flat_map (fun b => map (f a b) lc) lb) la.

(** the images that exist, in order *)
Fixpoint kept {A B} (f : A -> option B) (l : list A) : list B :=
  match l with
  | [] => []
  | x :: l' => match f x with Some y => [y] | None => [] end ++ kept f l'
  end.

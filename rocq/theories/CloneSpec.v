(** What operations are expected to copy.  By value: nothing, so they do what
    [OnceSpec] says whatever [clone] does.  By reference: exactly what the answer
    keeps of the arguments, each thing once, front to back.  Nothing here mentions
    [CloneModel]. *)
From Coq Require Import List.
From Verif Require Import Base Types OnceSpec.
Import ListNotations.

Section Copies.
Context {W : Type}.
Notation action := (action W).

(** What is left of two layers, and of two alternatives; [merge] joins two failures. *)
Definition flat {E A} (h : held E (held E A)) : held E A := match h with Has x => x | Lacks e => Lacks e end.
Definition within {E A B} (view : A -> held E B) (h : held E A) : held E (held E B) := match h with Has a => Has (view a) | Lacks e => Lacks e end.
Definition choose {E A} (merge : E -> E -> E) (a b : held E A) : held E A :=
  match a, b with Has x, _ => Has x | Lacks _, Has y => Has y | Lacks x, Lacks y => Lacks (merge x y) end.
Definition later {X} (_ x : X) : X := x.
(** All values, or all reasons *)
Fixpoint all_of {E A} (l : list (held (list E) A)) : held (list E) (list A) :=
  match l with
  | [] => Has []
  | h :: r =>
      match h, all_of r with
      | Has a, Has vs => Has (a :: vs)
      | Has _, Lacks es => Lacks es
      | Lacks es, Has _ => Lacks es
      | Lacks es, Lacks fs => Lacks (es ++ fs)
      end
  end.

(** A copy of whatever is there *)
Definition copied {E A} (ca : A -> action A) (ce : E -> action E) (h : held E A) : action (held E A) := on_either ca ce h.
(** A closure for the value; a failure that is kept is copied. *)
Definition fmap_ref {E A B} (ce : E -> action E) (f : A -> action B) (h : held E A) : action (held E B) := on_either f ce h.
Definition bind_ref {E A B} (ce : E -> action E) (f : A -> action (held E B)) (h : held E A) : action (held E B) :=
  match h with Has a => f a | Lacks e => gives (ce e) Lacks end.
Definition two_ref {E A B C} merge (ce : E -> action E) (f : A -> B -> action C) (a : held E A) (b : held E B) : action (held E C) :=
  on_either (fun p => f (fst p) (snd p)) ce (pair merge a b).
Definition three_ref {E A B C D} merge (ce : E -> action E) (f : A -> B -> C -> action D) (a : held E A) (b : held E B) (c : held E C)
  : action (held E D) :=
  on_either (fun p => f (fst (fst p)) (snd (fst p)) (snd p)) ce (pair merge (pair merge a b) c).
(** A closure for the failure; a value that is kept is copied. *)
Definition catch_ref {E A} (ca : A -> action A) (f : E -> action (held E A)) (h : held E A) : action (held E A) :=
  match h with Has a => gives (ca a) Has | Lacks e => f e end.

(** The calls that make lists, their answers joined *)
Definition for_each_list {A B} (f : A -> action (list B)) (l : list A) : action (list B) := gives (for_each f l) (@concat B).
(** A question about each thing; those for which it is answered with yes are copied, each before the next question. *)
Fixpoint keeping {A} (p : A -> action bool) (ca : A -> action A) (l : list A) : action (list A) :=
  match l with
  | [] => silent []
  | x :: r => asks (p x) (fun b : bool => if b then asks (ca x) (fun y => gives (keeping p ca r) (cons y)) else keeping p ca r)
  end.
(** A running total: [step] is called with what there is so far and the next thing. *)
Fixpoint running {S A} (step : S -> A -> action S) (s : S) (l : list A) : action S :=
  match l with [] => silent s | x :: r => asks (step s x) (fun s' => running step s' r) end.
End Copies.

(** A [clone] that writes what it copies into a log, under a name *)
Definition noting {A N} (name : A -> N) (a : A) : action (list N) A := fun log => (Ret a, log ++ [name a]).
Definition copy_noted {A} (a : A) : action (list A) A := noting (fun x => x) a.
(** Every beginning of a list, the whole list last *)
Definition beginnings {A} (l : list A) : list (list A) := map (fun n => firstn n l) (seq 1 (length l)).
(** Something was copied: a [clone] that panics is noticed. *)
Definition faulty {W A} (_ : A) : action W A := fun w => (Panic, w).
(** The values before the first gap, and whether there is none *)
Fixpoint leading {A} (l : list (option A)) : list A := match l with Some a :: r => a :: leading r | _ => [] end.
Definition no_gap {A} (l : list (option A)) : bool := Nat.eqb (length (leading l)) (length l).

(** Terms for composite functions, predicates and isomorphisms whose closures
    carry labels, and what running them is expected to do: which labels are
    called, in which order, and the answer.  There is no state of the world here
    and nothing mentions [ArrowModel]. *)
From Coq Require Import List Bool.
From Verif Require Import Base.
Import ListNotations.

(** A run: the labels called, in order, and how it ended. *)
Definition run (A : Type) : Type := (list nat * outcome A)%type.
Definition answers {A} (a : A) : run A := ([], Ret a).
Definition call {A B} (n : nat) (f : A -> outcome B) (a : A) : run B := ([n], f a).
(** Nothing follows a panic. *)
Definition followed_by {A B} (m : run A) (k : A -> run B) : run B :=
  match m with
  | (l, Ret a) => (l ++ fst (k a), snd (k a))
  | (l, Panic) => (l, Panic)
  end.

(** ** Functions *)
Inductive fterm : Type -> Type -> Type :=
| FIdentity {A} : fterm A A
| FArrow {A B} (n : nat) (f : A -> outcome B) : fterm A B
| FThen {A B C} (t : fterm A B) (u : fterm B C) : fterm A C
| FFirst {A B D} (t : fterm A B) : fterm (A * D) (B * D)
| FSecond {A B D} (t : fterm A B) : fterm (D * A) (D * B)
| FSplit {A B C} (t : fterm A B) (u : fterm A C) : fterm A (B * C)
| FCombine {A B C D} (t : fterm A B) (u : fterm C D) : fterm (A * C) (B * D)
| FBoth {A B} (n : nat) (f : A -> outcome B) : fterm (A * A) (B * B)
| FWhen {A} (p : nat) (c : A -> outcome bool) (n : nat) (f : A -> outcome A) : fterm A A
| FThenIf {A} (t u : fterm A A) (p : nat) (c : A -> outcome bool) : fterm A A
| FSequence {A} (fs : list (nat * (A -> outcome A))) : fterm A A.

Fixpoint f_run {A B} (t : fterm A B) : A -> run B :=
  match t in fterm A B return A -> run B with
  | FIdentity => fun a => answers a
  | FArrow n f => call n f
  | FThen t u => fun a => followed_by (f_run t a) (f_run u)
  | FFirst t => fun p => followed_by (f_run t (fst p)) (fun b => answers (b, snd p))
  | FSecond t => fun p => followed_by (f_run t (snd p)) (fun b => answers (fst p, b))
  | FSplit t u => fun a => followed_by (f_run t a) (fun b => followed_by (f_run u a) (fun c => answers (b, c)))
  | FCombine t u => fun p => followed_by (f_run t (fst p)) (fun b => followed_by (f_run u (snd p)) (fun c => answers (b, c)))
  | FBoth n f => fun p => followed_by (call n f (fst p)) (fun b => followed_by (call n f (snd p)) (fun c => answers (b, c)))
  | FWhen p c n f => fun a => followed_by (call p c a) (fun b : bool => if b then call n f a else answers a)
  | FThenIf t u p c => fun a =>
      followed_by (f_run t a) (fun r => followed_by (call p c r) (fun b : bool => if b then f_run u r else answers r))
  | FSequence fs => fun a => fold_left (fun m nf => followed_by m (call (fst nf) (snd nf))) fs (answers a)
  end.

(** The labels of a term without conditions, in the order of reading. *)
Fixpoint f_labels {A B} (t : fterm A B) : option (list nat) :=
  let two (a b : option (list nat)) := match a, b with Some l, Some m => Some (l ++ m) | _, _ => None end in
  match t with
  | FIdentity => Some []
  | FArrow n _ => Some [n]
  | FThen t u => two (f_labels t) (f_labels u)
  | FFirst t => f_labels t
  | FSecond t => f_labels t
  | FSplit t u => two (f_labels t) (f_labels u)
  | FCombine t u => two (f_labels t) (f_labels u)
  | FBoth n _ => Some [n; n]
  | FWhen _ _ _ _ => None
  | FThenIf _ _ _ _ => None
  | FSequence fs => Some (map fst fs)
  end.

(** ** Predicates *)
Inductive pterm (A : Type) : Type :=
| PNew (n : nat) (f : A -> outcome bool)
| PUnion (p q : pterm A)
| PIntersection (p q : pterm A)
| PDiff (p q : pterm A)
| PNegate (p : pterm A)
| PEmpty.
Arguments PNew {A} n f. Arguments PUnion {A} p q. Arguments PIntersection {A} p q.
Arguments PDiff {A} p q. Arguments PNegate {A} p. Arguments PEmpty {A}.
(** The right side is asked only if the left side leaves the answer open. *)
Fixpoint p_run {A} (t : pterm A) (a : A) : run bool :=
  match t with
  | PNew n f => call n f a
  | PUnion p q => followed_by (p_run p a) (fun b => if b then answers true else p_run q a)
  | PIntersection p q => followed_by (p_run p a) (fun b => if b then p_run q a else answers false)
  | PDiff p q => followed_by (p_run p a) (fun b => if b then followed_by (p_run q a) (fun c => answers (negb c)) else answers false)
  | PNegate p => followed_by (p_run p a) (fun b => answers (negb b))
  | PEmpty => answers false
  end.
Fixpoint p_labels {A} (t : pterm A) : list nat :=
  match t with
  | PNew n _ => [n]
  | PUnion p q | PIntersection p q | PDiff p q => p_labels p ++ p_labels q
  | PNegate p => p_labels p
  | PEmpty => []
  end.

(** ** Isomorphisms: the label of the way there and of the way back *)
Inductive iterm : Type -> Type -> Type :=
| INew {A B} (n : nat) (f : A -> outcome B) (m : nat) (g : B -> outcome A) : iterm A B
| ICompose {A B C} (i : iterm A B) (j : iterm B C) : iterm A C
| IInverse {A B} (i : iterm A B) : iterm B A.
Fixpoint i_there {A B} (t : iterm A B) : A -> run B :=
  match t in iterm A B return A -> run B with
  | INew n f _ _ => call n f
  | ICompose i j => fun a => followed_by (i_there i a) (i_there j)
  | IInverse i => i_back i
  end
with i_back {A B} (t : iterm A B) : B -> run A :=
  match t in iterm A B return B -> run A with
  | INew _ _ m g => call m g
  | ICompose i j => fun c => followed_by (i_back j c) (i_back i)
  | IInverse i => i_there i
  end.

(** One list is contained in another, in order, with gaps. *)
Inductive within {A} : list A -> list A -> Prop :=
| within_nil l : within [] l
| within_take x l m : within l m -> within (x :: l) (x :: m)
| within_skip x l m : within l m -> within l (x :: m).

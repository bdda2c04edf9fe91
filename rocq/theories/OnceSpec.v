(** What an operation on a single value is expected to do, for closures that
    change a state or panic.  All types are looked at in the same way: they hold
    a value or lack it for some reason.  Nothing here mentions [OnceModel]. *)
From Coq Require Import List.
From Verif Require Import Base Types SumModel ErrModel.
Import ListNotations.

Inductive held (E A : Type) : Type := Has (a : A) | Lacks (e : E).
Arguments Has {E A} a.
Arguments Lacks {E A} e.
Definition of_maybe {A} (m : maybe A) : held unit A := match m with Just a => Has a | Nothing => Lacks tt end.
Definition of_option {A} (o : option A) : held unit A := match o with Some a => Has a | None => Lacks tt end.
Definition of_result {A E} (r : result A E) : held E A := match r with Ok a => Has a | Err e => Lacks e end.
Definition of_either {L R} (e : either L R) : held L R := match e with Right r => Has r | Left l => Lacks l end.
Definition of_validated {E A} (v : validated E A) : held (list E) A := match v with Valid a => Has a | Invalid es => Lacks es end.
Definition of_id {A} (i : id_ A) : held Empty_set A := Has (id_value i).
(** A pipeline also keeps its contexts. *)
Definition of_pipe {T E} (p : epipe T E) : held E T * list String.string := (of_result (ep_result p), ep_pending p).

Section Steps.
Context {W : Type}.
(** An action changes the state and answers or panics. *)
Definition action (A : Type) : Type := W -> outcome A * W.
Definition silent {A} (a : A) : action A := fun w => (Ret a, w).
(** One call, then something that depends on its answer; nothing follows a panic. *)
Definition asks {A B} (call : action A) (k : A -> action B) : action B :=
  fun w => match call w with (Ret a, w') => k a w' | (Panic, w') => (Panic, w') end.
(** One call, its answer packed up. *)
Definition gives {A B} (call : action A) (k : A -> B) : action B := asks call (fun a => silent (k a)).
(** What is seen of an action's answer. *)
Definition seen {A B} (view : A -> B) (m : action A) : action B :=
  fun w => (omap view (fst (m w)), snd (m w)).

(** The closure for values is called with the value if there is one. *)
Definition on_value {E A B} (f : A -> action B) (h : held E A) : action (held E B) :=
  match h with Has a => gives (f a) Has | Lacks e => silent (Lacks e) end.
Definition and_then {E A B} (f : A -> action (held E B)) (h : held E A) : action (held E B) :=
  match h with Has a => f a | Lacks e => silent (Lacks e) end.
(** The closure for failures is called with the failure if there is one. *)
Definition on_failure {E F A} (f : E -> action F) (h : held E A) : action (held F A) :=
  match h with Has a => silent (Has a) | Lacks e => gives (f e) Lacks end.
Definition or_else {E A} (f : E -> action (held E A)) (h : held E A) : action (held E A) :=
  match h with Has a => silent (Has a) | Lacks e => f e end.
Definition on_either {E F A B} (f : A -> action B) (g : E -> action F) (h : held E A) : action (held F B) :=
  match h with Has a => gives (f a) Has | Lacks e => gives (g e) Lacks end.
(** Two values are there if both are; two failures are merged. *)
Definition pair {E A B} (merge : E -> E -> E) (a : held E A) (b : held E B) : held E (A * B) :=
  match a, b with
  | Has x, Has y => Has (x, y)
  | Lacks e, Has _ => Lacks e
  | Has _, Lacks e => Lacks e
  | Lacks e1, Lacks e2 => Lacks (merge e1 e2)
  end.
Definition on_two {E A B C} merge (f : A -> B -> action C) (a : held E A) (b : held E B) : action (held E C) :=
  on_value (fun p => f (fst p) (snd p)) (pair merge a b).
Definition on_three {E A B C D} merge (f : A -> B -> C -> action D) (a : held E A) (b : held E B) (c : held E C)
  : action (held E D) :=
  on_value (fun p => f (fst (fst p)) (snd (fst p)) (snd p)) (pair merge (pair merge a b) c).
(** The calls for each of several things, front to back *)
Fixpoint for_each {A B} (f : A -> action B) (l : list A) : action (list B) :=
  match l with [] => silent [] | x :: r => asks (f x) (fun y => gives (for_each f r) (cons y)) end.
End Steps.
Arguments action W A : clear implicits.
Definition only {X} (x _ : X) : X := x.

(** The laws of functors and monads for closures with effects *)
Definition lawful {W} (M : Type -> Type) (pure : forall A, A -> M A)
    (fmap : forall A B, M A -> (A -> action W B) -> action W (M B))
    (bind : forall A B, M A -> (A -> action W (M B)) -> action W (M B)) : Prop :=
  forall A B C (x : A) (m : M A) (f : A -> action W B) (g : B -> action W C)
    (k : A -> action W (M B)) (h : B -> action W (M C)) w,
  fmap A A m silent w = (Ret m, w) /\
  fmap A B (pure A x) f w = gives (f x) (pure B) w /\
  fmap A C m (fun x => asks (f x) g) w = asks (fmap A B m f) (fun n => fmap B C n g) w /\
  bind A B (pure A x) k w = k x w /\
  bind A A m (fun x => silent (pure A x)) w = (Ret m, w) /\
  bind A C m (fun x => asks (k x) (fun n => bind B C n h)) w = asks (bind A B m k) (fun n => bind B C n h) w /\
  fmap A B m f w = bind A B m (fun x => gives (f x) (pure B)) w.

(** A closure that writes its label and its answer into a log *)
Definition noted {A} (n : nat) (answer : outcome A) : action (list nat) A := fun w => (answer, w ++ [n]).

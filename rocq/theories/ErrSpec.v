(** Specification vocabulary for the error layer, independent of the model's
    error type and pipeline record. *)
From Coq Require Import String List.
From Verif Require Import Types.
Import ListNotations.

(** A history of calls made on one error, oldest first. *)
Inductive edit (E : Type) :=
| AddContext (c : string)
| AddContexts (cs : list string)
| SetCode (n : nat)
| MapCore (f : E -> E).
Arguments AddContext {E} _.
Arguments AddContexts {E} _.
Arguments SetCode {E} _.
Arguments MapCore {E} _.
(** What the history says the error carries. *)
Definition contexts_of {E} (h : list (edit E)) : list string :=
  concat (map (fun x => match x with AddContext c => [c] | AddContexts cs => cs | _ => [] end) h).
Fixpoint code_of {E} (start : option nat) (h : list (edit E)) : option nat :=
  match h with
  | [] => start
  | SetCode n :: h' => code_of (Some n) h'
  | _ :: h' => code_of start h'
  end.
Fixpoint core_of {E} (start : E) (h : list (edit E)) : E :=
  match h with
  | [] => start
  | MapCore f :: h' => core_of (f start) h'
  | _ :: h' => core_of start h'
  end.

(** Pipelines as written by a user: a start value and the calls made on it. *)
Inductive eprog : Type -> Type -> Type :=
| PNew {T E} (r : result T E) : eprog T E
| PCtx {T E} (p : eprog T E) (c : string) : eprog T E
| PMapErr {T E F} (p : eprog T E) (f : E -> F) : eprog T F
| PRecover {T E} (p : eprog T E) (f : E -> result T E) : eprog T E
| PAndThen {T U E} (p : eprog T E) (f : T -> result U E) : eprog U E
| PMap {T U E} (p : eprog T E) (f : T -> U) : eprog U E.
(** Their meaning as plain [Result] code, contexts ignored. *)
Fixpoint plain {T E} (p : eprog T E) : result T E :=
  match p with
  | PNew r => r
  | PCtx p _ => plain p
  | PMapErr p f => match plain p with Ok t => Ok t | Err e => Err (f e) end
  | PRecover p f => match plain p with Ok t => Ok t | Err e => f e end
  | PAndThen p f => match plain p with Ok t => f t | Err e => Err e end
  | PMap p f => match plain p with Ok t => Ok (f t) | Err e => Err e end
  end.
Definition failed {T E} (r : result T E) : bool := match r with Ok _ => false | Err _ => true end.
(** The contexts attached to the error now in the pipeline, oldest first.  A
    recovery that yields a value ends the error; a recovery that fails again
    and [map_error] continue it. *)
Fixpoint attached {T E} (p : eprog T E) : list string :=
  match p with
  | PNew _ => []
  | PCtx p c => if failed (plain p) then attached p ++ [c] else []
  | PMapErr p _ => attached p
  | PRecover p f => if failed (plain (PRecover p f)) then attached p else []
  | PAndThen p _ => attached p
  | PMap p _ => attached p
  end.
(** No error that carried contexts is ever recovered into a value. *)
Fixpoint no_context_recovered {T E} (p : eprog T E) : Prop :=
  match p with
  | PNew _ => True
  | PCtx p _ => no_context_recovered p
  | PMapErr p _ => no_context_recovered p
  | PRecover p f =>
      no_context_recovered p /\
      (failed (plain p) = true -> failed (plain (PRecover p f)) = false -> attached p = [])
  | PAndThen p _ => no_context_recovered p
  | PMap p _ => no_context_recovered p
  end.

(** Calling a stateful function on every element, in order. *)
Inductive calls {S A R} (f : S -> A -> S * R) : S -> list A -> S -> list R -> Prop :=
| calls_nil s : calls f s [] s []
| calls_cons s x s1 r xs s2 rs : f s x = (s1, r) -> calls f s1 xs s2 rs -> calls f s (x :: xs) s2 (r :: rs).
(** The errors among some results. *)
Definition errs {T E} (rs : list (result T E)) : list E :=
  flat_map (fun r => match r with Ok _ => [] | Err e => [e] end) rs.

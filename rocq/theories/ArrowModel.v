(** The function category, function helpers, predicates and isomorphisms with
    closures that may have effects or panic: a closure is a function into [eff].
    [UtilModel], [WrapModel] and [OpticModel] have the same functions for
    closures without effects.  Definitions only.  Cloning is the identity; the
    comparisons of [verify_laws] have no effects. *)
From Coq Require Import List Bool.
From Verif Require Import Base Types WrapModel.
Import ListNotations.

Section Arrow.
Context {W : Type}.
Notation eff := (eff W).
Notation "x <- m ;; k" := (eff_bind m (fun x => k)) (at level 61, m at next level, right associativity).

(** ** function_category.rs; 140 [FunctionMorphism] *)
Definition mor (A B : Type) : Type := A -> eff B.
(** function_category.rs 149-151 [identity_morphism]; 153-164 [compose_morphisms] *)
Definition am_identity {A} : mor A A := fun x => eff_ret x.
Definition am_compose {A B C} (g : mor B C) (f : mor A B) : mor A C :=
  fun x => intermediate <- f x;; g intermediate.
(** function_category.rs 168-173 [arrow]; 290-297 [lift]; 425-432 [function!] *)
Definition am_arrow {B C} (f : B -> eff C) : mor B C := f.
(** function_category.rs 175-183 [first]; 185-193 [second] *)
Definition am_first {B C D} (f : mor B C) : mor (B * D) (C * D) := fun '(b, d) => c <- f b;; eff_ret (c, d).
Definition am_second {B C D} (f : mor B C) : mor (D * B) (D * C) := fun '(d, b) => c <- f b;; eff_ret (d, c).
(** function_category.rs 195-206 [split]; 208-220 [combine_morphisms]: the parts
    of a tuple are computed left to right *)
Definition am_split {B C D} (f : mor B C) (g : mor B D) : mor B (C * D) :=
  fun b => c <- f b;; d <- g b;; eff_ret (c, d).
Definition am_combine {B C D E} (f : mor B C) (g : mor D E) : mor (B * D) (C * E) :=
  fun '(b, d) => c <- f b;; e <- g d;; eff_ret (c, e).
(** arrow.rs 222-232: the default [split] *)
Definition am_split_default {B C D} (f : mor B C) (g : mor B D) : mor B (C * D) :=
  let duplicate := am_arrow (fun b => eff_ret (b, b)) in am_compose (am_combine f g) duplicate.
(** function_category.rs 241-247 [both] *)
Definition am_both {A B} (f : A -> eff B) : mor (A * A) (B * B) :=
  fun '(a1, a2) => b1 <- f a1;; b2 <- f a2;; eff_ret (b1, b2).
(** function_category.rs 267-274 [when] *)
Definition am_when {A} (predicate : A -> eff bool) (transform : A -> eff A) : mor A A :=
  fun a => c <- predicate a;; if (c : bool) then transform a else eff_ret a.
(** function_category.rs 323-341 [then_if]; 366-374 [compose_when] *)
Definition am_then_if {A} (first second : mor A A) (predicate : A -> eff bool) : mor A A :=
  fun x => result <- first x;; c <- predicate result;; if (c : bool) then second result else eff_ret result.
(** [Iterator::fold] over a list of functions *)
Fixpoint fold_funs {A} (acc : A) (functions : list (A -> eff A)) : eff A :=
  match functions with
  | [] => eff_ret acc
  | f :: rest => acc' <- f acc;; fold_funs acc' rest
  end.
(** function_category.rs 393-399 [sequence] *)
Definition am_sequence {A} (functions : list (A -> eff A)) : mor A A := fun initial => fold_funs initial functions.

(** function_category.rs 451-465 [compose!]; 481-495 [pipe!]: the argument lists
    in the order written.  An argument is an expression; evaluating it may have
    effects and gives a closure. *)
Inductive compose_exprs : Type -> Type -> Type :=
| CeOne {A B} (f : eff (A -> eff B)) : compose_exprs A B
| CeMore {A B C} (first : eff (B -> eff C)) (rest : compose_exprs A B) : compose_exprs A C.
Fixpoint am_compose_macro {A B} (args : compose_exprs A B) : eff (mor A B) :=
  match args in compose_exprs A B return eff (mor A B) with
  | CeOne f => f1 <- f;; eff_ret (am_arrow f1)
  | CeMore first rest =>
      f1 <- first;; let first_morphism := am_arrow f1 in
      rest_morphism <- am_compose_macro rest;;
      eff_ret (am_compose first_morphism rest_morphism)
  end.
Inductive pipe_exprs : Type -> Type -> Type :=
| PeOne {A B} (f : eff (A -> eff B)) : pipe_exprs A B
| PeMore {A B C} (first : eff (A -> eff B)) (rest : pipe_exprs B C) : pipe_exprs A C.
Fixpoint am_pipe_macro {A B} (args : pipe_exprs A B) : eff (mor A B) :=
  match args in pipe_exprs A B return eff (mor A B) with
  | PeOne f => f1 <- f;; eff_ret (am_arrow f1)
  | PeMore first rest =>
      f1 <- first;; let first_morphism := am_arrow f1 in
      rest_morphism <- am_pipe_macro rest;;
      eff_ret (am_compose rest_morphism first_morphism)
  end.

(** ** categorical_utils.rs 326-332 [compose]; 367-373 [pipe]; 413-418 [flip] *)
Definition ah_compose {A B C} (g : B -> eff C) (f : A -> eff B) : A -> eff C := fun x => b <- f x;; g b.
Definition ah_pipe {A B C} (f : A -> eff B) (g : B -> eff C) : A -> eff C := fun x => b <- f x;; g b.
Definition ah_flip {A B C} (f : A -> B -> eff C) : B -> A -> eff C := fun b a => f a b.
(** hkt_utils.rs 369-374 [lift_option] *)
Definition ah_lift_option {A B} (f : A -> eff B) : option A -> eff (option B) :=
  fun opt => match opt with Some a => b <- f a;; eff_ret (Some b) | None => eff_ret None end.
(** hkt_utils.rs 467-472 [fan_out] *)
Fixpoint ah_fan_out {A B} (input : A) (operations : list (A -> eff B)) : eff (list B) :=
  match operations with
  | [] => eff_ret []
  | op :: rest => b <- op input;; bs <- ah_fan_out input rest;; eff_ret (b :: bs)
  end.
(** hkt_utils.rs 510-519 [compose_all]; [from] is [B::from] *)
Definition ah_compose_all {A B} (from : A -> eff B) (transformations : list (A -> eff A)) : A -> eff B :=
  fun input => result <- fold_funs input transformations;; from result.

(** ** predicate.rs 106-108, 136-141 [new] *)
Definition apred (A : Type) : Type := A -> eff bool.
(** predicate.rs 168-170 [contains] *)
Definition ap_contains {A} (p : apred A) (a : A) : eff bool := p a.
(** predicate.rs 206-215 [union], 350-352 [bitor], 450-452 [combine] *)
Definition ap_union {A} (f1 f2 : apred A) : apred A := fun a => b <- f1 a;; if (b : bool) then eff_ret true else f2 a.
(** predicate.rs 484-490 [combine_owned] *)
Definition ap_combine_owned {A} (f1 f2 : apred A) : apred A :=
  fun a => b <- f1 a;; if (b : bool) then eff_ret true else f2 a.
(** predicate.rs 251-260 [intersection], 361-363 [bitand] *)
Definition ap_intersection {A} (f1 f2 : apred A) : apred A :=
  fun a => b <- f1 a;; if (b : bool) then f2 a else eff_ret false.
(** predicate.rs 295-304 [diff], 372-374 [sub] *)
Definition ap_diff {A} (f1 f2 : apred A) : apred A :=
  fun a => b <- f1 a;; if (b : bool) then (c <- f2 a;; eff_ret (negb c)) else eff_ret false.
(** predicate.rs 332-340 [negate], 383-385 [not] *)
Definition ap_negate {A} (f : apred A) : apred A := fun a => b <- f a;; eff_ret (negb b).
(** predicate.rs 581-583 [empty] *)
Definition ap_empty {A} : apred A := fun _ => eff_ret false.

(** ** iso.rs 100-177 *)
Record aiso (A B : Type) := mkAiso { ai_forward : A -> eff B; ai_backward : B -> eff A }.
Arguments mkAiso {A B} _ _.
Arguments ai_forward {A B} _ _.
Arguments ai_backward {A B} _ _.
(** iso.rs 224-229, 277-282 *)
Definition ai_map_from_target {A B R} (i : aiso A B) (f : B -> eff R) : A -> eff R := fun from => b <- ai_forward i from;; f b.
Definition ai_map_from_source {A B R} (i : aiso A B) (f : A -> eff R) : B -> eff R := fun to => a <- ai_backward i to;; f a.
(** iso.rs 348-364, 495-517 *)
Definition ai_compose {A B C} (first : aiso A B) (second : aiso B C) : aiso A C :=
  mkAiso (fun from => b <- ai_forward first from;; ai_forward second b)
         (fun to => b <- ai_backward second to;; ai_backward first b).
(** iso.rs 413-421, 572-590 *)
Definition ai_inverse {A B} (original : aiso A B) : aiso B A :=
  mkAiso (fun from => ai_backward original from) (fun to => ai_forward original to).
(** iso.rs 603-618 *)
Definition ai_convert_forward {A B} (i : aiso A B) (value : A) : eff B := ai_forward i value.
Definition ai_convert_backward {A B} (i : aiso A B) (value : B) : eff A := ai_backward i value.
(** iso.rs 635-640 *)
Definition ai_modify {A B} (i : aiso A B) (from : A) (f : B -> eff B) : eff A :=
  b <- ai_forward i from;; b' <- f b;; ai_backward i b'.
(** iso.rs 653-662 *)
Definition ai_verify_laws {A B} (eqa : A -> A -> bool) (eqb : B -> B -> bool) (i : aiso A B) (from : A) (to : B) : eff bool :=
  b <- ai_forward i from;; round_trip_from <- ai_backward i b;;
  a <- ai_backward i to;; round_trip_to <- ai_forward i a;;
  eff_ret (eqa round_trip_from from && eqb round_trip_to to).
End Arrow.
Arguments mor W A B : clear implicits.
Arguments apred W A : clear implicits.
Arguments aiso W A B : clear implicits.
Arguments compose_exprs W _ _ : clear implicits.
Arguments pipe_exprs W _ _ : clear implicits.
Arguments mkAiso {W A B} _ _.
Arguments ai_forward {W A B} _ _.
Arguments ai_backward {W A B} _ _.

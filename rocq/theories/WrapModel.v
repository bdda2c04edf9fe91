(** Model of the wrappers [Sum], [Product], [Min], [Max], [First], [Last],
    [Predicate] and [Thunk] ([/repo/src/datatypes/wrapper/*.rs]) and of the
    [Evaluate] helpers ([/repo/src/traits/evaluate.rs]).  Definitions only.
    Cloning is the identity; owned and borrowed methods with the same body
    share one definition.  The element arithmetic is an operation that may
    panic ([add], [mul]), so that checked machine integers can be plugged in. *)
From Coq Require Import List Bool ZArith.
From Verif Require Import Base.
Import ListNotations.
Open Scope outcome_scope.

(** ** Sum, sum.rs 194; Product, product.rs 132; Min, min.rs 148; Max, max.rs 152 *)
Record sum (T : Type) := mkSum { sum_val : T }.
Record product (T : Type) := mkProduct { product_val : T }.
Record min (T : Type) := mkMin { min_val : T }.
Record max (T : Type) := mkMax { max_val : T }.
Arguments mkSum {T} _. Arguments sum_val {T} _.
Arguments mkProduct {T} _. Arguments product_val {T} _.
Arguments mkMin {T} _. Arguments min_val {T} _.
Arguments mkMax {T} _. Arguments max_val {T} _.
(** sum.rs 287-289 [combine_owned], 345-347 [combine] *)
Definition sum_combine {T} (add : T -> T -> outcome T) (a b : sum T) : outcome (sum T) :=
  do s <- add (sum_val a) (sum_val b); Ret (mkSum s).
(** sum.rs 432-434 *)
Definition sum_empty {T} (default : T) : sum T := mkSum default.
(** sum.rs 207-226 [unwrap], [unwrap_or], 231, 443-449; 533-622 [fmap(_owned)]; 627 [from] *)
Definition sum_unwrap {T} (s : sum T) : T := sum_val s.
Definition sum_unwrap_or {T} (s : sum T) (default : T) : T := sum_val s.
Definition sum_fmap {T U} (f : T -> U) (s : sum T) : sum U := mkSum (f (sum_val s)).
(** product.rs 225-227, 283-285 *)
Definition product_combine {T} (mul : T -> T -> outcome T) (a b : product T) : outcome (product T) :=
  do s <- mul (product_val a) (product_val b); Ret (mkProduct s).
(** product.rs 370-372; [from1] is [T::from(1)] *)
Definition product_empty {T} (from1 : T) : product T := mkProduct from1.
(** product.rs 145-164, 471-476, 554-559 *)
Definition product_unwrap {T} (s : product T) : T := product_val s.
Definition product_unwrap_or {T} (s : product T) (default : T) : T := product_val s.
Definition product_fmap {T U} (f : T -> U) (s : product T) : product U := mkProduct (f (product_val s)).
(** min.rs 242-247 [combine_owned], 304-309 [combine]; [cmp] is [Ord::cmp] *)
Definition min_combine {T} (cmp : T -> T -> comparison) (a b : min T) : min T :=
  match cmp (min_val a) (min_val b) with
  | Lt | Eq => a
  | Gt => b
  end.
(** min.rs 393-395, 161-180, 502-545 *)
Definition min_empty {T} (default : T) : min T := mkMin default.
Definition min_unwrap {T} (s : min T) : T := min_val s.
Definition min_unwrap_or {T} (s : min T) (default : T) : T := min_val s.
Definition min_fmap {T U} (f : T -> U) (s : min T) : min U := mkMin (f (min_val s)).
(** max.rs 246-251, 308-313 *)
Definition max_combine {T} (cmp : T -> T -> comparison) (a b : max T) : max T :=
  match cmp (max_val a) (max_val b) with
  | Gt | Eq => a
  | Lt => b
  end.
(** max.rs 384-386, 165-184, 493-539 *)
Definition max_empty {T} (default : T) : max T := mkMax default.
Definition max_unwrap {T} (s : max T) : T := max_val s.
Definition max_unwrap_or {T} (s : max T) (default : T) : T := max_val s.
Definition max_fmap {T U} (f : T -> U) (s : max T) : max U := mkMax (f (max_val s)).

(** Machine integers.  In a debug build [+] and [*] panic on overflow, in a
    release build they wrap (Rust reference, "Overflow"). *)
Definition checked (lo hi : Z) (z : Z) : outcome Z :=
  if ((lo <=? z) && (z <=? hi))%Z%bool then Ret z else Panic.
Definition checked_add (lo hi a b : Z) : outcome Z := checked lo hi (a + b).
Definition checked_mul (lo hi a b : Z) : outcome Z := checked lo hi (a * b).
(** Two's complement with [hi - lo + 1] values starting at [lo] *)
Definition wrap (lo hi z : Z) : Z := (lo + (z - lo) mod (hi - lo + 1))%Z.
Definition wrapping_add (lo hi a b : Z) : outcome Z := Ret (wrap lo hi (a + b)).
Definition wrapping_mul (lo hi a b : Z) : outcome Z := Ret (wrap lo hi (a * b)).

(** ** First, first.rs 176; Last, last.rs 177 *)
Record first (T : Type) := mkFirst { first_val : option T }.
Record last (T : Type) := mkLast { last_val : option T }.
Arguments mkFirst {T} _. Arguments first_val {T} _.
Arguments mkLast {T} _. Arguments last_val {T} _.
(** first.rs 256-261, 301-306 *)
Definition first_combine {T} (a b : first T) : first T :=
  match first_val a with Some _ => a | None => b end.
(** first.rs 366-368, 516-518 *)
Definition first_empty {T} : first T := mkFirst None.
Definition first_from {T} (x : T) : first T := mkFirst (Some x).
(** first.rs 195-197 [unwrap], 218-222 [as_ref], 377-383 [value], [into_value] *)
Definition first_unwrap {T} (a : first T) : outcome T :=
  match first_val a with Some x => Ret x | None => Panic end.
(** first.rs 211-213 *)
Definition first_unwrap_or {T} (a : first T) (default : T) : T :=
  match first_val a with Some x => x | None => default end.
(** first.rs 464-472, 503-511 *)
Definition first_fmap {T U} (f : T -> U) (a : first T) : first U :=
  match first_val a with Some x => mkFirst (Some (f x)) | None => mkFirst None end.
(** last.rs 263-268, 314-319 *)
Definition last_combine {T} (a b : last T) : last T :=
  match last_val b with Some _ => b | None => a end.
(** last.rs 385-387, 535-537 *)
Definition last_empty {T} : last T := mkLast None.
Definition last_from {T} (x : T) : last T := mkLast (Some x).
(** last.rs 196-198, 219-223, 396-402 *)
Definition last_unwrap {T} (a : last T) : outcome T :=
  match last_val a with Some x => Ret x | None => Panic end.
(** last.rs 212-214 *)
Definition last_unwrap_or {T} (a : last T) (default : T) : T :=
  match last_val a with Some x => x | None => default end.
(** last.rs 483-491, 522-530 *)
Definition last_fmap {T U} (f : T -> U) (a : last T) : last U :=
  match last_val a with Some x => mkLast (Some (f x)) | None => mkLast None end.

(** ** Predicate, predicate.rs 106-108, 136-141; the closure may panic *)
Definition predicate (A : Type) := A -> outcome bool.
(** predicate.rs 168-170 *)
Definition pd_contains {A} (p : predicate A) (a : A) : outcome bool := p a.
(** [||] and [&&] do not evaluate their right operand when the left decides *)
Definition orelse (x : outcome bool) (y : outcome bool) : outcome bool :=
  do b <- x; if b then Ret true else y.
Definition andalso (x : outcome bool) (y : outcome bool) : outcome bool :=
  do b <- x; if b then y else Ret false.
Definition onegb (x : outcome bool) : outcome bool := do b <- x; Ret (negb b).
(** predicate.rs 206-215 [union], 350-352 [bitor], 450-452 [combine], 484-490 [combine_owned] *)
Definition pd_union {A} (f1 f2 : predicate A) : predicate A := fun a => orelse (f1 a) (f2 a).
(** predicate.rs 251-260 [intersection], 361-363 [bitand] *)
Definition pd_intersection {A} (f1 f2 : predicate A) : predicate A := fun a => andalso (f1 a) (f2 a).
(** predicate.rs 295-304 [diff], 372-374 [sub] *)
Definition pd_diff {A} (f1 f2 : predicate A) : predicate A := fun a => andalso (f1 a) (onegb (f2 a)).
(** predicate.rs 332-340 [negate], 383-385 [not] *)
Definition pd_negate {A} (f : predicate A) : predicate A := fun a => onegb (f a).
(** predicate.rs 581-583 *)
Definition pd_empty {A} : predicate A := fun _ => Ret false.
Definition pd_combine {A} (p q : predicate A) : predicate A := pd_union p q.

(** ** Thunk and Evaluate: a thunk is a computation over a world [W] *)
Section Thunk.
Context {W : Type}.
Definition eff (A : Type) := W -> outcome A * W.
Definition eff_ret {A} (a : A) : eff A := fun w => (Ret a, w).
Definition eff_bind {A B} (m : eff A) (k : A -> eff B) : eff B :=
  fun w => match m w with (Ret a, w') => k a w' | (Panic, w') => (Panic, w') end.
(** thunk.rs 105-111, 154-159: building a thunk runs nothing *)
Definition thunk (A : Type) := eff A.
(** thunk.rs 244-246, 274-276 *)
Definition th_evaluate {A} (t : thunk A) : eff A := t.
(** evaluate.rs 137-142, 169-174, 188-194, 223-229 *)
Definition ev_map {A U} (t : thunk A) (f : A -> eff U) : eff U := eff_bind (th_evaluate t) f.
(** evaluate.rs 245-252, 279-286, 314-321, 349-356 *)
Definition ev_bind {A C} (t : thunk A) (f : A -> eff (thunk C)) : eff C :=
  eff_bind (th_evaluate t) (fun a => eff_bind (f a) (fun c => th_evaluate c)).
(** evaluate.rs 386-394, 427-435 *)
Definition ev_combine {A C O} (t : thunk A) (other : thunk C) (f : A -> C -> eff O) : eff O :=
  eff_bind (th_evaluate t) (fun a => eff_bind (th_evaluate other) (fun c => f a c)).
(** evaluate.rs 464-471, 500-507 *)
Definition ev_filter {A} (t : thunk A) (pred : A -> eff bool) : eff (option A) :=
  eff_bind (th_evaluate t) (fun result => eff_bind (pred result) (fun b => eff_ret (if b then Some result else None))).
End Thunk.
Arguments eff W A : clear implicits.
Arguments thunk W A : clear implicits.

(** Which calls are active at the same time while a computation runs.  A run is
    recorded as the forest of the calls it makes through stored closures
    ([Arc<dyn Fn>], [Rc<dyn Fn>]); a call holds the calls made before it returns.
    Calls the compiler knows statically (methods, closures passed as a generic
    argument) are not recorded: they add at most a fixed number of frames to the
    next recorded call.  The closures of the caller are functions into [tr], so
    they may make recorded calls of their own; they do not panic.  The same
    functions as in [EffModel], [IOModel], [ArrowModel], [ErrModel].
    Definitions only; [Clone] makes no calls. *)
From Coq Require Import List.
From Verif Require Import Base Types ErrModel.
Import ListNotations.

Inductive call := Call (inside : list call).
Definition tr (A : Type) : Type := list call * A.
Definition tret {A} (a : A) : tr A := ([], a).
Definition tbind {A B} (m : tr A) (k : A -> tr B) : tr B :=
  let '(cs, a) := m in let '(cs', b) := k a in (cs ++ cs', b).
(** A call through a stored closure *)
Definition tcall {A} (m : tr A) : tr A := ([Call (fst m)], snd m).
Local Notation "x <- m ;; k" := (tbind m (fun x => k)) (at level 61, m at next level, right associativity).

(** ** State: state.rs 246, 326-330; [StateT::Effect] holds the closure, state_t.rs 99-103 *)
Definition hstate (S A : Type) : Type := S -> tr (A * S).
(** state.rs 379-386 [new], 424-427 [run_state], state_t.rs 199-209 *)
Definition hs_new {S A} (f : S -> tr (A * S)) : hstate S A := f.
Definition hs_run {S A} (x : hstate S A) (s : S) : tr (A * S) := tcall (x s).
(** state.rs 596-605 [fmap]; 708-717 [bind]; 766-768 [pure]; 827-838 [apply] *)
Definition hs_fmap {S A B} (x : hstate S A) (f : A -> tr B) : hstate S B :=
  hs_new (fun s => p <- hs_run x s;; b <- f (fst p);; tret (b, snd p)).
Definition hs_bind {S A B} (x : hstate S A) (f : A -> tr (hstate S B)) : hstate S B :=
  hs_new (fun s => p <- hs_run x s;; y <- f (fst p);; hs_run y (snd p)).
Definition hs_pure {S A} (a : A) : hstate S A := hs_new (fun s => tret (a, s)).
Definition hs_apply {S A B} (x : hstate S (A -> tr B)) (other : hstate S A) : hstate S B :=
  hs_new (fun s => p <- hs_run x s;; q <- hs_run other (snd p);; b <- fst p (fst q);; tret (b, snd q)).

(** ** Reader: reader.rs 219-222; [ReaderT] holds the closure, reader_t.rs 218-221 *)
Definition hreader (E A : Type) : Type := E -> tr A.
(** reader.rs 250-257 [new], 278-281 [run_reader], reader_t.rs 313-318 *)
Definition hr_new {E A} (f : E -> tr A) : hreader E A := f.
Definition hr_run {E A} (x : hreader E A) (e : E) : tr A := tcall (x e).
(** reader.rs 304-319 [fmap]; 342-358 [bind]; 520-529 [local]; 563-581 [combine] *)
Definition hr_fmap {E A B} (x : hreader E A) (f : A -> tr B) : hreader E B := hr_new (fun e => a <- hr_run x e;; f a).
Definition hr_bind {E A B} (x : hreader E A) (f : A -> tr (hreader E B)) : hreader E B :=
  hr_new (fun e => a <- hr_run x e;; y <- f a;; hr_run y e).
Definition hr_local {E A} (x : hreader E A) (f : E -> tr E) : hreader E A := hr_new (fun e => e' <- f e;; hr_run x e').
Definition hr_combine {E A B C} (x : hreader E A) (y : hreader E B) (f : A -> B -> tr C) : hreader E C :=
  hr_new (fun e => a <- hr_run x e;; b <- hr_run y e;; f a b).

(** ** Cont: cont.rs 196-200, cont_t.rs 38-45; the computation and its continuation are both stored *)
Definition hcont (R A : Type) : Type := (A -> tr R) -> tr R.
(** cont.rs 304-309 [run], cont_t.rs 107-112 *)
Definition hc_run {R A} (x : hcont R A) (k : A -> tr R) : tr R := tcall (x k).
(** cont.rs 357-361 [return_cont], cont_t.rs 137-144; cont.rs 540-548 [bind], cont_t.rs 172-188; cont.rs 431-439
    [fmap], cont_t.rs 213-226 *)
Definition hc_pure {R A} (a : A) : hcont R A := fun k => tcall (k a).
Definition hc_bind {R A B} (x : hcont R A) (f : A -> tr (hcont R B)) : hcont R B :=
  fun k => tcall (x (fun a => fb <- f a;; tcall (fb k))).
Definition hc_fmap {R A B} (x : hcont R A) (f : A -> tr B) : hcont R B :=
  fun k => tcall (x (fun a => b <- f a;; tcall (k b))).

(** ** IO: io.rs 583-586 *)
Inductive hio (A : Type) := HPure (a : A) | HEffect (effect : tr A).
Arguments HPure {A} _.
Arguments HEffect {A} _.
(** io.rs 658-663 [run]; 821-831 [fmap]; 888-898 [bind]; 1467-1473 [sequence] *)
Definition hi_run {A} (x : hio A) : tr A := match x with HPure a => tret a | HEffect f => tcall f end.
Definition hi_fmap {A B} (x : hio A) (f : A -> tr B) : tr (hio B) :=
  match x with
  | HPure a => b <- f a;; tret (HPure b)
  | HEffect effect => tret (HEffect (a <- tcall effect;; f a))
  end.
Definition hi_bind {A B} (x : hio A) (f : A -> tr (hio B)) : tr (hio B) :=
  match x with
  | HPure a => f a
  | HEffect effect => tret (HEffect (a <- tcall effect;; y <- f a;; hi_run y))
  end.
Fixpoint hi_run_all {A} (ios : list (hio A)) : tr (list A) :=
  match ios with
  | [] => tret []
  | x :: ios' => a <- hi_run x;; l <- hi_run_all ios';; tret (a :: l)
  end.
Definition hi_sequence {A} (ios : list (hio A)) : hio (list A) := HEffect (hi_run_all ios).

(** ** Function morphisms: function_category.rs 140 *)
Definition hmor (A B : Type) : Type := A -> tr B.
(** function_category.rs 153-164 [compose_morphisms] *)
Definition hm_compose {A B C} (g : hmor B C) (f : hmor A B) : hmor A C :=
  fun x => intermediate <- tcall (f x);; tcall (g intermediate).
(** function_category.rs 393-399 [sequence]; hkt_utils.rs 510-519 [compose_all], whose functions are stored *)
Fixpoint hm_fold {A} (acc : A) (functions : list (hmor A A)) : tr A :=
  match functions with [] => tret acc | f :: rest => acc' <- f acc;; hm_fold acc' rest end.
Definition hm_sequence {A} (functions : list (hmor A A)) : hmor A A := fun initial => hm_fold initial functions.
Fixpoint hm_fold_stored {A} (acc : A) (functions : list (hmor A A)) : tr A :=
  match functions with [] => tret acc | f :: rest => acc' <- tcall (f acc);; hm_fold_stored acc' rest end.
Definition hm_compose_all {A B} (from : A -> tr B) (transformations : list (hmor A A)) : hmor A B :=
  fun input => result <- hm_fold_stored input transformations;; from result.

(** ** Predicate: predicate.rs 106-108 *)
Definition hpred (A : Type) : Type := A -> tr bool.
(** predicate.rs 168-170 [contains] *)
Definition hp_contains {A} (p : hpred A) (a : A) : tr bool := tcall (p a).
(** predicate.rs 206-215 [union]; 251-260 [intersection]; 295-304 [diff]; 332-340 [negate] *)
Definition hp_union {A} (f1 f2 : hpred A) : hpred A :=
  fun a => b <- tcall (f1 a);; if (b : bool) then tret true else tcall (f2 a).
Definition hp_intersection {A} (f1 f2 : hpred A) : hpred A :=
  fun a => b <- tcall (f1 a);; if (b : bool) then tcall (f2 a) else tret false.
Definition hp_diff {A} (f1 f2 : hpred A) : hpred A :=
  fun a => b <- tcall (f1 a);; if (b : bool) then (c <- tcall (f2 a);; tret (negb c)) else tret false.
Definition hp_negate {A} (f : hpred A) : hpred A := fun a => b <- tcall (f a);; tret (negb b).

(** ** Writer: writer.rs 198-203; nothing is stored.  506-528 [fmap]; 1004-1013, 1061-1071 [bind] *)
Definition hw_fmap {W A B} (w : W * A) (f : A -> tr B) : tr (W * B) := b <- f (snd w);; tret (fst w, b).
Definition hw_bind {W A B} (combine : W -> W -> tr W) (w : W * A) (f : A -> tr (W * B)) : tr (W * B) :=
  y <- f (snd w);; log <- combine (fst w) (fst y);; tret (log, snd y).

(** ** ErrorPipeline: context.rs 241-249 [map_error]; 274-282 [recover]; 308-316 [and_then]; 342-350 [map] *)
Definition he_map_error {T E F} (p : epipe T E) (f : E -> tr F) : tr (epipe T F) :=
  match ep_result p with
  | Ok t => tret (mkEpipe (Ok t) (ep_pending p))
  | Err e => e' <- f e;; tret (mkEpipe (Err e') (ep_pending p))
  end.
Definition he_recover {T E} (p : epipe T E) (f : E -> tr (result T E)) : tr (epipe T E) :=
  match ep_result p with
  | Ok t => tret p
  | Err e => r <- f e;; tret (mkEpipe r (ep_pending p))
  end.
Definition he_and_then {T U E} (p : epipe T E) (f : T -> tr (result U E)) : tr (epipe U E) :=
  match ep_result p with
  | Ok t => r <- f t;; tret (mkEpipe r (ep_pending p))
  | Err e => tret (mkEpipe (Err e) (ep_pending p))
  end.
Definition he_map {T U E} (p : epipe T E) (f : T -> tr U) : tr (epipe U E) :=
  match ep_result p with
  | Ok t => u <- f t;; tret (mkEpipe (Ok u) (ep_pending p))
  | Err e => tret (mkEpipe (Err e) (ep_pending p))
  end.
(** context.rs 204-215 [with_context]: [IntoErrorContext] of the caller *)
Definition he_with_context {T E} (p : epipe T E) (ctx : tr String.string) : tr (epipe T E) :=
  match ep_result p with
  | Ok _ => tret p
  | Err _ => s <- ctx;; tret (mkEpipe (ep_result p) (ep_pending p ++ [s]))
  end.

(** The computations that are built first and run later - [State], [StateT],
    [Reader], [ReaderT], [Cont], [ContT] - and the optics, with closures that may
    have effects (the state [W]) or panic: the same functions as in [EffModel] and
    [OpticModel], written with the order of the calls.  Where the code calls a
    closure while it builds, building is itself an [eff].  Definitions only.
    [Clone], [Arc] and [PartialEq] have no effect. *)
From Coq Require Import List.
From Verif Require Import Base Types SumModel WrapModel LazyModel.
Import ListNotations.
Open Scope outcome_scope.

Section Defer.
Context {W : Type}.
Notation eff := (eff W).
Local Notation "x <- m ;; k" := (eff_bind m (fun x => k)) (at level 61, m at next level, right associativity).
Definition eff_panic {A} : eff A := fun w => (Panic, w).

(** ** StateT: [lz_stateT], state_t.rs 99-103 *)
Notation stateT := (lz_stateT W).
(** state_t.rs 153-158 [new] *)
Definition dt_new {S M A} (f : S -> eff M) : stateT S M A := LEffect f.
(** state_t.rs 199-209 [run_state] *)
Definition dt_run {S M A} (x : stateT S M A) (s : S) : eff M :=
  match x with
  | LPure _ => eff_panic
  | LLiftM m => eff_ret m
  | LEffect f => f s
  end.
(** state_t.rs 234-240 [get]; 266-272 [put]; 298-304 [modify] *)
Definition dt_get {S M} (pure : S * S -> eff M) : stateT S M S := dt_new (fun s => pure (s, s)).
Definition dt_put {S M} (new_state : S) (pure : S * S -> eff M) : stateT S M S := dt_new (fun s => pure (new_state, s)).
Definition dt_modify {S M} (f : S -> eff S) (pure : S * unit -> eff M) : stateT S M unit :=
  dt_new (fun s => s' <- f s;; pure (s', tt)).
(** state_t.rs 338-369 [fmap_with] *)
Definition dt_fmap_with {S M N A B} (x : stateT S M A) (f : A -> eff B)
    (map_fn : M -> (S * A -> eff (S * B)) -> eff N) : eff (stateT S N B) :=
  match x with
  | LPure a => b <- f a;; eff_ret (LPure b)
  | LLiftM m => n <- map_fn m (fun '(state, a) => b <- f a;; eff_ret (state, b));; eff_ret (LLiftM n)
  | LEffect run =>
      eff_ret (dt_new (fun s => m <- run s;; map_fn m (fun '(state, a) => b <- f a;; eff_ret (state, b))))
  end.
(** state_t.rs 415-458 [bind_with] *)
Definition dt_bind_with {S M N A B} (x : stateT S M A) (f : A -> eff (stateT S N B))
    (bind_fn : M -> (S * A -> eff N) -> eff N) : eff (stateT S N B) :=
  match x with
  | LPure a => f a
  | LLiftM m =>
      eff_ret (dt_new (fun _ => bind_fn m (fun '(state, a) => next <- f a;; dt_run next state)))
  | LEffect run =>
      eff_ret (dt_new (fun s => m <- run s;; bind_fn m (fun '(state, a) => next <- f a;; dt_run next state)))
  end.
(** state_t.rs 473-514 [combine_with] *)
Definition dt_combine_with {S M N K A B C} (x : stateT S M A) (y : stateT S N B) (f : A -> B -> eff C)
    (combine_fn : M -> N -> (S * A -> S * B -> eff (S * C)) -> eff K) : eff (stateT S K C) :=
  match x, y with
  | LPure a, LPure b => c <- f a b;; eff_ret (LPure c)
  | LLiftM m1, LLiftM m2 =>
      k <- combine_fn m1 m2 (fun '(s1, a) '(_, b) => c <- f a b;; eff_ret (s1, c));; eff_ret (LLiftM k)
  | LEffect run1, LEffect run2 =>
      eff_ret (dt_new (fun s =>
        m1 <- run1 s;; m2 <- run2 s;; combine_fn m1 m2 (fun '(_, a) '(state, b) => c <- f a b;; eff_ret (state, c))))
  | _, _ => eff_panic
  end.
(** state_t.rs 541-547 [pure] *)
Definition dt_pure {S M A} (a : A) (pure_fn : S * A -> eff M) : stateT S M A := dt_new (fun s => pure_fn (s, a)).
(** state_t.rs 574-581 [exec_state] *)
Definition dt_exec {S M A B} (x : stateT S M A) (s : S) (extract_state_fn : M -> eff B) : eff B :=
  m <- dt_run x s;; extract_state_fn m.
(** state_t.rs 629-681 [apply] *)
Definition dt_apply {S M N K A B C} (x : stateT S M A) (y : stateT S N B) (apply_fn : M -> N -> eff K)
  : eff (stateT S K C) :=
  match x, y with
  | LPure f, LPure v =>
      eff_ret (dt_new (fun s => fr <- @dt_run S M A (LPure f) s;; vr <- @dt_run S N B (LPure v) s;; apply_fn fr vr))
  | LLiftM m1, LLiftM m2 => k <- apply_fn m1 m2;; eff_ret (LLiftM k)
  | LEffect r1, LEffect r2 => eff_ret (dt_new (fun s => a <- r1 s;; b <- r2 s;; apply_fn a b))
  | _, _ => eff_ret (dt_new (fun s => a <- dt_run x s;; b <- dt_run y s;; apply_fn a b))
  end.
(** state_t.rs 723-738 [join] *)
Definition dt_join {S M N A} (x : stateT S M A) (join_fn : M -> eff N) : eff (stateT S N A) :=
  match x with
  | LPure a => eff_ret (LPure a)
  | LLiftM m => n <- join_fn m;; eff_ret (LLiftM n)
  | LEffect run => eff_ret (dt_new (fun s => m <- run s;; join_fn m))
  end.
(** state_t.rs 750-752 [lift] *)
Definition dt_lift {S M A} (base : M) : stateT S M A := dt_new (fun _ => eff_ret base).

(** ** State *)
(** state.rs 246, 326-330 *)
Record dstate (S A : Type) := mkDstate { ds_inner : stateT S (id_ (A * S)) A }.
Arguments mkDstate {S A} _.
Arguments ds_inner {S A} _.
(** state.rs 379-386 [new]; 424-427 [run_state]; 480-482 [eval_state]; 523-525, 865-867 [exec_state], [exec_pure] *)
Definition ds_new {S A} (f : S -> eff (A * S)) : dstate S A := mkDstate (dt_new (fun s => p <- f s;; eff_ret (mkId p))).
Definition ds_run {S A} (x : dstate S A) (s : S) : eff (A * S) := i <- dt_run (ds_inner x) s;; eff_ret (id_value i).
Definition ds_eval {S A} (x : dstate S A) (s : S) : eff A := p <- ds_run x s;; eff_ret (fst p).
Definition ds_exec {S A} (x : dstate S A) (s : S) : eff S := p <- ds_run x s;; eff_ret (snd p).
(** state.rs 596-605 [fmap]; 708-717 [bind]; 766-768 [pure]; 827-838 [apply] *)
Definition ds_fmap {S A B} (x : dstate S A) (f : A -> eff B) : dstate S B :=
  ds_new (fun s => p <- ds_run x s;; let '(a, s1) := p in b <- f a;; eff_ret (b, s1)).
Definition ds_bind {S A B} (x : dstate S A) (f : A -> eff (dstate S B)) : dstate S B :=
  ds_new (fun s => p <- ds_run x s;; let '(a, s1) := p in y <- f a;; ds_run y s1).
Definition ds_pure {S A} (a : A) : dstate S A := ds_new (fun s => eff_ret (a, s)).
Definition ds_apply {S A B} (x : dstate S (A -> eff B)) (other : dstate S A) : dstate S B :=
  ds_new (fun s => p <- ds_run x s;; let '(f, s1) := p in
                   q <- ds_run other s1;; let '(a, s2) := q in b <- f a;; eff_ret (b, s2)).
(** state.rs 908-913 [get]; 952-957 [put]; 993-999 [modify] *)
Definition ds_get {S} : dstate S S := ds_new (fun s => eff_ret (s, s)).
Definition ds_put {S} (s : S) : dstate S unit := ds_new (fun _ => eff_ret (tt, s)).
Definition ds_modify {S} (f : S -> eff S) : dstate S unit := ds_new (fun s => s' <- f s;; eff_ret (tt, s')).
(** state_t.rs 1096-1102 [to_state], 1126-1131 [from_state] *)
Definition dt_to_state {S A} (x : stateT S (id_ (S * A)) A) : dstate S A :=
  ds_new (fun s => r <- dt_run x s;; let '(new_state, value) := id_value r in eff_ret (value, new_state)).
Definition dt_from_state {S A} (x : dstate S A) : stateT S (id_ (S * A)) A :=
  dt_new (fun s => p <- ds_run x s;; let '(a, s2) := p in eff_ret (mkId (s2, a))).

(** ** ReaderT *)
(** reader_t.rs 218-221, 270-278 [new], 313-318 [run_reader], 831-833 [unwrap_with] *)
Record dreaderT (E M A : Type) := mkDreaderT { drt_run : E -> eff M }.
Arguments mkDreaderT {E M A} _.
Arguments drt_run {E M A} _ _.
(** reader_t.rs 358-363 [ask]; 403-409 [local]; 450-456 [asks]; 500-507 [ask_with]; 555-564 [asks_with] *)
Definition drt_ask {E M} (pure : E -> eff M) : dreaderT E M E := mkDreaderT pure.
Definition drt_local {E M A} (x : dreaderT E M A) (f : E -> eff E) : dreaderT E M A :=
  mkDreaderT (fun e => e' <- f e;; drt_run x e').
Definition drt_asks {E M B} (f : E -> eff B) (pure : B -> eff M) : dreaderT E M B :=
  mkDreaderT (fun e => b <- f e;; pure b).
Definition drt_asks_with {E M B C} (select : E -> eff B) (transform : B -> eff C) (pure : C -> eff M) : dreaderT E M C :=
  mkDreaderT (fun e => b <- select e;; c <- transform b;; pure c).
(** reader_t.rs 607-622 [fmap_with]; 668-692 [bind_with]; 706-725 [apply_with]; 781-816 [combine_with] *)
Definition drt_fmap_with {E M N A B} (x : dreaderT E M A) (f : A -> eff B) (map_fn : M -> (A -> eff B) -> eff N)
  : dreaderT E N B := mkDreaderT (fun e => m <- drt_run x e;; map_fn m f).
Definition drt_bind_with {E M N A B} (x : dreaderT E M A) (f : A -> eff (dreaderT E N B))
    (bind_fn : M -> (A -> eff N) -> eff N) : dreaderT E N B :=
  mkDreaderT (fun e => m <- drt_run x e;; bind_fn m (fun a => y <- f a;; drt_run y e)).
Definition drt_apply_with {E M N K A Func B} (x : dreaderT E M A) (f : dreaderT E N Func) (ap_fn : M -> N -> eff K)
  : dreaderT E K B := mkDreaderT (fun e => ma <- drt_run x e;; mf <- drt_run f e;; ap_fn ma mf).
Definition drt_combine_with {E M N K A B C} (x : dreaderT E M A) (y : dreaderT E N B) (f : A -> B -> eff C)
    (combine_fn : M -> N -> (A -> B -> eff C) -> eff K) : dreaderT E K C :=
  mkDreaderT (fun e => ma <- drt_run x e;; mb <- drt_run y e;; combine_fn ma mb f).
(** reader_t.rs 741-765 [lift2]: [self] is not used *)
Definition drt_lift2 {E M N K A B C} (self : dreaderT E M A) (f : A -> B -> eff C)
    (combine_fn : M -> N -> (A -> B -> eff C) -> eff K) (reader1 : dreaderT E M A) (reader2 : dreaderT E N B)
  : dreaderT E K C := mkDreaderT (fun e => ma <- drt_run reader1 e;; mb <- drt_run reader2 e;; combine_fn ma mb f).
(** reader_t.rs 879-893 [fmap], 941-963 [bind], 1033-1051 [combine], 982-989 [apply]; the methods of the
    base monad are arguments *)
Definition drt_fmap {E M N A B} (base_fmap : M -> (A -> eff B) -> eff N) (x : dreaderT E M A) (f : A -> eff B)
  : dreaderT E N B := mkDreaderT (fun e => ma <- drt_run x e;; base_fmap ma f).
Definition drt_bind {E M N A B} (base_bind : M -> (A -> eff N) -> eff N) (x : dreaderT E M A)
    (f : A -> eff (dreaderT E N B)) : dreaderT E N B :=
  mkDreaderT (fun e => ma <- drt_run x e;; base_bind ma (fun a => y <- f a;; drt_run y e)).
Definition drt_combine {E M N K A B C} (base_lift2 : (A -> B -> eff C) -> M -> N -> eff K) (x : dreaderT E M A)
    (y : dreaderT E N B) (f : A -> B -> eff C) : dreaderT E K C :=
  mkDreaderT (fun e => ma <- drt_run x e;; mb <- drt_run y e;; base_lift2 f ma mb).
Definition drt_apply {E M N K A B} (base_lift2 : (A -> (A -> eff B) -> eff B) -> M -> N -> eff K) (x : dreaderT E M A)
    (f : dreaderT E N (A -> eff B)) : dreaderT E K B :=
  drt_combine base_lift2 x f (fun a func => func a).
(** reader_t.rs 1209-1212 [lift]; 1249-1257 [pure] *)
Definition drt_lift {E M A} (base : M) : dreaderT E M A := mkDreaderT (fun _ => eff_ret base).
Definition drt_pure {E M A} (value : A) (pure_fn : A -> eff M) : dreaderT E M A := mkDreaderT (fun _ => pure_fn value).

(** ** Reader *)
(** reader.rs 219-222, 250-257 [new], 278-281 [run_reader] *)
Record dreader (E A : Type) := mkDreader { dr_inner : dreaderT E (id_ A) A }.
Arguments mkDreader {E A} _.
Arguments dr_inner {E A} _.
Definition dr_new {E A} (f : E -> eff A) : dreader E A := mkDreader (mkDreaderT (fun e => a <- f e;; eff_ret (mkId a))).
Definition dr_run {E A} (x : dreader E A) (env : E) : eff A := i <- drt_run (dr_inner x) env;; eff_ret (id_value i).
(** reader.rs 304-319 [fmap]; 342-358 [bind] *)
Definition dr_fmap {E A B} (x : dreader E A) (f : A -> eff B) : dreader E B :=
  mkDreader (mkDreaderT (fun e => id_a <- drt_run (dr_inner x) e;; b <- f (id_value id_a);; eff_ret (mkId b))).
Definition dr_bind {E A B} (x : dreader E A) (f : A -> eff (dreader E B)) : dreader E B :=
  mkDreader (mkDreaderT (fun e =>
    id_a <- drt_run (dr_inner x) e;; reader_b <- f (id_value id_a);; drt_run (dr_inner reader_b) e)).
(** reader.rs 381-389 [ask]; 410-417 [ask_transform]; 449-456 [asks]; 482-490 [ask_with] *)
Definition dr_ask {E A} (from : E -> eff A) : dreader E A := mkDreader (mkDreaderT (fun e => a <- from e;; eff_ret (mkId a))).
Definition dr_asks {E A} (selector : E -> eff A) : dreader E A :=
  mkDreader (mkDreaderT (fun e => a <- selector e;; eff_ret (mkId a))).
Definition dr_ask_with {E A} (f : E -> eff A) (transform : A -> eff (id_ A)) : dreader E A :=
  mkDreader (mkDreaderT (fun e => a <- f e;; transform a)).
(** reader.rs 520-529 [local]; 563-581 [combine] *)
Definition dr_local {E A} (x : dreader E A) (f : E -> eff E) : dreader E A :=
  mkDreader (mkDreaderT (fun e => e' <- f e;; drt_run (dr_inner x) e')).
Definition dr_combine {E A B C} (x : dreader E A) (y : dreader E B) (f : A -> B -> eff C) : dreader E C :=
  mkDreader (mkDreaderT (fun e =>
    ia <- drt_run (dr_inner x) e;; ib <- drt_run (dr_inner y) e;;
    c <- f (id_value ia) (id_value ib);; eff_ret (mkId c))).

(** ** ContT *)
(** cont_t.rs 42-45, 74-82 [new], 107-112 [run] *)
Record dcontT (M A : Type) := mkDcontT { dct_run : (A -> eff M) -> eff M }.
Arguments mkDcontT {M A} _.
Arguments dct_run {M A} _ _.
(** cont_t.rs 137-144 [pure]; 172-188 [bind]; 213-226 [fmap]; 256-272 [apply]; 314-333 [call_cc]; 343-345 [lift] *)
Definition dct_pure {M A} (a : A) : dcontT M A := mkDcontT (fun k => k a).
Definition dct_bind {M A B} (x : dcontT M A) (f : A -> eff (dcontT M B)) : dcontT M B :=
  mkDcontT (fun k => dct_run x (fun a => fb <- f a;; dct_run fb k)).
Definition dct_fmap {M A B} (x : dcontT M A) (f : A -> eff B) : dcontT M B :=
  mkDcontT (fun k => dct_run x (fun a => b <- f a;; k b)).
Definition dct_apply {M A B} (x : dcontT M A) (cf : dcontT M (A -> eff B)) : dcontT M B :=
  mkDcontT (fun k => dct_run cf (fun f => dct_run x (fun a => b <- f a;; k b))).
Definition dct_call_cc {M A B} (f : (A -> eff (dcontT M B)) -> eff (dcontT M A)) : dcontT M A :=
  mkDcontT (fun k => c <- f (fun a => eff_ret (mkDcontT (fun _ => k a)));; dct_run c k).
Definition dct_lift {M A} (base : M) : dcontT M A := mkDcontT (fun _ => eff_ret base).

(** ** Cont *)
(** cont.rs 196-200, 248-256, 271-278 [new], 304-309 [run] *)
Record dcont (R A : Type) := mkDcont { dc_inner : dcontT (id_ R) A }.
Arguments mkDcont {R A} _.
Arguments dc_inner {R A} _.
Definition dc_new {R A} (f : (A -> eff R) -> eff R) : dcont R A :=
  mkDcont (mkDcontT (fun k => r <- f (fun a => i <- k a;; eff_ret (id_value i));; eff_ret (mkId r))).
Definition dc_run {R A} (x : dcont R A) (k : A -> eff R) : eff R :=
  i <- dct_run (dc_inner x) (fun a => r <- k a;; eff_ret (mkId r));; eff_ret (id_value i).
(** cont.rs 357-361, 697-699 [return_cont], [pure]; 431-439 [fmap]; 540-548 [bind]; 620-627 [apply]; 670-682 [call_cc] *)
Definition dc_pure {R A} (a : A) : dcont R A := mkDcont (dct_pure a).
Definition dc_fmap {R A B} (x : dcont R A) (f : A -> eff B) : dcont R B := mkDcont (dct_fmap (dc_inner x) f).
Definition dc_bind {R A B} (x : dcont R A) (f : A -> eff (dcont R B)) : dcont R B :=
  mkDcont (dct_bind (dc_inner x) (fun a => y <- f a;; eff_ret (dc_inner y))).
Definition dc_apply {R A B} (x : dcont R A) (cf : dcont R (A -> eff B)) : dcont R B :=
  mkDcont (dct_apply (dc_inner x) (dc_inner cf)).
Definition dc_call_cc {R A B} (self : dcont R A) (f : (B -> eff (dcont R A)) -> eff (dcont R B)) : dcont R B :=
  mkDcont (dct_call_cc (fun k => y <- f (fun b => z <- k b;; eff_ret (mkDcont z));; eff_ret (dc_inner y))).

(** ** Lens *)
(** lens.rs 272-280, 334-340; 383-385 [get]; 504-506 [set_always] *)
Record dlens (S A : Type) := mkDlens { dl_get : S -> eff A; dl_set_always : S -> A -> eff S }.
Arguments mkDlens {S A} _ _.
Arguments dl_get {S A} _ _.
Arguments dl_set_always {S A} _ _ _.
(** lens.rs 443-452 [set]; 563-571 [modify]; 634-641 [modify_always]; 704-712 [fmap] *)
Definition dl_set {S A} (eqb : A -> A -> bool) (l : dlens S A) (source : S) (value : A) : eff S :=
  current <- dl_get l source;; if eqb current value then eff_ret source else dl_set_always l source value.
Definition dl_modify {S A} (eqb : A -> A -> bool) (l : dlens S A) (source : S) (f : A -> eff A) : eff S :=
  current <- dl_get l source;; new_value <- f current;; dl_set eqb l source new_value.
Definition dl_modify_always {S A} (l : dlens S A) (source : S) (f : A -> eff A) : eff S :=
  current <- dl_get l source;; new_value <- f current;; dl_set_always l source new_value.
Definition dl_fmap {S A B} (l : dlens S A) (f : A -> eff B) (g : B -> eff A) : dlens S B :=
  mkDlens (fun s => a <- dl_get l s;; f a) (fun s b => a <- g b;; dl_set_always l s a).

(** ** Prism *)
(** prism.rs 436-446, 504-510; 562-564 [preview]; 612-614 [review] *)
Record dprism (S A : Type) := mkDprism { dp_preview : S -> eff (option A); dp_review : A -> eff S }.
Arguments mkDprism {S A} _ _.
Arguments dp_preview {S A} _ _.
Arguments dp_review {S A} _ _.
(** prism.rs 743-759 [modify]; 817-831 [set_if_different] *)
Definition dp_modify {S A} (eqb : A -> A -> bool) (p : dprism S A) (source : S) (f : A -> eff A) : eff S :=
  o <- dp_preview p source;;
  match o with
  | Some current_value =>
      new_value <- f current_value;;
      if eqb new_value current_value then eff_ret source else dp_review p new_value
  | None => eff_ret source
  end.
Definition dp_set_if_different {S A} (eqb : A -> A -> bool) (p : dprism S A) (source : S) (new_value : A) : eff S :=
  o <- dp_preview p source;;
  match o with
  | Some current_value => if eqb new_value current_value then eff_ret source else dp_review p new_value
  | None => dp_review p new_value
  end.

(** ** [Result] as a base monad, with effects in the closures: functor.rs 612-625, monad.rs 366-375,
    applicative.rs 799-812 (and [Result::map], [Result::and_then] of the library) *)
Definition res_map_eff {A B Er} (r : result A Er) (f : A -> eff B) : eff (result B Er) :=
  match r with Ok a => b <- f a;; eff_ret (Ok b) | Err e => eff_ret (Err e) end.
Definition res_bind_eff {A B Er} (r : result A Er) (f : A -> eff (result B Er)) : eff (result B Er) :=
  match r with Ok a => f a | Err e => eff_ret (Err e) end.
Definition res_lift2_eff {A B C Er} (f : A -> B -> eff C) (ra : result A Er) (rb : result B Er) : eff (result C Er) :=
  match ra, rb with
  | Ok a, Ok b => c <- f a b;; eff_ret (Ok c)
  | Err e, _ => eff_ret (Err e)
  | _, Err e => eff_ret (Err e)
  end.
End Defer.
Arguments dstate W S A : clear implicits.
Arguments dreaderT W E M A : clear implicits.
Arguments dreader W E A : clear implicits.
Arguments dcontT W M A : clear implicits.
Arguments dcont W R A : clear implicits.
Arguments dlens W S A : clear implicits.
Arguments dprism W S A : clear implicits.
Arguments mkDlens {W S A} _ _.
Arguments mkDprism {W S A} _ _.
Arguments mkDreaderT {W E M A} _.
Arguments mkDcontT {W M A} _.
Arguments mkDstate {W S A} _.
Arguments mkDreader {W E A} _.
Arguments mkDcont {W R A} _.
Arguments ds_inner {W S A} _.
Arguments dr_inner {W E A} _.
Arguments dc_inner {W R A} _.
Arguments drt_run {W E M A} _ _.
Arguments dct_run {W M A} _ _.
Arguments dl_get {W S A} _ _.
Arguments dl_set_always {W S A} _ _ _.
Arguments dp_preview {W S A} _ _.
Arguments dp_review {W S A} _ _.

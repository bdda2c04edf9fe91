(** Model of the effect types: [Writer] (src/datatypes/writer.rs), [StateT]
    (src/transformers/state_t.rs), [State] (src/datatypes/state.rs), [ReaderT]
    (src/transformers/reader_t.rs), [Reader] (src/datatypes/reader.rs), [ContT]
    (src/transformers/cont_t.rs), [Cont] (src/datatypes/cont.rs).

    Simplifications: [Arc], [Clone] and [Send]/[Sync] bounds are dropped; borrowed
    and owned variants of a method are one function.  Panics are tracked for
    [StateT]/[State] (the only ones of these whose own code can panic): a stored
    state function has type [S -> outcome M].  Base-monad operations are passed
    as arguments exactly where the Rust API takes them as arguments.
    The phantom [A] of [StateT<S, M, A>] is kept as a type index.  Methods of
    the Rust code that force source and target to have the same [M] are given
    a possibly different target type [N]. *)
From Coq Require Import List.
From Verif Require Import Base Types SumModel.
Import ListNotations.
Open Scope outcome_scope.

(** ** Writer *)
(** writer.rs 196-203 *)
Record writer (W A : Type) := mkWriter { w_log : W; w_value : A }.
Arguments mkWriter {W A} _ _.
Arguments w_log {W A} _.
Arguments w_value {W A} _.
Section Writer.
Context {W : Type} (combine : W -> W -> W) (empty : W).
(** writer.rs 294-296 [tell] *)
Definition wr_tell (log : W) : writer W unit := mkWriter log tt.
(** writer.rs 341-343 [run]; 383-388 [unwrap]; 438-440 [log] *)
Definition wr_run {A} (w : writer W A) : W * A := (w_log w, w_value w).
Definition wr_unwrap {A} (w : writer W A) : A := w_value w.
(** writer.rs 395-397 [pure_value]; 460-476 [pure] *)
Definition wr_pure {A} (value : A) : writer W A := mkWriter empty value.
(** writer.rs 506-528 [fmap] *)
Definition wr_fmap {A B} (f : A -> B) (w : writer W A) : writer W B := mkWriter (w_log w) (f (w_value w)).
(** writer.rs 592-600, 793-803 [apply] *)
Definition wr_apply {A B} (w : writer W (A -> B)) (value : writer W A) : writer W B :=
  mkWriter (combine (w_log w) (w_log value)) (w_value w (w_value value)).
(** writer.rs 655-667, 859-871 [lift2] *)
Definition wr_lift2 {A B C} (f : A -> B -> C) (fa : writer W A) (fb : writer W B) : writer W C :=
  mkWriter (combine (w_log fa) (w_log fb)) (f (w_value fa) (w_value fb)).
(** writer.rs 717-732, 929-943 [lift3] *)
Definition wr_lift3 {A B C D} (f : A -> B -> C -> D) (fa : writer W A) (fb : writer W B) (fc : writer W C)
  : writer W D :=
  mkWriter (combine (combine (w_log fa) (w_log fb)) (w_log fc)) (f (w_value fa) (w_value fb) (w_value fc)).
(** writer.rs 1004-1013, 1061-1071 [bind] *)
Definition wr_bind {A B} (w : writer W A) (f : A -> writer W B) : writer W B :=
  let r := f (w_value w) in mkWriter (combine (w_log w) (w_log r)) (w_value r).
(** writer.rs 1120-1130, 1180-1191 [join], [into] being the conversion to the inner writer *)
Definition wr_join {A B} (into : A -> writer W B) (w : writer W A) : writer W B :=
  let inner := into (w_value w) in mkWriter (combine (w_log w) (w_log inner)) (w_value inner).
(** writer.rs 478-504 [combine], [empty] *)
Definition wr_combine {A} (vcombine : A -> A -> A) (x y : writer W A) : writer W A :=
  mkWriter (combine (w_log x) (w_log y)) (vcombine (w_value x) (w_value y)).
Definition wr_empty {A} (vempty : A) : writer W A := mkWriter empty vempty.
End Writer.

(** ** StateT *)
(** state_t.rs 99-103 *)
Inductive stateT (S M A : Type) :=
| SPure (a : A)
| SLiftM (m : M)
| SEffect (f : S -> outcome M).
Arguments SPure {S M A} _.
Arguments SLiftM {S M A} _.
Arguments SEffect {S M A} _.

(** state_t.rs 153-158 [new] *)
Definition stt_new {S M A} (f : S -> outcome M) : stateT S M A := SEffect f.
(** state_t.rs 199-209 [run_state] *)
Definition stt_run {S M A} (x : stateT S M A) (s : S) : outcome M :=
  match x with
  | SPure _ => Panic
  | SLiftM m => Ret m
  | SEffect f => f s
  end.
(** state_t.rs 234-240 [get]; 266-272 [put]; 298-304 [modify] *)
Definition stt_get {S M} (pure : S * S -> M) : stateT S M S := stt_new (fun s => Ret (pure (s, s))).
Definition stt_put {S M} (new_state : S) (pure : S * S -> M) : stateT S M S :=
  stt_new (fun s => Ret (pure (new_state, s))).
Definition stt_modify {S M} (f : S -> S) (pure : S * unit -> M) : stateT S M unit :=
  stt_new (fun s => Ret (pure (f s, tt))).
(** state_t.rs 338-369 [fmap_with] *)
Definition stt_fmap_with {S M N A B} (x : stateT S M A) (f : A -> B) (map_fn : M -> (S * A -> S * B) -> N)
  : stateT S N B :=
  match x with
  | SPure a => SPure (f a)
  | SLiftM m => SLiftM (map_fn m (fun p => (fst p, f (snd p))))
  | SEffect run => stt_new (fun s => omap (fun m => map_fn m (fun p => (fst p, f (snd p)))) (run s))
  end.
(** state_t.rs 415-458 [bind_with]: the continuation handed to [bind_fn] runs the next
    computation and may therefore panic *)
Definition stt_bind_with {S M N A B} (x : stateT S M A) (f : A -> stateT S N B)
    (bind_fn : M -> (S * A -> outcome N) -> outcome N) : stateT S N B :=
  match x with
  | SPure a => f a
  | SLiftM m => stt_new (fun _ => bind_fn m (fun p => stt_run (f (snd p)) (fst p)))
  | SEffect run => stt_new (fun s => do m <- run s; bind_fn m (fun p => stt_run (f (snd p)) (fst p)))
  end.
(** state_t.rs 473-514 [combine_with]: building it panics on mixed variants *)
Definition stt_combine_with {S M N K A B C} (x : stateT S M A) (y : stateT S N B) (f : A -> B -> C)
    (combine_fn : M -> N -> (S * A -> S * B -> S * C) -> K) : outcome (stateT S K C) :=
  match x, y with
  | SPure a, SPure b => Ret (SPure (f a b))
  | SLiftM m1, SLiftM m2 => Ret (SLiftM (combine_fn m1 m2 (fun p q => (fst p, f (snd p) (snd q)))))
  | SEffect run1, SEffect run2 =>
      Ret (stt_new (fun s => do m1 <- run1 s; do m2 <- run2 s;
                             Ret (combine_fn m1 m2 (fun p q => (fst q, f (snd p) (snd q))))))
  | _, _ => Panic
  end.
(** state_t.rs 541-547 [pure] *)
Definition stt_pure {S M A} (a : A) (pure_fn : S * A -> M) : stateT S M A := stt_new (fun s => Ret (pure_fn (s, a))).
(** state_t.rs 574-581 [exec_state] *)
Definition stt_exec {S M A B} (x : stateT S M A) (s : S) (extract : M -> B) : outcome B := omap extract (stt_run x s).
(** state_t.rs 629-681 [apply] *)
Definition stt_apply {S M N K A B C} (x : stateT S M A) (y : stateT S N B) (apply_fn : M -> N -> K) : stateT S K C :=
  match x, y with
  | SPure f, SPure v =>
      stt_new (fun s => do fr <- @stt_run S M A (SPure f) s; do vr <- @stt_run S N B (SPure v) s; Ret (apply_fn fr vr))
  | SLiftM m1, SLiftM m2 => SLiftM (apply_fn m1 m2)
  | SEffect r1, SEffect r2 => stt_new (fun s => do a <- r1 s; do b <- r2 s; Ret (apply_fn a b))
  | _, _ => stt_new (fun s => do a <- stt_run x s; do b <- stt_run y s; Ret (apply_fn a b))
  end.
(** state_t.rs 723-738 [join] *)
Definition stt_join {S M N A} (x : stateT S M A) (join_fn : M -> N) : stateT S N A :=
  match x with
  | SPure a => SPure a
  | SLiftM m => SLiftM (join_fn m)
  | SEffect run => stt_new (fun s => omap join_fn (run s))
  end.
(** state_t.rs 741-753 [lift] *)
Definition stt_lift {S M A} (base : M) : stateT S M A := stt_new (fun _ => Ret base).

(** ** State *)
(** state.rs 246, 326-330 *)
Record state (S A : Type) := mkState { st_inner : stateT S (id_ (A * S)) A }.
Arguments mkState {S A} _.
Arguments st_inner {S A} _.
(** state.rs 379-386 [new] *)
Definition st_new {S A} (f : S -> outcome (A * S)) : state S A := mkState (stt_new (fun s => omap (@mkId _) (f s))).
(** state.rs 424-427 [run_state]; 480-482 [eval_state]; 523-525, 865-867 [exec_state] *)
Definition st_run {S A} (x : state S A) (s : S) : outcome (A * S) := omap (@id_value _) (stt_run (st_inner x) s).
Definition st_eval {S A} (x : state S A) (s : S) : outcome A := omap fst (st_run x s).
Definition st_exec {S A} (x : state S A) (s : S) : outcome S := omap snd (st_run x s).
(** state.rs 596-605 [fmap] *)
Definition st_fmap {S A B} (f : A -> B) (x : state S A) : state S B :=
  st_new (fun s => do p <- st_run x s; Ret (f (fst p), snd p)).
(** state.rs 708-717 [bind] *)
Definition st_bind {S A B} (x : state S A) (f : A -> state S B) : state S B :=
  st_new (fun s => do p <- st_run x s; st_run (f (fst p)) (snd p)).
(** state.rs 766-768 [pure] *)
Definition st_pure {S A} (a : A) : state S A := st_new (fun s => Ret (a, s)).
(** state.rs 827-838 [apply] *)
Definition st_apply {S A B} (x : state S (A -> B)) (y : state S A) : state S B :=
  st_new (fun s => do p <- st_run x s; do q <- st_run y (snd p); Ret (fst p (fst q), snd q)).
(** state.rs 908-913 [get]; 952-957 [put]; 993-999 [modify] *)
Definition st_get {S} : state S S := st_new (fun s => Ret (s, s)).
Definition st_put {S} (s : S) : state S unit := st_new (fun _ => Ret (tt, s)).
Definition st_modify {S} (f : S -> S) : state S unit := st_new (fun s => Ret (tt, f s)).
(** state.rs 1266-1274 [From<StateT>] *)
Definition st_from_inner {S A} (x : stateT S (id_ (A * S)) A) : state S A := mkState x.
(** state_t.rs 1096-1102 [to_state], 1126-1131 [from_state] *)
Definition stt_to_state {S A} (x : stateT S (id_ (S * A)) A) : state S A :=
  st_new (fun s => do r <- stt_run x s; Ret (snd (id_value r), fst (id_value r))).
Definition stt_from_state {S A} (x : state S A) : stateT S (id_ (S * A)) A :=
  stt_new (fun s => do p <- st_run x s; Ret (mkId (snd p, fst p))).

(** ** ReaderT *)
(** reader_t.rs 218-221 *)
Record readerT (E M A : Type) := mkReaderT { rdt_run : E -> M }.
Arguments mkReaderT {E M A} _.
Arguments rdt_run {E M A} _ _.
(** reader_t.rs 358-363 [ask]; 403-409 [local]; 450-456 [asks]; 500-507 [ask_with]; 555-564 [asks_with] *)
Definition rdt_ask {E M} (pure : E -> M) : readerT E M E := mkReaderT pure.
Definition rdt_local {E M A} (x : readerT E M A) (f : E -> E) : readerT E M A := mkReaderT (fun e => rdt_run x (f e)).
Definition rdt_asks {E M B} (f : E -> B) (pure : B -> M) : readerT E M B := mkReaderT (fun e => pure (f e)).
Definition rdt_asks_with {E M B C} (select : E -> B) (transform : B -> C) (pure : C -> M) : readerT E M C :=
  mkReaderT (fun e => pure (transform (select e))).
(** reader_t.rs 607-622 [fmap_with] *)
Definition rdt_fmap_with {E M N A B} (x : readerT E M A) (f : A -> B) (map_fn : M -> (A -> B) -> N) : readerT E N B :=
  mkReaderT (fun e => map_fn (rdt_run x e) f).
(** reader_t.rs 668-692 [bind_with] *)
Definition rdt_bind_with {E M N A B} (x : readerT E M A) (f : A -> readerT E N B) (bind_fn : M -> (A -> N) -> N)
  : readerT E N B :=
  mkReaderT (fun e => bind_fn (rdt_run x e) (fun a => rdt_run (f a) e)).
(** reader_t.rs 706-725 [apply_with] *)
Definition rdt_apply_with {E M N K A Func B} (x : readerT E M A) (f : readerT E N Func) (ap_fn : M -> N -> K) : readerT E K B :=
  mkReaderT (fun e => ap_fn (rdt_run x e) (rdt_run f e)).
(** reader_t.rs 741-765 [lift2], 781-816 [combine_with] *)
Definition rdt_combine_with {E M N K A B C} (x : readerT E M A) (y : readerT E N B) (f : A -> B -> C)
    (combine_fn : M -> N -> (A -> B -> C) -> K) : readerT E K C :=
  mkReaderT (fun e => combine_fn (rdt_run x e) (rdt_run y e) f).
(** reader_t.rs 879-893 [fmap], 941-963 [bind] (value semantics only; see [DropModel]),
    1033-1051 [combine], 982-989 [apply]: these use the base monad's own trait
    methods, passed here as arguments *)
Definition rdt_fmap {E M N A B} (base_fmap : (A -> B) -> M -> N) (f : A -> B) (x : readerT E M A) : readerT E N B :=
  mkReaderT (fun e => base_fmap f (rdt_run x e)).
Definition rdt_bind {E M N A B} (base_bind : M -> (A -> N) -> N) (x : readerT E M A) (f : A -> readerT E N B)
  : readerT E N B :=
  mkReaderT (fun e => base_bind (rdt_run x e) (fun a => rdt_run (f a) e)).
Definition rdt_combine {E M N K A B C} (base_lift2 : (A -> B -> C) -> M -> N -> K) (x : readerT E M A)
    (y : readerT E N B) (f : A -> B -> C) : readerT E K C :=
  mkReaderT (fun e => base_lift2 f (rdt_run x e) (rdt_run y e)).
Definition rdt_apply {E M N K A B} (base_lift2 : (A -> (A -> B) -> B) -> M -> N -> K) (x : readerT E M A)
    (f : readerT E N (A -> B)) : readerT E K B :=
  rdt_combine base_lift2 x f (fun a func => func a).
(** reader_t.rs 1200-1213 [lift]; 1249-1257 [pure] *)
Definition rdt_lift {E M A} (base : M) : readerT E M A := mkReaderT (fun _ => base).
Definition rdt_pure {E M A} (value : A) (pure_fn : A -> M) : readerT E M A := mkReaderT (fun _ => pure_fn value).

(** ** Reader *)
(** reader.rs 219-222 *)
Record reader (E A : Type) := mkReader { rd_inner : readerT E (id_ A) A }.
Arguments mkReader {E A} _.
Arguments rd_inner {E A} _.
(** reader.rs 250-257 [new]; 278-281 [run_reader] *)
Definition rd_new {E A} (f : E -> A) : reader E A := mkReader (mkReaderT (fun e => mkId (f e))).
Definition rd_run {E A} (x : reader E A) (e : E) : A := id_value (rdt_run (rd_inner x) e).
(** reader.rs 304-319 [fmap]; 342-358 [bind] *)
Definition rd_fmap {E A B} (f : A -> B) (x : reader E A) : reader E B :=
  mkReader (mkReaderT (fun e => mkId (f (id_value (rdt_run (rd_inner x) e))))).
Definition rd_bind {E A B} (x : reader E A) (f : A -> reader E B) : reader E B :=
  mkReader (mkReaderT (fun e => rdt_run (rd_inner (f (id_value (rdt_run (rd_inner x) e)))) e)).
(** reader.rs 381-389 [ask] ([from : E -> A] is [A::from]); 410-417 [ask_transform];
    449-456 [asks]; 482-490 [ask_with] *)
Definition rd_ask {E A} (from : E -> A) : reader E A := mkReader (mkReaderT (fun e => mkId (from e))).
Definition rd_asks {E A} (f : E -> A) : reader E A := mkReader (mkReaderT (fun e => mkId (f e))).
Definition rd_ask_with {E A} (f : E -> A) (transform : A -> id_ A) : reader E A :=
  mkReader (mkReaderT (fun e => transform (f e))).
(** reader.rs 520-529 [local] *)
Definition rd_local {E A} (x : reader E A) (f : E -> E) : reader E A :=
  mkReader (mkReaderT (fun e => rdt_run (rd_inner x) (f e))).
(** reader.rs 563-581 [combine] *)
Definition rd_combine {E A B C} (x : reader E A) (y : reader E B) (f : A -> B -> C) : reader E C :=
  mkReader (mkReaderT (fun e => mkId (f (id_value (rdt_run (rd_inner x) e)) (id_value (rdt_run (rd_inner y) e))))).
(** reader.rs 603-611 [From<ReaderT>] *)
Definition rd_from_inner {E A} (x : readerT E (id_ A) A) : reader E A := mkReader x.

(** ** ContT *)
(** cont_t.rs 42-45, 107-112 [run] *)
Record contT (M A : Type) := mkContT { ct_run : (A -> M) -> M }.
Arguments mkContT {M A} _.
Arguments ct_run {M A} _ _.
(** cont_t.rs 137-144 [pure]; 172-188 [bind]; 213-226 [fmap]; 256-272 [apply] *)
Definition ct_pure {M A} (a : A) : contT M A := mkContT (fun k => k a).
Definition ct_bind {M A B} (x : contT M A) (f : A -> contT M B) : contT M B :=
  mkContT (fun k => ct_run x (fun a => ct_run (f a) k)).
Definition ct_fmap {M A B} (f : A -> B) (x : contT M A) : contT M B := mkContT (fun k => ct_run x (fun a => k (f a))).
Definition ct_apply {M A B} (x : contT M A) (cf : contT M (A -> B)) : contT M B :=
  mkContT (fun k => ct_run cf (fun f => ct_run x (fun a => k (f a)))).
(** cont_t.rs 314-333 [call_cc] *)
Definition ct_call_cc {M A B} (f : (A -> contT M B) -> contT M A) : contT M A :=
  mkContT (fun k => let escape := fun a => mkContT (fun _ => k a) in ct_run (f escape) k).
(** cont_t.rs 338-346 [lift] *)
Definition ct_lift {M A} (base : M) : contT M A := mkContT (fun _ => base).

(** ** Cont *)
(** cont.rs 196-200 *)
Record cont (R A : Type) := mkCont { co_inner : contT (id_ R) A }.
Arguments mkCont {R A} _.
Arguments co_inner {R A} _.
(** cont.rs 248-256 [new]; 304-309 [run] *)
Definition co_new {R A} (f : (A -> R) -> R) : cont R A :=
  mkCont (mkContT (fun k => mkId (f (fun a => id_value (k a))))).
Definition co_run {R A} (x : cont R A) (k : A -> R) : R := id_value (ct_run (co_inner x) (fun a => mkId (k a))).
(** cont.rs 357-361, 697-699 [return_cont], [pure] *)
Definition co_pure {R A} (a : A) : cont R A := mkCont (ct_pure a).
(** cont.rs 431-439 [fmap]; 540-548 [bind]; 620-627 [apply] *)
Definition co_fmap {R A B} (f : A -> B) (x : cont R A) : cont R B := mkCont (ct_fmap f (co_inner x)).
Definition co_bind {R A B} (x : cont R A) (f : A -> cont R B) : cont R B :=
  mkCont (ct_bind (co_inner x) (fun a => co_inner (f a))).
Definition co_apply {R A B} (x : cont R A) (cf : cont R (A -> B)) : cont R B :=
  mkCont (ct_apply (co_inner x) (co_inner cf)).
(** cont.rs 670-682 [call_cc]: [self] is not used *)
Definition co_call_cc {R A B} (self : cont R A) (f : (B -> cont R A) -> cont R B) : cont R B :=
  mkCont (ct_call_cc (fun k => co_inner (f (fun b => mkCont (k b))))).
(** cont_t.rs 363-383 [to_cont], [from_cont]; cont.rs 723-732 *)
Definition ct_to_cont {R A} (x : contT (id_ R) A) : cont R A := mkCont x.
Definition ct_from_cont {R A} (x : cont R A) : contT (id_ R) A := co_inner x.

(** Model of src/datatypes/io.rs (synchronous part).

    A piece of Rust code that may perform effects and may panic is a function of
    the world: [comp W A := W -> W * res A].  All closures given to [IO] are such
    computations.  A panic carries its payload; effects performed before it stay.
    [catch_unwind] is modelled as total (the [panic = "abort"] build is not
    modelled).  [Arc], [Clone], [Box] are transparent. *)
From Coq Require Import String List.
From Verif Require Import Base Types ErrModel.
Import ListNotations.

(** The payload of a panic: a [&str], a [String], or anything else. *)
Inductive payload := PStr (s : string) | PString (s : string) | POther.
Inductive res (A : Type) := Done (a : A) | Panicked (p : payload).
Arguments Done {A} _.
Arguments Panicked {A} _.

Section IO.
Context {W : Type}.
Definition comp (A : Type) : Type := W -> W * res A.
Definition cret {A} (a : A) : comp A := fun w => (w, Done a).
(** Running one piece of code, then another with its value. *)
Definition cbind {A B} (m : comp A) (k : A -> comp B) : comp B := fun w =>
  match m w with
  | (w', Done a) => k a w'
  | (w', Panicked p) => (w', Panicked p)
  end.
(** [std::panic::catch_unwind] *)
Definition catch_unwind {A} (m : comp A) : comp (result A payload) := fun w =>
  match m w with
  | (w', Done a) => (w', Done (Ok a))
  | (w', Panicked p) => (w', Done (Err p))
  end.

(** io.rs 583-586 *)
Inductive io (A : Type) := IPure (a : A) | IEffect (f : comp A).
Arguments IPure {A} _.
Arguments IEffect {A} _.
(** io.rs 466-471 *)
Inductive ioerror := ValueNotSet | OtherError (msg : string).

(** io.rs 627-632 [new]; 855-858 [pure]; 718-741 [is_pure], [is_effect] *)
Definition io_new {A} (f : comp A) : io A := IEffect f.
Definition io_pure {A} (value : A) : io A := IPure value.
Definition io_is_pure {A} (x : io A) : bool := match x with IPure _ => true | IEffect _ => false end.
Definition io_is_effect {A} (x : io A) : bool := match x with IPure _ => false | IEffect _ => true end.
(** io.rs 658-663 [run]; 1495-1497 [evaluate] *)
Definition io_run {A} (x : io A) : comp A := match x with IPure a => cret a | IEffect f => f end.
(** io.rs 821-831 [fmap]: calling [fmap] is itself a computation, because on [Pure] it calls [f] *)
Definition io_fmap {A B} (x : io A) (f : A -> comp B) : comp (io B) :=
  match x with
  | IPure a => cbind (f a) (fun b => cret (IPure b))
  | IEffect effect => cret (IEffect (cbind effect f))
  end.
(** io.rs 888-898 [bind]; the closure builds an [IO] and is itself a computation *)
Definition io_bind {A B} (x : io A) (f : A -> comp (io B)) : comp (io B) :=
  match x with
  | IPure a => f a
  | IEffect effect => cret (IEffect (cbind (cbind effect f) io_run))
  end.
(** io.rs 1291-1323 [apply] *)
Definition io_apply {A B} (x : io A) (mf : io (A -> comp B)) : comp (io B) :=
  match x, mf with
  | IPure v, IPure f => cbind (f v) (fun b => cret (IPure b))
  | IPure a, IEffect mf => cret (IEffect (cbind mf (fun f => f a)))
  | IEffect ma, IPure f => cret (IEffect (cbind ma (fun a => f a)))
  | IEffect ma, IEffect mf => cret (IEffect (cbind mf (fun f => cbind ma (fun a => f a))))
  end.
(** The message extracted from a payload (926-932, 983-989, 1030-1036) *)
Definition payload_message (p : payload) : string :=
  match p with
  | PStr s => s
  | PString s => s
  | POther => "IO operation panicked with unknown error"%string
  end.
(** io.rs 922-936 [try_get]; 1026-1040 [try_get_composable] *)
Definition io_try_get {A} (x : io A) : comp (result A (cerr ioerror)) :=
  cbind (catch_unwind (io_run x)) (fun r => cret
    match r with
    | Ok value => Ok value
    | Err e => Err (ce_new (OtherError (payload_message e)))
    end).
(** io.rs 976-995 [try_get_with_context] *)
Definition io_try_get_with_context {A} (x : io A) (context : string) : comp (result A (cerr ioerror)) :=
  cbind (catch_unwind (io_run x)) (fun r => cret
    match r with
    | Ok value => Ok value
    | Err e => Err (ce_with_context (ce_new (OtherError (payload_message e))) context)
    end).
(** io.rs 1077-1082 [try_get_composable_with_context] *)
Definition io_try_get_composable_with_context {A} (x : io A) (context : string) : comp (result A (cerr ioerror)) :=
  cbind (io_try_get x) (fun r => cret (map_err (fun e => ce_with_context e context) r)).
(** io.rs 1105-1107 [into_error_pipeline] *)
Definition io_into_error_pipeline {A} (x : io A) : comp (epipe A (cerr ioerror)) :=
  cbind (io_try_get x) (fun r => cret (ep_new r)).
(** io.rs 1134-1142 [recover] *)
Definition io_recover {A} (x : io A) (recovery : cerr ioerror -> comp (io A)) : io A :=
  io_new (cbind (io_try_get x) (fun r =>
    match r with
    | Ok value => cret value
    | Err error => cbind (recovery error) io_run
    end)).
(** io.rs 1168-1173 [recover_with] *)
Definition io_recover_with {A} (x : io A) (default_value : A) : io A :=
  io_new (cbind (io_try_get x) (fun r =>
    match r with Ok value => cret value | Err _ => cret default_value end)).
(** io.rs 1211-1226 [sequence_composable]: the lazy [map] is driven by [partition] *)
Fixpoint partition_loop {A} (successes failures : list (result A (cerr ioerror))) (ios : list (io A))
  : comp (list (result A (cerr ioerror)) * list (result A (cerr ioerror))) :=
  match ios with
  | [] => cret (successes, failures)
  | x :: ios' =>
      cbind (io_try_get x) (fun r =>
        match r with
        | Ok _ => partition_loop (successes ++ [r]) failures ios'
        | Err _ => partition_loop successes (failures ++ [r]) ios'
        end)
  end.
(** [Result::unwrap], [Result::unwrap_err] over a list: panics on the wrong side *)
Fixpoint unwrap_all {A E} (l : list (result A E)) : comp (list A) :=
  match l with
  | [] => cret []
  | Ok a :: l' => cbind (unwrap_all l') (fun r => cret (a :: r))
  | Err _ :: _ => fun w => (w, Panicked (PString "called `Result::unwrap()` on an `Err` value"%string))
  end.
Fixpoint unwrap_err_all {A E} (l : list (result A E)) : comp (list E) :=
  match l with
  | [] => cret []
  | Err e :: l' => cbind (unwrap_err_all l') (fun r => cret (e :: r))
  | Ok _ :: _ => fun w => (w, Panicked (PString "called `Result::unwrap_err()` on an `Ok` value"%string))
  end.
Definition io_sequence_composable {A} (ios : list (io A)) : comp (result (list A) (list (cerr ioerror))) :=
  cbind (partition_loop [] [] ios) (fun '(successes, failures) =>
    match failures with
    | [] => cbind (unwrap_all successes) (fun l => cret (Ok l))
    | _ => cbind (unwrap_err_all failures) (fun l => cret (Err l))
    end).
(** io.rs 1385-1390 [delay_sync]; [sleep] is the effect of sleeping *)
Definition io_delay_sync {A} (sleep : comp unit) (a : A) : io A := io_new (cbind sleep (fun _ => cret a)).
(** io.rs 1410-1423 [when] *)
Definition io_when {A} (predicate : comp bool) (computation default : comp A) : io A :=
  io_new (cbind predicate (fun b => if b then computation else default)).
(** io.rs 1440-1447 [combine] *)
Definition io_combine {A B} (io1 : io A) (io2 : io B) : io (A * B) :=
  io_new (cbind (io_run io1) (fun a => cbind (io_run io2) (fun b => cret (a, b)))).
(** io.rs 1467-1473 [sequence] *)
Fixpoint run_collect {A} (ios : list (io A)) (acc : list A) : comp (list A) :=
  match ios with
  | [] => cret acc
  | x :: ios' => cbind (io_run x) (fun a => run_collect ios' (acc ++ [a]))
  end.
Definition io_sequence {A} (ios : list (io A)) : io (list A) := io_new (run_collect ios []).
End IO.
Arguments comp W A : clear implicits.
Arguments io W A : clear implicits.
Arguments IPure {W A} _.
Arguments IEffect {W A} _.

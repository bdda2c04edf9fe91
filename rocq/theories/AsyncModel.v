(** Model of [AsyncM] ([/repo/src/datatypes/async_monad.rs]).  Definitions only.

    A future is a state machine: one poll acts on the world [W] and either is
    ready with a value, panics, or is pending and leaves the future to poll next.
    Futures may stay pending forever, so the type is coinductive.  Calling a
    user closure or building a value may act on the world and may panic ([eff]
    of [WrapModel]).  Wakers are not modelled: the caller decides when to poll.
    Cloning is the identity and acts on nothing; [Arc] is dropped. *)
From Coq Require Import List Bool.
From Verif Require Import Base Types WrapModel.
Import ListNotations.

(** [std::task::Poll], with the unwinding of a panic as a third result *)
Inductive pstep (A F : Type) : Type := Ready (a : A) | Panicked | Pending (f : F).
Arguments Ready {A F} _.
Arguments Panicked {A F}.
Arguments Pending {A F} _.
CoInductive fut (W A : Type) : Type := Fut { poll : W -> pstep A (fut W A) * W }.
Arguments Fut {W A} _.
Arguments poll {W A} _ _.

Section Async.
Context {W : Type}.
(** [async move { a }] *)
Definition fut_ready {A} (a : A) : fut W A := Fut (fun w => (Ready a, w)).
(** [async move { let a = x.await; k(a).await }]: goes on in the same poll *)
CoFixpoint fut_bind {A B} (x : fut W A) (k : A -> fut W B) : fut W B :=
  Fut (fun w =>
    match poll x w with
    | (Ready a, w') => poll (k a) w'
    | (Panicked, w') => (Panicked, w')
    | (Pending x', w') => (Pending (fut_bind x' k), w')
    end).
(** [async move { e.await }] where evaluating [e] makes the future, on the first poll *)
Definition fut_call {A} (e : eff W (fut W A)) : fut W A :=
  Fut (fun w => match e w with (Ret x, w') => poll x w' | (Panic, w') => (Panicked, w') end).
(** [async move { e }] for a synchronous [e] *)
Definition fut_eff {A} (e : eff W A) : fut W A :=
  Fut (fun w => match e w with (Ret a, w') => (Ready a, w') | (Panic, w') => (Panicked, w') end).
(** [AssertUnwindSafe(x).catch_unwind().await]: [Err] where the poll panics *)
CoFixpoint fut_catch {A} (x : fut W A) : fut W (result A unit) :=
  Fut (fun w =>
    match poll x w with
    | (Ready a, w') => (Ready (Ok a), w')
    | (Panicked, w') => (Ready (Err tt), w')
    | (Pending x', w') => (Pending (fut_catch x'), w')
    end).
(** A branch of [tokio::join!]: running, or finished with its value kept *)
Inductive branch (A : Type) : Type := Running (x : fut W A) | Finished (a : A).
Arguments Running {A} _.
Arguments Finished {A} _.
(** One visit of a branch; [None] where it panics.  A finished one is not polled. *)
Definition branch_step {A} (b : branch A) (w : W) : option (branch A) * W :=
  match b with
  | Finished a => (Some (Finished a), w)
  | Running x =>
      match poll x w with
      | (Ready a, w') => (Some (Finished a), w')
      | (Panicked, w') => (None, w')
      | (Pending x', w') => (Some (Running x'), w')
      end
  end.
(** Both branches, in the given order *)
Definition join_step {A B} (left_first : bool) (x : branch A) (y : branch B) (w : W) : option (branch A * branch B) * W :=
  if left_first then
    match branch_step x w with
    | (None, w1) => (None, w1)
    | (Some x', w1) => match branch_step y w1 with (None, w2) => (None, w2) | (Some y', w2) => (Some (x', y'), w2) end
    end
  else
    match branch_step y w with
    | (None, w1) => (None, w1)
    | (Some y', w1) => match branch_step x w1 with (None, w2) => (None, w2) | (Some x', w2) => (Some (x', y'), w2) end
    end.
(** [tokio::join!(x, y)]: each poll visits both branches.  Which one comes first
    depends on the version of the library, so [order] says it for every poll. *)
CoFixpoint join_branches {A B} (order : nat -> bool) (x : branch A) (y : branch B) : fut W (A * B) :=
  Fut (fun w =>
    match join_step (order 0) x y w with
    | (None, w') => (Panicked, w')
    | (Some (Finished a, Finished b), w') => (Ready (a, b), w')
    | (Some (x', y'), w') => (Pending (join_branches (fun n => order (S n)) x' y'), w')
    end).
Definition fut_join {A B} (order : nat -> bool) (x : fut W A) (y : fut W B) : fut W (A * B) :=
  join_branches order (Running x) (Running y).

(** ** AsyncM, 217-223, 460-464 *)
Inductive asyncm (A : Type) : Type := APure (value : A) | AEffect (run : eff W (fut W A)).
Arguments APure {A} _.
Arguments AEffect {A} _.
(** async_monad.rs 500-509 *)
Definition am_new {A} (f : eff W (fut W A)) : asyncm A := AEffect f.
(** async_monad.rs 538-546 *)
Definition am_pure {A} (value : A) : asyncm A := APure value.
(** async_monad.rs 573-581, and the same match in the other methods *)
Definition am_try_get {A} (m : asyncm A) : fut W A :=
  match m with APure value => fut_ready value | AEffect run => fut_call run end.
(** async_monad.rs 620-658; the closure only builds the [async] block *)
Definition am_fmap {A B} (m : asyncm A) (f : A -> eff W (fut W B)) : asyncm B :=
  match m with
  | APure value => AEffect (eff_ret (fut_call (f value)))
  | AEffect run => AEffect (eff_ret (fut_bind (fut_call run) (fun a => fut_call (f a))))
  end.
(** async_monad.rs 700-750 *)
Definition am_bind {A B} (m : asyncm A) (f : A -> eff W (fut W (asyncm B))) : asyncm B :=
  match m with
  | APure value => AEffect (eff_ret (fut_bind (fut_call (f value)) (fun next => am_try_get next)))
  | AEffect run =>
      AEffect (eff_ret (fut_bind (fut_call run) (fun a =>
        fut_bind (fut_call (f a)) (fun next => am_try_get next))))
  end.
(** async_monad.rs 785-827; two pure values are applied at once, while building *)
Definition am_apply {A B} (order : nat -> bool) (m : asyncm A) (mf : asyncm (A -> eff W B)) : eff W (asyncm B) :=
  match m, mf with
  | APure v, APure f => eff_bind (f v) (fun result => eff_ret (am_pure result))
  | _, _ =>
      eff_ret (AEffect (eff_ret (fut_bind (fut_join order (am_try_get m) (am_try_get mf))
        (fun '(value, func) => fut_eff (func value)))))
  end.
(** async_monad.rs 867-892 *)
Definition am_from_result_or_default {A E} (f : eff W (fut W (result A E))) (default_value : A) : asyncm A :=
  AEffect (eff_ret (fut_bind (fut_call f) (fun r =>
    match r with Ok value => fut_ready value | Err _ => fut_ready default_value end))).
(** async_monad.rs 924-947 *)
Definition am_fmap_owned {A B} (m : asyncm A) (f : A -> eff W (fut W B)) : asyncm B :=
  AEffect (eff_ret (fut_bind (am_try_get m) (fun a => fut_call (f a)))).
(** async_monad.rs 982-1009 *)
Definition am_bind_owned {A B} (m : asyncm A) (f : A -> eff W (fut W (asyncm B))) : asyncm B :=
  AEffect (eff_ret (fut_bind (am_try_get m) (fun a => fut_bind (fut_call (f a)) (fun mb => am_try_get mb)))).
(** async_monad.rs 1042-1074; here nothing runs while building *)
Definition am_apply_owned {A B} (order : nat -> bool) (m : asyncm A) (mf : asyncm (A -> eff W B)) : asyncm B :=
  AEffect (eff_ret (fut_bind (fut_join order (am_try_get m) (am_try_get mf)) (fun '(a, f) => fut_eff (f a)))).
(** async_monad.rs 1112-1152 *)
Definition am_zip_with {A B C} (order : nat -> bool) (m : asyncm A) (other : asyncm B) (f : A -> B -> eff W C) : eff W (asyncm C) :=
  match m, other with
  | APure a, APure b => eff_bind (f a b) (fun result => eff_ret (am_pure result))
  | _, _ =>
      eff_ret (AEffect (eff_ret (fut_bind (fut_join order (am_try_get m) (am_try_get other))
        (fun '(a, b) => fut_eff (f a b)))))
  end.
(** async_monad.rs 1177-1183 *)
Definition am_zip {A B} (order : nat -> bool) (m : asyncm A) (other : asyncm B) : eff W (asyncm (A * B)) :=
  am_zip_with order m other (fun a b => eff_ret (a, b)).
(** async_monad.rs 1221-1250 *)
Definition am_recover_with {A} (m : asyncm A) (default : A) : asyncm A :=
  AEffect (eff_ret (fut_bind (fut_catch (am_try_get m)) (fun result =>
    match result with Ok value => fut_ready value | Err _ => fut_ready default end))).
End Async.
Arguments asyncm W A : clear implicits.
Arguments APure {W A} _.
Arguments AEffect {W A} _.
Arguments branch W A : clear implicits.
Arguments Running {W A} _.
Arguments Finished {W A} _.

(** The project's own tests of [AsyncM] and of lazy contexts, run on the model
    ([/repo/tests/datatypes/test_async_monad.rs], [/repo/tests/error/lazy_context.rs]).
    The cancellation test in [/repo/tests/integration] is about the executor and is left
    out.  These are checks of the model, not proofs of properties. *)
From Coq Require Import List ZArith Bool String.
From Verif Require Import Base Types SumModel WrapModel ErrModel LazyModel MiscModel AsyncModel.
Import ListNotations.
Open Scope Z_scope.

(** One poll is enough where every part is ready at once; [None] for a panic or a pending poll *)
Definition awaited {A} (m : @asyncm unit A) : option A :=
  match poll (am_try_get m) tt with (Ready a, _) => Some a | _ => None end.
Definition made {A} (e : eff unit (@asyncm unit A)) : option A :=
  match e tt with (Ret m, _) => awaited m | _ => None end.
(** [|x| async move { b }], and one whose body panics *)
Definition body {A B} (f : A -> B) (x : A) : eff unit (fut unit B) := eff_ret (fut_ready (f x)).
Definition plain {A B} (f : A -> B) (x : A) : eff unit B := eff_ret (f x).
Definition failing {A} : eff unit (fut unit A) := eff_ret (fut_eff (fun w => (Panic, w))).
Definition left_first : nat -> bool := fun _ => true.
Definition right_first : nat -> bool := fun _ => false.

Example test_async_monad_fmap_bind :
  awaited (am_pure 42) = Some 42 /\
  awaited (am_fmap (am_pure 42) (body (fun x => x * 2))) = Some 84 /\
  awaited (am_fmap_owned (am_pure 42) (body (fun x => [x]))) = Some [42] /\
  awaited (am_bind (am_pure 42) (body (fun x => am_pure (x * 2)))) = Some 84 /\
  awaited (am_bind_owned (am_pure 42) (body (fun x => am_pure [x]))) = Some [42] /\
  awaited (am_bind (am_bind (am_bind (am_pure 42) (body (fun x => am_pure (x + 1))))
    (body (fun x => am_pure (x * 2)))) (body (fun x => am_pure [x]))) = Some [86] /\
  awaited (am_new (eff_ret (fut_ready 123))) = Some 123.
Proof. repeat split. Qed.
Example test_async_monad_apply_zip : forall order, In order [left_first; right_first] ->
  made (am_apply order (am_pure 42) (am_pure (plain (fun x => x * 2)))) = Some 84 /\
  awaited (am_apply_owned order (am_pure 42) (am_pure (plain (fun x => [x])))) = Some [42] /\
  made (am_zip_with order (am_new (eff_ret (fut_ready 10))) (am_new (eff_ret (fut_ready true))) (fun x y => eff_ret (y, x)))
    = Some (true, 10) /\
  made (am_zip order (am_pure 20) (am_pure true)) = Some (20, true).
Proof. intros order [<- | [<- | []]]; repeat split. Qed.
Example test_async_monad_from_result_or_default :
  awaited (am_from_result_or_default (E := string) (eff_ret (fut_ready (Ok 42))) 0) = Some 42 /\
  awaited (am_from_result_or_default (eff_ret (fut_ready (Err "error"%string))) 100) = Some 100.
Proof. repeat split. Qed.
Example test_async_monad_recover_with : forall order, In order [left_first; right_first] ->
  awaited (am_new (@failing Z)) = None /\ awaited (am_recover_with (am_new failing) 0) = Some 0 /\
  awaited (am_recover_with (am_pure 42) 0) = Some 42 /\
  awaited (am_recover_with (am_bind (am_pure 1) (fun _ => failing)) 99) = Some 99 /\
  match am_zip_with order (am_pure 1) (am_new failing) (fun x y => eff_ret (x + y)) tt with
  | (Ret m, _) => awaited (am_recover_with m 0) = Some 0
  | _ => False
  end.
Proof. intros order [<- | [<- | []]]; repeat split. Qed.

(** ** error/lazy_context.rs: the world is the flag the context sets *)
Definition flagging : eff bool string := fun _ => (Ret "yes"%string, true).
Example test_lazy_context_evaluation :
  snd (lz_with_context_result (E := string) (Ok 42) flagging false) = false /\
  snd (lz_with_context_result (T := Z) (Err "oops"%string) flagging false) = true.
Proof. repeat split. Qed.
(** ** utils_test/maybe_error_test.rs *)
Example test_maybe_try_unwrap :
  mb_try_unwrap (Just 42) = Ok 42 /\ mb_to_standard_result (Just 42) = Ok 42 /\
  match mb_try_unwrap (@Nothing Z) with
  | Ok _ => False
  | Err e => ce_core e = "Cannot unwrap Nothing value"%string /\
             ce_context e = ["Called `try_unwrap()` on a `Nothing` value"%string]
  end.
Proof. repeat split. Qed.

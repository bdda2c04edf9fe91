(** Examples from the documentation of [/repo/src/datatypes/{state,io}.rs] and
    [/repo/src/traits/{foldable,monoid,semigroup}.rs], run on the model.  Printing of
    integers is left out, tuples stand for formatted text.  These are checks of the model,
    not proofs of properties. *)
From Coq Require Import List ZArith Bool String.
From Verif Require Import Base Types SumModel EffModel ErrModel SemiModel IOModel.
Import ListNotations.
Open Scope outcome_scope.
Open Scope string_scope.
Open Scope Z_scope.
Open Scope list_scope.

(** ** state.rs; a computation given by a plain function *)
Definition st {S A} (f : S -> A * S) : state S A := st_new (fun s => Ret (f s)).
(** 10-60 *)
Example doc_state_module :
  let counter := st (fun c => (c, c + 1)) in
  st_run (st_bind counter (fun a => st_bind counter (fun b => st_fmap (fun c => (a, b, c)) counter))) 0 = Ret ((0, 1, 2), 3) /\
  st_run (st_bind st_get (fun cur => st_bind (st_modify (fun s => s ++ " world")%string)
    (fun _ => st_fmap (fun fin => (cur, fin)) st_get))) "hello" = Ret (("hello", "hello world"), "hello world").
Proof. split; reflexivity. Qed.
(** 169, 184, 371, 411 *)
Example doc_state_run :
  st_run (st (fun s => (s, s + 1))) 0 = Ret (0, 1) /\ st_run (st (fun s => (s, s + 1))) 10 = Ret (10, 11) /\
  st_run (st_bind st_get (fun x => st_bind (st_modify (fun s => s + x)) (fun _ => st_bind st_get (fun y =>
    st_bind (st_put (y * 2)) (fun _ => st_pure y))))) 2 = Ret (4, 8) /\
  st_run (st (fun s => (s, s * 2))) 21 = Ret (21, 42).
Proof. repeat split. Qed.
(** 206: a stack kept with its top at the end *)
Definition push (x : Z) : state (list Z) unit := st (fun l => (tt, l ++ [x])).
Definition pop : state (list Z) (option Z) := st (fun l => (hd_error (rev l), removelast l)).
Example doc_state_stack :
  st_run (st_bind (st_bind (st_bind (st_bind (push 1) (fun _ => push 2)) (fun _ => push 3)) (fun _ => pop))
    (fun x => st_bind pop (fun y => st_pure (x, y)))) [] = Ret ((Some 3, Some 2), [1]).
Proof. reflexivity. Qed.
(** 296-340, 450-480, 505-520 *)
Example doc_state_bind :
  st_run (st_bind (st (fun s => (s, s * 2))) (fun x => st (fun s => (x + s, s + 1)))) 0 = Ret (0, 1) /\
  st_run (st_bind (st_bind (st (fun s => (s * 2, s))) (fun x => st (fun s => (x + s, s + 1))))
    (fun x => st (fun s => (("Result", x), s * 2)))) 3 = Ret (("Result", 9), 8) /\
  st_eval (st (fun s => (s * 2, s + 1))) 5 = Ret 10 /\
  st_exec (fold_left (fun acc op => st_bind acc (fun _ => op))
    [st_modify (fun s => s + 5); st_modify (fun s => s * 2); st_modify (fun s => s - 3)] (st_pure tt)) 0 = Ret 7.
Proof. repeat split. Qed.
Definition fibonacci : state (Z * Z) Z :=
  st_bind st_get (fun '(a, b) => st_bind (st_put (b, a + b)) (fun _ => st_pure a)).
Fixpoint fibs (n : nat) (s : Z * Z) : outcome (list Z) :=
  match n with
  | 0%nat => Ret []
  | S n' => do v <- st_eval fibonacci s; do s' <- st_exec fibonacci s; do r <- fibs n' s'; Ret (v :: r)
  end.
Example doc_state_fibonacci : fibs 10 (0, 1) = Ret [0; 1; 1; 2; 3; 5; 8; 13; 21; 34].
Proof. reflexivity. Qed.
(** 585, 679, 749, 802, 855, 896, 940, 985, 1254 *)
Example doc_state_rest :
  let even_odd := st_bind (st (fun s => (s, s + 1))) (fun x =>
    if Z.even x then st (fun s => (("Even", x), s * 2)) else st (fun s => (("Odd", x), s + 10))) in
  st_run (st_fmap (fun x => x * 2) (st (fun s => (s, s + 1)))) 5 = Ret (10, 6) /\
  st_run even_odd 4 = Ret (("Even", 4), 10) /\ st_run even_odd 5 = Ret (("Odd", 5), 16) /\
  st_run (st_pure 42) 99 = Ret (42, 99) /\
  st_run (st_apply (st_pure (fun x => x + 1)) (st_pure 41)) 0 = Ret (42, 0) /\
  st_run (st_apply (st (fun s => ((fun x => x + s), s + 1))) (st (fun s => (s * 2, s + 2)))) 5 = Ret (17, 8) /\
  st_exec (st (fun s => (s * 2, s + 1))) 42 = Ret 43 /\
  st_run st_get 42 = Ret (42, 42) /\ st_run (st_bind st_get (fun s => st_pure (s * 2))) 21 = Ret (42, 21) /\
  st_run (st_put 42) 0 = Ret (tt, 42) /\ st_run (st_modify (fun x => x + 1)) 41 = Ret (tt, 42) /\
  st_run (stt_to_state (stt_new (A := Z) (fun s => Ret (mkId (s + 1, s + 1))))) 1 = Ret (2, 2).
Proof. repeat split. Qed.
(** 1014-1230 *)
Definition checked : state Z (result Z string) :=
  st (fun s => if 0 <? s then (Ok (s * 2), s + 1) else (Err "Value must be positive", s)).
Definition core {T} (r : result T (cerr string)) : option (string * list string) :=
  match r with Err e => Some (ce_core e, ce_context e) | _ => None end.
Example doc_state_try :
  let m := "Value must be positive" in let c := "processing user input" in
  st_try_run checked 5 = Ret (Ok 10, 6) /\ omap (fun p => (core (fst p), snd p)) (st_try_run checked (-1)) = Ret (Some (m, []), -1) /\
  st_try_run_ctx checked 5 c = Ret (Ok 10, 6) /\
  omap (fun p => (core (fst p), snd p)) (st_try_run_ctx checked (-1) c) = Ret (Some (m, [c]), -1) /\
  st_try_eval checked 5 = Ret (Ok 10) /\ omap core (st_try_eval checked (-1)) = Ret (Some (m, [])) /\
  st_try_eval_ctx checked 5 c = Ret (Ok 10) /\ omap core (st_try_eval_ctx checked (-1) c) = Ret (Some (m, [c])) /\
  st_try_exec checked 5 = Ret (Ok 6) /\ omap core (st_try_exec checked (-1)) = Ret (Some (m, [])) /\
  st_try_exec_ctx checked 5 c = Ret (Ok 6) /\ omap core (st_try_exec_ctx checked (-1) c) = Ret (Some (m, [c])).
Proof. repeat split. Qed.

(** ** io.rs; nothing observes the world *)
Definition ran {A} (m : comp unit (io unit A)) : res A := snd (cbind m (fun x => io_run x) tt).
Definition run1 {A} (x : io unit A) : res A := snd (io_run x tt).
Definition new {A} (a : A) : io unit A := io_new (cret a).
Definition failing {A} (msg : string) : io unit A := io_new (fun w => (w, Panicked (PStr msg))).
Definition io_core {A} (r : res (result A (cerr ioerror))) : option (ioerror * list string) :=
  match r with Done (Err e) => Some (ce_core e, ce_context e) | _ => None end.
(** 11-60, 146, 187, 503 *)
Example doc_io_module :
  ran (io_fmap (io_pure 42) (fun x => cret (x * 2))) = Done 84 /\
  ran (cbind (io_bind (io_pure 42) (fun x => cret (io_pure (x + 10)))) (fun y => io_bind y (fun x => cret (io_pure (x * 2))))) = Done 104 /\
  run1 (io_combine (io_pure 42) (new 10)) = Done (42, 10) /\ snd (io_try_get (new 21) tt) = Done (Ok 21) /\
  run1 (io_recover (failing "failed") (fun _ => cret (io_pure 0))) = Done 0 /\
  (match snd (io_into_error_pipeline (io_pure 100) tt) with Done p => ep_finish (ep_with_context p "Step 1") = Ok 100 | _ => False end) /\
  run1 (io_pure 42) = Done 42 /\ snd (io_try_get (io_pure 42) tt) = Done (Ok 42) /\
  ran (cbind (io_bind (io_pure 42) (fun x => cret (new (x + 1)))) (fun y => io_fmap y (fun x => cret (x * 2)))) = Done 86 /\
  ran (io_fmap (new 42) (fun x => cret (x * 2))) = Done 84.
Proof. repeat split. Qed.
(** 173, 708, 729, 953, 1008, 1053 *)
Example doc_io_errors :
  io_core (snd (io_try_get (failing (A := Z) "fail") tt)) = Some (OtherError "fail", []) /\
  io_is_pure (io_pure (W := unit) 42) = true /\ io_is_pure (new 42) = false /\ io_is_effect (io_pure (W := unit) 42) = false /\ io_is_effect (new 42) = true /\
  snd (io_try_get_with_context (io_pure 42) "calculating answer" tt) = Done (Ok 42) /\
  io_core (snd (io_try_get_with_context (failing (A := Z) "computation failed") "critical calculation" tt)) =
    Some (OtherError "computation failed", ["critical calculation"]) /\
  io_core (snd (io_try_get_composable_with_context (failing (A := Z) "database error") "fetching user data" tt)) =
    Some (OtherError "database error", ["fetching user data"]).
Proof. repeat split. Qed.
(** 1121-1210 *)
Example doc_io_recover :
  run1 (io_recover (io_pure 42) (fun _ => cret (io_pure 0))) = Done 42 /\ run1 (io_recover_with (failing "failed") 42) = Done 42 /\
  run1 (io_recover_with (io_pure 100) 42) = Done 100 /\
  snd (io_sequence_composable [io_pure 1; io_pure 2; io_pure 3] tt) = Done (Ok [1; 2; 3]) /\
  match snd (io_sequence_composable [io_pure 1; failing "error 1"; io_pure 3; failing "error 2"] tt) with
  | Done (Err es) => map (@ce_core _) es = [OtherError "error 1"; OtherError "error 2"]
  | _ => False
  end.
Proof. repeat split. Qed.
(** 1247-1290, 1374, 1398, 1431, 1455 *)
Example doc_io_apply :
  ran (io_apply (io_pure 10) (io_pure (fun x => cret (x * 2)))) = Done 20 /\
  ran (io_apply (io_pure 5) (new (fun x => cret (x * 3)))) = Done 15 /\
  ran (cbind (io_apply (io_pure 10) (io_pure (fun x => cret (x + 5)))) (fun y => io_apply y (io_pure (fun x => cret (x * 2))))) = Done 30 /\
  run1 (io_delay_sync (cret tt) 123) = Done 123 /\ run1 (io_when (cret true) (cret 42) (cret 0)) = Done 42 /\
  run1 (io_combine (io_pure 10) (io_pure 20)) = Done (10, 20) /\ run1 (io_sequence [io_pure 1; io_pure 2; io_pure 3]) = Done [1; 2; 3].
Proof. repeat split. Qed.

(** ** foldable.rs *)
Example doc_foldable :
  let v := vec_fold_left [1; 2; 3; 4; 5] in let w := vec_fold_left [4; 2; 7; 1; 5] in let e := vec_fold_left (@nil Z) in
  v _ 0 Z.add = 15 /\ option_fold_left (Some 42) _ 0 (fun _ x => x * 2) = 84 /\ option_fold_left (@None Z) _ 100 (fun a _ => a) = 100 /\
  result_fold_left (E := string) (Ok 42) _ 0 (fun _ x => x + 10) = 52 /\ result_fold_left (A := Z) (Err "error") _ 100 (fun a _ => a) = 100 /\
  fo_sum_values v Z.add 0 = 15 /\ fo_any v (fun x => 10 <? x) = false /\ fo_all v (fun x => x <? 10) = true /\
  vec_fold_left ["a"; "b"; "c"] _ "" String.append = "abc" /\ vec_fold_right ["a"; "b"; "c"] _ "" String.append = "abc" /\
  vec_fold_right [1; 2; 3; 4] _ 0 Z.add = 10 /\ fo_fold_map v Z.add 0 (fun n => n) = 15 /\ fo_fold_monoid v Z.add 0 (fun n => n) = 15 /\
  fo_find v Z.even = Some 2 /\ fo_find v (fun n => 10 <? n) = None /\
  fo_all (vec_fold_left [2; 4; 6; 8]) Z.even = true /\ fo_all (vec_fold_left [2; 4; 5; 8]) Z.even = false /\
  fo_any (vec_fold_left [1; 3; 5; 6]) Z.even = true /\ fo_any (vec_fold_left [1; 3; 5; 7]) Z.even = false /\
  fo_contains v Z.eqb 3 = true /\ fo_contains v Z.eqb 10 = false /\
  fo_is_sorted v Z.compare = true /\ fo_is_sorted (vec_fold_left [1; 3; 2; 4; 5]) Z.compare = false /\
  fo_to_vec (option_fold_left (Some 42)) = [42] /\ fo_to_vec (option_fold_left (@None Z)) = [] /\
  fo_product_values (vec_fold_left [1; 2; 3; 4]) Z.mul 1 = 24 /\ fo_maximum w Z.compare = Some 7 /\ fo_maximum e Z.compare = None /\
  fo_minimum w Z.compare = Some 1 /\ fo_minimum e Z.compare = None /\
  fo_reduce (vec_fold_left [1; 2; 3; 4]) Z.add = Some 10 /\ fo_reduce e Z.add = None.
Proof. repeat split. Qed.

(** ** monoid.rs, semigroup.rs *)
Example doc_monoid :
  let c := string_combine in
  c "Hello, " "world!" = "Hello, world!" /\ c "Hello" "" = "Hello" /\ c "" "Hello" = "Hello" /\
  vec_combine [1; 2; 3] [] = [1; 2; 3] /\ vec_combine [] [1; 2; 3] = [1; 2; 3] /\ vec_combine [1; 2; 3] [4; 5; 6] = [1; 2; 3; 4; 5; 6] /\
  mo_combine_all c "" ["Hello"; " "; "World"] = "Hello World" /\ mo_combine_all c "" [] = "" /\
  mo_is_empty "" String.eqb "" = true /\ mo_is_empty "" String.eqb "Hello" = false /\
  mo_repeat c "" "Hello" 3 = "HelloHelloHello" /\ mo_repeat c "" "World" 0 = "" /\
  mo_mconcat c "" ["Hello"; " "; "World"] = "Hello World" /\ mo_mconcat c "" [] = "" /\
  mo_power c "" "ab" 0 = "" /\ mo_power c "" "ab" 1 = "ab" /\ mo_power c "" "ab" 3 = "ababab" /\
  mo_power vec_combine [] [1; 2] 0 = [] /\ mo_power vec_combine [] [1; 2] 1 = [1; 2] /\
  mo_power vec_combine [] [1; 2] 3 = [1; 2; 1; 2; 1; 2] /\
  sg_combine_all Z.add 5 [10; 20; 30] = 65 /\ sg_combine_all_owned Z.add [1; 2; 3] = Ret 6 /\
  sg_combine_all_values Z.add [1; 2; 3; 4] = Some 10 /\ sg_combine_all_values Z.add [] = None /\ sg_combine_values Z.mul 2 [3; 4] = 24.
Proof. repeat split. Qed.

(** The project's own tests of the error layer, the utilities, the function category and
    the fallible runners, run on the model ([/repo/tests/error/], [/repo/tests/utils_test/],
    [/repo/tests/category/], [/repo/tests/traits/{monad_error,monad_plus}.rs],
    [/repo/tests/transformers/]).  These are checks of the model, not proofs of properties. *)
From Coq Require Import List ZArith Bool String.
From Verif Require Import Base Types SumModel ValidatedModel EffModel ErrModel UtilModel.
Import ListNotations.
Open Scope outcome_scope.
Open Scope string_scope.
Open Scope Z_scope.
Open Scope list_scope.

(** ** error/categorical_laws.rs *)
Example test_error_category :
  res_lift (E := string) 42 = Ok 42 /\ ei_lift (E := string) 42 = Right 42 /\ va_lift (E := string) 42 = Valid 42 /\
  res_handle_error (T := Z) "connection failed" = Err "connection failed" /\
  ei_handle_error (T := Z) "parse error" = Left "parse error" /\
  va_errors (va_handle_error (T := Z) "validation failed") = ["validation failed"].
Proof. repeat split. Qed.
Example test_functor_composition_law :
  re_fmap (E := string) (fun x => x + 10) (re_fmap (fun x => x * 2) (Ok 5)) = Ok 20 /\
  ei_fmap (L := string) (fun x => x + 10) (ei_fmap (fun x => x * 2) (Right 5)) = Right 20 /\
  va_fmap (E := string) (fun x => x + 10) (va_fmap (fun x => x * 2) (Valid 5)) = Valid 20.
Proof. repeat split. Qed.
Example test_error_ops :
  res_recover (E := string) (Ok 42) (fun _ => Ok 0) = Ok 42 /\ res_recover (Err "failed") (fun _ => Ok 100) = Ok 100 /\
  res_bimap (Ok 42) (fun x => x * 2) (fun e => "Error: " ++ e)%string = Ok 84 /\
  res_bimap (Err "fail") (fun x => x * 2) (fun e => "Error: " ++ e)%string = Err "Error: fail".
Proof. repeat split. Qed.
Example test_error_transformation_preserves_structure :
  SumModel.ei_to_result (result_to_either (Ok 42 : result Z string)) = Ok 42 /\
  SumModel.ei_to_result (result_to_either (Err "error" : result Z string)) = Err "error" /\
  result_to_either (Ok 42 : result Z string) = Right 42 /\ result_to_either (Err "error" : result Z string) = Left "error".
Proof. repeat split. Qed.
Fixpoint tens (n : nat) (e : cerr string) : cerr string :=
  match n with 0%nat => e | S n' => ce_with_context (tens n' e) "context level" end.
Example test_deep_error_context_chain :
  let e := ce_with_context (tens 99 (ce_new "core error")) "context level 99" in
  List.length (ce_context e) = 100%nat /\ ce_core e = "core error" /\ hd_error (ce_context e) = Some "context level 99".
Proof. repeat split. Qed.
Example test_error_pipeline_composition :
  ep_finish (ep_with_context (ep_map (ep_map (ep_new (E := string) (Ok 10)) (fun x => x * 2)) (fun x => x + 5))
    "calculation failed") = Ok 25 /\
  ep_finish (ep_map (ep_recover (ep_with_context (ep_new (Err "initial error")) "operation failed") (fun _ => Ok 42))
    (fun x => x * 2)) = Ok 84.
Proof. repeat split. Qed.
(** ** error/context_tests.rs *)
Definition contexts {T} (r : result T (cerr string)) : option (list string) :=
  match r with Ok _ => None | Err e => Some (ce_context e) end.
Example test_context_dropped_on_success :
  contexts (ep_finish (ep_and_then (ep_with_context (ep_new (Ok 1)) "context 1") (fun _ => @Err unit _ "error"))) = Some [] /\
  contexts (ep_finish (ep_with_context (ep_new (@Err unit _ "original error")) "context 1")) = Some ["context 1"] /\
  contexts (ep_finish (ep_with_context (ep_and_then (ep_with_context (ep_new (Ok 1)) "context A")
    (fun _ => @Err unit _ "error")) "context B")) = Some ["context B"].
Proof. repeat split. Qed.
(** ** error/mod.rs *)
Example test_composable_error :
  let e := ce_with_context (ce_with_context (ce_new "core error") "step 1 failed") "operation failed" in
  ce_context (ce_new "core error") = [] /\ ce_code (ce_new "core error") = None /\
  ce_core e = "core error" /\ ce_context e = ["operation failed"; "step 1 failed"] /\
  ce_core (ce_with_code "not found" 404) = "not found" /\ ce_code (ce_with_code "not found" 404) = Some 404%nat.
Proof. repeat split. Qed.
Example test_with_context_function :
  ce_core (cx_with_context "core error" "operation failed") = "core error" /\
  ce_context (cx_with_context "core error" "operation failed") = ["operation failed"] /\
  ce_core (core_to_composable "test error") = "test error" /\ ce_context (core_to_composable "test error") = [].
Proof. repeat split. Qed.
Example test_error_pipeline :
  ep_finish (ep_recover (ep_with_context (ep_new (Err "parse error")) "Failed to process input") (fun _ => Ok 42)) = Ok 42 /\
  match ep_finish (ep_with_context (ep_with_context (ep_new (@Err Z _ 404)) "Request failed") "Server error") with
  | Ok _ => False
  | Err c => ce_core c = 404 /\ ce_context c = ["Server error"; "Request failed"]
  end.
Proof. repeat split. Qed.
Example test_error_chain_formatting :
  ce_error_chain (fun s => s) (fun _ => "") (ce_with_context (ce_with_context (ce_new "file not found")
    "failed to load config") "application startup failed") =
  "application startup failed -> failed to load config -> file not found".
Proof. reflexivity. Qed.

(** ** utils_test/categorial_utils_test.rs *)
Example test_categorical_utils :
  let div := fun x y => if y =? 0 then None else Some (x / y) in
  cu_map_option (Some 1) (fun x => x + 1) = Some 2 /\ cu_map_option None (fun x => x + 1) = None /\
  cu_map_result (E := string) (Ok 1) (fun x => x + 1) = Ok 2 /\ cu_map_result (Err "error") (fun x => x + 1) = Err "error" /\
  cu_flat_map_option (Some 20) (fun x => div x 4) = Some 5 /\ cu_flat_map_option (Some 10) (fun x => div x 0) = None /\
  cu_flat_map_option None (@Some Z) = None /\
  cu_compose (fun x => x * 2) (fun x => x + 1) 5 = 12 /\ cu_pipe (fun x => x + 1) (fun x => x * 2) 3 = 8 /\
  cu_flip Z.sub 10 3 = -7 /\ cu_flip Z.div 2 8 = 4 /\
  cu_filter_map_collect [Some 1; None; Some 3; Some 4] (fun s => s) = [1; 3; 4] /\
  cu_sequence_options [Some 1; Some 2; Some 3] = Some [1; 2; 3] /\ cu_sequence_options [Some 1; None; Some 3] = None /\
  cu_sequence_options (@nil (option Z)) = Some [] /\
  cu_sequence_results (E := string) [Ok 1; Ok 2; Ok 3] = Ok [1; 2; 3] /\
  cu_sequence_results [Ok 1; Err "error"; Ok 3] = Err "error".
Proof. repeat split. Qed.
(** ** utils_test/error_utils_test.rs *)
Example test_error_utils :
  let div := fun (s : unit) x => (s, if x =? 0 then Err "division by zero" else Ok (10 / x)) in
  eu_sequence (E := string) [Ok 1; Ok 2; Ok 3] = Ok [1; 2; 3] /\ eu_sequence [Ok 1; Err "error"; Ok 3] = Err "error" /\
  eu_traverse (E := string) (fun s x => (s, Ok (x * 2))) tt [1; 2; 3] = (tt, Ok [2; 4; 6]) /\
  eu_traverse div tt [1; 0; 3] = (tt, Err "division by zero") /\
  eu_traverse_validated (E := string) (fun s x => (s, Ok (x * 2))) tt [1; 2; 3] = (tt, Valid [2; 4; 6]) /\
  eu_traverse_validated div tt [1; 0; 3; 0; 5] = (tt, Invalid ["division by zero"; "division by zero"]) /\
  re_to_validated (E := string) (Ok 42) = va_valid 42 /\ re_to_validated (T := Z) (Err "error") = va_invalid "error" /\
  re_to_either (E := string) (Ok 42) = Right 42 /\ re_to_either (T := Z) (Err "error") = Left "error" /\
  ErrModel.ei_to_result (E := string) (Right 42) = Ret (Ok 42) /\ ErrModel.ei_to_result (T := Z) (Left "error") = Ret (Err "error") /\
  va_to_result (E := string) (va_valid 42) = Ret (Ok 42) /\ va_to_result (A := Z) (va_invalid "error") = Ret (Err "error") /\
  eu_sequence_with_error (E := string) ErrModel.ei_to_result (fun x : Z => x) [Right 1; Right 2; Right 3] = Ret (Ok [1; 2; 3]) /\
  eu_sequence_with_error ErrModel.ei_to_result (fun x : Z => x) [Right 1; Left "error"; Right 3] = Ret (Err "error").
Proof. repeat split. Qed.
Example test_custom_error :
  let c := ae_with_context "Network error" "while connecting" in
  ae_message (ae_new (C := unit) "File not found") = "File not found" /\ ae_context (ae_new (C := unit) "x") = None /\
  ae_message c = "Network error" /\ ae_context c = Some "while connecting" /\
  ae_message (ae_map (fun m => "ERROR: " ++ m)%string c) = "ERROR: Network error" /\
  ae_context (ae_map (fun m => "ERROR: " ++ m)%string c) = Some "while connecting".
Proof. repeat split. Qed.
(** ** utils_test/{hkt_utils_test,transform_utils_test}.rs *)
Example test_hkt_and_transform_utils :
  hu_filter_map [1; 2; 3; 4; 5; 6] Z.even (fun n => n * n) = [4; 16; 36] /\
  hu_filter_map [1; 3; 5] Z.even (fun n => n * 2) = [] /\
  tu_transform_all (mb_fmap (fun x => x * 2)) [Just 1; Just 2; Nothing; Just 4] = [Just 2; Just 4; Nothing; Just 8] /\
  tu_transform_chain (mb_fmap (fun x => x * 2)) (Some (Just 5)) = Some (Just 10) /\
  tu_transform_chain (mb_fmap (fun x => x * 2)) (Some Nothing) = Some Nothing /\
  tu_transform_chain (mb_fmap (fun x => x * 2)) None = None /\
  pl_extract (pl_map (option_map (fun x => x * 3)) (pl_new (Some 5))) = Some 15 /\
  pl_extract (pl_map (ei_fmap (fun x => x * 2)) (pl_new (Left "error"))) = Left "error".
Proof. repeat split. Qed.

(** ** category/function_category.rs *)
Example test_function_category :
  let double := fc_arrow (fun x => x * 2) in let inc := fc_arrow (fun x => x + 1) in
  let even2 := fc_when Z.even (fun x => x * 2) in
  map (fc_compose inc double) [5; 0; -3] = [11; 1; -5] /\
  fc_first double (5, "hello") = (10, "hello") /\ fc_second double ("hello", 5) = ("hello", 10) /\
  fc_split double (fun x => x * x) (-2) = (-4, 4) /\ fc_combine double String.length (5, "hello") = (10, 5%nat) /\
  fc_both (fun x => x * 2) (3, 5) = (6, 10) /\ map even2 [4; 3; 0; -5; -6] = [8; 3; 0; -5; -12] /\
  fc_first (fc_first double) ((5, "hello"), "world") = ((10, "hello"), "world") /\
  fc_combine (fc_first double) (fc_second inc) ((3, "test"), ("data", 7)) = ((6, "test"), ("data", 8)) /\
  (let cube := fun x => x * x * x in fc_compose cube cube 2 = 512) /\
  fold_left (fun c _ => fc_compose c inc) (seq 0 100) inc 0 = 101.
Proof. repeat split. Qed.

(** ** traits/monad_error.rs, traits/monad_plus.rs *)
Example test_monad_error :
  let h := fun e => if String.eqb e "not found" then Ok 0 else Err e in
  re_throw (A := Z) "error" = Err "error" /\ re_catch (Err "not found") h = Ok 0 /\ re_catch (Ok 42) h = Ok 42 /\
  re_map_error_to (A := Z) (Err "not found") (fun e => "Error: " ++ e)%string = Err "Error: not found" /\
  re_map_error_to (Ok 42) (fun e : string => e) = Ok 42 /\
  op_throw (A := Z) tt = None /\ op_catch None (fun _ => Some 0) = Some 0 /\ op_catch (Some 42) (fun _ => Some 0) = Some 42 /\
  op_map_error_to (A := Z) None (fun _ => "Not found") = Err "Not found" /\
  op_map_error_to (Some 42) (fun _ => "Not found") = Ok 42 /\
  op_mplus None (Some 42) = Some 42 /\ op_mplus (Some 42) None = Some 42 /\ op_mplus (Some 1) None = Some 1 /\
  op_mplus (@None Z) None = None.
Proof. repeat split. Qed.

(** ** transformers/{state_t,reader_t}.rs *)
Definition safe_div : stateT Z (result (Z * Z) string) Z :=
  stt_new (fun s => Ret (if s =? 0 then Err "Division by zero" else Ok (s, 100 / s))).
Definition core {T} (r : outcome (result T (cerr string))) : option (string * list string) :=
  match r with Ret (Err e) => Some (ce_core e, ce_context e) | _ => None end.
Example test_state_t_standardized_error_handling :
  stt_run safe_div 4 = Ret (Ok (4, 25)) /\ stt_run safe_div 0 = Ret (Err "Division by zero") /\
  stt_try_run safe_div 4 = Ret (Ok (4, 25)) /\ core (stt_try_run safe_div 0) = Some ("Division by zero", []) /\
  stt_try_run_ctx safe_div 4 "processing user input" = Ret (Ok (4, 25)) /\
  core (stt_try_run_ctx safe_div 0 "processing user input") = Some ("Division by zero", ["processing user input"]) /\
  stt_try_eval safe_div 4 = Ret (Ok 25) /\ core (stt_try_eval safe_div 0) = Some ("Division by zero", []) /\
  stt_try_eval_ctx safe_div 4 "evaluating result" = Ret (Ok 25) /\
  core (stt_try_eval_ctx safe_div 0 "evaluating result") = Some ("Division by zero", ["evaluating result"]) /\
  stt_try_exec (stt_new (A := Z) (fun s => Ret (if s =? 0 then Err "Division by zero" else Ok (s + 1, 100 / s)))) 4 = Ret (Ok 5) /\
  stt_run (stt_map_error safe_div String.length) 0 = Ret (Err 16%nat) /\
  stt_run (stt_map_error safe_div String.length) 5 = Ret (Ok (5, 20)).
Proof. repeat split. Qed.
Definition rdiv : readerT Z (result Z string) Z :=
  mkReaderT (fun n => if n =? 0 then Err "Division by zero" else Ok (100 / n)).
Example test_reader_t_standardized_error_handling :
  rdt_try_run rdiv 4 = Ok 25 /\ core (Ret (rdt_try_run rdiv 0)) = Some ("Division by zero", []) /\
  rdt_try_run_ctx rdiv 4 "processing user input" = Ok 25 /\
  core (Ret (rdt_try_run_ctx rdiv 0 "processing user input")) = Some ("Division by zero", ["processing user input"]) /\
  rdt_run (rdt_map_error rdiv String.length) 0 = Err 16%nat /\ rdt_run (rdt_map_error rdiv String.length) 5 = Ok 20.
Proof. repeat split. Qed.

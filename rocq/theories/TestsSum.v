(** The project's own tests of [Maybe], [Either], [Id] and the wrapper types, run on the
    model ([/repo/tests/datatypes/{test_maybe,test_either,test_id,test_wrapper}.rs]; the
    numbers are the lines of the test).  These are checks of the model, not proofs of
    properties. *)
From Coq Require Import List ZArith Bool String.
From Verif Require Import Base Types SumModel WrapModel.
Import ListNotations.
Open Scope outcome_scope.
Open Scope string_scope.
Open Scope Z_scope.

(** ** test_maybe.rs *)
Example test_maybe_construction :
  mb_when true 7 = Just 7 /\ mb_when false 7 = Nothing /\
  mb_is_just (Just 10) = true /\ mb_is_nothing (@Nothing Z) = true /\
  mb_to_option (Just 10) = Some 10 /\ mb_to_option (@Nothing Z) = None.
Proof. repeat split. Qed.
Example test_maybe_unwrap :
  mb_unwrap_or (Just 42) 0 = 42 /\ mb_unwrap_or Nothing 0 = 0 /\
  mb_unwrap (Just 42) = Ret 42 /\ mb_unwrap (@Nothing Z) = Panic.
Proof. repeat split. Qed.
Example test_maybe_fmap_bind_join :
  let f := fun x => if Z.odd x then Just (x * 10) else Nothing in
  mb_fmap String.length (Just "hi") = Just 2%nat /\ mb_fmap String.length Nothing = Nothing /\
  mb_fmap (fun s => s ++ "!")%string (Just "abc") = Just "abc!" /\
  mb_bind (Just 3) f = Just 30 /\ mb_bind Nothing f = Nothing /\
  mb_bind (Just "ab") (fun s => if Nat.eqb (String.length s) 2 then Just (s ++ "c")%string else Nothing) = Just "abc" /\
  mb_join (fun x => x) (Just (Just 9)) = Just 9 /\
  mb_join (fun x => x) (Just (@Nothing Z)) = Nothing /\ mb_join (fun x => x) (@Nothing (maybe Z)) = Nothing.
Proof. repeat split. Qed.
Example test_maybe_fmap_or_filter :
  mb_fmap_or (Just 41) 0 (fun x => x + 1) = 42 /\ mb_fmap_or Nothing 0 (fun x => x + 1) = 0 /\
  mb_filter (fun x => 40 <? x) (Just 41) = Just 41 /\ mb_filter (fun x => 100 <? x) (Just 41) = Nothing /\
  mb_filter (fun x => 0 <? x) Nothing = Nothing.
Proof. repeat split. Qed.
Example test_maybe_conversions :
  mb_to_vec (Just 3) = [3] /\ mb_to_vec (@Nothing Z) = [] /\
  mb_from_option (Some 4) = Just 4 /\ mb_from_option (@None Z) = Nothing /\
  mb_from_result (E := string) (Ok 7) = Just 7 /\ mb_from_result (T := Z) (Err "e") = Nothing /\
  mb_from_iter [9; 8; 7] = Just 9 /\ mb_from_iter (@nil Z) = Nothing /\
  mb_to_result (Just 1) "err" = Ok 1 /\ mb_to_result (@Nothing Z) "err" = Err "err".
Proof. repeat split. Qed.
Example test_maybe_alternative :
  let a := Just 1 in let b := Just 2 in let n := @Nothing Z in
  mb_guard true = Just tt /\ mb_guard false = Nothing /\
  mb_alt a b = a /\ mb_alt a n = a /\ mb_alt n b = b /\ mb_alt n n = n /\
  mb_mplus a b = a /\ mb_mplus a n = a /\ mb_mplus n b = b /\ mb_mplus n n = n /\
  mb_mplus_owned a b = a /\ mb_mplus_owned n b = b.
Proof. repeat split. Qed.

(** ** test_either.rs *)
Notation E := (either string Z).
Definition R (x : Z) : E := Right x.
Definition L (s : string) : E := Left s.
Example test_either_creation_and_access :
  ei_is_left (L "x") = true /\ ei_is_right (L "x") = false /\ ei_unwrap_left (L "x") = Ret "x" /\
  ei_is_left (R 1) = false /\ ei_is_right (R 1) = true /\ ei_unwrap (R 1) = Ret 1 /\ ei_right_ref (R 1) = Ret 1 /\
  ei_unwrap_left (R 1) = Panic /\ ei_unwrap (L "x") = Panic.
Proof. repeat split. Qed.
Example test_either_mapping :
  ei_fmap_left (fun x => x * 2) (Left 42) = @Left Z string 84 /\
  ei_fmap_left (fun s => s ++ "!")%string (R 1) = R 1 /\
  ei_fmap (fun x => x + 1) (R 42) = R 43 /\ ei_fmap (fun x => x * 2) (L "error") = L "error".
Proof. repeat split. Qed.
Example test_either_applicative :
  let inc : either string (Z -> Z) := Right (fun x => x + 1) in
  let bad : either string (Z -> Z) := Left "function error" in
  let f3 := fun x y z => x * y + z in
  ei_apply inc (R 42) = R 43 /\ ei_apply inc (L "value error") = L "value error" /\
  ei_apply bad (R 42) = L "function error" /\ ei_apply bad (L "value error") = L "function error" /\
  ei_lift2 Z.mul (R 2) (R 3) = R 6 /\ ei_lift2 Z.mul (L "a error") (R 3) = L "a error" /\
  ei_lift2 Z.mul (R 2) (L "b error") = L "b error" /\ ei_lift2 Z.mul (L "a error") (L "b error") = L "a error" /\
  ei_lift3 f3 (R 2) (R 3) (R 4) = R 10 /\ ei_lift3 f3 (L "a error") (R 3) (R 4) = L "a error" /\
  ei_lift3 f3 (R 2) (L "b error") (R 4) = L "b error" /\ ei_lift3 f3 (R 2) (R 3) (L "c error") = L "c error" /\
  ei_lift3 f3 (L "a error") (L "b error") (R 4) = L "a error".
Proof. repeat split. Qed.
Example test_either_monad :
  ei_bind (R 42) (fun x => R (x + 1)) = R 43 /\ ei_bind (L "error") (fun x => R (x + 1)) = L "error" /\
  ei_join (fun x => x) (Right (R 42)) = R 42.
Proof. repeat split. Qed.
Example test_either_or_methods :
  ei_left_or (L "error") "default" = "error" /\ ei_left_or (R 42) "default" = "default" /\
  ei_right_or (L "error") 0 = 0 /\ ei_right_or (R 42) 0 = 42.
Proof. repeat split. Qed.
Example test_either_performance_pattern :
  let process := fun input => ei_bind (ei_fmap (fun x => x * 2) (if 0 <? input then R input else L "Invalid input"))
                                (fun x => if x <? 100 then R x else L "Result too large") in
  process 42 = R 84 /\ process (-1) = L "Invalid input" /\ process 60 = L "Result too large".
Proof. repeat split. Qed.
Example test_either_error_handling :
  let div := fun n d => if d =? 0 then L "division by zero" else R (n / d) in
  div 10 2 = R 5 /\ div 10 0 = L "division by zero" /\
  ei_bind (div 10 2) (fun x => div x 1) = R 5 /\ ei_bind (div 10 2) (fun x => div x 0) = L "division by zero".
Proof. repeat split. Qed.

(** ** test_id.rs *)
Example test_id :
  id_fmap (fun n => n * 2) (mkId 42) = mkId 84 /\ id_pure 42 = mkId 42 /\
  id_apply (mkId (fun x => x + 1)) (mkId 2) = mkId 3 /\ id_lift2 Z.add (mkId 2) (mkId 3) = mkId 5 /\
  id_lift3 (fun a b c => a * b * c) (mkId 2) (mkId 3) (mkId 4) = mkId 24 /\
  id_bind (mkId 42) (fun n => mkId (n * 2)) = mkId 84 /\ id_join (fun x => x) (mkId (mkId 42)) = mkId 42 /\
  id_bind (id_fmap (fun n => n + 5) (mkId 10)) (fun n => mkId (n * 2)) = mkId 30.
Proof. repeat split. Qed.

(** ** test_wrapper.rs *)
Notation i32add := (checked_add (-2147483648) 2147483647).
Notation i32mul := (checked_mul (-2147483648) 2147483647).
Example test_first_last :
  let s := mkFirst (Some 42) in let n := @mkFirst Z None in
  first_combine s (mkFirst (Some 84)) = s /\ first_combine n s = s /\ first_combine s n = s /\ @first_empty Z = n /\
  let s := mkLast (Some 42) in let n := @mkLast Z None in
  last_combine s (mkLast (Some 84)) = mkLast (Some 84) /\ last_combine n s = s /\ last_combine s n = s /\
  @last_empty Z = n.
Proof. repeat split. Qed.
Example test_min_max :
  let c := min_combine Z.compare in let d := max_combine Z.compare in
  c (mkMin 10) (mkMin 5) = mkMin 5 /\ c (mkMin 5) (mkMin 15) = mkMin 5 /\ c (mkMin 10) (mkMin 15) = mkMin 10 /\
  min_empty 0 = mkMin 0 /\
  d (mkMax 10) (mkMax 5) = mkMax 10 /\ d (mkMax 5) (mkMax 15) = mkMax 15 /\ d (mkMax 10) (mkMax 15) = mkMax 15 /\
  max_empty 0 = mkMax 0.
Proof. repeat split. Qed.
Example test_sum_product :
  sum_combine i32add (mkSum 10) (mkSum 5) = Ret (mkSum 15) /\ sum_combine i32add (mkSum 5) (mkSum 15) = Ret (mkSum 20) /\
  sum_combine i32add (mkSum 10) (mkSum 15) = Ret (mkSum 25) /\ sum_empty 0 = mkSum 0 /\
  product_combine i32mul (mkProduct 10) (mkProduct 5) = Ret (mkProduct 50) /\
  product_combine i32mul (mkProduct 5) (mkProduct 2) = Ret (mkProduct 10) /\
  product_combine i32mul (mkProduct 10) (mkProduct 2) = Ret (mkProduct 20) /\ product_empty 1 = mkProduct 1.
Proof. repeat split. Qed.
Example test_thunk :
  let t : thunk Z Z := fun count => (Ret (count + 1), count + 1) in
  th_evaluate t 0 = (Ret 1, 1) /\ eff_bind (th_evaluate t) (fun _ => th_evaluate t) 0 = (Ret 2, 2).
Proof. repeat split. Qed.
Example test_wrapper_fmap :
  sum_fmap (fun x => x + 1) (mkSum 42) = mkSum 43 /\ product_fmap (fun x => x + 1) (mkProduct 42) = mkProduct 43 /\
  min_fmap (fun x => x + 1) (mkMin 42) = mkMin 43 /\ max_fmap (fun x => x + 1) (mkMax 42) = mkMax 43 /\
  first_fmap (fun x => x + 1) (mkFirst (Some 42)) = mkFirst (Some 43) /\
  last_fmap (fun x => x + 1) (mkLast (Some 42)) = mkLast (Some 43).
Proof. repeat split. Qed.
Example test_real_world_use_cases :
  fold_left (fun a x => do s <- a; sum_combine i32add s (mkSum x)) [1; 2; 3; 4; 5] (Ret (mkSum 0)) = Ret (mkSum 15) /\
  fold_left (fun a x => do s <- a; product_combine i32mul s (mkProduct x)) [1; 2; 3; 4; 5] (Ret (mkProduct 1)) =
    Ret (mkProduct 120) /\
  fold_left (fun a x => min_combine Z.compare a (mkMin x)) [5; 3; 8; 2; 7] (mkMin 2147483647) = mkMin 2 /\
  fold_left (fun a x => max_combine Z.compare a (mkMax x)) [5; 3; 8; 2; 7] (mkMax (-2147483648)) = mkMax 8 /\
  fold_left (fun a x => first_combine a (mkFirst (Some x))) [42; 84] (mkFirst None) = mkFirst (Some 42) /\
  fold_left (fun a x => last_combine a (mkLast (Some x))) [42; 84] (mkLast None) = mkLast (Some 84).
Proof. repeat split. Qed.

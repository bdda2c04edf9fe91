(** The project's own tests of [Validated], run on the model
    ([/repo/tests/datatypes/test_validated.rs]; the numbers are the lines of the test).
    These are checks of the model, not proofs of properties. *)
From Coq Require Import List ZArith Bool Ascii String.
From Verif Require Import Base Types ValidatedModel.
Import ListNotations.
Open Scope outcome_scope.
Open Scope string_scope.
Open Scope list_scope.
Open Scope Z_scope.

Notation V := (validated string Z).
Definition valid (x : Z) : V := va_valid x.
Definition invalid (e : string) : V := va_invalid e.
Definition many (es : list string) : V := va_invalid_many es.
Definition len {A} (l : list A) : nat := List.length l.

(** 22-84 *)
Example test_creation :
  va_is_valid (valid 42) = true /\ va_is_invalid (valid 42) = false /\
  hd_error (va_iter (valid 42)) = Some 42 /\ va_errors (valid 42) = [] /\
  va_is_valid (invalid "error") = false /\ va_is_invalid (invalid "error") = true /\
  va_errors (invalid "error") = ["error"] /\ hd_error (va_iter (invalid "error")) = None /\
  va_errors (many ["error1"; "error2"; "error3"]) = ["error1"; "error2"; "error3"] /\
  va_error_payload (valid 42) = None /\
  va_error_payload (many ["error1"; "error2"]) = Some ["error1"; "error2"] /\
  va_is_invalid (many []) = true /\ va_errors (many []) = [].
Proof. repeat split. Qed.
(** 92-152 *)
Example test_functor :
  va_fmap (fun x => x * 2) (valid 42) = valid 84 /\
  va_is_invalid (va_fmap (fun x => x * 2) (invalid "error")) = true /\
  va_fmap (fun x => x * 2) (valid 21) = valid 42 /\
  va_fmap_invalid (fun e => "Error: " ++ e)%string (invalid "error") = invalid "Error: error" /\
  va_errors (va_fmap_invalid (fun e => "Err: " ++ e)%string (many ["e1"; "e2"])) = ["Err: e1"; "Err: e2"] /\
  va_fmap (fun x => x) (valid 5) = valid 5 /\ va_fmap (fun x => x) (invalid "error") = invalid "error" /\
  va_fmap (fun x => (x * 2) + 1) (valid 5) = va_fmap (fun x => x + 1) (va_fmap (fun x => x * 2) (valid 5)).
Proof. repeat split. Qed.
(** 160-260 *)
Example test_applicative :
  let f : validated string (Z -> Z) := va_valid (fun x => x * 2) in
  va_apply f (valid 21) = valid 42 /\
  va_apply (B := Z) (va_invalid "error") (valid 21) = invalid "error" /\
  va_apply f (invalid "error") = invalid "error" /\
  va_errors (va_apply (B := Z) (va_invalid "error1") (invalid "error2")) = ["error1"; "error2"] /\
  va_pure 42 = valid 42 /\
  va_lift2 Z.add (valid 10) (valid 32) = valid 42 /\
  va_lift3 (fun x y z => x + y + z) (valid 10) (valid 20) (valid 12) = valid 42 /\
  va_errors (va_lift3 (fun x y z => x + y + z) (invalid "error1") (invalid "error2") (invalid "error3")) =
    ["error1"; "error2"; "error3"] /\
  va_apply_owned (va_valid (fun x => x + 1)) (valid 10) = valid 11 /\
  va_is_invalid (va_apply_owned (va_valid (fun x => x + 1)) (invalid "err")) = true /\
  va_apply (va_valid (fun x => x)) (valid 7) = valid 7 /\
  va_apply (va_valid (fun x => x + 1)) (valid 3) = valid 4.
Proof. repeat split. Qed.
(** 268-310 *)
Example test_monad :
  let f := fun x => valid (x + 1) in let g := fun x => valid (x * 2) in
  va_bind (valid 21) g = valid 42 /\ va_bind (invalid "error") g = invalid "error" /\
  va_bind (va_pure 42) f = f 42 /\ va_bind (valid 1) va_pure = valid 1 /\
  va_bind (va_bind (valid 10) f) g = va_bind (valid 10) (fun x => va_bind (f x) g).
Proof. repeat split. Qed.
(** 318-338 *)
Example test_foldable :
  va_fold_left 0 Z.add (valid 21) = 21 /\ va_fold_left 0 Z.add (invalid "error") = 0 /\
  va_fold_right 1 Z.mul (valid 5) = 5.
Proof. repeat split. Qed.
(** 346-458 *)
Example test_conversions :
  va_from_result (Ok 42) = valid 42 /\ va_from_result (Err "error") = invalid "error" /\
  va_to_result (valid 42) = Ret (Ok 42) /\ va_to_result (invalid "error") = Ret (Err "error") /\
  va_to_result (many ["error1"; "error2"]) = Ret (Err "error1") /\
  va_from_option (Some 42) "no value" = valid 42 /\ va_from_option None "no value" = invalid "no value" /\
  va_to_option (valid 42) = Some 42 /\ va_to_option (invalid "error") = None /\
  va_into_value (valid 42) = Ok 42 /\ va_into_value (invalid "err1") = Err ["err1"] /\
  omap va_error_slice (va_combine_errors (invalid "error1") (invalid "error2")) = Ret ["error1"; "error2"] /\
  va_sequence_owned [valid 1; valid 2; valid 3] len = va_valid 3%nat /\
  va_error_slice (va_sequence_owned [valid 1; invalid "error1"; invalid "error2"] len) = ["error1"; "error2"] /\
  va_collect_owned (fun l => l) [valid 1; valid 2] = va_valid [1; 2] /\
  va_error_slice (va_collect_owned (fun l => l) [valid 1; invalid "error1"; invalid "error2"]) = ["error1"; "error2"] /\
  va_into_error_payload (valid 42) = Err 42 /\
  va_into_error_payload (many ["err1"; "err2"]) = Ok ["err1"; "err2"].
Proof. repeat split. Qed.
(** 466-540 *)
Example test_unwrap :
  va_unwrap_or (valid 42) 0 = 42 /\ va_unwrap_or (invalid "error") 0 = 0 /\
  va_unwrap (valid 42) = Ret 42 /\ va_unwrap (invalid "err") = Panic /\
  va_unwrap_invalid (invalid "error1") = Ret ["error1"] /\ va_unwrap_invalid (valid 42) = Panic /\
  va_invalid_vec (A := Z) (E := string) [] = Panic.
Proof. repeat split. Qed.
(** 548-602 *)
Example test_iterators :
  va_iter (valid 42) = [42] /\ va_iter (invalid "err") = [] /\
  va_errors (invalid "err") = ["err"] /\ va_errors (valid 42) = [] /\
  va_iter (valid 1) = [1] /\ va_errors (many ["e1"; "e2"]) = ["e1"; "e2"].
Proof. repeat split. Qed.

(** 640-790, 895-925 *)
Fixpoint contains (c : Ascii.ascii) (s : string) : bool :=
  match s with EmptyString => false | String d t => Ascii.eqb c d || contains c t end.
Record user := User { uname : string; uemail : string; uage : Z }.
Definition validate_name (n : string) : validated string string :=
  if String.eqb n "" then va_invalid "Name must not be empty"
  else if Nat.ltb (String.length n) 2 then va_invalid "Name must be at least 2 characters" else va_valid n.
Definition validate_age (a : Z) : V :=
  if a <? 0 then invalid "Age must be positive"
  else if a <? 18 then invalid "Age must be at least 18"
  else if 120 <? a then invalid "Age must be realistic" else valid a.
Definition validate_email (e : string) : validated string string :=
  if negb (contains "@"%char e) then va_invalid "Email must contain @ symbol"
  else if negb (contains "."%char e) then va_invalid "Email must contain a domain" else va_valid e.
Definition the_user n a e :=
  va_lift3 (fun n a e => User n e a) (validate_name n) (validate_age a) (validate_email e).
Example test_user_validation :
  va_unwrap (the_user "John Doe" 25 "john@example.com") = Ret (User "John Doe" "john@example.com" 25) /\
  va_errors (the_user "" 15 "not-an-email") =
    ["Name must not be empty"; "Age must be at least 18"; "Email must contain @ symbol"] /\
  va_errors (the_user "Jane Smith" (-5) "jane@example.com") = ["Age must be positive"].
Proof. repeat split. Qed.
Definition user_form n e a :=
  va_lift2 (fun p a => User (fst p) (snd p) a) (va_lift2 pair (validate_name n) (validate_email e)) (validate_age a).
Example test_form_validation_pipeline :
  va_is_valid (user_form "Alice Johnson" "alice@example.com" 30) = true /\
  va_errors (user_form "" "invalid-email" 150) =
    ["Name must not be empty"; "Email must contain @ symbol"; "Age must be realistic"].
Proof. repeat split. Qed.
(** 920-932 *)
Example test_nested_operations :
  hd_error (va_iter (fold_left (fun r i => va_bind r (fun x => valid (x + Z.of_nat i))) (seq 1 100) (valid 0))) = Some 5050.
Proof. reflexivity. Qed.
(** 1052-1113 *)
Example test_chains :
  let pos := fun n => if 0 <? n then valid n else invalid "Must be positive" in
  let even := fun n => if Z.even n then valid n else invalid "Must be even" in
  let small := fun n => if n <? 100 then valid n else invalid "Must be less than 100" in
  va_errors (va_lift2 Z.add (many ["error1"; "error2"]) (many ["error3"; "error4"])) =
    ["error1"; "error2"; "error3"; "error4"] /\
  va_bind (va_bind (pos 42) even) small = valid 42 /\
  va_bind (va_bind (pos (-5)) even) small = invalid "Must be positive" /\
  len (va_errors (va_lift3 (fun a b c => a + b + c) (pos (-5)) (even 3) (small 150))) = 3%nat.
Proof. repeat split. Qed.
(** 1447-1467: the chain fails at step 46 *)
Example test_deeply_nested_bind_chains :
  fold_left (fun r i => va_bind r (fun x =>
      if x <? 1000 then va_valid (x + Z.of_nat i) else va_invalid i)) (seq 1 50) (va_valid 0) = Invalid [46%nat].
Proof. reflexivity. Qed.
(** 1620-1675 *)
Definition combine_validations {T} (vs : list (validated string T)) : validated string (list T) :=
  fold_left (fun acc v => va_lift2 (fun vec item => vec ++ [item]) acc v) vs (va_valid []).
Example test_helper_functions :
  va_errors (combine_validations [valid 1; valid 2; invalid "error"; valid 3]) = ["error"] /\
  combine_validations [valid 1; valid 2] = va_valid [1; 2].
Proof. repeat split. Qed.
(** 1690-1745 *)
Example test_regressions :
  va_bind (invalid "original error") (fun x => valid (x * 2)) = invalid "original error" /\
  va_fmap (fun x => x - 1) (va_fmap (fun x => x / 5) (va_fmap (fun x => x + 5)
    (va_fmap (fun x => x * 2) (valid 10)))) = valid 4.
Proof. repeat split. Qed.
(** 1760-1936 *)
Record complete := Complete { cid : Z; cname : string; cmail : string; cage : Z; letters : bool; theme : string }.
Definition complete_user (id : Z) (name email : string) (age : Z) (news : bool) (th : string) : validated string complete :=
  va_lift2 (fun u a => Complete (cid u) (cname u) (cmail u) a news th)
    (va_lift3_owned (fun i n e => Complete i n e age news th)
       (if 0 <? id then valid id else invalid "ID must be positive")
       (if Nat.leb 3 (String.length name) && Nat.leb (String.length name) 20 then va_valid name
        else va_invalid "Username must be 3-20 characters")
       (if contains "@"%char email && contains "."%char email then va_valid email else va_invalid "Invalid email format"))
    (if (13 <=? age) && (age <=? 120) then valid age else invalid "Age must be between 13 and 120").
Example test_complete_validated_workflow :
  let good := complete_user 1 "john_doe" "john@example.com" 25 true "dark" in
  let bad := complete_user 0 "jo" "invalid" 150 false "invalid_theme" in
  va_unwrap good = Ret (Complete 1 "john_doe" "john@example.com" 25 true "dark") /\
  va_errors bad = ["ID must be positive"; "Username must be 3-20 characters"; "Invalid email format";
                   "Age must be between 13 and 120"] /\
  va_is_valid (complete_user 42 "valid_username" "valid@email.com" 16 true "light") = true /\
  omap (fun r => va_bind (va_from_result r) (fun u =>
      if 18 <=? cage u then va_valid ("Adult user: " ++ cname u)%string
      else va_invalid "User must be adult for this operation")) (va_to_result good) =
    Ret (va_valid "Adult user: john_doe") /\
  forallb (String.prefix "[VALIDATION_ERROR]")
    (va_errors (va_fmap_invalid (fun e => "[VALIDATION_ERROR] " ++ e)%string bad)) = true.
Proof. repeat split. Qed.
(** 1995-2035 *)
Example test_all_major_operations_work_together :
  va_fmap (fun x => x * 2) (valid 10) = valid 20 /\ va_lift2 Z.add (valid 10) (valid 20) = valid 30 /\
  va_bind (valid 10) (fun x => valid (x + 5)) = valid 15 /\ va_to_option (valid 10) = Some 10 /\
  va_iter (valid 10) = [10] /\ va_fold_left 0 Z.add (valid 10) = 10.
Proof. repeat split. Qed.

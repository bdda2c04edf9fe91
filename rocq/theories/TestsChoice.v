(** The project's own tests of [Choice], run on the model
    ([/repo/tests/datatypes/test_choice.rs]; the numbers are the lines of the test).
    These are checks of the model, not proofs of properties. *)
From Coq Require Import List Arith Bool.
From Verif Require Import Base ChoiceModel.
Import ListNotations.
Open Scope outcome_scope.

Notation new := ch_new.
Definition parts {T} (c : choice T) : option T * list T := (ch_first c, ch_alternatives c).

(** 5-15 *)
Example test_choice_creation_and_access :
  parts (new 1 [2; 3; 4]) = (Some 1, [2; 3; 4]) /\ parts (new 1 []) = (Some 1, []).
Proof. split; reflexivity. Qed.
(** 17-37 *)
Example test_choice_functor :
  parts (ch_fmap (fun x => x * 2) (new 1 [2; 3; 4])) = (Some 2, [4; 6; 8]) /\
  omap parts (ch_fmap_owned (fun x => x * 2) (new 1 [2; 3; 4])) = Ret (Some 2, [4; 6; 8]) /\
  parts (ch_pure 42) = (Some 42, []).
Proof. repeat split; reflexivity. Qed.
(** 39-64 *)
Example test_choice_applicative :
  let double := fun x => x * 2 in let triple := fun x => x * 3 in
  parts (ch_apply (new double [triple]) (new 2 [3; 4])) = (Some 4, [6; 6; 9; 8; 12]) /\
  parts (ch_apply_owned (new double [triple]) (new 2 [3; 4])) = (Some 4, [6; 6; 9; 8; 12]).
Proof. split; reflexivity. Qed.
(** 66-124, comparing sorted alternatives *)
Definition counts (l : list nat) : list nat := map (fun k => count_occ Nat.eq_dec l k) (seq 0 50).
Example test_choice_lift2 :
  let r := ch_lift2 Nat.add (new 2 [3; 4]) (new 5 [6; 7]) in
  ch_first r = Some 7 /\ counts (ch_alternatives r) = counts [8; 9; 8; 9; 9; 10; 10; 11].
Proof. split; reflexivity. Qed.
Example test_choice_lift3 :
  let r := ch_lift3 (fun x y z => x + y + z) (new 2 [3; 4]) (new 5 [6; 7]) (new 10 [20; 30]) in
  ch_first r = Some 17 /\
  counts (ch_alternatives r) = counts [18; 19; 20; 21; 27; 28; 29; 30; 31; 37; 38; 39; 40; 41; 18; 19; 20; 28; 29; 30; 38; 39; 40; 19; 29; 39].
Proof. split; reflexivity. Qed.
(** 126-150 *)
Example test_choice_monad : parts (ch_bind (new 2 [3; 4]) (fun x => new (x * 2) [x * 3])) = (Some 4, [6; 6; 9; 8; 12]).
Proof. reflexivity. Qed.
Example test_choice_join :
  omap parts (ch_join (fun c => c) (new (new 1 [2; 3]) [new 4 [5; 6]])) = Ret (Some 1, [2; 3; 4; 5; 6]).
Proof. reflexivity. Qed.
Example test_choice_semigroup : parts (ch_combine (new 1 [2; 3]) (new 4 [5; 6])) = (Some 1, [2; 3; 4; 5; 6]).
Proof. reflexivity. Qed.
(** 152-198 *)
Example test_choice_monoid :
  ch_is_empty (ch_empty (T := nat)) = true /\ parts (ch_combine (new 1 [2; 3]) ch_empty) = (Some 1, [2; 3]) /\
  parts (ch_combine ch_empty (new 1 [2; 3])) = (Some 1, [2; 3]) /\
  parts (ch_combine (ch_empty (T := nat)) ch_empty) = (None, []).
Proof. repeat split; reflexivity. Qed.
Example test_choice_empty_and_len :
  (ch_len (ch_empty (T := nat)), ch_len (new 1 []), ch_len (new 1 [2; 3])) = (0, 1, 3) /\
  (ch_is_empty (new 1 []), ch_is_empty (new 1 [2; 3])) = (false, false).
Proof. split; reflexivity. Qed.
(** 200-222 *)
Example test_choice_add_alternatives :
  parts (ch_combine (new 1 [2]) (ch_of_many [3; 4])) = (Some 1, [2; 3; 4]) /\
  parts (ch_combine (new 1 []) (ch_of_many [5; 6])) = (Some 1, [5; 6]) /\
  parts (ch_combine (new 1 [2]) ch_empty) = (Some 1, [2]).
Proof. repeat split; reflexivity. Qed.
(** 224-269 *)
Example test_choice_remove_alternative :
  omap parts (ch_remove_alternative (new 1 [2; 3; 4; 5]) 1) = Ret (Some 1, [2; 4; 5]) /\
  omap parts (ch_remove_alternative (new 1 [2; 3; 4; 5]) 0) = Ret (Some 1, [3; 4; 5]) /\
  omap parts (ch_remove_alternative (new 1 [2; 3; 4; 5]) 3) = Ret (Some 1, [2; 3; 4]) /\
  omap parts (ch_remove_alternative (new 1 [2]) 0) = Ret (Some 1, []) /\
  ch_remove_alternative (new 1 [2; 3]) 2 = Panic /\ ch_remove_alternative (new 1 []) 0 = Panic.
Proof. repeat split; reflexivity. Qed.
(** 271-299, 392-404 *)
Example test_choice_filter_values :
  let c := new 2 [1; 3; 4; 5; 6] in
  parts (ch_filter_values Nat.even c) = (Some 2, [4; 6]) /\ parts (ch_filter_values Nat.odd c) = (Some 1, [3; 5]) /\
  parts (ch_filter_values (fun _ => false) c) = (None, []) /\
  parts (ch_filter_values (fun _ => true) c) = (Some 2, [1; 3; 4; 5; 6]) /\
  parts (ch_filter_values Nat.even (new 1 [2; 3; 4])) = (Some 2, [4]).
Proof. repeat split; reflexivity. Qed.
(** 301-329, 406-430 *)
Example test_choice_from_iter_and_vec_conversion :
  parts (ch_from_vec [1; 2; 3]) = (Some 1, [2; 3]) /\ ch_to_vec (ch_from_vec [1; 2; 3]) = [1; 2; 3] /\
  parts (ch_from_slice [4; 5; 6]) = (Some 4, [5; 6]).
Proof. repeat split; reflexivity. Qed.
Example test_choice_default_and_sum :
  parts (ch_sum [new 1 [2]; new 3 []]) = (Some 1, [2; 3]) /\ parts (ch_sum [new 1 []; new 2 []]) = (Some 1, [2]).
Proof. split; reflexivity. Qed.
(** 331-350, 456-480 *)
Example test_choice_alternative_trait :
  parts (ch_alt (new 1 [2]) (new 3 [4])) = (Some 1, [2; 3; 4]) /\
  parts (ch_mplus (new 1 [2]) (new 3 [4])) = (Some 1, [2; 3; 4]) /\
  ch_len (ch_guard true) = 1 /\ ch_is_empty (ch_guard false) = true /\
  omap (@ch_first (list nat)) (ch_many (new 1 [2])) = Ret (Some [1]).
Proof. repeat split; reflexivity. Qed.
(** 365-373, 443-454 *)
Example test_choice_foldable :
  ch_fold_left 0 Nat.add (new 1 [2; 3]) = 6 /\ ch_fold_right 1 Nat.mul (new 1 [2; 3]) = 6.
Proof. split; reflexivity. Qed.
(** 375-390 *)
Example test_choice_flatten :
  omap parts (ch_flatten (new [1; 2] [[3; 4]; [5]])) = Ret (Some 1, [2; 3; 4; 5]) /\
  omap parts (ch_flatten (new [1] [])) = Ret (Some 1, []) /\
  ch_flatten (new (@nil nat) []) = Panic.
Proof. repeat split; reflexivity. Qed.
(** 432-441 *)
Example test_choice_iterators :
  ch_iter (new 1 [2; 3]) = [1; 2; 3] /\ ch_iter_alternatives (new 1 [2; 3]) = [2; 3].
Proof. split; reflexivity. Qed.
(** 540-563 *)
Example test_find_first :
  let c := new 1 [2; 3; 4; 5] in
  ch_find_first (fun x => 3 <? x) c = Some 4 /\ ch_find_first (fun x => x =? 1) c = Some 1 /\
  ch_find_first (fun x => 5 <? x) c = None /\ ch_find_first (fun _ => true) (ch_empty (T := nat)) = None.
Proof. repeat split; reflexivity. Qed.
Example test_fold :
  ch_fold_left 0 (fun acc x => acc + x) (new 1 [2; 3; 4]) = 10 /\ ch_fold_left 1 Nat.mul (new 1 [2; 3; 4]) = 24 /\
  ch_fold_left 0 Nat.add ch_empty = 0.
Proof. repeat split; reflexivity. Qed.
(** 565-579 *)
Example test_sequence :
  ch_sequence (new (Some 1) [Some 2; Some 3]) = Some (new 1 [2; 3]) /\
  ch_sequence (new (Some 1) [None; Some 3]) = None /\
  ch_sequence (ch_empty (T := option nat)) = Some ch_empty /\ ch_sequence (new (@None nat) [None]) = None.
Proof. repeat split; reflexivity. Qed.

(** The project's own tests of the vector, run on the model
    ([/repo/tests/datatypes/test_pvec.rs]; the numbers are the lines of the test).
    These are checks of the model, not proofs of properties. *)
From Coq Require Import List Arith Bool.
From Verif Require Import Base PvecModel.
Import ListNotations.
Open Scope outcome_scope.

Definition pvec_of (l : list nat) : pvec nat := pv_from_iter l.
Definition odiv2 (n : nat) : bool := Nat.even n.

(** 5-18 *)
Example test_new : pv_len (pv_new (T := nat)) = 0 /\ pv_is_empty (pv_new (T := nat)) = true.
Proof. split; reflexivity. Qed.
Example test_unit : pv_len (pv_unit 42) = 1 /\ pv_get (pv_unit 42) 0 = Ret (Some 42) /\ pv_is_empty (pv_unit 42) = false.
Proof. repeat split; reflexivity. Qed.
(** 20-43 *)
Example test_from_slice :
  pv_len (pvec_of [1; 2; 3; 4]) = 4 /\
  map (pv_get (pvec_of [1; 2; 3; 4])) [0; 1; 2; 3; 4] = [Ret (Some 1); Ret (Some 2); Ret (Some 3); Ret (Some 4); Ret None].
Proof. repeat split; reflexivity. Qed.
Example test_push_back_and_get :
  let v := pv_push_back (pv_push_back (pv_push_back pv_new 1) 2) 3 in
  pv_len v = 3 /\ map (pv_get v) [0; 1; 2; 3] = [Ret (Some 1); Ret (Some 2); Ret (Some 3); Ret None].
Proof. repeat split; reflexivity. Qed.
(** 46-73 *)
Example test_pop_back :
  (do r1 <- pv_pop_back (pvec_of [1; 2; 3; 4]);
   match r1 with None => Panic | Some (v2, x1) =>
   do r2 <- pv_pop_back v2;
   match r2 with None => Panic | Some (v3, x2) =>
   do r3 <- pv_pop_back v3;
   match r3 with None => Panic | Some (v4, x3) =>
   do r4 <- pv_pop_back v4;
   match r4 with None => Panic | Some (v5, x4) =>
   do r5 <- pv_pop_back v5;
   Ret ([x1; x2; x3; x4], [pv_len v2; pv_len v3; pv_len v4; pv_len v5], match r5 with None => true | _ => false end)
   end end end end) = Ret ([4; 3; 2; 1], [3; 2; 1; 0], true).
Proof. reflexivity. Qed.
(** 75-101 *)
Example test_update :
  let v := pvec_of [1; 2; 3; 4] in
  (do w <- pv_update v 1 20; pv_get w 1) = Ret (Some 20) /\ pv_get v 1 = Ret (Some 2) /\
  (do w <- pv_update v 10 100; Ret (pv_len w)) = Ret (pv_len v).
Proof. repeat split; reflexivity. Qed.
Example test_map : (do w <- pv_map (fun x => x * 2) (pvec_of [1; 2; 3; 4]);
  do a <- pv_get w 0; do b <- pv_get w 1; do c <- pv_get w 2; do d <- pv_get w 3; Ret (pv_len w, [a; b; c; d]))
  = Ret (4, [Some 2; Some 4; Some 6; Some 8]).
Proof. reflexivity. Qed.
(** 103-128 *)
Example test_filter : (do w <- pv_filter odiv2 (pvec_of [1; 2; 3; 4; 5]); do l <- pv_to_vec w; Ret (pv_len w, l)) = Ret (2, [2; 4]).
Proof. reflexivity. Qed.
Example test_concatenation :
  let c := pv_concat (pvec_of [1; 2; 3]) (pvec_of [4; 5; 6]) in pv_len c = 6 /\ pv_to_vec c = Ret [1; 2; 3; 4; 5; 6].
Proof. split; reflexivity. Qed.
(** 130-151 *)
Example test_iteration :
  (do l <- pv_iter (pvec_of [1; 2; 3; 4]);
   Ret (fold_left Nat.add l 0, fold_left Nat.mul l 1, forallb (fun x => 0 <? x) l, existsb odiv2 l)) = Ret (10, 24, true, true).
Proof. reflexivity. Qed.
(** 153-186 *)
Example test_macro : pv_len (pvec_of []) = 0 /\ pv_get (pvec_of [1; 2; 3]) 0 = Ret (Some 1) /\ pv_get (pvec_of [4; 5; 6]) 2 = Ret (Some 6).
Proof. repeat split; reflexivity. Qed.
Example test_from_iter : pv_to_vec (pv_from_iter [4; 5; 6]) = Ret [4; 5; 6].
Proof. reflexivity. Qed.
(** 203-219 *)
Example test_index : map (pv_index (pvec_of [10; 20; 30])) [0; 1; 2] = [Ret 10; Ret 20; Ret 30].
Proof. reflexivity. Qed.
Example test_index_panic : pv_index (pvec_of [1; 2; 3]) 10 = Panic.
Proof. reflexivity. Qed.
(** 221-227 *)
Example test_sorted : (do s <- pv_sorted Nat.leb (pvec_of [3; 1; 4; 2]); pv_to_vec s) = Ret [1; 2; 3; 4].
Proof. reflexivity. Qed.
(** 229-282, 339-372 *)
Example test_large_vector :
  let v := fold_left pv_push_back (seq 0 100) pv_new in
  pv_get v 31 = Ret (Some 31) /\ pv_get v 32 = Ret (Some 32) /\
  (do u <- pv_update v 31 310; do u2 <- pv_update u 32 320; do a <- pv_get u 31; do b <- pv_get u2 32; Ret [a; b])
  = Ret [Some 310; Some 320].
Proof. vm_compute. repeat split; reflexivity. Qed.
Example test_tree_structure_debugging :
  let v := fold_left pv_push_back (seq 0 40) pv_new in
  map (pv_get v) (seq 0 40) = map (fun i => Ret (Some i)) (seq 0 40).
Proof. vm_compute. reflexivity. Qed.
(** 284-304 *)
Example test_persistence :
  let v1 := pvec_of [1; 2; 3] in let v2 := pv_push_back v1 4 in let v3 := pv_push_back v1 5 in
  (pv_len v1, pv_get v1 0, pv_get v1 2) = (3, Ret (Some 1), Ret (Some 3)) /\
  (pv_len v2, pv_get v2 3) = (4, Ret (Some 4)) /\ (pv_len v3, pv_get v3 3) = (4, Ret (Some 5)).
Proof. repeat split; reflexivity. Qed.
(** 306-316 *)
Example test_first_last :
  (pv_first (pvec_of [1; 2; 3; 4; 5]), pv_last (pvec_of [1; 2; 3; 4; 5])) = (Ret (Some 1), Ret (Some 5)) /\
  (pv_first (pvec_of []), pv_last (pvec_of [])) = (Ret None, Ret None).
Proof. split; reflexivity. Qed.
(** 374-401, here with the test's size of 20000 replaced by 2000; the same run
    with 20000 takes 20 seconds and gives the same answers *)
Example test_large_persistent_vector :
  let n := 2000 in let h := 1000 in
  let v := fold_left pv_push_back (seq 0 n) pv_new in
  (do a <- pv_get v 0; do b <- pv_get v h; do c <- pv_get v (n - 1);
   do u <- pv_update v h 42; do d <- pv_get u h;
   do p <- pv_split_at v h; let '(l, r) := p in
   let q := pv_concat l r in
   do e <- pv_get q (n - 1);
   Ret ([pv_len v =? n; pv_len l =? h; pv_len r =? n - h; pv_len q =? n],
        (a, option_map (Nat.eqb h) b, option_map (Nat.eqb (n - 1)) c, d, option_map (Nat.eqb (n - 1)) e)))
  = Ret ([true; true; true; true], (Some 0, Some true, Some true, Some 42, Some true)).
Proof. vm_compute. reflexivity. Qed.
(** 415-427 *)
Example test_misc_methods :
  let v := pvec_of [1; 2; 2; 3; 4; 4; 5] in
  (do d <- pv_dedup Nat.eqb v; pv_to_vec d) = Ret [1; 2; 3; 4; 5] /\
  (do i <- pv_insert v 2 99; pv_get i 2) = Ret (Some 99) /\
  (do f <- pv_filter_map (fun x => if Nat.even x then Some (x * 10) else None) v; pv_to_vec f) = Ret [20; 20; 40; 40] /\
  (do f <- pv_flat_map (fun x => [x; x * 2]) v; Ret (pv_len v <? pv_len f)) = Ret true.
Proof. repeat split; reflexivity. Qed.
(** 429-447 *)
Example test_trait_impls_and_conversions :
  (do l <- pv_to_vec (pvec_of [1; 2; 3]); Ret (l, pv_eqb Nat.eqb (pv_from_iter l) (pvec_of [1; 2; 3]))) = Ret ([1; 2; 3], true).
Proof. reflexivity. Qed.
Example test_edge_cases :
  pv_get (pv_new (T := nat)) 0 = Ret None /\ (do u <- pv_update pv_new 5 42; Ret (pv_len u)) = Ret 0 /\
  pv_pop_back (pv_new (T := nat)) = Ret None.
Proof. repeat split; reflexivity. Qed.

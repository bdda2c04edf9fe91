(** Generic list lemmas used by several models. *)
From Coq Require Import List Arith Lia Bool Permutation.
From Verif Require Import Base.
Import ListNotations.
Set Implicit Arguments.

Lemma sum_list_app l1 l2 : sum_list (l1 ++ l2) = sum_list l1 + sum_list l2.
Proof. induction l1; cbn; [reflexivity|]. unfold sum_list in *. lia. Qed.

Lemma usub_ok a b : b <= a -> usub a b = Ret (a - b).
Proof. intros H. unfold usub. apply Nat.leb_le in H. now rewrite H. Qed.

Section L.
Context {A : Type}.
Implicit Types l : list A.

Lemma list_set_length l i x : length (list_set l i x) = length l.
Proof. revert i; induction l as [|a l IH]; intros [|i]; cbn; auto. Qed.

Lemma list_set_ge l i x : length l <= i -> list_set l i x = l.
Proof.
  revert i; induction l as [|a l IH]; intros [|i] H; cbn in *; auto; try lia.
  rewrite IH; auto; lia.
Qed.

Lemma list_set_app1 l1 l2 i x :
  i < length l1 -> list_set (l1 ++ l2) i x = list_set l1 i x ++ l2.
Proof.
  revert i; induction l1 as [|a l IH]; intros [|i] H; cbn in *; try lia; auto.
  rewrite IH; auto; lia.
Qed.

Lemma list_set_app2 l1 l2 i x :
  length l1 <= i -> list_set (l1 ++ l2) i x = l1 ++ list_set l2 (i - length l1) x.
Proof.
  revert i; induction l1 as [|a l IH]; intros i H; cbn in *.
  - now rewrite Nat.sub_0_r.
  - destruct i as [|i]; [lia|]. cbn. rewrite IH; auto; lia.
Qed.

Lemma nth_error_list_set_eq l i x :
  i < length l -> nth_error (list_set l i x) i = Some x.
Proof.
  revert i; induction l as [|a l IH]; intros [|i] H; cbn in *; try lia; auto.
  apply IH; lia.
Qed.

Lemma nth_error_list_set_ne l i j x :
  i <> j -> nth_error (list_set l i x) j = nth_error l j.
Proof.
  revert i j; induction l as [|a l IH]; intros [|i] [|j] H; cbn in *; try lia; auto.
Qed.

Lemma nth_error_split' l k c :
  nth_error l k = Some c -> l = firstn k l ++ c :: skipn (S k) l.
Proof.
  revert k; induction l as [|a l IH]; intros [|k] H; cbn in *; try discriminate.
  - now inversion H.
  - f_equal. now apply IH.
Qed.

Lemma list_set_split l k c x :
  nth_error l k = Some c -> list_set l k x = firstn k l ++ x :: skipn (S k) l.
Proof.
  revert k; induction l as [|a l IH]; intros [|k] H; cbn in *; try discriminate; auto.
  f_equal. now apply IH.
Qed.

Lemma pop_last_app l x : pop_last (l ++ [x]) = Some (l, x).
Proof. unfold pop_last. rewrite rev_app_distr. cbn. now rewrite rev_involutive. Qed.

Lemma pop_last_nil : pop_last (@nil A) = None.
Proof. reflexivity. Qed.

Lemma list_last_case l : l = [] \/ exists l' x, l = l' ++ [x].
Proof.
  destruct (rev l) as [|x r] eqn:E.
  - left. apply (f_equal (@rev A)) in E. rewrite rev_involutive in E. exact E.
  - right. exists (rev r), x. apply (f_equal (@rev A)) in E.
    rewrite rev_involutive in E. exact E.
Qed.

Lemma removelast_snoc l x : removelast (l ++ [x]) = l.
Proof. apply removelast_last. Qed.

Lemma skipn_add n m l : skipn n (skipn m l) = skipn (n + m) l.
Proof.
  revert l; induction m as [|m IH]; intros l.
  - now rewrite Nat.add_0_r.
  - destruct l as [|a l]; [now rewrite !skipn_nil|].
    rewrite <- plus_n_Sm. cbn. apply IH.
Qed.

(** chunks *)
Lemma chunks_fuel_concat k l fuel :
  1 <= k -> length l <= fuel -> concat (chunks_fuel fuel k l) = l.
Proof.
  intros Hk; revert l; induction fuel as [|fuel IH]; intros l Hl; cbn.
  - destruct l; [reflexivity|cbn in Hl; lia].
  - destruct l as [|a l]; [reflexivity|]. cbn.
    rewrite IH. { destruct k; [lia|]. cbn. now rewrite firstn_skipn. }
    destruct k; [lia|]. cbn. rewrite skipn_length. cbn in Hl. lia.
Qed.

Lemma chunks_concat k l : 1 <= k -> concat (chunks k l) = l.
Proof. intros. apply chunks_fuel_concat; auto. Qed.

Lemma chunks_fuel_bounds k l fuel :
  1 <= k -> Forall (fun c => 1 <= length c <= k) (chunks_fuel fuel k l).
Proof.
  intros Hk; revert l; induction fuel as [|fuel IH]; intros l; cbn; [constructor|].
  destruct l as [|a l]; constructor; auto.
  rewrite firstn_length. cbn. lia.
Qed.

Lemma chunks_bounds k l : 1 <= k -> Forall (fun c => 1 <= length c <= k) (chunks k l).
Proof. intros; now apply chunks_fuel_bounds. Qed.

(** all chunks but the last are full *)
Lemma chunks_fuel_full k l fuel j c :
  1 <= k -> length l <= fuel ->
  nth_error (chunks_fuel fuel k l) j = Some c ->
  c = firstn k (skipn (j * k) l).
Proof.
  intros Hk; revert l j; induction fuel as [|fuel IH]; intros l j Hl H; cbn in *.
  - destruct j; discriminate.
  - destruct l as [|a l]; [destruct j; discriminate|].
    destruct j as [|j]; cbn in H.
    + inversion H; reflexivity.
    + apply IH in H.
      * rewrite H, skipn_add. f_equal. f_equal. lia.
      * destruct k; [lia|]. cbn. rewrite skipn_length. cbn in Hl. lia.
Qed.

Lemma chunks_nth k l j c :
  1 <= k -> nth_error (chunks k l) j = Some c -> c = firstn k (skipn (j * k) l).
Proof. intros; eapply chunks_fuel_full; eauto. Qed.

Lemma chunks_fuel_length k l fuel :
  1 <= k -> length l <= fuel ->
  length (chunks_fuel fuel k l) = (length l + k - 1) / k.
Proof.
  intros Hk; revert l; induction fuel as [|fuel IH]; intros l Hl; cbn.
  - destruct l; cbn in *; [|lia]. symmetry; apply Nat.div_small; lia.
  - destruct l as [|a l]. { cbn. symmetry; apply Nat.div_small; lia. }
    cbn [length]. rewrite IH.
    + destruct (Nat.le_gt_cases k (length (a :: l))) as [H|H].
      * rewrite skipn_length.
        cbn [length] in *.
        replace (S (length l) + k - 1) with ((S (length l) - k + k - 1) + 1 * k) by lia.
        rewrite Nat.div_add by lia. lia.
      * rewrite skipn_all2 by lia. cbn [length].
        rewrite Nat.div_small by lia.
        assert (E : (S (length l) + k - 1) / k = 1).
        { symmetry; apply Nat.div_unique with (r := length l); cbn [length] in *; lia. }
        lia.
    + rewrite skipn_length. cbn [length] in *. lia.
Qed.

Lemma chunks_length k l : 1 <= k -> length (chunks k l) = (length l + k - 1) / k.
Proof. intros; now apply chunks_fuel_length. Qed.

End L.

Lemma flat_map_map {A B C} (f : A -> B) (g : B -> list C) l :
  flat_map g (map f l) = flat_map (fun x => g (f x)) l.
Proof. induction l; cbn; congruence. Qed.

Lemma flat_map_id {A} (l : list (list A)) : flat_map (fun x => x) l = concat l.
Proof. induction l; cbn; congruence. Qed.

Lemma flat_map_ext_in {A B} (f g : A -> list B) l :
  (forall x, In x l -> f x = g x) -> flat_map f l = flat_map g l.
Proof.
  induction l; cbn; intros H; [reflexivity|].
  rewrite (H a) by now left. rewrite IHl; auto.
Qed.

Lemma length_flat_map {A B} (f : A -> list B) l :
  length (flat_map f l) = sum_list (map (fun x => length (f x)) l).
Proof. induction l; cbn; [reflexivity|]. rewrite app_length, IHl. reflexivity. Qed.

Lemma firstn_all_app {A} n (l1 l2 : list A) :
  n = length l1 -> firstn n (l1 ++ l2) = l1.
Proof. intros ->. rewrite firstn_app, Nat.sub_diag, firstn_all. cbn. now rewrite app_nil_r. Qed.

Lemma skipn_all_app {A} n (l1 l2 : list A) :
  n = length l1 -> skipn n (l1 ++ l2) = l2.
Proof. intros ->. rewrite skipn_app, Nat.sub_diag, skipn_all. reflexivity. Qed.

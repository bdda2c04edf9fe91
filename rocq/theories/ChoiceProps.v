(** Properties C16-C23: [Choice]. *)
From Coq Require Import List Arith Lia Bool Permutation.
From Verif Require Import Base ListFacts PvecModel PvecSpec PvecComb ChoiceModel ChoiceSpec ChoiceFacts.
Import ListNotations.
Open Scope outcome_scope.

(** ** C16: a choice is the sequence it was built from. *)
Theorem C16_construction : forall (T : Type) (x : T) (l : list T) (cs : list (choice T)),
  values (ch_new x l) = x :: l /\
  values (@ch_empty T) = [] /\
  values (ch_of_many l) = l /\
  values (ch_from_iter l) = l /\
  values (ch_from_vec l) = l /\
  values (ch_from_slice l) = l /\
  values (ch_pure x) = [x] /\
  values (ch_from_choices cs) = concat (map values cs) /\
  (forall c, values (ch_add_alternatives c l) = values c ++ l).
Proof.
  intros T x l cs. do 7 (split; [destruct l; reflexivity|]). split; [|reflexivity].
  unfold ch_from_choices. rewrite <- flat_map_concat_map.
  destruct (flat_map values cs); reflexivity.
Qed.
Theorem C16_accessors : forall (T : Type) (c : choice T),
  ch_first c = nth_error (values c) 0 /\
  ch_alternatives c = tl (values c) /\
  ch_iter_alternatives c = tl (values c) /\
  ch_iter c = values c /\ ch_to_vec c = values c /\
  ch_len c = length (values c) /\
  (ch_is_empty c = true <-> values c = []) /\
  (ch_has_alternatives c = true <-> exists x y l, values c = x :: y :: l) /\
  (forall x, ch_value c = Ret x <-> nth_error (values c) 0 = Some x) /\
  (ch_value c = Panic <-> values c = []) /\
  ch_into_value c = ch_value c.
Proof.
  intros T [l]. unfold ch_value, ch_into_value, ch_has_alternatives. cbn.
  rewrite ch_alternatives_tl. cbn.
  destruct l as [|x [|y l]]; cbn.
  - repeat split; try congruence; try easy. intros (x & y & l & H); congruence.
  - repeat split; try congruence; try easy. intros (x' & y & l & H); congruence.
  - repeat split; try congruence; try easy. eauto.
Qed.
Theorem C16_folds : forall (T B : Type) (c : choice T) (b : B) (f : B -> T -> B) (g : T -> B -> B)
    (p : T -> bool),
  ch_fold_left b f c = fold_left f (values c) b /\
  ch_fold_right b g c = fold_right g b (values c) /\
  ch_find_first p c = find p (values c).
Proof.
  intros. split; [reflexivity|]. split; [|reflexivity].
  unfold ch_fold_right. rewrite <- (rev_involutive (values c)) at 2.
  rewrite fold_left_rev_right. reflexivity.
Qed.
(** The crate documents [try_value] as the non-panicking accessor; the default
    inherited by [Choice] still panics on the empty choice. *)
Theorem C16_try_value_panics_refuted : exists c : choice nat,
  ch_try_value c = Panic /\ ch_try_into_value c = Panic.
Proof. exists ch_empty. split; reflexivity. Qed.
Example C16_case :
  values (ch_from_vec [4; 5; 6]) = [4; 5; 6] /\ ch_alternatives (ch_from_vec [4; 5; 6]) = [5; 6] /\
  ch_fold_right 0 (fun x acc => x - acc) (ch_from_vec [9; 5; 2]) = 6.
Proof. vm_compute. auto. Qed.

(** ** C17: functor laws *)
Theorem C17_fmap : forall (A B C : Type) (f : A -> B) (g : B -> C) (c : choice A),
  ch_fmap (fun x => x) c = c /\
  ch_fmap (fun x => g (f x)) c = ch_fmap g (ch_fmap f c) /\
  values (ch_fmap f c) = map f (values c) /\
  ch_first (ch_fmap f c) = option_map f (ch_first c) /\
  ch_fmap_owned f c = Ret (ch_fmap f c).
Proof.
  intros A B C f g [[|x l]]; [repeat split; reflexivity|]. unfold ch_fmap, ch_new, ch_fmap_owned.
  cbn [values]. rewrite map_id, map_map. repeat split; reflexivity.
Qed.
Theorem C17_fmap_alternatives : forall (A : Type) (f : A -> A) (c : choice A),
  ch_first (ch_fmap_alternatives f c) = ch_first c /\
  ch_alternatives (ch_fmap_alternatives f c) = map f (ch_alternatives c).
Proof.
  intros A f c. rewrite !ch_alternatives_tl. destruct c as [[|x l]]; split; reflexivity.
Qed.
Example C17_case : ch_fmap S (ch_new 1 [2; 3]) = ch_new 2 [3; 4].
Proof. reflexivity. Qed.

(** ** C18: monad *)
(** Exact meaning of [bind]. *)
Theorem C18_bind_exact : forall (T U : Type) (c : choice T) (f : T -> choice U),
  values (ch_bind c f) =
  match values c with
  | x :: _ => match values (f x) with
              | [] => []
              | _ :: _ => concat (map (fun y => values (f y)) (values c))
              end
  | [] => []
  end.
Proof.
  intros. rewrite ch_bind_values. destruct (values c) as [|x l]; [reflexivity|].
  rewrite <- flat_map_concat_map. reflexivity.
Qed.
Theorem C18_identities : forall (T U : Type) (x : T) (f : T -> choice U) (c : choice T),
  ch_bind (ch_pure x) f = f x /\ ch_bind c ch_pure = c.
Proof.
  intros. split; apply choice_ext; rewrite ch_bind_values.
  - cbn. destruct (values (f x)); [reflexivity|]. now rewrite app_nil_r.
  - destruct (values c) as [|y l]; [reflexivity|]. cbn.
    f_equal. etransitivity; [apply (flat_map_single (fun x => x))|apply map_id].
Qed.
Theorem C18_variants_agree : forall (T U : Type) (c : choice T) (f : T -> choice U),
  ch_bind_owned c f = Ret (ch_bind c f) /\
  ch_join f c = Ret (ch_bind c f) /\
  ch_join_owned f c = Ret (ch_bind c f).
Proof.
  intros. split; [apply ch_bind_owned_eq|]. split; [apply ch_join_eq|apply ch_join_owned_eq].
Qed.
(** Associativity holds whenever the second function is nowhere empty on the
    values it meets; the general law is refuted below. *)
Theorem C18_assoc_partial : forall (A B C : Type) (c : choice A) (f : A -> choice B) (g : B -> choice C),
  (forall x y, In x (values c) -> In y (values (f x)) -> values (g y) <> []) ->
  ch_bind (ch_bind c f) g = ch_bind c (fun x => ch_bind (f x) g).
Proof.
  intros A B C c f g Hg. apply choice_ext. rewrite !ch_bind_values.
  destruct (values c) as [|x l] eqn:Ec; [reflexivity|].
  assert (Hb : forall x', In x' (x :: l) ->
    values (ch_bind (f x') g) = flat_map (fun y => values (g y)) (values (f x'))).
  { intros x' Hx. rewrite ch_bind_values. destruct (values (f x')) as [|y ys] eqn:Ef; [reflexivity|].
    destruct (values (g y)) eqn:Eg; [|reflexivity].
    exfalso. apply (Hg x' y); auto. rewrite Ef; now left. }
  rewrite (Hb x) by now left.
  destruct (values (f x)) as [|y ys] eqn:Ef; [reflexivity|].
  cbn [flat_map]. rewrite Ef. cbn [app].
  destruct (values (g y)) as [|z zs] eqn:Eg.
  { exfalso. apply (Hg x y); auto; [now left|rewrite Ef; now left]. }
  cbn [app flat_map]. rewrite Hb by now left. rewrite Ef. cbn [flat_map]. rewrite Eg. cbn [app].
  f_equal. rewrite flat_map_app, app_assoc. f_equal.
  rewrite flat_map_flat_map.
  assert (Hl : forall x', In x' l -> In x' (x :: l)) by (intros; now right).
  clear Ec. induction l as [|x1 l IH]; [reflexivity|]. cbn [flat_map].
  rewrite Hb by (apply Hl; now left). f_equal. apply IH.
  - intros x' y' [->|Hx]; apply Hg; [now left|right; now right].
  - intros x' [->|Hx]; apply Hb; [now left|right; now right].
  - intros x' Hx; now right.
Qed.
Theorem C18_assoc_refuted : exists (c : choice nat) (f g : nat -> choice nat),
  ch_bind (ch_bind c f) g <> ch_bind c (fun x => ch_bind (f x) g).
Proof.
  exists (ch_new 0 [1]), (fun x => if x =? 0 then ch_pure 10 else ch_new 20 [21]),
    (fun y => if y =? 20 then ch_empty else ch_pure y).
  vm_compute. discriminate.
Qed.
(** [bind] is concatenation exactly when the primary's image is non-empty or
    all images are empty; otherwise every alternative is lost. *)
Theorem C18_bind_concat_iff : forall (T U : Type) (c : choice T) (f : T -> choice U),
  values (ch_bind c f) = ch_bind_lazy c f <->
  (ch_bind_lazy c f = [] \/ forall x, ch_first c = Some x -> values (f x) <> []).
Proof.
  intros T U c f. rewrite ch_bind_values. unfold ch_bind_lazy, ch_iter, ch_first.
  destruct (values c) as [|x l]; [cbn; tauto|]. cbn [hd_error].
  destruct (values (f x)) as [|y ys] eqn:E.
  - split; [left; congruence|]. intros [->|H]; [reflexivity|]. now destruct (H x).
  - split; [|reflexivity]. intros _. right. intros x' Hx. injection Hx as <-. congruence.
Qed.
Theorem C18_bind_concat_refuted : exists (c : choice nat) (f : nat -> choice nat),
  values (ch_bind c f) <> concat (map (fun x => values (f x)) (values c)).
Proof.
  exists (ch_new 0 [1]), (fun x => if x =? 0 then ch_empty else ch_pure x).
  vm_compute. discriminate.
Qed.
Theorem C18_bind_lazy : forall (T U : Type) (c : choice T) (f : T -> choice U),
  ch_bind_lazy c f = concat (map (fun x => values (f x)) (values c)).
Proof. intros. unfold ch_bind_lazy, ch_iter. apply flat_map_concat_map. Qed.
Example C18_case :
  values (ch_bind (ch_new 1 [2; 3]) (fun x => ch_from_vec (repeat x x))) = [1; 2; 2; 3; 3; 3] /\
  ch_bind (ch_bind (ch_new 1 [2]) (fun x => ch_new x [10 + x])) (fun y => ch_new y [2 * y])
  = ch_new 1 [2; 11; 22; 2; 4; 12; 24].
Proof. vm_compute. auto. Qed.

(** ** C19: applicative *)
Theorem C19_apply_exact : forall (A B : Type) (ff : choice (A -> B)) (fv : choice A),
  values (ch_apply ff fv) = concat (map (fun v => map (fun f => f v) (values ff)) (values fv)) /\
  ch_apply_owned ff fv = ch_apply ff fv.
Proof.
  intros. split; [rewrite ch_apply_values; apply flat_map_concat_map|].
  apply choice_ext, ch_apply_owned_values.
Qed.
Theorem C19_laws : forall (A B C : Type) (x : A) (h : A -> B) (v : choice A)
    (u : choice (A -> B)) (w : choice (B -> C)),
  ch_apply (ch_pure (fun x => x)) v = v /\
  ch_apply (ch_pure h) (ch_pure x) = ch_pure (h x) /\
  ch_apply u (ch_pure x) = ch_apply (ch_pure (fun f => f x)) u /\
  ch_apply (ch_pure h) v = ch_fmap h v.
Proof.
  intros. split; [|split; [|split]]; apply choice_ext; rewrite ?ch_apply_values; cbn.
  - rewrite flat_map_single. apply map_id.
  - reflexivity.
  - rewrite app_nil_r. rewrite (flat_map_single (fun f => f x)). reflexivity.
  - rewrite flat_map_single. destruct v as [[|y l]]; reflexivity.
Qed.
Theorem C19_composition : forall (A B C : Type) (w : choice (B -> C)) (u : choice (A -> B)) (v : choice A),
  ch_apply w (ch_apply u v) =
  ch_apply (ch_apply (ch_apply (ch_pure (fun (g : B -> C) (f : A -> B) (x : A) => g (f x))) w) u) v.
Proof.
  intros. apply choice_ext. rewrite !ch_apply_values. cbn [values ch_pure ch_from_iter length map].
  rewrite flat_map_single, flat_map_flat_map. apply flat_map_ext'. intros x.
  rewrite map_flat_map, flat_map_map'. apply flat_map_ext'. intros f. now rewrite !map_map.
Qed.
(** [lift2]/[lift3]: first argument outermost. *)
Theorem C19_lift_exact : forall (A B C D : Type) (f : A -> B -> C) (g : A -> B -> C -> D) a b c,
  values (ch_lift2 f a b) = concat (map (fun x => map (fun y => f x y) (values b)) (values a)) /\
  values (ch_lift3 g a b c) =
    concat (map (fun x => concat (map (fun y => map (fun z => g x y z) (values c)) (values b))) (values a)).
Proof.
  intros. rewrite ch_lift2_values, ch_lift3_values, !flat_map_concat_map. split; [reflexivity|].
  f_equal. apply map_ext. intros x. apply flat_map_concat_map.
Qed.
(** [lift2 f a b] has the same values as [apply (fmap f a) b], with the same
    primary, but not in the same order. *)
Theorem C19_lift2_apply_partial : forall (A B C : Type) (f : A -> B -> C) (a : choice A) (b : choice B),
  Permutation (values (ch_lift2 f a b)) (values (ch_apply (ch_fmap f a) b)) /\
  ch_first (ch_lift2 f a b) = ch_first (ch_apply (ch_fmap f a) b).
Proof.
  intros A B C f a b. rewrite ch_lift2_values, ch_apply_values.
  assert (E : values (ch_fmap f a) = map f (values a)) by (destruct a as [[|x l]]; reflexivity).
  rewrite E. split.
  - etransitivity; [apply flat_map_swap_perm|].
    apply Permutation_refl'. apply flat_map_ext'. intros y. now rewrite map_map.
  - unfold ch_first. rewrite ch_lift2_values, ch_apply_values, E.
    destruct (values a) as [|x la]; cbn; [now rewrite flat_map_nil_all|].
    destruct (values b) as [|y lb]; cbn; [now rewrite flat_map_nil_all|]. reflexivity.
Qed.
Theorem C19_lift2_apply_refuted : exists (f : nat -> nat -> nat) (a b : choice nat),
  ch_lift2 f a b <> ch_apply (ch_fmap f a) b.
Proof.
  exists (fun x y => 10 * x + y), (ch_new 1 [2]), (ch_new 3 [4]). vm_compute. discriminate.
Qed.
Example C19_case :
  values (ch_apply (ch_new S [fun x => 10 * x]) (ch_new 1 [2])) = [2; 10; 3; 20] /\
  values (ch_lift3 (fun x y z => 100 * x + 10 * y + z) (ch_new 1 [2]) (ch_new 3 [4]) (ch_new 5 [6]))
  = [135; 136; 145; 146; 235; 236; 245; 246].
Proof. vm_compute. auto. Qed.

(** ** C20: monoid, alternative, MonadPlus *)
Theorem C20_combine_exact : forall (T : Type) (a b : choice T),
  values (ch_combine a b) = values a ++ values b /\
  ch_combine_owned a b = ch_combine a b /\
  ch_alt a b = ch_combine a b /\
  ch_mplus a b = ch_combine a b /\
  ch_mplus_owned a b = ch_combine a b.
Proof.
  intros. split; [apply ch_combine_values|]. split; [apply ch_combine_owned_eq|].
  split; [apply ch_alt_eq|]. split; [apply ch_mplus_eq|apply ch_mplus_owned_eq].
Qed.
Theorem C20_laws : forall (T U : Type) (a b c : choice T) (f : T -> choice U),
  ch_combine (ch_combine a b) c = ch_combine a (ch_combine b c) /\
  ch_combine ch_empty a = a /\ ch_combine a ch_empty = a /\
  (forall x, ch_first a = Some x -> ch_first (ch_combine a b) = Some x) /\
  (ch_first a = None -> ch_first (ch_combine a b) = ch_first b) /\
  ch_bind ch_empty f = ch_empty.
Proof.
  intros. split. { apply choice_ext. rewrite !ch_combine_values. symmetry. apply app_assoc. }
  split; [apply ch_combine_empty_l|]. split; [apply ch_combine_empty_r|].
  unfold ch_first. rewrite ch_combine_values. destruct (values a); repeat split; auto; discriminate.
Qed.
Theorem C20_sum : forall (T : Type) (cs : list (choice T)),
  values (ch_sum cs) = concat (map values cs).
Proof.
  intros T cs. unfold ch_sum.
  assert (G : forall acc, values (fold_left ch_mplus cs acc) = values acc ++ concat (map values cs)).
  { induction cs as [|c cs IH]; intros acc; cbn; [now rewrite app_nil_r|].
    rewrite IH, ch_mplus_eq, ch_combine_values. now rewrite app_assoc. }
  apply G.
Qed.
(** MonadPlus: right zero; distribution over [mplus] fails because of C18. *)
Theorem C20_right_zero : forall (T U : Type) (c : choice T),
  ch_bind c (fun _ => @ch_empty U) = ch_empty.
Proof. intros T U [[|x l]]; reflexivity. Qed.
Theorem C20_left_distribution_refuted : exists (a b : choice nat) (f : nat -> choice nat),
  ch_bind (ch_mplus a b) f <> ch_mplus (ch_bind a f) (ch_bind b f).
Proof.
  exists (ch_pure 0), (ch_pure 1), (fun x => if x =? 0 then ch_empty else ch_pure x).
  vm_compute. discriminate.
Qed.
Theorem C20_many_guard : forall (T : Type) (c : choice T),
  ch_many c = Ret (mkChoice (match values c with [] => [] | x :: _ => [[x]] end)) /\
  values (ch_guard true) = [tt] /\ values (ch_guard false) = [].
Proof. intros T [[|x l]]; repeat split; reflexivity. Qed.
Example C20_case : values (ch_sum [ch_new 1 [2]; ch_empty; ch_pure 3]) = [1; 2; 3].
Proof. reflexivity. Qed.

(** ** C21: indexed mutators *)
Theorem C21_remove : forall (T : Type) (c : choice T) (i : nat),
  (S i < length (values c) ->
     ch_remove_alternative c i = Ret (mkChoice (delete_at (S i) (values c))) /\
     ch_try_remove_alternative c i = Ret (inl (mkChoice (delete_at (S i) (values c))))) /\
  (length (values c) <= S i ->
     ch_remove_alternative c i = Panic /\
     ch_try_remove_alternative c i = Ret (inr (1 <? length (values c)))).
Proof.
  intros T [l] i. unfold ch_remove_alternative, ch_try_remove_alternative, vec_remove, delete_at.
  rewrite ch_alternatives_tl. cbn [values].
  replace (length (tl l)) with (length l - 1) by (destruct l; cbn; lia).
  replace (i + 1) with (S i) by lia.
  split; intros H.
  - destruct (Nat.leb_spec (length l) 1); [lia|]. destruct (Nat.leb_spec (length l - 1) i); [lia|].
    destruct (Nat.ltb_spec (S i) (length l)); [|lia]. split; reflexivity.
  - destruct (Nat.leb_spec (length l) 1); destruct (Nat.ltb_spec 1 (length l)); try lia.
    + split; reflexivity.
    + destruct (Nat.leb_spec (length l - 1) i); [|lia]. split; reflexivity.
Qed.
Theorem C21_swap : forall (T : Type) (c : choice T) (i : nat),
  (S i < length (values c) ->
     exists c', ch_swap c i = Ret c' /\ ch_try_swap c i = Ret (inl c') /\
       swapped (S i) (values c) (values c') /\ ch_swap c' i = Ret c) /\
  (length (values c) <= S i ->
     ch_swap c i = Panic /\ ch_try_swap c i = Ret (inr (1 <? length (values c)))).
Proof.
  assert (G : forall (T : Type) (l : list T) i, S i < length l ->
    ch_swap (mkChoice l) i = omap mkChoice (vec_swap0 l (S i)) /\
    ch_try_swap (mkChoice l) i = omap (fun l => inl (mkChoice l)) (vec_swap0 l (S i))).
  { intros T l i H. unfold ch_swap, ch_try_swap. rewrite ch_alternatives_tl. cbn [values].
    replace (length (tl l)) with (length l - 1) by (destruct l; cbn; lia).
    replace (i + 1) with (S i) by lia.
    destruct (Nat.leb_spec (length l) 1); [lia|]. destruct (Nat.leb_spec (length l - 1) i); [lia|].
    split; reflexivity. }
  intros T [l] i. cbn [values]. split; intros H.
  - destruct (G _ l i H) as [G1 G2]. destruct (vec_swap0_ok H) as (l' & E & Hs).
    exists (mkChoice l'). rewrite G1, G2, E. split; [reflexivity|]. split; [reflexivity|].
    split; [exact Hs|].
    assert (H' : S i < length l') by (destruct Hs as [-> _]; exact H).
    destruct (G _ l' i H') as [-> _]. destruct (vec_swap0_ok H') as (l'' & -> & Hs').
    cbn. now rewrite (swapped_twice Hs Hs').
  - unfold ch_swap, ch_try_swap. rewrite ch_alternatives_tl. cbn [values].
    replace (length (tl l)) with (length l - 1) by (destruct l; cbn; lia).
    destruct (Nat.leb_spec (length l) 1); destruct (Nat.ltb_spec 1 (length l)); try lia.
    + split; reflexivity.
    + destruct (Nat.leb_spec (length l - 1) i); [|lia]. split; reflexivity.
Qed.
Theorem C21_primary_kept : forall (T : Type) (c c' : choice T) (i : nat),
  ch_remove_alternative c i = Ret c' ->
  ch_first c' = ch_first c /\ ch_alternatives c' = delete_at i (ch_alternatives c).
Proof.
  intros T c c' i H. destruct (C21_remove T c i) as [H1 H2].
  destruct (Nat.lt_ge_cases (S i) (length (values c))) as [Hl|Hl].
  - destruct (H1 Hl) as [E _]. rewrite E in H. injection H as <-.
    unfold ch_first. rewrite !ch_alternatives_tl. unfold delete_at. cbn [values].
    destruct (values c) as [|x l]; [cbn in Hl; lia|]. split; reflexivity.
  - destruct (H2 Hl) as [E _]. congruence.
Qed.
Example C21_case :
  ch_remove_alternative (ch_new 1 [2; 3; 4]) 1 = Ret (ch_new 1 [2; 4]) /\
  ch_swap (ch_new 1 [2; 3; 4]) 1 = Ret (ch_new 3 [2; 1; 4]) /\
  ch_remove_alternative (ch_new 1 [2]) 1 = Panic /\
  ch_try_swap (ch_new 1 [2]) 1 = Ret (inr true).
Proof. vm_compute. auto. Qed.

(** ** C22: filtering and deduplication *)
Theorem C22_filter : forall (T : Type) (p : T -> bool) (c : choice T),
  values (ch_filter_values p c) = filter p (values c) /\
  ch_first (ch_filter p c) = ch_first c /\
  ch_alternatives (ch_filter p c) = filter p (ch_alternatives c).
Proof.
  intros T p c. rewrite !ch_alternatives_tl. split; [|destruct c as [[|x l]]; split; reflexivity].
  unfold ch_filter_values. destruct (filter p (values c)); reflexivity.
Qed.
Theorem C22_dedup : forall (T K : Type) (keq : K -> K -> bool) (teq : T -> T -> bool)
    (key : T -> K) (c : choice T),
  equivalence keq -> equivalence teq ->
  values (ch_dedup_by_key keq key c) = first_occurrences keq key (values c) /\
  values (ch_dedup teq c) = first_occurrences teq (fun x => x) (values c).
Proof.
  intros T K keq teq key [[|x l]] H1 H2; [split; reflexivity|].
  unfold ch_dedup, ch_dedup_by_key, ch_is_empty, ch_iter. cbn [values].
  split; now apply dedup_first_occurrences.
Qed.
(** [to_map_with_key] has one entry per key: its first value. *)
Theorem C22_to_map : forall (T K : Type) (keq : K -> K -> bool) (key : T -> K) (c : choice T),
  equivalence keq ->
  ch_to_map_with_key keq key c =
    map (fun x => (key x, x)) (first_occurrences keq key (values c)).
Proof.
  intros T K keq key c H. rewrite <- dedup_first_occurrences by auto.
  unfold ch_to_map_with_key, ch_iter.
  assert (G : forall l m seen, (forall k, existsb (keq k) seen = existsb (fun kv => keq k (fst kv)) m) ->
    to_map_loop keq key m l = m ++ map (fun x : T => (key x, x)) (dedup_loop keq key seen l)).
  { induction l as [|x l IH]; intros m seen Hs; cbn; [now rewrite app_nil_r|].
    rewrite <- Hs. destruct (existsb (keq (key x)) seen) eqn:E.
    - now apply IH.
    - cbn. rewrite (IH _ (key x :: seen)); [now rewrite <- app_assoc|].
      intros k. rewrite existsb_app. cbn. rewrite Hs, orb_false_r. apply orb_comm. }
  apply (G _ [] []). reflexivity.
Qed.
Example C22_case :
  values (ch_dedup_by_key Nat.eqb (fun x => x mod 3) (ch_from_vec [4; 1; 5; 7; 6; 2; 9])) = [4; 5; 6] /\
  equivalence Nat.eqb /\
  values (ch_filter Nat.even (ch_from_vec [1; 2; 3; 4])) = [1; 2; 4].
Proof.
  split; [reflexivity|]. split; [|reflexivity]. split; [exact Nat.eqb_refl|]. split.
  - intros x y H. apply Nat.eqb_eq in H as ->. apply Nat.eqb_refl.
  - intros x y z H. now apply Nat.eqb_eq in H as ->.
Qed.

(** ** C23: flatten and sequence *)
Theorem C23_flatten : forall (I : Type) (c : choice (list I)),
  (ch_first c <> Some [] ->
     ch_flatten c = Ret (mkChoice (concat (values c))) /\
     ch_try_flatten c = inl (mkChoice (concat (values c)))) /\
  (ch_first c = Some [] -> ch_flatten c = Panic /\ ch_try_flatten c = inr tt).
Proof.
  intros I [[|[|x p] l]]; unfold ch_flatten, ch_try_flatten, ch_first, ch_new;
    cbn [values hd_error skipn concat]; split; intros H; try congruence; try (split; reflexivity).
Qed.
(** [flatten_sorted] panics in the same case; otherwise it keeps the primary
    and stably sorts all remaining elements. *)
Theorem C23_flatten_sorted : forall (I : Type) (leb : I -> I -> bool) (c : choice (list I)),
  total_preorder leb ->
  (ch_flatten_sorted leb c = Panic <-> ch_first c = Some []) /\
  (forall r, ch_flatten_sorted leb c = Ret r ->
     ch_first r = hd_error (concat (values c)) /\
     Permutation (values r) (concat (values c)) /\
     Sorted.StronglySorted (fun x y => leb x y = true) (ch_alternatives r)).
Proof.
  intros I leb [[|[|x p] l]] H; unfold ch_flatten_sorted, ch_first; cbn [values hd_error skipn].
  - split; [split; congruence|]. intros r E. injection E as <-. repeat split; constructor.
  - split; [tauto|]. intros r E; discriminate.
  - split; [split; congruence|]. intros r E. injection E as <-.
    rewrite ch_alternatives_tl. cbn [values ch_new tl hd_error concat app].
    rewrite flat_map_concat_map, map_id.
    split; [reflexivity|]. split.
    + constructor. etransitivity; [apply stable_sort_perm|]. apply Permutation_app_comm.
    + now apply stable_sort_sorted.
Qed.
Theorem C23_sequence : forall (A : Type) (c : choice (option A)),
  (forall r, ch_sequence c = Some r <-> values c = map Some (values r)) /\
  (ch_sequence c = None <-> In None (values c)).
Proof.
  intros A c. destruct (collect_option_spec (values c)) as [H1 H2]. unfold ch_sequence.
  destruct (collect_option (values c)) as [vs|] eqn:E.
  - split.
    + intros [r]. cbn. split.
      * intros H. injection H as <-. now apply H1.
      * intros H. apply H1 in H. congruence.
    + split; [discriminate|]. intros H. apply H2 in H. discriminate.
  - split; [|tauto]. intros r. split; [discriminate|]. intros H. apply H1 in H. discriminate.
Qed.
Example C23_case :
  ch_flatten (ch_new [1; 2] [[]; [3]]) = Ret (ch_new 1 [2; 3]) /\
  ch_flatten (ch_new [] [[3]]) = Panic /\
  ch_flatten_sorted Nat.leb (ch_new [5; 2] [[9; 1]; [3]]) = Ret (ch_new 5 [1; 2; 3; 9]).
Proof. vm_compute. auto. Qed.

Print Assumptions C16_construction.
Print Assumptions C16_accessors.
Print Assumptions C16_folds.
Print Assumptions C16_try_value_panics_refuted.
Print Assumptions C17_fmap.
Print Assumptions C17_fmap_alternatives.
Print Assumptions C18_bind_exact.
Print Assumptions C18_identities.
Print Assumptions C18_variants_agree.
Print Assumptions C18_assoc_partial.
Print Assumptions C18_assoc_refuted.
Print Assumptions C18_bind_concat_iff.
Print Assumptions C18_bind_concat_refuted.
Print Assumptions C18_bind_lazy.
Print Assumptions C19_apply_exact.
Print Assumptions C19_laws.
Print Assumptions C19_composition.
Print Assumptions C19_lift_exact.
Print Assumptions C19_lift2_apply_partial.
Print Assumptions C19_lift2_apply_refuted.
Print Assumptions C20_combine_exact.
Print Assumptions C20_laws.
Print Assumptions C20_sum.
Print Assumptions C20_right_zero.
Print Assumptions C20_left_distribution_refuted.
Print Assumptions C20_many_guard.
Print Assumptions C21_remove.
Print Assumptions C21_swap.
Print Assumptions C21_primary_kept.
Print Assumptions C22_filter.
Print Assumptions C22_dedup.
Print Assumptions C22_to_map.
Print Assumptions C23_flatten.
Print Assumptions C23_flatten_sorted.
Print Assumptions C23_sequence.

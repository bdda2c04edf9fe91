(** C05, C11: nested concatenations. *)
From Coq Require Import List Arith Lia Bool Permutation.
From Verif Require Import Base PvecModel PvecSpec PvecFacts PvecShape PvecHist PvecComb PvecProps
  ConcatSpec.
Import ListNotations.
Set Implicit Arguments.
Unset Strict Implicit.

(** the calls: [from_slice] and [concat] *)
Fixpoint build {T} (e : nest T) : pvec T :=
  match e with
  | Slice l => pv_from_iter l
  | Cat a b => pv_concat (build a) (build b)
  end.

Lemma slice_level_spec n h : slice_level n <= h <-> n / 64 <= 32 ^ h.
Proof.
  unfold slice_level. set (m := n / 64). clearbody m. clear n.
  replace (32 ^ h) with (2 ^ (5 * h)) by (rewrite Nat.pow_mul_r; reflexivity).
  assert (H : (Nat.log2_up m + 4) / 5 <= h <-> Nat.log2_up m <= 5 * h).
  { split; intros H.
    - pose proof (Nat.div_mod (Nat.log2_up m + 4) 5 ltac:(lia)).
      pose proof (Nat.mod_upper_bound (Nat.log2_up m + 4) 5 ltac:(lia)). lia.
    - assert ((Nat.log2_up m + 4) / 5 < S h); [|lia]. apply Nat.div_lt_upper_bound; lia. }
  rewrite H. destruct m as [|m].
  - cbn [Nat.log2_up]. split; intros _; [|apply Nat.le_0_l].
    change (Nat.log2_up 0) with 0. lia.
  - symmetry. apply Nat.log2_up_le_pow2. lia.
Qed.

Lemma slice_level_height {T} (l : list T) : pv_height (pv_from_iter l) = slice_level (length l).
Proof.
  apply Nat.le_antisymm.
  - apply slice_height, slice_level_spec. lia.
  - apply slice_level_spec, slice_height. lia.
Qed.

Lemma slice_level_small n : n < 128 -> slice_level n = 0.
Proof.
  intros H. assert (slice_level n <= 0); [|lia]. apply slice_level_spec. change (32 ^ 0) with 1.
  assert (n / 64 < 2); [|lia]. apply Nat.div_lt_upper_bound; lia.
Qed.

Lemma held_permutation {T} (e : nest T) : Permutation (held e) (in_order e).
Proof.
  induction e as [l|a IHa b IHb]; cbn [held in_order]; [reflexivity|].
  destruct (level a <? level b).
  - etransitivity; [apply Permutation_app_comm|]. now apply Permutation_app.
  - now apply Permutation_app.
Qed.
Lemma held_size {T} (e : nest T) : length (held e) = size e.
Proof. apply Permutation_length, held_permutation. Qed.
Lemma size_cat {T} (a b : nest T) : size (Cat a b) = size a + size b.
Proof. apply app_length. Qed.

Lemma small_size {T} (e : nest T) : small e = true -> size e <= 64.
Proof.
  destruct e as [l|a b]; cbn [small]; intros H.
  - now apply Nat.leb_le.
  - apply andb_prop in H. destruct H as [_ H]. apply Nat.leb_le in H. now rewrite size_cat.
Qed.
Lemma small_level {T} (e : nest T) : small e = true -> level e = 0.
Proof.
  intros H. pose proof (small_size H) as Hs. destruct e as [l|a b]; cbn [level small] in *.
  - apply slice_level_small. unfold size in Hs. cbn in Hs. lia.
  - apply andb_prop in H. destruct H as [-> _]. apply slice_level_small. rewrite size_cat in Hs. lia.
Qed.
Lemma empty_level {T} (e : nest T) : size e = 0 -> level e = 0.
Proof.
  induction e as [l|a IHa b IHb]; intros H; cbn [level].
  - unfold size in H. cbn in H. rewrite H. reflexivity.
  - rewrite size_cat in H. destruct (small a && small b).
    + rewrite H. reflexivity.
    + rewrite IHa, IHb by lia. reflexivity.
Qed.

Lemma tree_concat_height {T} (s t : tree T) :
  t_len s <> 0 -> t_len t <> 0 -> t_height (tree_concat s t) = Nat.max (t_height s) (t_height t).
Proof.
  intros Hs Ht. unfold tree_concat.
  rewrite (proj2 (Nat.eqb_neq _ _) Hs), (proj2 (Nat.eqb_neq _ _) Ht).
  destruct (Nat.eqb_spec (t_height s) (t_height t)); [reflexivity|].
  destruct (Nat.ltb_spec (t_height s) (t_height t)).
  - unfold concat_different_height, concat_same_height, elevate_tree. cbn [t_height]. lia.
  - unfold concat_different_height, concat_same_height, elevate_tree. cbn [t_height]. lia.
Qed.
Lemma tree_concat_height_empty {T} (s t : tree T) :
  (t_len s = 0 -> t_height s = 0) -> (t_len t = 0 -> t_height t = 0) ->
  t_height (tree_concat s t) = Nat.max (t_height s) (t_height t).
Proof.
  intros Hs Ht. destruct (Nat.eq_dec (t_len s) 0) as [E|E].
  { unfold tree_concat. rewrite E. rewrite Hs by exact E. reflexivity. }
  destruct (Nat.eq_dec (t_len t) 0) as [F|F].
  { unfold tree_concat. rewrite F, (proj2 (Nat.eqb_neq _ _) E). rewrite Ht by exact F.
    cbn. now rewrite Nat.max_0_r. }
  now apply tree_concat_height.
Qed.

Lemma build_facts {T} (e : nest T) :
  pv_ok (build e) /\ pv_elems (build e) = held e /\
  pv_height (build e) = level e /\ pv_is_inline (build e) = small e.
Proof.
  induction e as [l|a (Oa & Ea & Ha & Ia) b (Ob & Eb & Hb & Ib)]; cbn [build held level small].
  { destruct (pv_from_iter_ok l) as [O E]. split; auto. split; auto.
    split; [apply slice_level_height|apply slice_inline]. }
  destruct (pv_concat_ok Oa Ob) as [C1 C2]. split; auto.
  pose proof (held_size a) as Sa. pose proof (held_size b) as Sb.
  rewrite <- Ea in Sa. rewrite <- Eb in Sb.
  assert (La : pv_len (build a) = size a) by (rewrite (represents_len (pv_ok_represents Oa)); auto).
  assert (Lb : pv_len (build b) = size b) by (rewrite (represents_len (pv_ok_represents Ob)); auto).
  split; [|split].
  - rewrite C2. unfold pv_concat_content. rewrite Ha, Hb, Ia, Ib, La, Lb, Ea, Eb.
    destruct (Nat.ltb_spec (level a) (level b)) as [H|H]; [|now rewrite !andb_false_r].
    destruct (Nat.eqb_spec (size a) 0) as [H1|H1]; cbn [negb andb].
    { rewrite Ea in Sa. rewrite H1 in Sa. destruct (held a); [|discriminate Sa].
      now rewrite app_nil_r. }
    destruct (Nat.eqb_spec (size b) 0) as [H2|H2]; cbn [negb andb].
    { rewrite (empty_level H2) in H. lia. }
    destruct (small b) eqn:E; [rewrite (small_level E) in H; lia|].
    now rewrite andb_false_r.
  - destruct (small a && small b) eqn:E.
    + apply andb_prop in E. destruct E as [E1 E2]. rewrite E1 in Ia. rewrite E2 in Ib.
      unfold pv_concat, pv_is_inline in *. destruct (inner (build a)) as [x|] eqn:Na; [|discriminate].
      destruct (inner (build b)) as [y|] eqn:Nb; [|discriminate].
      rewrite slice_level_height, app_length. unfold pv_elems in Sa, Sb. rewrite Na in Sa. rewrite Nb in Sb.
      now rewrite Sa, Sb.
    + rewrite <- Ha, <- Hb.
      assert (Fe : forall es : list T, t_len (from_elements es) = 0 -> t_height (from_elements es) = 0).
      { intros es Hes. destruct (from_elements_ok es) as [[_ F1] F2]. rewrite F2 in F1.
        rewrite F1 in Hes. destruct es; [reflexivity|discriminate Hes]. }
      assert (Ft : forall (x : nest T) t, pv_ok (build x) -> pv_elems (build x) = held x ->
                     pv_height (build x) = level x -> inner (build x) = Tree t ->
                     t_len t = 0 -> t_height t = 0).
      { intros x t Ox Ex Hx Nx Ht. unfold pv_height in Hx. rewrite Nx in Hx. rewrite Hx.
        apply empty_level. rewrite <- held_size, <- Ex. unfold pv_elems. rewrite Nx.
        destruct Ox as [_ Ox]. rewrite Nx in Ox. destruct Ox as [_ Ox]. lia. }
      pose proof (Ft a) as Fa. pose proof (Ft b) as Fb. clear Ft.
      unfold pv_concat, pv_height, pv_is_inline in *.
      destruct (inner (build a)) as [x|s] eqn:Na; destruct (inner (build b)) as [y|t] eqn:Nb;
        cbn [inner]; try (apply tree_concat_height_empty; auto; fail).
      rewrite <- Ia, <- Ib in E. discriminate E.
  - unfold pv_concat, pv_is_inline in *.
    destruct (inner (build a)) as [x|s] eqn:Na; destruct (inner (build b)) as [y|t] eqn:Nb;
      cbn [inner]; rewrite <- Ia, <- Ib; cbn [andb]; auto.
    change (pv_is_inline (pv_from_iter (x ++ y)) = (size a + size b <=? 64)).
    rewrite slice_inline, app_length. unfold pv_elems in Sa, Sb. rewrite Na in Sa. rewrite Nb in Sb.
    now rewrite Sa, Sb.
Qed.

(** Exactly what every nesting holds. *)
Theorem C05_nested_exact {T} (e : nest T) : represents (build e) (held e).
Proof.
  destruct (build_facts e) as (O & E & _). rewrite <- E. now apply pv_ok_represents.
Qed.

(** Right whenever the levels never increase to the right; then every grouping of
    such slices is right too. *)
Theorem C05_descending {T} (e : nest T) : descending e -> represents (build e) (in_order e).
Proof.
  intros H. assert (E : held e = in_order e); [|rewrite <- E; apply C05_nested_exact].
  induction e as [l|a IHa b IHb]; cbn [held in_order descending] in *; auto. destruct H as (H1 & H2 & H3).
  rewrite (proj2 (Nat.ltb_ge _ _) H3). now rewrite IHa, IHb.
Qed.
(** [level] in terms of lengths: a concatenation needs the levels of its larger
    part, except that two parts without a tree together become a slice. *)
Theorem C05_level {T} (e : nest T) :
  match e with
  | Slice l => forall h, level e <= h <-> length l / 64 <= 32 ^ h
  | Cat a b => (small a = true -> small b = true ->
                  forall h, level e <= h <-> size e / 64 <= 32 ^ h) /\
               (small a = false \/ small b = false -> level e = Nat.max (level a) (level b))
  end.
Proof.
  destruct e as [l|a b]; cbn [level].
  - intros h. apply slice_level_spec.
  - split.
    + intros -> -> h. cbn [andb]. rewrite size_cat. apply slice_level_spec.
    + intros [-> | ->]; [|rewrite andb_false_r]; reflexivity.
Qed.

(** ** C11: the two groupings of three parts, by their levels (no two neighbours
    both without a tree). *)
Theorem C11_groupings {T} (a b c : nest T) :
  (small a = false \/ small b = false) -> (small b = false \/ small c = false) ->
  let A := held a in let B := held b in let C := held c in
  exists l r,
    represents (pv_combine (pv_combine (build a) (build b)) (build c)) l /\
    represents (pv_combine (build a) (pv_combine (build b) (build c))) r /\
    (level b <= level a -> level c <= level b -> l = A ++ B ++ C /\ r = A ++ B ++ C) /\
    (level b <= level a -> level b < level c -> level c <= level a -> l = A ++ B ++ C /\ r = A ++ C ++ B) /\
    (level b <= level a -> level a < level c -> l = C ++ A ++ B /\ r = C ++ B ++ A) /\
    (level a < level b -> level c <= level b -> l = B ++ A ++ C /\ r = B ++ C ++ A) /\
    (level a < level b -> level b < level c -> l = C ++ B ++ A /\ r = C ++ B ++ A).
Proof.
  intros Hab Hbc A B C. exists (held (Cat (Cat a b) c)), (held (Cat a (Cat b c))).
  split; [apply (C05_nested_exact (Cat (Cat a b) c))|].
  split; [apply (C05_nested_exact (Cat a (Cat b c)))|].
  assert (E1 : level (Cat a b) = Nat.max (level a) (level b)).
  { cbn [level]. destruct Hab as [-> | ->]; [|rewrite andb_false_r]; reflexivity. }
  assert (E2 : level (Cat b c) = Nat.max (level b) (level c)).
  { cbn [level]. destruct Hbc as [-> | ->]; [|rewrite andb_false_r]; reflexivity. }
  cbn [held]. rewrite E1, E2. fold A B C.
  repeat split; intros;
    repeat match goal with
    | |- context [?x <? ?y] => destruct (Nat.ltb_spec x y)
    end; try lia; now rewrite <- ?app_assoc.
Qed.

(** Associative exactly when the levels never increase or always increase. *)
Theorem C11_associativity_exact (a b c : nat) :
  64 < a -> 64 < b -> 64 < c ->
  (forall T (x y z : list T), length x = a -> length y = b -> length z = c ->
     pv_to_vec (pv_combine (pv_combine (pv_from_iter x) (pv_from_iter y)) (pv_from_iter z)) =
     pv_to_vec (pv_combine (pv_from_iter x) (pv_combine (pv_from_iter y) (pv_from_iter z))))
  <-> (slice_level b <= slice_level a /\ slice_level c <= slice_level b) \/
      (slice_level a < slice_level b /\ slice_level b < slice_level c).
Proof.
  intros Ha Hb Hc.
  assert (G : forall T (x y z : list T), length x = a -> length y = b -> length z = c ->
    exists l r,
    pv_to_vec (pv_combine (pv_combine (pv_from_iter x) (pv_from_iter y)) (pv_from_iter z)) = Ret l /\
    pv_to_vec (pv_combine (pv_from_iter x) (pv_combine (pv_from_iter y) (pv_from_iter z))) = Ret r /\
    (slice_level b <= slice_level a -> slice_level c <= slice_level b ->
       l = x ++ y ++ z /\ r = x ++ y ++ z) /\
    (slice_level b <= slice_level a -> slice_level b < slice_level c -> slice_level c <= slice_level a ->
       l = x ++ y ++ z /\ r = x ++ z ++ y) /\
    (slice_level b <= slice_level a -> slice_level a < slice_level c ->
       l = z ++ x ++ y /\ r = z ++ y ++ x) /\
    (slice_level a < slice_level b -> slice_level c <= slice_level b ->
       l = y ++ x ++ z /\ r = y ++ z ++ x) /\
    (slice_level a < slice_level b -> slice_level b < slice_level c ->
       l = z ++ y ++ x /\ r = z ++ y ++ x)).
  { intros T x y z Hx Hy Hz.
    destruct (@C11_groupings T (Slice x) (Slice y) (Slice z)) as (l & r & R1 & R2 & R).
    1, 2: right; apply Nat.leb_gt; lia.
    exists l, r. split; [apply R1|]. split; [apply R2|].
    cbn [level held] in R. rewrite Hx, Hy, Hz in R. exact R. }
  split.
  - intros H. specialize (H nat (repeat 0 a) (repeat 1 b) (repeat 2 c)).
    destruct (G nat (repeat 0 a) (repeat 1 b) (repeat 2 c)) as (l & r & E1 & E2 & _ & R2 & R3 & R4 & _);
      try apply repeat_length.
    rewrite E1, E2 in H by apply repeat_length.
    assert (l = r) as Elr by (assert (Ret l = Ret r) as J by (apply H; apply repeat_length);
                              now injection J).
    destruct a as [|a']; [lia|]. destruct b as [|b']; [lia|]. destruct c as [|c']; [lia|].
    destruct (Nat.le_gt_cases (slice_level (S b')) (slice_level (S a'))) as [H1|H1];
      destruct (Nat.le_gt_cases (slice_level (S c')) (slice_level (S b'))) as [H2|H2]; auto.
    + exfalso. destruct (Nat.le_gt_cases (slice_level (S c')) (slice_level (S a'))) as [H3|H3].
      * destruct (R2 H1 H2 H3) as [-> ->]. apply app_inv_head in Elr. discriminate Elr.
      * destruct (R3 H1 H3) as [-> ->]. apply app_inv_head in Elr. discriminate Elr.
    + exfalso. destruct (R4 H1 H2) as [-> ->]. apply app_inv_head in Elr. discriminate Elr.
  - intros H T x y z Hx Hy Hz.
    destruct (G T x y z Hx Hy Hz) as (l & r & E1 & E2 & R1 & _ & _ & _ & R5).
    rewrite E1, E2. destruct H as [[H1 H2]|[H1 H2]].
    + destruct (R1 H1 H2) as [-> ->]. reflexivity.
    + destruct (R5 H1 H2) as [-> ->]. reflexivity.
Qed.

Example C11_exact_case :
  slice_level 65 = 0 /\ slice_level 128 = 1 /\ slice_level 2048 = 1 /\ slice_level 2112 = 2 /\
  held (Cat (Slice (seq 0 2)) (Cat (Slice (repeat 7 64)) (Slice (repeat 8 64))))
    = repeat 7 64 ++ repeat 8 64 ++ [0; 1] /\
  descending (Cat (Slice (seq 0 200)) (Cat (Slice [1]) (Slice [2]))).
Proof. repeat split; vm_compute; lia. Qed.

(** Three parts, the levels falling to the right; and two of which the second has more levels *)
Example C05_nested_case :
  let e := Cat (Slice (seq 0 200)) (Cat (Slice [7; 8]) (Slice [9])) in
  descending e /\ level e = 1 /\ in_order e = seq 0 200 ++ [7; 8; 9] /\ pv_to_vec (build e) = Ret (in_order e) /\
  (let d := Cat (Slice [7; 8]) (Slice (seq 0 200)) in
   ~ descending d /\ pv_to_vec (build d) = Ret (seq 0 200 ++ [7; 8])).
Proof. cbv zeta. repeat split; try (vm_compute; reflexivity); try (vm_compute; lia). Qed.

Print Assumptions C05_nested_exact.
Print Assumptions C05_descending.
Print Assumptions C05_level.
Print Assumptions C11_groupings.
Print Assumptions C11_associativity_exact.

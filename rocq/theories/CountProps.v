(** C94: the step counts of CostModel.v are those of the operations themselves,
    and a vector of one element can be as costly as any. *)
From Coq Require Import List Arith Lia Bool.
From Verif Require Import Base ListFacts PvecModel PvecFacts CostModel CostSpec CostProps CountModel.
Import ListNotations.
Set Implicit Arguments.
Local Transparent BRANCHING_FACTOR LEAF_CAPACITY ADAPTIVE_INLINE_SIZE.

Section Props.
Context {T : Type}.
Notation node := (node T).

Lemma scan_counted_ok sz i k cum :
  scan_counted sz i k cum = (scan_sizes sz i k cum, scan_reads sz i cum).
Proof.
  revert k cum. induction sz as [|s r IH]; intros k cum; [reflexivity|].
  cbn [scan_counted scan_sizes scan_reads].
  destruct (i <? cum + s); [reflexivity|]. rewrite IH. reflexivity.
Qed.

Lemma get_from_tree_counted_ok (n : node) : forall h i,
  get_from_tree_counted n h i = (get_from_tree n h i, get_from_tree_steps n h i).
Proof.
  induction n as [es|cs sz IH] using node_ind'; intros h i; [reflexivity|].
  rewrite Forall_forall in IH.
  cbn [get_from_tree_counted get_from_tree get_from_tree_steps].
  assert (E : (match sz with
               | Some s => scan_counted s i 0 0
               | None => free (find_child_regular cs i (h - 1))
               end) =
              (match sz with
               | Some _ => find_child_relaxed cs sz i
               | None => find_child_regular cs i (h - 1)
               end, table_reads sz i)).
  { destruct sz as [s|]; [|reflexivity]. apply scan_counted_ok. }
  rewrite E. unfold cbind, tick. cbn [fst snd].
  destruct (match sz with
            | Some _ => find_child_relaxed cs sz i
            | None => find_child_regular cs i (h - 1)
            end) as [[ci si]|]; [|reflexivity].
  rewrite !nth_error_map. destruct (nth_error cs ci) as [c|] eqn:Ec; cbn [option_map]; [|reflexivity].
  rewrite (IH c (nth_error_In _ _ Ec)). reflexivity.
Qed.

Lemma node_update_counted_ok (n : node) : forall i x,
  node_update_counted n i x = (node_update n i x, node_update_steps n i).
Proof.
  induction n as [es|cs sz IH] using node_ind'; intros i x; [reflexivity|].
  rewrite Forall_forall in IH.
  cbn [node_update_counted node_update node_update_steps].
  assert (E : (match sz with
               | Some s => scan_counted s i 0 0
               | None => free (Some (i / LEAF_CAPACITY, i mod LEAF_CAPACITY))
               end) = (find_child sz i, table_reads sz i)).
  { destruct sz as [s|]; [|reflexivity]. apply scan_counted_ok. }
  rewrite E. unfold cbind, tick. cbn [fst snd].
  destruct (find_child sz i) as [[ci si]|]; [|reflexivity].
  rewrite !nth_error_map. destruct (nth_error cs ci) as [c|] eqn:Ec; cbn [option_map]; [|reflexivity].
  rewrite (IH c (nth_error_In _ _ Ec)). cbn [fst snd free]. now rewrite Nat.add_0_r.
Qed.

Lemma calculate_height_counted_ok (n : node) :
  calculate_height_counted n = (calculate_height n, calculate_height_steps n).
Proof.
  induction n as [es|cs sz IH] using node_ind'; [reflexivity|].
  destruct cs as [|c cs]; [reflexivity|].
  cbn [calculate_height_counted calculate_height calculate_height_steps].
  inversion IH as [|? ? E _]; subst. rewrite E.
  unfold cbind, tick, free. cbn [fst snd]. now rewrite Nat.add_0_r.
Qed.

Lemma usub_ret a b c : usub a b = Ret c -> c = a - b.
Proof. unfold usub. destruct (b <=? a); congruence. Qed.

(** Running an operation with a counter gives the result of the operation and
    the number of steps used throughout C94. *)
Theorem C94_counts : forall (v : pvec T) i x,
  pv_get_counted v i = omap (fun o => (o, pv_get_steps v i)) (pv_get v i) /\
  pv_update_counted v i x = omap (fun v' => (v', pv_update_steps v i)) (pv_update v i x) /\
  pv_push_back_counted v x = (pv_push_back v x, pv_push_back_steps v).
Proof.
  intros v i x. split; [|split].
  - unfold pv_get_counted, pv_get, pv_get_steps.
    destruct (pv_len v <=? i); [reflexivity|]. destruct (inner v) as [es|t]; [reflexivity|].
    unfold tree_get_counted, tree_get, tree_get_steps.
    destruct (t_len t <=? i); [reflexivity|].
    destruct (i <? length (t_head t)); [reflexivity|].
    destruct (usub i (length (t_head t))) as [a|] eqn:Ea; [|reflexivity].
    apply usub_ret in Ea. subst a. cbn [obind].
    destruct (usub (t_len t) (length (t_head t))) as [a|] eqn:Ea; [|reflexivity].
    apply usub_ret in Ea. subst a. cbn [obind].
    destruct (usub (t_len t - length (t_head t)) (length (t_tail t))) as [a|] eqn:Ea; [|reflexivity].
    apply usub_ret in Ea. subst a. cbn [obind].
    destruct (_ <? _).
    + cbn [omap obind]. now rewrite get_from_tree_counted_ok.
    + destruct (usub (i - _) _) as [a|]; reflexivity.
  - unfold pv_update_counted, pv_update, pv_update_steps.
    destruct (pv_len v <=? i); [reflexivity|].
    destruct (inner v) as [es|t]; [destruct (i <? length es); reflexivity|].
    unfold tree_update_counted, tree_update, tree_update_steps.
    destruct (t_len t <=? i); [reflexivity|].
    destruct (i <? length (t_head t)); [reflexivity|].
    destruct (usub i (length (t_head t))) as [a|] eqn:Ea; [|reflexivity].
    apply usub_ret in Ea. subst a. cbn [obind].
    destruct (usub (t_len t) (length (t_head t))) as [a|] eqn:Ea; [|reflexivity].
    apply usub_ret in Ea. subst a. cbn [obind].
    destruct (usub (t_len t - length (t_head t)) (length (t_tail t))) as [a|] eqn:Ea; [|reflexivity].
    apply usub_ret in Ea. subst a. cbn [obind].
    destruct (_ <? _).
    + cbn [omap obind]. rewrite node_update_counted_ok.
      unfold cbind, free. cbn [fst snd]. now rewrite !Nat.add_0_r.
    + destruct (usub (i - _) _) as [a|]; reflexivity.
  - unfold pv_push_back_counted, pv_push_back, pv_push_back_steps, pv_tree_push_back.
    assert (E : forall t, tree_push_back_counted t x
                          = (tree_push_back t x, tree_push_back_steps t)).
    { intros t. unfold tree_push_back_counted, tree_push_back, tree_push_back_steps,
        push_tail_to_tree_counted, push_tail_to_tree.
      destruct (length (t_tail t) <? LEAF_CAPACITY); [reflexivity|].
      destruct (t_tail t) as [|y tl]; [reflexivity|].
      rewrite calculate_height_counted_ok.
      unfold cbind, tick, free. cbn [fst snd]. now rewrite !Nat.add_0_r. }
    destruct (inner v) as [es|t].
    + destruct (length es <? ADAPTIVE_INLINE_SIZE); [reflexivity|].
      cbv zeta. rewrite E. unfold cbind, tick, free. cbn [fst snd]. now rewrite !Nat.add_0_r.
    + rewrite E. unfold cbind, free. cbn [fst snd]. now rewrite !Nat.add_0_r.
Qed.

(** ** Vectors grown at the front: a bound for every index *)

Theorem C94_push_front_bound : forall l : list T,
  64 < length l ->
  let levels := ((length l - 65) / 64 + 30) / 31 in
  forall i,
  pv_get_steps (fold_left pv_push_front l pv_new) i <= 33 * levels + 1 /\
  pv_update_steps (fold_left pv_push_front l pv_new) i <= 33 * levels + 1.
Proof.
  intros l Hl. cbv zeta. intros i.
  destruct (front_all l) as [Hlen [(es & _ & _ & H)|(t & f & Hi & Hh & Hg & Ht & Htl & Hll & Hsz)]]; [lia|].
  change (((length l - 65) / 64 + 30) / 31) with (levels (flushes (length l))).
  rewrite Hll, flushes_of by lia.
  pose proof (tree_steps_bound t i (grown_front_shallow Hg)) as Hb.
  unfold pv_get_steps, pv_update_steps. rewrite Hi.
  destruct (_ <=? i); [split; lia|exact Hb].
Qed.

(** ** One element *)

(** one element under [k] branches *)
Fixpoint chain (x : T) (k : nat) : node :=
  match k with
  | 0 => Leaf [x]
  | S k' => Branch [chain x k'] (Some [1])
  end.

Lemma chain_size x k : calculate_size (chain x k) = 1.
Proof. destruct k; reflexivity. Qed.

Lemma chain_height x k : calculate_height (chain x k) = k.
Proof. induction k as [|k IH]; [reflexivity|]. cbn [chain calculate_height]. rewrite IH. reflexivity. Qed.

Lemma chain_get x k h : get_from_tree (chain x k) h 0 = Some x.
Proof. revert h. induction k as [|k IH]; intros h; [reflexivity|]. exact (IH (h - 1)). Qed.

Lemma chain_get_steps x k h : get_from_tree_steps (chain x k) h 0 = 2 * k + 1.
Proof.
  revert h. induction k as [|k IH]; intros h; [reflexivity|].
  change (get_from_tree_steps (chain x (S k)) h 0)
    with (1 + 1 + get_from_tree_steps (chain x k) (h - 1) 0).
  rewrite IH. lia.
Qed.

Lemma chain_update_steps x k : node_update_steps (chain x k) 0 = 2 * k + 1.
Proof.
  induction k as [|k IH]; [reflexivity|].
  change (node_update_steps (chain x (S k)) 0) with (1 + 1 + node_update_steps (chain x k) 0).
  rewrite IH. lia.
Qed.

Lemma grown_size_64 f (n : node) : grown f n -> 64 <= calculate_size n.
Proof.
  induction 1 as [es H|q r c ls H IH Hls Hl Hr]; [cbn [calculate_size]; lia|].
  change (64 <= calculate_size c + sum_list (map calculate_size ls)). lia.
Qed.

Lemma grown_height f (n : node) : grown f n -> calculate_height n = levels f.
Proof.
  induction 1 as [es H|q r c ls H IH Hls Hl Hr]; [reflexivity|].
  rewrite levels_part by auto. rewrite levels_full in IH.
  cbn [calculate_height]. now rewrite IH.
Qed.

Lemma grown_split f (n : node) :
  grown f n -> exists x,
  get_from_tree n (levels f) 0 = Some x /\
  fst (split_along_path n (find_path_to_index (levels f) n 1) 1 (levels f))
    = chain x (levels f).
Proof.
  induction 1 as [es H|q r c ls H IH Hls Hl Hr].
  - destruct es as [|x es]; [discriminate H|]. exists x. split; reflexivity.
  - rewrite levels_part by auto. rewrite levels_full in IH. destruct IH as (x & Hx & E).
    exists x. pose proof (grown_size_64 H) as Hs.
    assert (E0 : scan_sizes (map calculate_size (c :: ls)) 0 0 0 = Some (0, 0)).
    { cbn [map scan_sizes]. replace (0 <? 0 + calculate_size c) with true
        by (symmetry; apply Nat.ltb_lt; lia). reflexivity. }
    assert (E1 : scan_sizes (map calculate_size (c :: ls)) 1 0 0 = Some (0, 1)).
    { cbn [map scan_sizes]. replace (1 <? 0 + calculate_size c) with true
        by (symmetry; apply Nat.ltb_lt; lia). reflexivity. }
    split.
    + cbn [get_from_tree find_child_relaxed]. rewrite E0. cbn [map nth_error].
      replace (S q - 1) with q by lia. exact Hx.
    + cbn [find_path_to_index find_child_relaxed]. rewrite E1.
      change (nth_error (c :: ls) 0) with (Some c). cbv iota beta.
      cbn [split_along_path]. cbn [map nth_error].
      replace (S q - 1) with q by lia.
      change (calculate_adjusted_index 1 0 (Some (calculate_size c :: map calculate_size ls)) q) with 1.
      destruct (split_along_path c (find_path_to_index q c 1) 1 q) as [lc rc].
      cbn [fst] in *. subst lc.
      unfold create_left_branch. cbn [firstn app]. rewrite chain_size.
      change (0 <? 1) with true. cbv iota. cbn [chain]. unfold make_relaxed. cbn [map].
      now rewrite chain_size.
Qed.

Lemma pushed_height (l : list T) : forall t,
  inner (pv_extend pv_new l) = Tree t -> t_height t = calculate_height (t_root t).
Proof.
  induction l as [|x l IH] using rev_ind; [discriminate|].
  assert (E : pv_extend pv_new (l ++ [x]) = pv_push_back (pv_extend pv_new l) x)
    by (unfold pv_extend; now rewrite fold_left_app).
  rewrite E. clear E. intros t.
  assert (Hp : forall t0, t_height t0 = calculate_height (t_root t0) ->
    t_height (tree_push_back t0 x) = calculate_height (t_root (tree_push_back t0 x))).
  { intros t0 H0. unfold tree_push_back. destruct (_ <? _); [exact H0|].
    unfold push_tail_to_tree. destruct (t_tail t0); [exact H0|reflexivity]. }
  unfold pv_push_back. pose proof (pushed_all l) as Hs.
  destruct (inner (pv_extend pv_new l)) as [es|t0] eqn:Ei.
  - destruct (length es <? ADAPTIVE_INLINE_SIZE); [discriminate|].
    cbn [inner]. intros H. injection H as <-. apply Hp.
    destruct Hs as [_ [[Hl H]|(t1 & f & H & _)]]; rewrite Ei in H; [|discriminate].
    injection H as ->. unfold from_elements.
    replace (length l <=? LEAF_CAPACITY) with true by (symmetry; apply Nat.leb_le; exact Hl).
    reflexivity.
  - cbn [inner]. intros H. injection H as <-. apply Hp. now apply IH.
Qed.

(** Keeping only the first element of a vector grown at the back leaves the
    whole height of the tree in place. *)
Theorem C94_one_element : forall l : list T,
  64 < length l ->
  let levels := ((length l - 65) / 64 + 30) / 31 in
  exists v x,
    pv_take (pv_extend pv_new l) 1 = Ret v /\ pv_len v = 1 /\
    pv_get v 0 = Ret (Some x) /\ pv_get (pv_extend pv_new l) 0 = Ret (Some x) /\
    pv_get_steps v 0 = 2 * levels + 1 /\ pv_update_steps v 0 = 2 * levels + 1.
Proof.
  intros l Hl. cbv zeta.
  pose proof (pushed_height l) as Hh.
  destruct (pushed_all l) as [Hlen [[H _]|(t & f & Hi & Hhd & Hg & Ht & Htl & Hll)]]; [lia|].
  specialize (Hh t Hi). rewrite (grown_height Hg) in Hh.
  change (((length l - 65) / 64 + 30) / 31) with (levels (flushes (length l))).
  rewrite Hll, flushes_of by lia.
  destruct (grown_split Hg) as (x & Hx & E).
  unfold pv_take, pv_split_at, pv_get at 2. rewrite Hi, Hlen.
  replace (length l <=? 1) with false by (symmetry; apply Nat.leb_gt; lia).
  replace (length l <=? 0) with false by (symmetry; apply Nat.leb_gt; lia).
  change (1 =? 0) with false. cbv iota.
  unfold tree_split_at, tree_get. rewrite Hhd, Htl. cbn [length].
  change (1 =? 0) with false. change (1 <=? 0) with false. change (0 <? 0) with false.
  replace (length l <=? 1) with false by (symmetry; apply Nat.leb_gt; lia).
  replace (length l <=? 0) with false by (symmetry; apply Nat.leb_gt; lia).
  unfold usub. rewrite !Nat.sub_0_r. change (0 <=? length l) with true. change (0 <=? 0) with true.
  change (0 <=? 1) with true. cbn [obind].
  replace (length (t_tail t) <=? length l) with true by (symmetry; apply Nat.leb_le; lia).
  cbn [obind]. replace (0 + (length l - length (t_tail t)) <=? 1) with false
    by (symmetry; apply Nat.leb_gt; lia).
  replace (0 <? length l - length (t_tail t)) with true by (symmetry; apply Nat.ltb_lt; lia).
  change (0 - 0) with 0.
  unfold split_tree_at. rewrite Hh.
  destruct (split_along_path (t_root t) (find_path_to_index (levels f) (t_root t) 1) 1 (levels f))
    as [lr rr].
  cbn [fst] in E. subst lr. cbn [obind omap fst snd].
  eexists; exists x. split; [reflexivity|]. split; [reflexivity|].
  split; [|split; [now rewrite Hx|]].
  - unfold pv_get. cbn [pv_len inner]. change (1 <=? 0) with false. cbv iota.
    unfold tree_get, from_head_and_root. cbn [t_len t_head t_tail t_root t_height length].
    rewrite chain_size. change (0 + 1 <=? 0) with false. change (0 <? 0) with false. cbv iota.
    change (usub 0 0) with (Ret 0). change (usub (0 + 1) 0) with (Ret 1). cbn [obind].
    change (usub 1 0) with (Ret 1). cbn [obind]. change (0 <? 1) with true. cbv iota.
    now rewrite chain_get.
  - unfold pv_get_steps, pv_update_steps. cbn [pv_len inner]. change (1 <=? 0) with false. cbv iota.
    unfold tree_get_steps, tree_update_steps, from_head_and_root.
    cbn [t_len t_head t_tail t_root t_height length].
    rewrite chain_size. change (0 + 1 <=? 0) with false. change (0 <? 0) with false.
    change (0 - 0 <? 0 + 1 - 0 - 0) with true. cbv iota. change (0 - 0) with 0.
    now rewrite chain_get_steps, chain_update_steps.
Qed.

(** No function of the length bounds the work: one-element vectors cost as much
    as anyone likes. *)
Theorem C94_one_element_refuted : forall (x : T) (bound : nat),
  exists (l : list T) (v : pvec T),
    pv_take (pv_extend pv_new l) 1 = Ret v /\ pv_len v = 1 /\
    bound < pv_get_steps v 0 /\ bound < pv_update_steps v 0.
Proof.
  intros x bound. exists (repeat x (65 + 64 * (31 * bound))).
  destruct (@C94_one_element (repeat x (65 + 64 * (31 * bound)))) as (v & y & H1 & H2 & _ & _ & H3 & H4).
  { rewrite repeat_length. lia. }
  exists v. rewrite H3, H4, repeat_length.
  replace (65 + 64 * (31 * bound) - 65) with ((31 * bound) * 64) by lia.
  rewrite Nat.div_mul by lia.
  fold (levels (31 * bound)). rewrite levels_full.
  split; [exact H1|]. split; [exact H2|]. lia.
Qed.

End Props.

(** 2113 elements: two levels of branches; the one-element rest keeps both. *)
Example C94_one_element_case :
  match pv_take (pv_extend pv_new (seq 0 2113)) 1 with
  | Ret v => pv_len v = 1 /\ pv_get v 0 = Ret (Some 0) /\ pv_get_steps v 0 = 5
  | Panic => False
  end.
Proof. vm_compute. auto. Qed.
(** Reading element 70 of 200 collected ones visits the root, two entries of its
    table and one leaf; the append fills a tail and measures the new root. *)
Example C94_counts_case :
  pv_get_counted (pv_from_iter (seq 0 200)) 70 = Ret (Some 70, 4) /\
  snd (pv_push_back_counted (pv_extend pv_new (seq 0 128)) 9) = 3.
Proof. vm_compute. auto. Qed.
Example C94_push_front_bound_case :
  pv_get_steps (fold_left pv_push_front (seq 0 200) pv_new) 199 = 5 /\
  33 * (((200 - 65) / 64 + 30) / 31) + 1 = 34.
Proof. vm_compute. auto. Qed.

Print Assumptions C94_counts.
Print Assumptions C94_push_front_bound.
Print Assumptions C94_one_element.
Print Assumptions C94_one_element_refuted.

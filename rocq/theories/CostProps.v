(** C94: work of reading, updating and appending, by how the vector was made. *)
From Coq Require Import List Arith Lia Bool.
From Verif Require Import Base ListFacts PvecModel PvecFacts CostModel CostSpec.
Import ListNotations.
Set Implicit Arguments.
Local Transparent BRANCHING_FACTOR LEAF_CAPACITY ADAPTIVE_INLINE_SIZE.

Section Props.
Context {T : Type}.
Notation node := (node T).

(** Every branch has a table and at most 32 children, and no path is longer
    than [d]. *)
Inductive shallow : nat -> node -> Prop :=
| shallow_leaf d es : shallow d (Leaf es)
| shallow_branch d cs sz :
    length cs <= BRANCHING_FACTOR -> length sz = length cs ->
    (forall c, In c cs -> shallow d c) -> shallow (S d) (Branch cs (Some sz)).

Lemma shallow_le d e n : d <= e -> shallow d n -> shallow e n.
Proof.
  intros Hle H. revert e Hle.
  induction H as [d es|d cs sz Hl Hsz _ IH]; intros e Hle; [constructor|].
  destruct e as [|e]; [lia|]. constructor; auto. intros c Hc. apply IH; auto. lia.
Qed.

Lemma scan_reads_le sz i cum : scan_reads sz i cum <= length sz.
Proof.
  revert cum. induction sz as [|s r IH]; intros cum; cbn [scan_reads length]; [lia|].
  destruct (i <? cum + s); [lia|]. specialize (IH (cum + s)). lia.
Qed.

Lemma shallow_get_steps d n h i :
  shallow d n -> get_from_tree_steps n h i <= 33 * d + 1.
Proof.
  intros H. revert h i.
  induction H as [d es|d cs sz Hl Hsz _ IH]; intros h i; cbn [get_from_tree_steps]; [lia|].
  cbn [table_reads].
  pose proof (scan_reads_le sz i 0) as Hr. unfold BRANCHING_FACTOR in Hl.
  destruct (find_child_relaxed cs (Some sz) i) as [[ci si]|]; [|lia].
  rewrite nth_error_map. destruct (nth_error cs ci) as [c|] eqn:Ec; cbn [option_map]; [|lia].
  specialize (IH c (nth_error_In _ _ Ec) (h - 1) si). lia.
Qed.

Lemma shallow_update_steps d n h i :
  shallow d n -> node_update_steps n i = get_from_tree_steps n h i.
Proof.
  intros H. revert h i.
  induction H as [d es|d cs sz Hl Hsz _ IH]; intros h i; [reflexivity|].
  cbn [node_update_steps get_from_tree_steps].
  f_equal. cbn [find_child find_child_relaxed].
  destruct (scan_sizes sz i 0 0) as [[ci si]|]; auto.
  rewrite !nth_error_map. destruct (nth_error cs ci) as [c|] eqn:Ec; auto.
  apply (IH c (nth_error_In _ _ Ec)).
Qed.

(** ** Collected vectors *)

Lemma build_shallow fuel nodes d :
  nodes <> [] -> length nodes <= fuel -> Forall (shallow d) nodes ->
  shallow (d + Nat.log2 (length nodes)) (fst (build_tree_recursive fuel nodes)).
Proof.
  revert nodes d. induction fuel as [|fuel IH]; intros nodes d Hne Hl Hf.
  - destruct nodes; [congruence|cbn in Hl; lia].
  - assert (Hc : (exists x, nodes = [x]) \/ 2 <= length nodes).
    { destruct nodes as [|a [|b r]]; [congruence|left; eauto|right; cbn; lia]. }
    destruct Hc as [[x ->]|H2].
    + cbn. inversion Hf; subst. replace (d + 0) with d by lia. auto.
    + assert (E : fst (build_tree_recursive (S fuel) nodes)
                  = fst (build_tree_recursive fuel (map make_relaxed (chunks BRANCHING_FACTOR nodes)))).
      { destruct nodes as [|a [|b r]]; [congruence|cbn in H2; lia|].
        cbn [build_tree_recursive].
        destruct (build_tree_recursive fuel _); reflexivity. }
      rewrite E. clear E.
      set (next := map make_relaxed (chunks BRANCHING_FACTOR nodes)).
      pose proof (@build_next_shorter T nodes ltac:(lia)) as [Hn1 Hn2]. fold next in Hn1, Hn2.
      assert (Hlen : 2 * length next <= length nodes).
      { subst next. rewrite map_length, chunks_length by (unfold BRANCHING_FACTOR; lia).
        unfold BRANCHING_FACTOR.
        destruct (Nat.le_gt_cases (length nodes) 32).
        - assert ((length nodes + 32 - 1) / 32 < 2) by (apply Nat.div_lt_upper_bound; lia). lia.
        - pose proof (Nat.div_mod (length nodes + 32 - 1) 32 ltac:(lia)).
          lia. }
      apply shallow_le with (S d + Nat.log2 (length next)).
      * assert (Nat.log2 (2 * length next) <= Nat.log2 (length nodes)) by (apply Nat.log2_le_mono; lia).
        rewrite Nat.log2_double in H by lia. lia.
      * apply IH.
        -- intros E. rewrite E in Hn1. cbn in Hn1. lia.
        -- lia.
        -- subst next. apply Forall_forall. intros x Hx. apply in_map_iff in Hx.
           destruct Hx as (ch & <- & Hin). unfold make_relaxed. cbn [Nat.add].
           pose proof (chunks_bounds nodes (k:=BRANCHING_FACTOR) ltac:(unfold BRANCHING_FACTOR; lia)) as Hb.
           rewrite Forall_forall in Hb. specialize (Hb _ Hin).
           constructor; [lia|apply map_length|].
           rewrite Forall_forall in *. intros c Hc. apply Hf.
           rewrite <- (chunks_concat nodes (k:=BRANCHING_FACTOR)) by (unfold BRANCHING_FACTOR; lia).
           apply in_concat. eauto.
Qed.

Lemma from_elements_shallow (l : list T) :
  1 <= length l ->
  shallow (Nat.log2 (length l)) (t_root (from_elements l)).
Proof.
  intros Hl. unfold from_elements.
  destruct (length l <=? LEAF_CAPACITY); [constructor|].
  unfold build_tree_with_tail.
  set (k := length l / LEAF_CAPACITY * LEAF_CAPACITY).
  destruct (firstn k l) as [|x r] eqn:E; [constructor|].
  set (leaves := map Leaf (chunks LEAF_CAPACITY (x :: r))).
  assert (Hlen : 1 <= length leaves <= length l).
  { subst leaves. rewrite map_length, chunks_length by (unfold LEAF_CAPACITY; lia).
    assert (length (x :: r) <= length l) by (rewrite <- E, firstn_length; lia).
    cbn [length] in *. unfold LEAF_CAPACITY. split.
    - apply Nat.div_le_lower_bound; lia.
    - apply Nat.div_le_upper_bound; lia. }
  pose proof (@build_shallow (length leaves) leaves 0) as Hb.
  destruct (build_tree_recursive (length leaves) leaves) as [root height]. cbn [fst t_root Nat.add] in *.
  apply shallow_le with (Nat.log2 (length leaves)).
  - apply Nat.log2_le_mono. lia.
  - apply Hb; auto.
    + intros H. rewrite H in Hlen. cbn [length] in Hlen. lia.
    + subst leaves. apply Forall_forall. intros y Hy. apply in_map_iff in Hy.
      destruct Hy as (? & <- & _). constructor.
Qed.

Lemma tree_steps_bound (t : tree T) d i :
  shallow d (t_root t) ->
  tree_get_steps t i <= 33 * d + 1 /\ tree_update_steps t i <= 33 * d + 1.
Proof.
  intros H. unfold tree_get_steps, tree_update_steps.
  destruct (t_len t <=? i); [lia|]. destruct (i <? length (t_head t)); [lia|].
  destruct (_ <? _); [|lia].
  rewrite (shallow_update_steps (t_height t) _ H).
  split; now apply shallow_get_steps.
Qed.

(** ** The exact work in a collected vector *)

(** sizes of nodes filled from the left: [S] each until [tot] is used up *)
Definition filled (w tot : nat) (sz : list nat) : Prop :=
  forall j s, nth_error sz j = Some s -> s = Nat.min w (tot - j * w).

Lemma filled_tail w tot s sz : filled w tot (s :: sz) -> filled w (tot - w) sz.
Proof.
  intros H j s' Hj. specialize (H (S j) s' Hj). rewrite H. cbn. f_equal. lia.
Qed.

Lemma filled_skip w tot sz n : filled w tot sz -> filled w (tot - n * w) (skipn n sz).
Proof.
  revert tot sz. induction n as [|n IH]; intros tot sz H.
  - cbn. now rewrite Nat.sub_0_r.
  - destruct sz as [|s sz]; cbn [skipn].
    + intros j s Hj. now destruct j.
    + replace (tot - S n * w) with ((tot - w) - n * w) by (cbn; lia).
      apply IH. now apply filled_tail in H.
Qed.

Lemma filled_scan w sz : forall tot i k cum,
  1 <= w -> filled w tot sz -> i < tot -> tot <= length sz * w ->
  scan_sizes sz (cum + i) k cum = Some (k + i / w, i mod w) /\
  scan_reads sz (cum + i) cum = 1 + i / w.
Proof.
  induction sz as [|s sz IH]; intros tot i k cum Hw Hf Hi Ht; cbn [length Nat.mul] in Ht; [lia|].
  assert (Hs : s = Nat.min w tot).
  { specialize (Hf 0 s eq_refl). now rewrite Nat.sub_0_r in Hf. }
  cbn [scan_sizes scan_reads].
  destruct (Nat.ltb_spec (cum + i) (cum + s)) as [H|H].
  - rewrite Nat.div_small, Nat.mod_small by lia.
    split; [|lia]. f_equal. f_equal; lia.
  - assert (s = w) by lia. subst s.
    specialize (IH (tot - w) (i - w) (S k) (cum + w) Hw (filled_tail Hf) ltac:(lia) ltac:(lia)).
    replace (cum + w + (i - w)) with (cum + i) in IH by lia.
    rewrite H0. destruct IH as [-> ->].
    assert (E : i / w = 1 + (i - w) / w).
    { replace i with ((i - w) + 1 * w) at 1 by lia. rewrite Nat.div_add by lia. lia. }
    assert (E2 : i mod w = (i - w) mod w).
    { replace i with ((i - w) + 1 * w) at 1 by lia. now rewrite Nat.mod_add by lia. }
    rewrite E, E2. split; [|lia]. f_equal. f_equal. lia.
Qed.

Lemma filled_sum w sz : forall tot n,
  filled w tot sz -> tot <= length sz * w ->
  sum_list (firstn n sz) = Nat.min (n * w) tot.
Proof.
  induction sz as [|s sz IH]; intros tot n Hf Ht.
  - cbn in Ht. destruct n; cbn; lia.
  - destruct n as [|n]; [cbn; lia|].
    assert (Hs : s = Nat.min w tot).
    { specialize (Hf 0 s eq_refl). now rewrite Nat.sub_0_r in Hf. }
    cbn [length Nat.mul] in Ht.
    specialize (IH (tot - w) n (filled_tail Hf) ltac:(lia)).
    cbn [firstn]. change (sum_list (s :: firstn n sz)) with (s + sum_list (firstn n sz)).
    rewrite IH. cbn [Nat.mul]. lia.
Qed.

Lemma nth_error_firstn_lt {A} (l : list A) n j :
  j < n -> nth_error (firstn n l) j = nth_error l j.
Proof.
  revert n j. induction l as [|a l IH]; intros [|n] [|j] H; cbn; auto; try lia.
  apply IH. lia.
Qed.

Lemma nth_error_skipn_add {A} (l : list A) n j :
  nth_error (skipn n l) j = nth_error l (n + j).
Proof.
  revert l. induction n as [|n IH]; intros l; [reflexivity|].
  destruct l as [|a l]; cbn [skipn Nat.add nth_error]; [now destruct j|apply IH].
Qed.

Lemma build_steps fuel : forall (nodes : list node) w tot i,
  nodes <> [] -> length nodes <= fuel -> 1 <= w ->
  filled w tot (map calculate_size nodes) -> tot <= length nodes * w ->
  (length nodes - 1) * w < tot -> i < tot ->
  exists n, nth_error nodes (i / w) = Some n /\
    node_update_steps (fst (build_tree_recursive fuel nodes)) i
    = descent fuel (length nodes) (i / w) + node_update_steps n (i mod w).
Proof.
  induction fuel as [|fuel IH]; intros nodes w tot i Hne Hl Hw Hf Ht Ht' Hi.
  - destruct nodes; [congruence|cbn in Hl; lia].
  - destruct (Nat.leb_spec (length nodes) 1) as [H1|H2].
    + destruct nodes as [|x [|]]; [congruence| |cbn in H1; lia].
      cbn [length Nat.mul] in Ht. exists x. rewrite Nat.div_small, Nat.mod_small by lia.
      split; reflexivity.
    + assert (E : fst (build_tree_recursive (S fuel) nodes)
                  = fst (build_tree_recursive fuel (map make_relaxed (chunks BRANCHING_FACTOR nodes)))).
      { destruct nodes as [|a [|b r]]; [congruence|cbn in H2; lia|].
        cbn [build_tree_recursive].
        destruct (build_tree_recursive fuel _); reflexivity. }
      rewrite E. clear E.
      pose proof (@build_next_shorter T nodes ltac:(lia)) as [Hn1 Hn2].
      set (next := map make_relaxed (chunks BRANCHING_FACTOR nodes)) in *.
      assert (HB : 1 <= BRANCHING_FACTOR) by (unfold BRANCHING_FACTOR; lia).
      assert (Hlen : length next = (length nodes + 31) / 32).
      { subst next. rewrite map_length, chunks_length by auto. unfold BRANCHING_FACTOR.
        f_equal. lia. }
      assert (Hdm : length nodes + 31 = 32 * length next + (length nodes + 31) mod 32).
      { rewrite Hlen. apply Nat.div_mod. lia. }
      pose proof (Nat.mod_upper_bound (length nodes + 31) 32 ltac:(lia)) as Hmod.
      assert (Hchunk : forall j c, nth_error (chunks BRANCHING_FACTOR nodes) j = Some c ->
        map calculate_size c = firstn 32 (skipn (j * 32) (map calculate_size nodes))).
      { intros j c Hj. apply chunks_nth in Hj; auto. subst c. unfold BRANCHING_FACTOR.
        now rewrite <- firstn_map, <- skipn_map. }
      assert (Hnext : filled (32 * w) tot (map calculate_size next)).
      { intros j s Hj. subst next. rewrite nth_error_map in Hj.
        rewrite nth_error_map in Hj.
        destruct (nth_error (chunks BRANCHING_FACTOR nodes) j) as [c|] eqn:Ec; [|discriminate].
        cbn [option_map] in Hj. injection Hj as <-.
        unfold make_relaxed. cbn [calculate_size]. rewrite (Hchunk j c Ec).
        assert (Hj : j < length (chunks BRANCHING_FACTOR nodes)).
        { apply nth_error_Some. congruence. }
        rewrite (@filled_sum w _ (tot - (j * 32) * w)).
        - f_equal. lia.
        - now apply filled_skip.
        - rewrite skipn_length, map_length.
          rewrite Nat.mul_sub_distr_r. lia. }
      assert (Hi32 : i / (32 * w) = i / w / 32).
      { rewrite Nat.div_div by lia. f_equal. lia. }
      destruct (IH next (32 * w) tot i) as (n & Hn & Hsteps).
      { intros E. rewrite E in Hn1. cbn in Hn1. lia. }
      { lia. } { lia. } { exact Hnext. } { nia. } { nia. } { exact Hi. }
      rewrite Hsteps. clear IH Hsteps.
      subst next. rewrite nth_error_map in Hn.
      destruct (nth_error (chunks BRANCHING_FACTOR nodes) (i / (32 * w))) as [c|] eqn:Ec; [|discriminate].
      cbn [option_map] in Hn. injection Hn as <-.
      unfold make_relaxed. cbn [node_update_steps find_child table_reads].
      set (r := i mod (32 * w)).
      assert (Hr : r < 32 * w) by (apply Nat.mod_upper_bound; lia).
      pose proof (Nat.div_mod i (32 * w) ltac:(lia)) as Hdi. fold r in Hdi.
      set (q := i / (32 * w)) in *.
      assert (Hcf : filled w (Nat.min (32 * w) (tot - (q * 32) * w)) (map calculate_size c)).
      { rewrite (Hchunk q c Ec). intros j s Hj.
        assert (j < 32).
        { assert (j < length (firstn 32 (skipn (q * 32) (map calculate_size nodes))))
            by (apply nth_error_Some; congruence).
          rewrite firstn_length in H. lia. }
        assert (Hj2 : nth_error (skipn (q * 32) (map calculate_size nodes)) j = Some s).
        { rewrite <- (firstn_skipn 32 (skipn (q * 32) (map calculate_size nodes))).
          rewrite nth_error_app1; [exact Hj|]. apply nth_error_Some. congruence. }
        apply (@filled_skip w tot _ (q * 32)) in Hf. specialize (Hf j s Hj2). rewrite Hf. nia. }
      assert (Hcl : length c = Nat.min 32 (length nodes - q * 32)).
      { rewrite <- (map_length calculate_size), (Hchunk q c Ec), firstn_length, skipn_length, map_length.
        reflexivity. }
      destruct (@filled_scan w (map calculate_size c) (Nat.min (32 * w) (tot - q * 32 * w)) r 0 0 Hw Hcf)
        as [Hs1 Hs2].
      { nia. }
      { rewrite map_length, Hcl. nia. }
      cbn [Nat.add] in Hs1, Hs2. rewrite Hs1, Hs2.
      assert (Hrq : r / w = (i / w) mod 32).
      { subst r. rewrite (Nat.mul_comm 32 w), Nat.mod_mul_r by lia.
        rewrite Nat.mul_comm, Nat.div_add by lia.
        rewrite Nat.div_small by (apply Nat.mod_upper_bound; lia). reflexivity. }
      assert (Hrm : r mod w = i mod w).
      { subst r. rewrite (Nat.mul_comm 32 w), Nat.mod_mul_r by lia.
        rewrite Nat.mul_comm, Nat.mod_add by lia. apply Nat.mod_mod. lia. }
      rewrite Hrq, Hrm.
      assert (Hq : i / w = q * 32 + (i / w) mod 32).
      { rewrite Hi32. pose proof (Nat.div_mod (i / w) 32). lia. }
      assert (Hin : i / w < length nodes) by (apply Nat.div_lt_upper_bound; lia).
      destruct (nth_error nodes (i / w)) as [x|] eqn:Ex;
        [|apply nth_error_None in Ex; lia].
      exists x. split; [reflexivity|].
      assert (Exc : nth_error c ((i / w) mod 32) = Some x).
      { apply chunks_nth in Ec; auto. rewrite Ec. unfold BRANCHING_FACTOR.
        pose proof (Nat.mod_upper_bound (i / w) 32).
        rewrite nth_error_firstn_lt by lia.
        rewrite nth_error_skipn_add. rewrite <- Hq. exact Ex. }
      rewrite nth_error_map, Exc. cbn [option_map].
      cbn [descent]. destruct (Nat.leb_spec (length nodes) 1); [lia|].
      rewrite map_length, chunks_length by auto. unfold BRANCHING_FACTOR.
      replace (length nodes + 32 - 1) with (length nodes + 31) by lia.
      rewrite Hi32. lia.
Qed.

(** ** Vectors grown at the back *)

Definition nonempty_leaf (n : node) : Prop :=
  match n with Leaf (_ :: _) => True | _ => False end.

(** The root after [f] full tails have been pushed into it. *)
Inductive grown : nat -> node -> Prop :=
| grown_leaf es : length es = 64 -> grown 0 (Leaf es)
| grown_branch q r c ls :
    grown (31 * q) c -> Forall nonempty_leaf ls -> length ls = S r -> r <= 30 ->
    grown (31 * q + r + 1) (Branch (c :: ls) (Some (map calculate_size (c :: ls)))).

Lemma nonempty_leaf_size n : nonempty_leaf n -> 1 <= calculate_size n.
Proof. destruct n as [[|]|]; cbn; try tauto; lia. Qed.

Lemma grown_size f n : grown f n -> 1 <= calculate_size n.
Proof.
  induction 1 as [es H|q r c ls H IH Hls Hl Hr].
  - cbn [calculate_size]. lia.
  - cbn in *. lia.
Qed.

Lemma grown_push f n leaf :
  grown f n -> nonempty_leaf leaf -> grown (S f) (push_leaf n leaf).
Proof.
  intros H Hleaf. inversion H as [es He|q r c ls Hc Hls Hl Hr]; subst.
  - apply (@grown_branch 0 0 (Leaf es) [leaf]); auto using grown_leaf with arith.
  - cbn [push_leaf].
    destruct (length (c :: ls) <? BRANCHING_FACTOR) eqn:E.
    + apply Nat.ltb_lt in E. unfold BRANCHING_FACTOR in E. cbn [length] in E.
      replace (S (31 * q + r + 1)) with (31 * q + S r + 1) by lia.
      replace (map calculate_size (c :: ls) ++ [calculate_size leaf])
        with (map calculate_size (c :: (ls ++ [leaf]))) by (cbn; now rewrite map_app).
      cbn [app]. constructor; auto.
      * apply Forall_app; auto.
      * rewrite app_length. cbn. lia.
      * lia.
    + apply Nat.ltb_ge in E. unfold BRANCHING_FACTOR in E. cbn [length] in E.
      assert (r = 30) by lia. subst r.
      replace (S (31 * q + 30 + 1)) with (31 * (q + 1) + 0 + 1) by lia.
      apply (@grown_branch (q + 1) 0 _ [leaf]); auto with arith.
      replace (31 * (q + 1)) with (31 * q + 30 + 1) by lia. exact H.
Qed.

(** the height reached after [f] pushes of a tail *)
Definition levels (f : nat) : nat := (f + 30) / 31.

Lemma levels_full q : levels (31 * q) = q.
Proof.
  unfold levels. symmetry. apply (Nat.div_unique _ 31 q 30); lia.
Qed.
Lemma levels_part q r : r <= 30 -> levels (31 * q + r + 1) = S q.
Proof.
  intros. unfold levels. symmetry. apply (Nat.div_unique _ 31 (S q) r); lia.
Qed.

Lemma grown_shallow f n : grown f n -> shallow (levels f) n.
Proof.
  induction 1 as [es H|q r c ls H IH Hls Hl Hr]; [constructor|].
  rewrite levels_part by auto. rewrite levels_full in IH.
  constructor.
  - cbn [length]. unfold BRANCHING_FACTOR. lia.
  - apply map_length.
  - intros c' [->|Hc]; auto. rewrite Forall_forall in Hls. specialize (Hls c' Hc).
    destruct c' as [[|]|]; cbn in Hls; try tauto; constructor.
Qed.

Lemma grown_front_steps f n h :
  grown f n -> get_from_tree_steps n h 0 = 2 * levels f + 1.
Proof.
  intros H. revert h. induction H as [es H|q r c ls H IH Hls Hl Hr]; intros h; [reflexivity|].
  rewrite levels_part by auto. rewrite levels_full in IH.
  pose proof (grown_size H) as Hs.
  cbn [get_from_tree_steps table_reads scan_reads find_child_relaxed map scan_sizes].
  replace (0 <? 0 + calculate_size c) with true by (symmetry; apply Nat.ltb_lt; lia).
  cbn [nth_error Nat.sub]. rewrite IH. lia.
Qed.

Lemma grown_height_steps f n : grown f n -> calculate_height_steps n = 1 + levels f.
Proof.
  induction 1 as [es H|q r c ls H IH Hls Hl Hr]; [reflexivity|].
  rewrite levels_part by auto. rewrite levels_full in IH.
  cbn [calculate_height_steps]. rewrite IH. reflexivity.
Qed.

(** number of tails pushed into the tree of a vector of [n] appended elements *)
Definition flushes (n : nat) : nat := (n - 65) / 64.

(** The shape after pushing the elements of [l]. *)
Definition pushed_shape (l : list T) (v : pvec T) : Prop :=
  pv_len v = length l /\
  ((length l <= 64 /\ inner v = Inline l) \/
   exists t f, inner v = Tree t /\ t_head t = [] /\ grown f (t_root t) /\
     1 <= length (t_tail t) <= 64 /\ t_len t = length l /\
     length l = 64 * (f + 1) + length (t_tail t)).

Lemma flushes_of f k : 1 <= k <= 64 -> flushes (64 * (f + 1) + k) = f.
Proof.
  intros. unfold flushes. symmetry. apply (Nat.div_unique _ 64 f (k - 1)); lia.
Qed.

Lemma pushed_step l v x : pushed_shape l v -> pushed_shape (l ++ [x]) (pv_push_back v x).
Proof.
  intros [Hlen H]. split.
  { unfold pv_push_back, pv_tree_push_back, transition_to_tree.
    destruct (inner v); [destruct (_ <? _)|]; cbn; rewrite app_length; cbn; lia. }
  destruct H as [[Hl Hi]|(t & f & Hi & Hh & Hg & Ht & Htl & Hll)];
    unfold pv_push_back; rewrite Hi.
  - destruct (length l <? ADAPTIVE_INLINE_SIZE) eqn:E.
    + apply Nat.ltb_lt in E. unfold ADAPTIVE_INLINE_SIZE in E. left.
      rewrite app_length. cbn. split; [lia|auto].
    + apply Nat.ltb_ge in E. unfold ADAPTIVE_INLINE_SIZE in E.
      assert (length l = 64) by lia. right.
      eexists. exists 0. split; [reflexivity|].
      assert (Ef : from_elements l = mkTree (Leaf l) [] [] 0 64).
      { unfold from_elements. rewrite H. reflexivity. }
      rewrite Ef.
      change (tree_push_back (mkTree (Leaf l) [] [] 0 64) x) with (mkTree (Leaf l) [x] [] 0 65).
      cbn [t_head t_root t_tail t_len length]. rewrite app_length. cbn [length].
      split; [reflexivity|]. split; [now constructor|]. lia.
  - right. destruct (Nat.eq_dec (length (t_tail t)) 64) as [E|E].
    + exists (tree_push_back t x), (S f). split; [reflexivity|].
      unfold tree_push_back. rewrite E.
      replace (64 <? LEAF_CAPACITY) with false by reflexivity.
      unfold push_tail_to_tree. destruct (t_tail t) as [|y ys] eqn:Et; [discriminate|].
      cbn [tree_push_back_tail t_head t_root t_tail t_len app length].
      rewrite app_length. cbn [length]. cbn [length] in E.
      split; [exact Hh|]. split; [apply grown_push; cbn; auto|]. cbn [length] in Hll. lia.
    + exists (tree_push_back t x), f. split; [reflexivity|].
      unfold tree_push_back.
      replace (length (t_tail t) <? LEAF_CAPACITY) with true
        by (symmetry; apply Nat.ltb_lt; unfold LEAF_CAPACITY; lia).
      cbn [tree_push_back_tail t_head t_root t_tail t_len].
      rewrite !app_length. cbn [length]. split; [exact Hh|]. split; [exact Hg|]. lia.
Qed.

Lemma pushed_all l : pushed_shape l (pv_extend pv_new l).
Proof.
  induction l as [|x l IH] using rev_ind.
  - split; [reflexivity|]. left. cbn. split; [lia|reflexivity].
  - unfold pv_extend in *. rewrite fold_left_app. cbn [fold_left]. now apply pushed_step.
Qed.

(** ** Vectors grown at the front *)

Inductive grown_front : nat -> node -> Prop :=
| grown_front_leaf es : es <> [] -> grown_front 0 (Leaf es)
| grown_front_branch q r c ls :
    grown_front (31 * q) c -> Forall nonempty_leaf ls -> length ls = S r -> r <= 30 ->
    grown_front (31 * q + r + 1)
      (Branch (ls ++ [c]) (Some (map calculate_size (ls ++ [c])))).

Lemma grown_front_size f n : grown_front f n -> 1 <= calculate_size n.
Proof.
  induction 1 as [es H|q r c ls H IH Hls Hl Hr].
  - destruct es; [congruence|cbn; lia].
  - cbn [calculate_size]. rewrite map_app, sum_list_app. cbn. lia.
Qed.

Lemma grown_front_push f n leaf :
  grown_front f n -> nonempty_leaf leaf -> grown_front (S f) (push_front_leaf n leaf).
Proof.
  intros H Hleaf. inversion H as [es He|q r c ls Hc Hls Hl Hr]; subst.
  - apply (@grown_front_branch 0 0 (Leaf es) [leaf]); auto using grown_front_leaf with arith.
  - cbn [push_front_leaf].
    destruct (length (ls ++ [c]) <? BRANCHING_FACTOR) eqn:E;
      rewrite app_length in E; cbn [length] in E.
    + apply Nat.ltb_lt in E. unfold BRANCHING_FACTOR in E.
      replace (S (31 * q + r + 1)) with (31 * q + S r + 1) by lia.
      change (leaf :: ls ++ [c]) with ((leaf :: ls) ++ [c]).
      change (calculate_size leaf :: map calculate_size (ls ++ [c]))
        with (map calculate_size ((leaf :: ls) ++ [c])).
      constructor; auto; cbn [length]; lia.
    + apply Nat.ltb_ge in E. unfold BRANCHING_FACTOR in E.
      assert (r = 30) by lia. subst r.
      replace (S (31 * q + 30 + 1)) with (31 * (q + 1) + 0 + 1) by lia.
      apply (@grown_front_branch (q + 1) 0 _ [leaf]); auto with arith.
      replace (31 * (q + 1)) with (31 * q + 30 + 1) by lia. exact H.
Qed.

Lemma scan_last a s i k cum :
  cum + sum_list a <= i < cum + sum_list a + s ->
  scan_reads (a ++ [s]) i cum = S (length a) /\
  scan_sizes (a ++ [s]) i k cum = Some (k + length a, i - cum - sum_list a).
Proof.
  revert k cum. induction a as [|x a IH]; intros k cum Hi; cbn [app scan_reads scan_sizes].
  - cbn in Hi. replace (i <? cum + s) with true by (symmetry; apply Nat.ltb_lt; lia).
    cbn. split; [reflexivity|]. f_equal. f_equal; lia.
  - cbn [sum_list] in Hi. change (sum_list (x :: a)) with (x + sum_list a) in *.
    replace (i <? cum + x) with false by (symmetry; apply Nat.ltb_ge; lia).
    destruct (IH (S k) (cum + x) ltac:(lia)) as [H1 H2]. rewrite H1, H2.
    cbn [length]. split; [reflexivity|]. f_equal. f_equal; lia.
Qed.

(** work of reading the innermost, oldest element after [f] pushes of a head *)
Definition back_work (f : nat) : nat :=
  match f with 0 => 1 | S f' => 33 * (f' / 31) + f' mod 31 + 4 end.

Lemma back_work_full q : back_work (31 * q) = 33 * q + 1.
Proof.
  destruct q as [|q]; [reflexivity|].
  replace (31 * S q) with (S (31 * q + 30)) by lia. cbn [back_work].
  rewrite <- (Nat.div_unique (31 * q + 30) 31 q 30) by lia.
  rewrite <- (Nat.mod_unique (31 * q + 30) 31 q 30) by lia. lia.
Qed.
Lemma back_work_part q r : r <= 30 -> back_work (31 * q + r + 1) = 33 * q + r + 4.
Proof.
  intros. replace (31 * q + r + 1) with (S (31 * q + r)) by lia. cbn [back_work].
  rewrite <- (Nat.div_unique (31 * q + r) 31 q r) by lia.
  rewrite <- (Nat.mod_unique (31 * q + r) 31 q r) by lia. lia.
Qed.

Lemma grown_front_back_steps f n h :
  grown_front f n ->
  get_from_tree_steps n h (calculate_size n - 1) = back_work f.
Proof.
  intros H. revert h. induction H as [es H|q r c ls H IH Hls Hl Hr]; intros h; [reflexivity|].
  rewrite back_work_part by auto. rewrite back_work_full in IH.
  pose proof (grown_front_size H) as Hs.
  cbn [calculate_size get_from_tree_steps table_reads find_child_relaxed].
  rewrite map_app. cbn [map]. rewrite sum_list_app.
  set (a := map calculate_size ls).
  replace (sum_list [calculate_size c]) with (calculate_size c) by (cbn; lia).
  destruct (@scan_last a (calculate_size c) (sum_list a + calculate_size c - 1) 0 0 ltac:(lia))
    as [H1 H2]. rewrite H1, H2.
  subst a. rewrite map_length, map_app. cbn [map Nat.add].
  rewrite nth_error_app2 by (rewrite map_length; lia).
  rewrite map_length, Nat.sub_diag. cbn [nth_error].
  replace (sum_list (map calculate_size ls) + calculate_size c - 1 - 0 -
           sum_list (map calculate_size ls)) with (calculate_size c - 1) by lia.
  rewrite IH. lia.
Qed.

Lemma grown_front_shallow f n : grown_front f n -> shallow (levels f) n.
Proof.
  induction 1 as [es H|q r c ls H IH Hls Hl Hr]; [constructor|].
  rewrite levels_part by auto. rewrite levels_full in IH.
  constructor.
  - rewrite app_length. cbn [length]. unfold BRANCHING_FACTOR. lia.
  - apply map_length.
  - intros c' Hc. apply in_app_or in Hc. destruct Hc as [Hc|[->|[]]]; auto.
    rewrite Forall_forall in Hls. specialize (Hls c' Hc).
    destruct c' as [[|]|]; cbn in Hls; try tauto; constructor.
Qed.

(** The shape after pushing the elements of [l] to the front one by one. *)
Definition front_shape (l : list T) (v : pvec T) : Prop :=
  pv_len v = length l /\
  ((exists es, inner v = Inline es /\ length es = length l /\ length l <= 64) \/
   exists t f, inner v = Tree t /\ t_tail t = [] /\ grown_front f (t_root t) /\
     1 <= length (t_head t) <= 64 /\ t_len t = length l /\
     length l = 64 * (f + 1) + length (t_head t) /\
     calculate_size (t_root t) = 64 * (f + 1)).

Lemma push_front_leaf_size (n leaf : node) :
  calculate_size (push_front_leaf n leaf) = calculate_size leaf + calculate_size n.
Proof.
  unfold push_front_leaf. destruct n as [es|cs [sz|]].
  - unfold sum_list. cbn [calculate_size fold_right]. unfold sum_list. cbn [fold_right]. lia.
  - destruct (_ <? _); cbn [calculate_size]; unfold sum_list; cbn [fold_right]; lia.
  - destruct (_ <? _); cbn [calculate_size]; unfold sum_list; cbn [fold_right]; lia.
Qed.

Lemma front_step l v x : front_shape l v -> front_shape (l ++ [x]) (pv_push_front v x).
Proof.
  intros [Hlen H]. split.
  { unfold pv_push_front, pv_tree_push_front, transition_to_tree.
    destruct (inner v); [destruct (_ <? _)|]; cbn; rewrite app_length; cbn; lia. }
  rewrite app_length. cbn [length].
  destruct H as [(es & Hi & He & Hl)|(t & f & Hi & Hh & Hg & Ht & Htl & Hll & Hsz)];
    unfold pv_push_front; rewrite Hi.
  - destruct (length es <? ADAPTIVE_INLINE_SIZE) eqn:E.
    + apply Nat.ltb_lt in E. unfold ADAPTIVE_INLINE_SIZE in E. left.
      exists (x :: es). cbn. split; [reflexivity|]. lia.
    + apply Nat.ltb_ge in E. unfold ADAPTIVE_INLINE_SIZE in E.
      assert (Hes : length es = 64) by lia. right.
      eexists. exists 0. split; [reflexivity|].
      assert (Ef : from_elements es = mkTree (Leaf es) [] [] 0 64).
      { unfold from_elements. rewrite Hes. reflexivity. }
      rewrite Ef. cbn. repeat split; try lia.
      constructor. intros ->. discriminate.
  - right. destruct (Nat.eq_dec (length (t_head t)) 64) as [E|E].
    + exists (tree_push_front t x), (S f). split; [reflexivity|].
      unfold tree_push_front. rewrite E.
      replace (64 <? LEAF_CAPACITY) with false by reflexivity.
      unfold push_head_to_tree. destruct (t_head t) as [|y ys] eqn:Et; [discriminate|].
      cbn [tree_push_front_head t_head t_root t_tail t_len app length].
      cbn [length] in E, Hll.
      split; [exact Hh|]. split; [apply grown_front_push; cbn; auto|].
      rewrite push_front_leaf_size. cbn [calculate_size length]. lia.
    + exists (tree_push_front t x), f. split; [reflexivity|].
      unfold tree_push_front.
      replace (length (t_head t) <? LEAF_CAPACITY) with true
        by (symmetry; apply Nat.ltb_lt; unfold LEAF_CAPACITY; lia).
      cbn [tree_push_front_head t_head t_root t_tail t_len length].
      split; [exact Hh|]. split; [exact Hg|]. lia.
Qed.

Lemma front_all l : front_shape l (fold_left pv_push_front l pv_new).
Proof.
  induction l as [|x l IH] using rev_ind.
  - split; [reflexivity|]. left. exists []. cbn. repeat split; lia.
  - rewrite fold_left_app. cbn [fold_left]. now apply front_step.
Qed.

(** ** Vectors grown by concatenation *)

Lemma chunks_two (k : nat) (l : list T) :
  1 <= k -> k < length l <= 2 * k -> chunks k l = [firstn k l; skipn k l].
Proof.
  intros Hk Hl. unfold chunks.
  assert (Hs : length (skipn k l) = length l - k) by apply skipn_length.
  remember (length l) as n eqn:En.
  destruct n as [|[|n]]; [lia|lia|]. cbn [chunks_fuel].
  destruct l as [|x l]; [discriminate|]. set (m := x :: l) in *. clearbody m.
  destruct (skipn k m) as [|y s]; [cbn [length] in Hs; lia|].
  rewrite (firstn_all2 (y :: s)) by lia. rewrite (skipn_all2 (y :: s)) by lia.
  destruct n; reflexivity.
Qed.

Lemma from_elements_128 (b : list T) :
  length b = 128 ->
  from_elements b
  = mkTree (make_relaxed [Leaf (firstn 64 b); Leaf (skipn 64 b)]) [] [] 1 128.
Proof.
  intros H. unfold from_elements. rewrite H.
  change (128 <=? LEAF_CAPACITY) with false. cbv iota.
  unfold build_tree_with_tail. rewrite H.
  change (128 / LEAF_CAPACITY * LEAF_CAPACITY) with 128.
  rewrite (firstn_all2 b) by lia. rewrite (skipn_all2 b) by lia.
  destruct b as [|x r]; [discriminate|]. set (b := x :: r) in *.
  assert (E : chunks LEAF_CAPACITY b = [firstn 64 b; skipn 64 b]).
  { apply chunks_two; unfold LEAF_CAPACITY; lia. }
  rewrite E. cbn [map length build_tree_recursive].
  assert (Ec : forall p q : node, chunks BRANCHING_FACTOR [p; q] = [[p; q]]) by reflexivity.
  rewrite Ec. reflexivity.
Qed.

Definition joined_shape (b : list T) (k : nat) (v : pvec T) : Prop :=
  exists mids g,
    v = mkPvec (Tree (mkTree (make_relaxed (Leaf (firstn 64 b) :: mids ++ [Leaf (skipn 64 b)]))
                        [] [] 1 (128 * (k + 1)))) (128 * (k + 1)) g /\
    length mids = k /\ sum_list (map calculate_size mids) = 128 * k.

Lemma joined_all b k : length b = 128 -> joined_shape b k (joined b k).
Proof.
  intros Hb.
  assert (E0 : pv_from_iter b = mkPvec (Tree (mkTree (make_relaxed
            [Leaf (firstn 64 b); Leaf (skipn 64 b)]) [] [] 1 128)) 128 0).
  { unfold pv_from_iter. rewrite from_elements_128 by auto. rewrite Hb. reflexivity. }
  assert (H1 : length (firstn 64 b) = 64) by (rewrite firstn_length; lia).
  assert (H2 : length (skipn 64 b) = 64) by (rewrite skipn_length; lia).
  induction k as [|k IH].
  - exists [], 0. unfold joined. change (Nat.iter 0 (fun v => pv_concat v (pv_from_iter b)) (pv_from_iter b)) with (pv_from_iter b).
    rewrite E0. repeat split.
  - destruct IH as (mids & g & Ev & Hm & Hsum).
    unfold joined in *.
    change (Nat.iter (S k) (fun v => pv_concat v (pv_from_iter b)) (pv_from_iter b))
      with (pv_concat (Nat.iter k (fun v => pv_concat v (pv_from_iter b)) (pv_from_iter b))
              (pv_from_iter b)).
    rewrite Ev, E0. unfold pv_concat. cbn [inner pv_len generation].
    unfold tree_concat. cbn [t_len t_height].
    replace (128 * (k + 1) =? 0) with false by (symmetry; apply Nat.eqb_neq; lia).
    change (128 =? 0) with false. change (1 =? 1) with true. cbv iota.
    unfold concat_same_height. cbn [t_tail t_head t_root t_height t_len].
    set (mid := make_relaxed [Leaf (firstn 64 (skipn 64 b ++ firstn 64 b));
                              Leaf (skipn 64 (skipn 64 b ++ firstn 64 b))]).
    exists (mids ++ [mid]), (g + 1).
    assert (Emid : concat_nodes (Leaf (skipn 64 b)) (Leaf (firstn 64 b)) = mid).
    { cbn [concat_nodes]. rewrite app_length, H1, H2. reflexivity. }
    split; [|split].
    + unfold make_relaxed at 1 2. cbn [concat_nodes].
      assert (El : length (Leaf (firstn 64 b) :: mids ++ [Leaf (skipn 64 b)]) - 1 = S k).
      { cbn [length]. rewrite app_length. cbn. lia. }
      rewrite El. cbn [map nth_error]. rewrite map_app. cbn [map].
      rewrite nth_error_app2 by (rewrite map_length; lia).
      rewrite map_length, Hm, Nat.sub_diag. cbn [nth_error].
      rewrite Emid.
      change (skipn 1 [Leaf (firstn 64 b); Leaf (skipn 64 b)]) with [Leaf (skipn 64 b)].
      change (firstn (S k) (Leaf (firstn 64 b) :: mids ++ [Leaf (skipn 64 b)]))
        with (Leaf (firstn 64 b) :: firstn k (mids ++ [Leaf (skipn 64 b)])).
      rewrite firstn_app, Hm, Nat.sub_diag. rewrite (firstn_all2 mids) by lia.
      change (firstn 0 [Leaf (skipn 64 b)]) with (@nil node).
      rewrite app_nil_r, <- app_assoc. cbn [app].
      replace (128 * (S k + 1)) with (128 * (k + 1) + 128) by lia. reflexivity.
    + rewrite app_length. cbn. lia.
    + rewrite map_app, sum_list_app, Hsum. cbn [map sum_list].
      assert (calculate_size mid = 128).
      { subst mid. unfold make_relaxed. cbn [calculate_size map].
        rewrite firstn_length, skipn_length, app_length, H1, H2. reflexivity. }
      rewrite H. unfold sum_list. cbn [fold_right]. lia.
Qed.

(** ** Theorems *)

(** A vector collected from an iterator or a slice: reading and updating any
    element is logarithmic. *)
Theorem C94_collected_partial :
  logarithmic (fun x : list T * nat => length (fst x))
    (fun x => pv_get_steps (pv_from_iter (fst x)) (snd x)) /\
  logarithmic (fun x : list T * nat => length (fst x))
    (fun x => pv_update_steps (pv_from_iter (fst x)) (snd x)).
Proof.
  assert (H : forall (l : list T) i,
    pv_get_steps (pv_from_iter l) i <= 33 * (1 + Nat.log2 (length l)) /\
    pv_update_steps (pv_from_iter l) i <= 33 * (1 + Nat.log2 (length l))).
  { intros l i. unfold pv_from_iter, pv_get_steps, pv_update_steps.
    destruct (length l <=? ADAPTIVE_INLINE_SIZE) eqn:E; cbn [inner pv_len].
    - destruct (length l <=? i); lia.
    - apply Nat.leb_gt in E. destruct (length l <=? i); [lia|].
      assert (Hs : shallow (Nat.log2 (length l)) (t_root (from_elements l))).
      { apply from_elements_shallow. lia. }
      destruct (tree_steps_bound (from_elements l) i Hs). lia. }
  split; exists 33; intros [l i]; apply H.
Qed.

(** The work for every element of a collected vector, exactly: none out of
    range, one step in a short vector or in the remainder after the full blocks
    of 64, otherwise the descent to the block and the block. *)
Theorem C94_collected : forall (l : list T) i,
  let full := length l / 64 in
  let work := if length l <=? i then 0
              else if (length l <=? 64) || (64 * full <=? i) then 1
              else descent full full (i / 64) + 1 in
  pv_get_steps (pv_from_iter l) i = work /\ pv_update_steps (pv_from_iter l) i = work.
Proof.
  intros l i. cbv zeta. unfold pv_from_iter, pv_get_steps, pv_update_steps, ADAPTIVE_INLINE_SIZE.
  destruct (Nat.leb_spec (length l) 64) as [H64|H64]; cbn [inner pv_len orb].
  { destruct (length l <=? i); auto. }
  destruct (Nat.leb_spec (length l) i) as [Hi|Hi]; [auto|].
  pose proof (Nat.div_mod (length l) 64 ltac:(lia)) as Hdm.
  pose proof (Nat.mod_upper_bound (length l) 64 ltac:(lia)) as Hm.
  set (full := length l / 64) in *.
  assert (Hfull : 1 <= full) by lia.
  pose proof (@from_elements_shallow l ltac:(lia)) as Hsh.
  assert (Hroot : t_len (from_elements l) = length l /\ t_head (from_elements l) = [] /\
    length (t_tail (from_elements l)) = length l - 64 * full /\
    t_root (from_elements l) =
    fst (build_tree_recursive full (map Leaf (chunks 64 (firstn (64 * full) l)))) /\
    length (map (@Leaf T) (chunks 64 (firstn (64 * full) l))) = full).
  { assert (Hc : length (map (@Leaf T) (chunks 64 (firstn (64 * full) l))) = full).
    { rewrite map_length, chunks_length, firstn_length by lia.
      replace (Nat.min (64 * full) (length l)) with (64 * full) by lia.
      symmetry. apply (Nat.div_unique _ 64 full 63); lia. }
    unfold from_elements, LEAF_CAPACITY.
    destruct (Nat.leb_spec (length l) 64); [lia|].
    unfold build_tree_with_tail, LEAF_CAPACITY. fold full.
    rewrite (Nat.mul_comm full 64).
    assert (Hne : firstn (64 * full) l <> []).
    { intros E. apply (f_equal (@length T)) in E. rewrite firstn_length in E. cbn [length] in E. lia. }
    destruct (firstn (64 * full) l) as [|x r] eqn:E; [congruence|].
    rewrite Hc. destruct (build_tree_recursive full _) as [root h].
    cbn [t_len t_head t_tail t_root fst].
    rewrite skipn_length. auto. }
  destruct Hroot as (Elen & Ehead & Etail & Eroot & Hlv).
  unfold tree_get_steps, tree_update_steps. rewrite Elen, Ehead, Etail.
  destruct (Nat.leb_spec (length l) i); [lia|].
  cbn [length]. rewrite !Nat.sub_0_r.
  replace (i <? 0) with false by (symmetry; apply Nat.ltb_ge; lia).
  replace (length l - (length l - 64 * full)) with (64 * full) by lia.
  destruct (Nat.leb_spec (64 * full) i) as [Ht|Ht];
    destruct (Nat.ltb_spec i (64 * full)); try lia.
  rewrite <- (shallow_update_steps (t_height (from_elements l)) i Hsh).
  rewrite Eroot.
  destruct (@build_steps full (map Leaf (chunks 64 (firstn (64 * full) l))) 64 (64 * full) i)
    as (n & Hn & ->).
  - intros E. rewrite E in Hlv. cbn [length] in Hlv. lia.
  - lia.
  - lia.
  - intros j s Hj. rewrite map_map, nth_error_map in Hj.
    destruct (nth_error (chunks 64 (firstn (64 * full) l)) j) as [c|] eqn:Ec; [|discriminate].
    cbn in Hj. injection Hj as <-.
    assert (j < length (chunks 64 (firstn (64 * full) l))) by (apply nth_error_Some; congruence).
    rewrite map_length in Hlv.
    apply chunks_nth in Ec; [|lia]. rewrite Ec, firstn_length, skipn_length, firstn_length. lia.
  - rewrite Hlv. lia.
  - rewrite Hlv. lia.
  - lia.
  - rewrite Hlv. rewrite nth_error_map in Hn.
    destruct (nth_error _ (i / 64)); [|discriminate]. cbn in Hn. injection Hn as <-.
    auto.
Qed.

(** A vector grown with [push_back]: the work of reading or updating the first
    element is exactly linear in the number of levels, which is the length
    divided by 64 * 31; no element costs more than 33 steps a level. *)
Theorem C94_push_back : forall l : list T,
  64 < length l ->
  let levels := ((length l - 65) / 64 + 30) / 31 in
  pv_get_steps (pv_extend pv_new l) 0 = 2 * levels + 1 /\
  pv_update_steps (pv_extend pv_new l) 0 = 2 * levels + 1 /\
  (forall i, pv_get_steps (pv_extend pv_new l) i <= 33 * levels + 1) /\
  (forall i, pv_update_steps (pv_extend pv_new l) i <= 33 * levels + 1).
Proof.
  intros l Hl. cbv zeta. destruct (pushed_all l) as [Hlen [[H _]|(t & f & Hi & Hh & Hg & Ht & Htl & Hll)]]; [lia|].
  change (((length l - 65) / 64 + 30) / 31) with (levels (flushes (length l))).
  rewrite Hll, flushes_of by lia.
  pose proof (grown_shallow Hg) as Hs.
  assert (Hb : forall i, pv_get_steps (pv_extend pv_new l) i <= 33 * levels f + 1 /\
                         pv_update_steps (pv_extend pv_new l) i <= 33 * levels f + 1).
  { intros i. unfold pv_get_steps, pv_update_steps. rewrite Hi.
    destruct (pv_len _ <=? i); [lia|]. now apply tree_steps_bound. }
  assert (E0 : pv_len (pv_extend pv_new l) <=? 0 = false) by (apply Nat.leb_gt; lia).
  assert (E1 : t_len t <=? 0 = false) by (apply Nat.leb_gt; lia).
  split; [|split; [|split]].
  - unfold pv_get_steps. rewrite Hi, E0. unfold tree_get_steps.
    rewrite E1, Hh. cbn [length Nat.sub]. rewrite Htl, Hll.
    match goal with |- context [if ?a <? ?b then _ else _] =>
      replace (a <? b) with true by (symmetry; apply Nat.ltb_lt; cbn [length]; lia) end.
    change (0 <? 0) with false. cbv iota. now apply grown_front_steps.
  - unfold pv_update_steps. rewrite Hi, E0. unfold tree_update_steps.
    rewrite E1, Hh. cbn [length Nat.sub]. rewrite Htl, Hll.
    change (0 <? 0) with false. cbv iota.
    match goal with |- context [if ?a <? ?b then _ else _] =>
      replace (a <? b) with true by (symmetry; apply Nat.ltb_lt; cbn [length]; lia) end.
    rewrite (shallow_update_steps 0 _ Hs). now apply grown_front_steps.
  - intros i. apply Hb.
  - intros i. apply Hb.
Qed.

(** Appending: one step, except that every 64th push measures the height of the
    tree by walking down all its levels. *)
Theorem C94_append : forall l : list T,
  64 < length l ->
  pv_push_back_steps (pv_extend pv_new l)
  = if length l mod 64 =? 0 then 2 + ((length l / 64 - 1) + 30) / 31 else 1.
Proof.
  intros l Hl. destruct (pushed_all l) as [Hlen [[H _]|(t & f & Hi & Hh & Hg & Ht & Htl & Hll)]]; [lia|].
  unfold pv_push_back_steps. rewrite Hi. unfold tree_push_back_steps.
  destruct (Nat.eq_dec (length (t_tail t)) 64) as [E|E].
  - rewrite E. change (64 <? LEAF_CAPACITY) with false. cbv iota.
    rewrite Hll, E. replace (64 * (f + 1) + 64) with (64 * (f + 2)) by lia.
    rewrite <- (Nat.mod_unique (64 * (f + 2)) 64 (f + 2) 0) by lia.
    rewrite <- (Nat.div_unique (64 * (f + 2)) 64 (f + 2) 0) by lia.
    change (0 =? 0) with true. cbv iota.
    destruct (t_tail t) as [|y ys]; [discriminate|].
    rewrite (@grown_height_steps (S f)) by (apply grown_push; cbn; auto).
    replace (f + 2 - 1) with (S f) by lia. reflexivity.
  - replace (length (t_tail t) <? LEAF_CAPACITY) with true
      by (symmetry; apply Nat.ltb_lt; unfold LEAF_CAPACITY; lia).
    rewrite Hll.
    rewrite <- (Nat.mod_unique (64 * (f + 1) + length (t_tail t)) 64 (f + 1) (length (t_tail t))) by lia.
    destruct (length (t_tail t) =? 0) eqn:E'; [apply Nat.eqb_eq in E'; lia|]. reflexivity.
Qed.

(** The first appends, before the vector becomes a tree. *)
Theorem C94_append_short : forall l : list T,
  length l <= 64 ->
  pv_push_back_steps (pv_extend pv_new l) = if length l <? 64 then 1 else 2.
Proof.
  intros l Hl. destruct (pushed_all l) as [Hlen [[H Hi]|(t & f & Hi & Hh & Hg & Ht & Htl & Hll)]].
  - unfold pv_push_back_steps. rewrite Hi. unfold ADAPTIVE_INLINE_SIZE.
    destruct (Nat.ltb_spec (length l) 64); [reflexivity|].
    unfold from_elements, LEAF_CAPACITY.
    destruct (Nat.leb_spec (length l) 64); [reflexivity|lia].
  - lia.
Qed.

(** A vector grown with [push_front]: the work of reading the element pushed
    first is linear in the length. *)
Theorem C94_push_front : forall l : list T,
  128 < length l ->
  let f := (length l - 65) / 64 in
  pv_get_steps (fold_left pv_push_front l pv_new) (length l - 1)
    = 33 * ((f - 1) / 31) + (f - 1) mod 31 + 4 /\
  pv_update_steps (fold_left pv_push_front l pv_new) (length l - 1)
    = 33 * ((f - 1) / 31) + (f - 1) mod 31 + 4.
Proof.
  intros l Hl. cbv zeta.
  destruct (front_all l) as [Hlen [(es & _ & _ & H)|(t & f & Hi & Hh & Hg & Ht & Htl & Hll & Hsz)]]; [lia|].
  change ((length l - 65) / 64) with (flushes (length l)).
  assert (Ef : flushes (length l) = f) by (rewrite Hll; apply flushes_of; lia).
  rewrite Ef.
  assert (E : 33 * ((f - 1) / 31) + (f - 1) mod 31 + 4 = back_work f).
  { destruct f as [|f]; [lia|]. cbn [back_work]. now replace (S f - 1) with f by lia. }
  rewrite E. pose proof (grown_front_shallow Hg) as Hs.
  assert (E0 : pv_len (fold_left pv_push_front l pv_new) <=? length l - 1 = false)
    by (apply Nat.leb_gt; lia).
  assert (E1 : t_len t <=? length l - 1 = false) by (apply Nat.leb_gt; lia).
  assert (E2 : length l - 1 <? length (t_head t) = false) by (apply Nat.ltb_ge; lia).
  assert (E3 : length l - 1 - length (t_head t)
               <? t_len t - length (t_head t) - length (t_tail t) = true).
  { rewrite Hh. apply Nat.ltb_lt. cbn [length]. lia. }
  assert (E4 : length l - 1 - length (t_head t) = calculate_size (t_root t) - 1) by lia.
  split.
  - unfold pv_get_steps. rewrite Hi, E0. unfold tree_get_steps. rewrite E1, E2, E3, E4.
    now apply grown_front_back_steps.
  - unfold pv_update_steps. rewrite Hi, E0. unfold tree_update_steps. rewrite E1, E2, E3, E4.
    rewrite (shallow_update_steps 0 _ Hs). now apply grown_front_back_steps.
Qed.

(** A vector joined with [concat] from [k + 1] pieces of 128 elements: the root
    has a child for every piece and finding the last element reads them all. *)
Theorem C94_concat : forall (b : list T) k,
  length b = 128 ->
  pv_len (joined b k) = 128 * (k + 1) /\
  pv_get_steps (joined b k) (128 * (k + 1) - 1) = k + 4 /\
  pv_update_steps (joined b k) (128 * (k + 1) - 1) = k + 4.
Proof.
  intros b k Hb. destruct (joined_all b k Hb) as (mids & g & -> & Hm & Hsum).
  assert (H1 : length (firstn 64 b) = 64) by (rewrite firstn_length; lia).
  assert (H2 : length (skipn 64 b) = 64) by (rewrite skipn_length; lia).
  split; [reflexivity|].
  unfold pv_get_steps, pv_update_steps. cbn [pv_len inner].
  replace (128 * (k + 1) <=? 128 * (k + 1) - 1) with false by (symmetry; apply Nat.leb_gt; lia).
  unfold tree_get_steps, tree_update_steps. cbn [t_len t_head t_tail t_root t_height length].
  replace (128 * (k + 1) <=? 128 * (k + 1) - 1) with false by (symmetry; apply Nat.leb_gt; lia).
  rewrite !Nat.sub_0_r.
  replace (128 * (k + 1) - 1 <? 0) with false by (symmetry; apply Nat.ltb_ge; lia).
  replace (128 * (k + 1) - 1 <? 128 * (k + 1)) with true by (symmetry; apply Nat.ltb_lt; lia).
  unfold make_relaxed. cbn [get_from_tree_steps node_update_steps table_reads find_child_relaxed find_child].
  assert (Es : map calculate_size (Leaf (firstn 64 b) :: mids ++ [Leaf (skipn 64 b)])
               = (64 :: map calculate_size mids) ++ [64]).
  { cbn [map app calculate_size]. rewrite map_app. cbn [map calculate_size]. now rewrite H1, H2. }
  rewrite Es.
  assert (Hs : sum_list (64 :: map calculate_size mids) = 64 + 128 * k).
  { unfold sum_list in *. cbn [fold_right]. rewrite Hsum. reflexivity. }
  destruct (@scan_last (64 :: map calculate_size mids) 64 (128 * (k + 1) - 1) 0 0 ltac:(lia)) as [R1 R2].
  rewrite R1, R2. cbn [length map Nat.add]. rewrite map_length, Hm.
  cbn [nth_error]. rewrite !map_app. cbn [map].
  rewrite !nth_error_app2 by (rewrite map_length; lia).
  rewrite !map_length, Hm, Nat.sub_diag. cbn [nth_error get_from_tree_steps node_update_steps].
  lia.
Qed.

(** ** No logarithmic bound *)

Lemma power_beats c : exists m, c * (1 + m) < 2 ^ m.
Proof.
  exists (4 * c).
  assert (H : 2 * c < 2 ^ (2 * c)) by (apply Nat.pow_gt_lin_r; lia).
  replace (4 * c) with (2 * c + 2 * c) by lia. rewrite Nat.pow_add_r. nia.
Qed.

Lemma log2_shift m k : Nat.log2 (2 ^ k * 2 ^ m) = k + m.
Proof. rewrite <- Nat.pow_add_r. apply Nat.log2_pow2. lia. Qed.

(** Reading the first element of a vector grown with [push_back] is not
    logarithmic, nor is updating it. *)
Theorem C94_push_back_refuted : forall x : T,
  ~ logarithmic (@length T) (fun l => pv_get_steps (pv_extend pv_new l) 0) /\
  ~ logarithmic (@length T) (fun l => pv_update_steps (pv_extend pv_new l) 0).
Proof.
  intros x.
  assert (H : forall c, exists l : list T,
    64 < length l /\
    c * (1 + Nat.log2 (length l)) < 2 * (((length l - 65) / 64 + 30) / 31) + 1).
  { intros c. destruct (power_beats (12 * c)) as [m Hm].
    exists (repeat x (2 ^ 11 * 2 ^ m)). rewrite repeat_length, log2_shift.
    change (2 ^ 11) with (64 * 32).
    assert (Hp : 1 <= 2 ^ m) by (apply Nat.neq_0_lt_0, Nat.pow_nonzero; lia).
    set (p := 2 ^ m) in *. split; [nia|].
    rewrite <- (Nat.div_unique (64 * 32 * p - 65) 64 (32 * p - 2) 63) by nia.
    assert (p <= (32 * p - 2 + 30) / 31) by (apply Nat.div_le_lower_bound; lia).
    nia. }
  split; intros [c Hc]; destruct (H c) as (l & Hl & Hlt); specialize (Hc l); cbv beta in Hc;
    destruct (C94_push_back l Hl) as (E1 & E2 & _); lia.
Qed.

(** Appending is not logarithmic either. *)
Theorem C94_append_refuted : forall x : T,
  ~ logarithmic (@length T) (fun l => pv_push_back_steps (pv_extend pv_new l)).
Proof.
  intros x [c Hc]. destruct (power_beats (12 * c)) as [m Hm].
  specialize (Hc (repeat x (2 ^ 11 * 2 ^ m))). cbv beta in Hc.
  assert (Hp : 1 <= 2 ^ m) by (apply Nat.neq_0_lt_0, Nat.pow_nonzero; lia).
  change (2 ^ 11) with (64 * 32) in Hc.
  rewrite C94_append in Hc by (rewrite repeat_length; nia).
  rewrite repeat_length in Hc. change (Nat.log2 (64 * 32 * 2 ^ m)) with (Nat.log2 (2 ^ 11 * 2 ^ m)) in Hc.
  rewrite log2_shift in Hc. set (p := 2 ^ m) in *.
  rewrite <- (Nat.mod_unique (64 * 32 * p) 64 (32 * p) 0) in Hc by lia.
  rewrite <- (Nat.div_unique (64 * 32 * p) 64 (32 * p) 0) in Hc by lia.
  change (0 =? 0) with true in Hc. cbv iota in Hc.
  assert (p <= (32 * p - 1 + 30) / 31) by (apply Nat.div_le_lower_bound; lia).
  nia.
Qed.

(** Reading the oldest element of a vector grown with [push_front] is not
    logarithmic. *)
Theorem C94_push_front_refuted : forall x : T,
  ~ logarithmic (@length T)
      (fun l => pv_get_steps (fold_left pv_push_front l pv_new) (length l - 1)).
Proof.
  intros x [c Hc]. destruct (power_beats (12 * c)) as [m Hm].
  specialize (Hc (repeat x (2 ^ 11 * 2 ^ m))). cbv beta in Hc.
  assert (Hp : 1 <= 2 ^ m) by (apply Nat.neq_0_lt_0, Nat.pow_nonzero; lia).
  change (2 ^ 11) with (64 * 32) in Hc.
  assert (Hl : 128 < length (repeat x (64 * 32 * 2 ^ m))) by (rewrite repeat_length; nia).
  destruct (C94_push_front _ Hl) as [E _]. rewrite E in Hc. clear E.
  rewrite repeat_length in Hc. change (Nat.log2 (64 * 32 * 2 ^ m)) with (Nat.log2 (2 ^ 11 * 2 ^ m)) in Hc.
  rewrite log2_shift in Hc. set (p := 2 ^ m) in *.
  rewrite <- (Nat.div_unique (64 * 32 * p - 65) 64 (32 * p - 2) 63) in Hc by nia.
  pose proof (Nat.div_mod (32 * p - 2 - 1) 31 ltac:(lia)).
  pose proof (Nat.mod_upper_bound (32 * p - 2 - 1) 31 ltac:(lia)). nia.
Qed.

(** Reading the last element of a vector made with [concat] is not
    logarithmic. *)
Theorem C94_concat_refuted : forall b : list T,
  length b = 128 ->
  ~ logarithmic (fun k => pv_len (joined b k))
      (fun k => pv_get_steps (joined b k) (pv_len (joined b k) - 1)).
Proof.
  intros b Hb [c Hc]. destruct (power_beats (8 * c)) as [m Hm].
  assert (Hp : 1 <= 2 ^ m) by (apply Nat.neq_0_lt_0, Nat.pow_nonzero; lia).
  specialize (Hc (2 ^ m - 1)). cbv beta in Hc.
  destruct (C94_concat b (2 ^ m - 1) Hb) as (E1 & E2 & _).
  rewrite E1, E2 in Hc. replace (2 ^ m - 1 + 1) with (2 ^ m) in Hc by lia.
  change 128 with (2 ^ 7) in Hc. rewrite log2_shift in Hc. nia.
Qed.

End Props.

(** Concrete cases *)

Example C94_collected_case :
  pv_get_steps (pv_from_iter (seq 0 200)) 130 = 5.
Proof. vm_compute. reflexivity. Qed.

Example C94_collected_exact_case :
  map (pv_get_steps (pv_from_iter (seq 0 3000))) [0; 64; 2047; 2048; 2943; 2944; 3000]
  = [5; 6; 36; 6; 19; 1; 0] /\
  descent 46 46 (2943 / 64) + 1 = 19.
Proof. vm_compute. split; reflexivity. Qed.

Example C94_append_short_case :
  map (fun n => pv_push_back_steps (pv_extend pv_new (seq 0 n))) [0; 63; 64] = [1; 1; 2].
Proof. vm_compute. reflexivity. Qed.

Example C94_push_back_case :
  map (fun n => pv_get_steps (pv_extend pv_new (seq 0 n)) 0) [65; 129; 1000] = [1; 3; 3].
Proof. vm_compute. reflexivity. Qed.

Example C94_append_case :
  map (fun n => pv_push_back_steps (pv_extend pv_new (seq 0 n))) [100; 128; 129; 192] = [1; 3; 1; 3].
Proof. vm_compute. reflexivity. Qed.

Example C94_push_front_case :
  pv_get_steps (fold_left pv_push_front (seq 0 193) pv_new) 192 = 5.
Proof. vm_compute. reflexivity. Qed.

Example C94_concat_case :
  pv_get_steps (joined (seq 0 128) 3) 511 = 7.
Proof. vm_compute. reflexivity. Qed.

Print Assumptions C94_collected_partial.
Print Assumptions C94_collected.
Print Assumptions C94_append_short.
Print Assumptions C94_push_back.
Print Assumptions C94_append.
Print Assumptions C94_push_front.
Print Assumptions C94_concat.
Print Assumptions C94_push_back_refuted.
Print Assumptions C94_append_refuted.
Print Assumptions C94_push_front_refuted.
Print Assumptions C94_concat_refuted.

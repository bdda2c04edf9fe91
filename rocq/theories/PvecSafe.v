(** Absence of panics in every history without [pop_back], and the contents of
    [concat] computed from sizes. *)
From Coq Require Import List Arith Lia Bool.
From Verif Require Import Base ListFacts PvecModel PvecSpec PvecFacts PvecShape PvecEnds PvecHist.
Import ListNotations.
Open Scope outcome_scope.
Set Implicit Arguments.
Unset Strict Implicit.

Section Safe.
Context {T : Type}.
Notation node := (node T).
Notation tree := (tree T).
Notation pvec := (pvec T).
Notation op := (op T).

(** Bookkeeping that suffices for panic freedom: well-formed nodes, and the
    two buffers never exceed the recorded length. *)
Definition safe_tree (t : tree) : Prop :=
  node_ok (t_root t) /\ length (t_head t) + length (t_tail t) <= t_len t.

Definition safe_vec (v : pvec) : Prop :=
  match inner v with
  | Inline es => pv_len v = length es
  | Tree t => safe_tree t
  end.

Lemma tree_ok_safe (t : tree) : tree_ok t -> safe_tree t.
Proof. intros [H1 H2]. split; auto. rewrite tree_elems_length in H2. lia. Qed.

Lemma pv_ok_safe (v : pvec) : pv_ok v -> safe_vec v.
Proof.
  intros [H1 H2]. unfold safe_vec, pv_elems in *. destruct (inner v); auto.
  now apply tree_ok_safe.
Qed.

Lemma from_elements_safe (l : list T) : safe_tree (from_elements l).
Proof. apply tree_ok_safe, from_elements_ok. Qed.

Lemma from_iter_safe {U} (l : list U) : match inner (pv_from_iter l) with
  | Inline es => pv_len (pv_from_iter l) = length es
  | Tree t => node_ok (t_root t) /\ length (t_head t) + length (t_tail t) <= t_len t
  end.
Proof.
  destruct (pv_from_iter_ok l) as [[H1 H2] _]. unfold pv_elems in *.
  destruct (inner (pv_from_iter l)); auto. destruct H2 as [H2 H3]. split; auto.
  rewrite tree_elems_length in H3. lia.
Qed.

Lemma tree_get_safe (t : tree) i : safe_tree t -> exists o, tree_get t i = Ret o.
Proof.
  intros [H1 H2]. unfold tree_get.
  destruct (t_len t <=? i); [eauto|].
  destruct (Nat.ltb_spec i (length (t_head t))); [eauto|].
  rewrite usub_ok by lia. cbn [obind]. rewrite usub_ok by lia. cbn [obind].
  rewrite usub_ok by lia. cbn [obind].
  destruct (Nat.ltb_spec (i - length (t_head t)) (t_len t - length (t_head t) - length (t_tail t)));
    [eauto|].
  rewrite usub_ok by lia. cbn [obind]. eauto.
Qed.

Lemma tree_update_safe (t : tree) i x : safe_tree t ->
  exists t', tree_update t i x = Ret t' /\ safe_tree t'.
Proof.
  intros [H1 H2]. unfold tree_update.
  destruct (t_len t <=? i); [eexists; split; [reflexivity|now split]|].
  destruct (Nat.ltb_spec i (length (t_head t))).
  { eexists; split; [reflexivity|]. split; auto. cbn. now rewrite list_set_length. }
  rewrite usub_ok by lia. cbn [obind]. rewrite usub_ok by lia. cbn [obind].
  rewrite usub_ok by lia. cbn [obind].
  destruct (Nat.ltb_spec (i - length (t_head t)) (t_len t - length (t_head t) - length (t_tail t))).
  - eexists; split; [reflexivity|]. split; auto. cbn. now apply node_update_ok.
  - rewrite usub_ok by lia. cbn [obind]. eexists; split; [reflexivity|].
    split; auto. cbn. now rewrite list_set_length.
Qed.

Lemma push_tail_safe (t : tree) : safe_tree t -> safe_tree (push_tail_to_tree t).
Proof.
  intros [H1 H2]. unfold push_tail_to_tree. destruct (t_tail t) eqn:E; [split; auto; now rewrite E|].
  split; cbn; [|lia]. apply push_leaf_ok; auto. constructor.
Qed.

Lemma push_head_safe (t : tree) : safe_tree t -> safe_tree (push_head_to_tree t).
Proof.
  intros [H1 H2]. unfold push_head_to_tree. destruct (t_head t) eqn:E; [split; auto; now rewrite E|].
  split; cbn; [|lia]. apply push_front_leaf_ok; auto. constructor.
Qed.

Lemma tree_push_back_safe (t : tree) x : safe_tree t -> safe_tree (tree_push_back t x).
Proof.
  intros H. unfold tree_push_back.
  destruct (length (t_tail t) <? LEAF_CAPACITY).
  - destruct H as [H1 H2]. split; cbn; auto. rewrite app_length. cbn. lia.
  - apply push_tail_safe in H. destruct H as [H1 H2]. split; cbn; auto.
    rewrite app_length. cbn. lia.
Qed.

Lemma tree_push_front_safe (t : tree) x : safe_tree t -> safe_tree (tree_push_front t x).
Proof.
  intros H. unfold tree_push_front.
  destruct (length (t_head t) <? LEAF_CAPACITY).
  - destruct H as [H1 H2]. split; cbn; auto. lia.
  - apply push_head_safe in H. destruct H as [H1 H2]. split; cbn; auto. lia.
Qed.

Lemma concat_same_height_safe (a b : tree) :
  safe_tree a -> safe_tree b -> safe_tree (concat_same_height a b).
Proof.
  intros Ha Hb.
  pose proof (push_tail_safe Ha) as [A1 _]. pose proof (push_head_safe Hb) as [B1 _].
  destruct Ha as [Ha1 Ha2], Hb as [Hb1 Hb2].
  unfold concat_same_height. split; cbn.
  - apply concat_nodes_ok.
    + destruct (t_tail a); auto.
    + destruct (t_head b); auto.
  - assert (E1 : t_head (match t_tail a with [] => a | _ => push_tail_to_tree a end) = t_head a).
    { unfold push_tail_to_tree. destruct (t_tail a); reflexivity. }
    assert (E2 : t_tail (match t_head b with [] => b | _ => push_head_to_tree b end) = t_tail b).
    { unfold push_head_to_tree. destruct (t_head b); reflexivity. }
    rewrite E1, E2. lia.
Qed.

Lemma elevate_safe (t : tree) h : safe_tree t -> safe_tree (elevate_tree t h).
Proof.
  intros [H1 H2]. split; cbn; auto. now apply elevate_iter_ok.
Qed.

Lemma tree_concat_safe (a b : tree) : safe_tree a -> safe_tree b -> safe_tree (tree_concat a b).
Proof.
  intros Ha Hb. unfold tree_concat, concat_different_height.
  destruct (t_len a =? 0); auto. destruct (t_len b =? 0); auto.
  destruct (t_height a =? t_height b); [now apply concat_same_height_safe|].
  destruct (t_height a <? t_height b); apply concat_same_height_safe; auto; now apply elevate_safe.
Qed.

Lemma tree_pop_front_safe (t : tree) : safe_tree t ->
  exists o, tree_pop_front t = Ret o /\
            match o with None => True | Some (t', _) => safe_tree t' end.
Proof.
  intros [H1 H2]. unfold tree_pop_front.
  destruct (Nat.eqb_spec (t_len t) 0); [eexists; split; [reflexivity|exact I]|].
  destruct (t_head t) as [|h hs] eqn:Eh.
  - unfold pop_front_from_tree. rewrite Eh. cbn [length] in *.
    rewrite usub_ok by lia. cbn [obind]. rewrite usub_ok by lia. cbn [obind].
    assert (Htail : match pop_front_from_tail t with
                    | None => True | Some (t', _) => safe_tree t' end).
    { unfold pop_front_from_tail. destruct (t_tail t) as [|x r]; [exact I|].
      cbn [rev]. rewrite pop_last_app. split; cbn; [constructor|].
      rewrite rev_length. cbn in H2. lia. }
    destruct (Nat.ltb_spec 0 (t_len t - 0 - length (t_tail t))).
    + destruct (node_pop_front_safe H1) as [E|(n' & x & E & Hn & _)]; rewrite E; cbn [obind].
      * eauto.
      * eexists; split; [reflexivity|]. split; cbn; auto. lia.
    + cbn [obind]. eauto.
  - eexists; split; [reflexivity|]. split; cbn in *; auto. lia.
Qed.

Lemma split_along_path_node_ok (n : node) : node_ok n -> forall path target h,
  node_ok (fst (split_along_path n path target h)) /\
  node_ok (snd (split_along_path n path target h)).
Proof.
  induction n as [es|cs sz IH] using node_ind'; intros Hok path target h.
  - destruct path; split; constructor.
  - apply node_ok_branch_inv in Hok as (Hne & Hok & ->).
    destruct path as [|k path]; cbn [split_along_path].
    + destruct cs as [|c cs]; [split; constructor|].
      inversion IH; inversion Hok; subst. auto.
    + destruct (nth_error cs k) as [c|] eqn:E.
      * rewrite (nth_error_map_some _ _ _ E).
        set (tg := calculate_adjusted_index target k (Some (map esize cs)) (h - 1)).
        destruct (Forall_nth _ IH E (Forall_nth _ Hok E) path tg (h - 1)) as [A B].
        destruct (split_along_path c path tg (h - 1)) as [l r]. cbn in *.
        split; [now apply create_left_branch_ok|now apply create_right_branch_ok].
      * assert (E2 : nth_error (map (fun c => split_along_path c) cs) k = None).
        { apply nth_error_None. rewrite map_length. now apply nth_error_None. }
        rewrite E2. split; constructor.
Qed.

Lemma tree_split_at_safe (t : tree) i : safe_tree t ->
  exists l r, tree_split_at t i = Ret (l, r) /\ safe_tree l /\ safe_tree r.
Proof.
  intros [H1 H2]. unfold tree_split_at.
  destruct (i =? 0). { eexists _, _; split; [reflexivity|]. split; split; cbn; auto. constructor. }
  destruct (Nat.leb_spec (t_len t) i).
  { eexists _, _; split; [reflexivity|]. split; split; cbn; auto. constructor. }
  destruct (Nat.leb_spec i (length (t_head t))).
  { eexists _, _; split; [reflexivity|]. split; split; cbn; auto; try constructor; lia. }
  rewrite usub_ok by lia. cbn [obind]. rewrite usub_ok by lia. cbn [obind].
  match goal with |- context [?a <=? i] => destruct (Nat.leb_spec a i) end.
  - rewrite usub_ok by lia. cbn [obind]. rewrite usub_ok by lia. cbn [obind].
    eexists _, _; split; [reflexivity|]. split; split; cbn; auto; try constructor; lia.
  - rewrite usub_ok by lia. cbn [obind]. unfold split_tree_at.
    pose proof (split_along_path_node_ok H1
      (find_path_to_index (t_height t) (t_root t) (i - length (t_head t)))
      (i - length (t_head t)) (t_height t)) as [A B].
    destruct (split_along_path _ _ _ _) as [l r]. cbn in A, B.
    eexists _, _; split; [reflexivity|]. split; split; cbn; auto; lia.
Qed.

(** ** Vectors *)

Lemma pv_get_safe (v : pvec) i : safe_vec v -> exists o, pv_get v i = Ret o.
Proof.
  intros H. unfold pv_get. destruct (pv_len v <=? i); [eauto|].
  unfold safe_vec in H. destruct (inner v); [eauto|]. now apply tree_get_safe.
Qed.

Lemma iter_collect_safe (v : pvec) fuel : safe_vec v -> forall p, exists l, iter_collect fuel v p = Ret l.
Proof.
  intros H. induction fuel as [|fuel IH]; intros p; cbn; [eauto|].
  unfold iter_next. destruct (p <? pv_len v).
  - destruct (pv_get_safe p H) as [o ->]. cbn. destruct o; [|eauto].
    destruct (IH (S p)) as [l ->]. cbn. eauto.
  - cbn. eauto.
Qed.

Lemma pv_iter_safe (v : pvec) : safe_vec v -> exists l, pv_iter v = Ret l.
Proof. intros H. unfold pv_iter. now apply iter_collect_safe. Qed.

Lemma pv_push_back_safe (v : pvec) x : safe_vec v -> safe_vec (pv_push_back v x).
Proof.
  intros H. unfold safe_vec, pv_push_back in *. destruct (inner v) as [es|t].
  - destruct (length es <? ADAPTIVE_INLINE_SIZE); cbn.
    + rewrite app_length. cbn. lia.
    + apply tree_push_back_safe, from_elements_safe.
  - cbn. now apply tree_push_back_safe.
Qed.

Lemma pv_push_front_safe (v : pvec) x : safe_vec v -> safe_vec (pv_push_front v x).
Proof.
  intros H. unfold safe_vec, pv_push_front in *. destruct (inner v) as [es|t].
  - destruct (length es <? ADAPTIVE_INLINE_SIZE); cbn.
    + lia.
    + apply tree_push_front_safe, from_elements_safe.
  - cbn. now apply tree_push_front_safe.
Qed.

Lemma pv_update_safe (v : pvec) i x : safe_vec v ->
  exists v', pv_update v i x = Ret v' /\ safe_vec v'.
Proof.
  intros H. unfold pv_update. destruct (Nat.leb_spec (pv_len v) i); [eauto|].
  unfold safe_vec in *. destruct (inner v) as [es|t].
  - rewrite (proj2 (Nat.ltb_lt _ _)) by lia. eexists; split; [reflexivity|]. cbn.
    now rewrite list_set_length.
  - destruct (tree_update_safe i x H) as (t' & -> & H'). cbn.
    eexists; split; [reflexivity|]. exact H'.
Qed.

Lemma pv_extend_safe xs (v : pvec) : safe_vec v -> safe_vec (pv_extend v xs).
Proof.
  unfold pv_extend. revert v; induction xs as [|x xs IH]; intros v H; cbn; auto.
  apply IH. now apply pv_push_back_safe.
Qed.

Lemma pv_concat_safe (a b : pvec) : safe_vec a -> safe_vec b -> safe_vec (pv_concat a b).
Proof.
  unfold safe_vec, pv_concat. destruct (inner a) as [l|s], (inner b) as [r|t]; intros Ha Hb; cbn.
  - apply from_iter_safe.
  - apply tree_concat_safe; auto. apply from_elements_safe.
  - apply tree_concat_safe; auto. apply from_elements_safe.
  - now apply tree_concat_safe.
Qed.

Lemma pv_pop_front_safe (v : pvec) : safe_vec v ->
  exists o, pv_pop_front v = Ret o /\ match o with None => True | Some (v', _) => safe_vec v' end.
Proof.
  intros H. unfold pv_pop_front, pv_is_empty.
  destruct (Nat.eqb_spec (pv_len v) 0); [eexists; split; [reflexivity|exact I]|].
  unfold safe_vec in H. destruct (inner v) as [es|t].
  - destruct es as [|x es]; eexists; (split; [reflexivity|]); cbn; auto.
    unfold safe_vec. cbn in *. lia.
  - destruct (tree_pop_front_safe H) as (o & -> & Ho). cbn.
    eexists; split; [reflexivity|]. destruct o as [[t' x]|]; auto.
Qed.

Lemma pv_split_at_safe (v : pvec) i : safe_vec v ->
  exists l r, pv_split_at v i = Ret (l, r) /\ safe_vec l /\ safe_vec r.
Proof.
  intros H. unfold pv_split_at.
  destruct (Nat.leb_spec (pv_len v) i); [eexists _, _; split; [reflexivity|split; [auto|reflexivity]]|].
  destruct (Nat.eqb_spec i 0); [eexists _, _; split; [reflexivity|split; [reflexivity|auto]]|].
  unfold safe_vec in H. destruct (inner v) as [es|t].
  - eexists _, _; split; [reflexivity|]. unfold safe_vec. cbn.
    rewrite firstn_length, skipn_length. lia.
  - destruct (tree_split_at_safe i H) as (l & r & -> & A & B). cbn.
    eexists _, _; split; [reflexivity|]. auto.
Qed.

Lemma pv_take_safe (v : pvec) n : safe_vec v -> exists v', pv_take v n = Ret v' /\ safe_vec v'.
Proof.
  intros H. unfold pv_take. destruct (pv_len v <=? n); [eauto|].
  destruct (pv_split_at_safe n H) as (l & r & -> & A & B). cbn. eauto.
Qed.

Lemma pv_skip_safe (v : pvec) n : safe_vec v -> exists v', pv_skip v n = Ret v' /\ safe_vec v'.
Proof.
  intros H. unfold pv_skip. destruct (pv_len v <=? n).
  { eexists; split; [reflexivity|reflexivity]. }
  destruct (pv_split_at_safe n H) as (l & r & -> & A & B). cbn. eauto.
Qed.

Lemma safe_step o (v : pvec) : is_pop_back o = false -> safe_vec v ->
  exists v' r, vec_step o v = Ret (v', r) /\ safe_vec v'.
Proof.
  intros Hc H. destruct o; try discriminate Hc; cbn [vec_step].
  - eexists _, _; split; [reflexivity|]. now apply pv_push_back_safe.
  - eexists _, _; split; [reflexivity|]. now apply pv_push_front_safe.
  - destruct (pv_pop_front_safe H) as (r & -> & Hr). cbn.
    destruct r as [[v' x]|]; eauto.
  - destruct (pv_update_safe i x H) as (v' & -> & Hv). cbn. eauto.
  - eexists _, _; split; [reflexivity|]. now apply pv_extend_safe.
  - unfold pv_map. destruct (pv_iter_safe H) as [l ->]. cbn.
    eexists _, _; split; [reflexivity|]. apply from_iter_safe.
  - unfold pv_filter. destruct (pv_iter_safe H) as [l ->]. cbn.
    eexists _, _; split; [reflexivity|]. apply from_iter_safe.
  - destruct (pv_take_safe n H) as (v' & -> & Hv). cbn. eauto.
  - destruct (pv_skip_safe n H) as (v' & -> & Hv). cbn. eauto.
  - destruct (pv_split_at_safe i H) as (l & r & -> & A & B). cbn. eauto.
  - destruct (pv_split_at_safe i H) as (l & r & -> & A & B). cbn. eauto.
  - unfold pv_insert. destruct (pv_len v <=? i).
    { cbn. eexists _, _; split; [reflexivity|]. now apply pv_push_back_safe. }
    destruct (i =? 0).
    { cbn. eexists _, _; split; [reflexivity|]. now apply pv_push_front_safe. }
    destruct (pv_split_at_safe i H) as (l & r & -> & A & B). cbn.
    eexists _, _; split; [reflexivity|]. apply pv_concat_safe; auto. now apply pv_push_back_safe.
  - unfold pv_remove. destruct (pv_len v <=? i); [cbn; eauto|].
    destruct (pv_len v =? 1). { cbn. eexists _, _; split; [reflexivity|reflexivity]. }
    destruct (pv_split_at_safe i H) as (l & r & -> & A & B). cbn [obind fst snd].
    destruct (pv_skip_safe 1 B) as (r' & -> & Hr). cbn.
    eexists _, _; split; [reflexivity|]. now apply pv_concat_safe.
  - eexists _, _; split; [reflexivity|]. apply pv_concat_safe; auto. apply from_iter_safe.
  - eexists _, _; split; [reflexivity|]. apply pv_concat_safe; auto. apply from_iter_safe.
Qed.

Lemma safe_run ops : forall v : pvec, Forall (fun o => is_pop_back o = false) ops -> safe_vec v ->
  exists v' rs, vec_run ops v = Ret (v', rs) /\ safe_vec v'.
Proof.
  induction ops as [|o ops IH]; intros v Hops H.
  - eexists _, _; split; [reflexivity|]. auto.
  - inversion Hops; subst. destruct (safe_step H2 H) as (v1 & r & E & H1).
    destruct (IH v1 H3 H1) as (v2 & rs & E2 & H4).
    cbn [vec_run]. rewrite E. cbn [obind fst snd]. rewrite E2. cbn. eauto.
Qed.

Lemma pv_fold_right_safe {B} (f : T -> B -> B) (v : pvec) n : safe_vec v ->
  forall acc, exists b, pv_fold_right_from n f acc v = Ret b.
Proof.
  intros H. induction n as [|n IH]; intros acc; cbn; [eauto|].
  destruct (pv_get_safe n H) as [o ->]. cbn. apply IH.
Qed.

(** ** Recorded height of a vector built at once *)

(** Least [h] with [m <= 32^h]: levels needed above [m] leaves. *)
Fixpoint levels (fuel m : nat) : nat :=
  match fuel with
  | 0 => 0
  | S fuel' => if m <=? 1 then 0 else S (levels fuel' ((m + BRANCHING_FACTOR - 1) / BRANCHING_FACTOR))
  end.

Lemma build_height fuel (nodes : list node) :
  nodes <> [] -> length nodes <= fuel ->
  snd (build_tree_recursive fuel nodes) = levels fuel (length nodes).
Proof.
  revert nodes; induction fuel as [|fuel IH]; intros nodes Hne Hl.
  { destruct nodes; [easy|cbn in Hl; lia]. }
  destruct nodes as [|n1 [|n2 rest]]; [easy|reflexivity|].
  cbn [build_tree_recursive].
  set (nodes := n1 :: n2 :: rest) in *.
  destruct (build_next_shorter nodes) as [L1 L2]. { cbn; lia. }
  pose proof branching_ge2 as HB.
  pose proof (@chunks_length _ BRANCHING_FACTOR nodes ltac:(lia)) as HC.
  set (next := map make_relaxed (chunks BRANCHING_FACTOR nodes)) in *.
  assert (Hn : length next = (length nodes + BRANCHING_FACTOR - 1) / BRANCHING_FACTOR).
  { unfold next. now rewrite map_length. }
  specialize (IH next). destruct (build_tree_recursive fuel next) as [root sh].
  cbn [snd] in *. rewrite IH; [|intros E; rewrite E in L1; cbn in L1; lia|lia].
  rewrite Hn. cbn [levels]. rewrite (proj2 (Nat.leb_gt _ _)) by (cbn; lia). lia.
Qed.

Lemma levels_spec fuel m h : m <= fuel -> (levels fuel m <= h <-> m <= BRANCHING_FACTOR ^ h).
Proof.
  pose proof branching_ge2 as HB. set (B := BRANCHING_FACTOR) in *.
  assert (Hpow : forall h, 1 <= B ^ h) by (intros k; apply Nat.neq_0_lt_0, Nat.pow_nonzero; lia).
  revert m h; induction fuel as [|fuel IH]; intros m h Hm; cbn [levels].
  { specialize (Hpow h). lia. }
  destruct (Nat.leb_spec m 1) as [H1|H1]. { specialize (Hpow h). lia. }
  fold B. set (q := (m + B - 1) / B).
  assert (Hq : q <= fuel).
  { unfold q. assert ((m + B - 1) / B < m); [|lia]. apply Nat.div_lt_upper_bound; nia. }
  destruct h as [|h].
  { cbn. split; lia. }
  rewrite <- Nat.succ_le_mono, IH by auto. cbn [Nat.pow].
  assert (Hd : m <= B * q /\ B * q < m + B).
  { unfold q. pose proof (Nat.div_mod (m + B - 1) B ltac:(lia)).
    pose proof (Nat.mod_upper_bound (m + B - 1) B ltac:(lia)). nia. }
  nia.
Qed.

Lemma from_elements_height (l : list T) h :
  t_height (from_elements l) <= h <-> length l / LEAF_CAPACITY <= BRANCHING_FACTOR ^ h.
Proof.
  pose proof leaf_capacity_pos as HL. pose proof branching_ge2 as HB.
  assert (Hpow : 1 <= BRANCHING_FACTOR ^ h) by (apply Nat.neq_0_lt_0, Nat.pow_nonzero; lia).
  unfold from_elements. destruct (Nat.leb_spec (length l) LEAF_CAPACITY) as [Hle|Hgt].
  { cbn [t_height]. assert (length l / LEAF_CAPACITY <= 1).
    { apply Nat.div_le_upper_bound; lia. } lia. }
  unfold build_tree_with_tail.
  set (k := length l / LEAF_CAPACITY * LEAF_CAPACITY).
  assert (Hk : LEAF_CAPACITY <= k <= length l).
  { unfold k. split.
    - assert (1 <= length l / LEAF_CAPACITY) by (apply Nat.div_le_lower_bound; lia). nia.
    - rewrite Nat.mul_comm. apply Nat.mul_div_le. lia. }
  assert (Hf : length (firstn k l) = k) by (rewrite firstn_length; lia).
  destruct (firstn k l) as [|x xs] eqn:E. { cbn in Hf. lia. }
  rewrite <- E in *.
  set (leaves := map Leaf (chunks LEAF_CAPACITY (firstn k l))).
  assert (Hlv : length leaves = length l / LEAF_CAPACITY).
  { unfold leaves. rewrite map_length, chunks_length by auto. rewrite Hf. unfold k.
    symmetry. apply Nat.div_unique with (r := LEAF_CAPACITY - 1); lia. }
  assert (Hne : leaves <> []).
  { intros A. rewrite A in Hlv. cbn in Hlv.
    assert (1 <= length l / LEAF_CAPACITY) by (apply Nat.div_le_lower_bound; lia). lia. }
  pose proof (build_height Hne (le_n _)) as H.
  destruct (build_tree_recursive (length leaves) leaves) as [root hh]. cbn in *.
  subst hh. rewrite <- Hlv. apply levels_spec. lia.
Qed.

Lemma pv_from_iter_height (l : list T) h :
  pv_height (pv_from_iter l) <= h <-> length l / LEAF_CAPACITY <= BRANCHING_FACTOR ^ h.
Proof.
  unfold pv_height, pv_from_iter. destruct (length l <=? ADAPTIVE_INLINE_SIZE);
    cbn [inner]; apply from_elements_height.
Qed.

End Safe.

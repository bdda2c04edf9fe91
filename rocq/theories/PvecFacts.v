(** Structural invariant of the persistent vector and its consequences. *)
From Coq Require Import List Arith Lia Bool.
From Verif Require Import Base ListFacts PvecModel.
Import ListNotations.
Open Scope outcome_scope.
Set Implicit Arguments.

Lemma leaf_capacity_pos : 1 <= LEAF_CAPACITY.
Proof. unfold LEAF_CAPACITY; lia. Qed.
Lemma branching_ge2 : 2 <= BRANCHING_FACTOR.
Proof. unfold BRANCHING_FACTOR; lia. Qed.
Global Opaque LEAF_CAPACITY BRANCHING_FACTOR ADAPTIVE_INLINE_SIZE.

Section NodeInd.
Context {T : Type}.
Variable P : node T -> Prop.
Hypothesis HLeaf : forall es, P (Leaf es).
Hypothesis HBranch : forall cs sz, Forall P cs -> P (Branch cs sz).
Fixpoint node_ind' (n : node T) : P n :=
  match n with
  | Leaf es => HLeaf es
  | Branch cs sz =>
      HBranch sz
        ((fix go (cs : list (node T)) : Forall P cs :=
            match cs with
            | [] => Forall_nil P
            | c :: cs' => Forall_cons c (node_ind' c) (go cs')
            end) cs)
  end.
End NodeInd.

Section Facts.
Context {T : Type}.
Notation node := (node T).
Notation tree := (tree T).
Notation pvec := (pvec T).

(** In-order contents of a node. *)
Fixpoint elems (n : node) : list T :=
  match n with
  | Leaf es => es
  | Branch cs _ => flat_map elems cs
  end.

Definition esize (n : node) : nat := length (elems n).

(** Every branch is non-empty and carries the exact size table. *)
Inductive node_ok : node -> Prop :=
| ok_leaf es : node_ok (Leaf es)
| ok_branch cs :
    cs <> [] -> Forall node_ok cs -> node_ok (Branch cs (Some (map esize cs))).

Lemma node_ok_branch_inv cs sz :
  node_ok (Branch cs sz) -> cs <> [] /\ Forall node_ok cs /\ sz = Some (map esize cs).
Proof. inversion 1; subst; auto. Qed.

Lemma calculate_size_ok n : node_ok n -> calculate_size n = esize n.
Proof.
  destruct n as [es|cs sz]; intros H; [reflexivity|].
  apply node_ok_branch_inv in H as (_ & _ & ->). cbn.
  change (esize (Branch cs (Some (map esize cs)))) with (length (flat_map elems cs)).
  rewrite length_flat_map. reflexivity.
Qed.

Lemma map_calculate_size_ok cs :
  Forall node_ok cs -> map calculate_size cs = map esize cs.
Proof.
  intros H. apply map_ext_in. intros c Hc.
  apply calculate_size_ok. rewrite Forall_forall in H. auto.
Qed.

Lemma make_relaxed_ok cs : cs <> [] -> Forall node_ok cs -> node_ok (make_relaxed cs).
Proof.
  intros H1 H2. unfold make_relaxed. rewrite map_calculate_size_ok by auto.
  now constructor.
Qed.

Lemma elems_make_relaxed cs : elems (make_relaxed cs) = flat_map elems cs.
Proof. reflexivity. Qed.

Lemma flat_map_firstn_skipn (cs : list node) k :
  flat_map elems cs = flat_map elems (firstn k cs) ++ flat_map elems (skipn k cs).
Proof. now rewrite <- flat_map_app, firstn_skipn. Qed.

(** Scanning the size table locates the child that holds an index. *)
Lemma scan_sizes_spec (cs : list node) idx i cum :
  (idx < length (flat_map elems cs) /\
   exists k j c, scan_sizes (map esize cs) (cum + idx) i cum = Some (i + k, j) /\
     nth_error cs k = Some c /\ j < esize c /\
     idx = length (flat_map elems (firstn k cs)) + j)
  \/ (length (flat_map elems cs) <= idx /\
      scan_sizes (map esize cs) (cum + idx) i cum = None).
Proof.
  revert idx i cum; induction cs as [|c cs IH]; intros idx i cum.
  - right. cbn. split; [lia|reflexivity].
  - cbn [map scan_sizes flat_map].
    rewrite app_length. fold (esize c).
    destruct (Nat.ltb_spec (cum + idx) (cum + esize c)) as [Hlt|Hge].
    + left. split; [unfold esize in *; lia|].
      exists 0, idx, c. repeat split; cbn; try lia.
      f_equal. f_equal; lia.
    + destruct (IH (idx - esize c) (S i) (cum + esize c)) as [[H1 (k & j & d & H2 & H3 & H4 & H5)]|[H1 H2]].
      * left. split; [lia|].
        exists (S k), j, d.
        replace (cum + esize c + (idx - esize c)) with (cum + idx) in H2 by lia.
        rewrite H2. repeat split; cbn; auto.
        -- f_equal. f_equal. lia.
        -- rewrite app_length. fold (esize c). lia.
      * right. split; [lia|].
        replace (cum + esize c + (idx - esize c)) with (cum + idx) in H2 by lia.
        exact H2.
Qed.

Lemma scan0 (cs : list node) idx :
  (idx < length (flat_map elems cs) /\
   exists k j c, scan_sizes (map esize cs) idx 0 0 = Some (k, j) /\
     nth_error cs k = Some c /\ j < esize c /\
     idx = length (flat_map elems (firstn k cs)) + j)
  \/ (length (flat_map elems cs) <= idx /\ scan_sizes (map esize cs) idx 0 0 = None).
Proof. exact (scan_sizes_spec cs idx 0 0). Qed.

Lemma nth_error_located (cs : list node) k j c idx :
  nth_error cs k = Some c -> j < esize c ->
  idx = length (flat_map elems (firstn k cs)) + j ->
  nth_error (flat_map elems cs) idx = nth_error (elems c) j.
Proof.
  intros H1 H2 ->.
  rewrite (nth_error_split' _ _ H1) at 1.
  rewrite flat_map_app. cbn.
  rewrite nth_error_app2 by lia.
  replace (length (flat_map elems (firstn k cs)) + j - length (flat_map elems (firstn k cs)))
    with j by lia.
  now rewrite nth_error_app1 by assumption.
Qed.

Lemma nth_error_map_some {A B} (f : A -> B) l k c :
  nth_error l k = Some c -> nth_error (map f l) k = Some (f c).
Proof. intros H. now apply map_nth_error. Qed.

Lemma Forall_nth {A} (P : A -> Prop) l k c :
  Forall P l -> nth_error l k = Some c -> P c.
Proof.
  intros H1 H2. rewrite Forall_forall in H1. apply H1.
  now apply nth_error_In with k.
Qed.

Lemma node_get_ok n i : node_ok n -> node_get n i = nth_error (elems n) i.
Proof.
  revert i; induction n as [es|cs sz IH] using node_ind'; intros i H; [reflexivity|].
  apply node_ok_branch_inv in H as (Hne & Hok & ->). cbn.
  destruct (scan0 cs i) as [[Hlt (k & j & c & E & Hc & Hj & Hi)]|[Hge E]]; rewrite E.
  - rewrite (nth_error_map_some _ _ _ Hc).
    rewrite (nth_error_located _ _ Hc Hj Hi).
    apply (Forall_nth _ IH Hc). apply (Forall_nth _ Hok Hc).
  - symmetry. now apply nth_error_None.
Qed.

Lemma get_from_tree_ok n h i : node_ok n -> get_from_tree n h i = nth_error (elems n) i.
Proof.
  revert h i; induction n as [es|cs sz IH] using node_ind'; intros h i H; [reflexivity|].
  apply node_ok_branch_inv in H as (Hne & Hok & ->). cbn.
  destruct (scan0 cs i) as [[Hlt (k & j & c & E & Hc & Hj & Hi)]|[Hge E]]; rewrite E.
  - rewrite (nth_error_map_some _ _ _ Hc).
    rewrite (nth_error_located _ _ Hc Hj Hi).
    apply (Forall_nth _ IH Hc). apply (Forall_nth _ Hok Hc).
  - symmetry. now apply nth_error_None.
Qed.

Lemma Forall_list_set {A} (P : A -> Prop) l k x :
  Forall P l -> P x -> Forall P (list_set l k x).
Proof.
  intros H Hx. revert k; induction H; intros [|k]; cbn; constructor; auto.
Qed.

Lemma map_list_set_same {A B} (f : A -> B) l k c x :
  nth_error l k = Some c -> f x = f c -> map f (list_set l k x) = map f l.
Proof.
  intros H1 H2. rewrite (list_set_split _ _ x H1).
  rewrite (nth_error_split' _ _ H1) at 3.
  rewrite !map_app. cbn. now rewrite H2.
Qed.

Lemma node_update_ok n i x :
  node_ok n -> node_ok (node_update n i x) /\ elems (node_update n i x) = list_set (elems n) i x.
Proof.
  revert i; induction n as [es|cs sz IH] using node_ind'; intros i H.
  { split; [constructor|reflexivity]. }
  pose proof H as H'.
  apply node_ok_branch_inv in H as (Hne & Hok & ->). cbn.
  destruct (scan0 cs i) as [[Hlt (k & j & c & E & Hc & Hj & Hi)]|[Hge E]]; rewrite E.
  - rewrite (nth_error_map_some _ _ _ Hc).
    destruct (Forall_nth _ IH Hc j (Forall_nth _ Hok Hc)) as [IH1 IH2].
    assert (Es : esize (node_update c j x) = esize c).
    { unfold esize. now rewrite IH2, list_set_length. }
    split.
    + rewrite <- (map_list_set_same esize _ _ _ Hc Es).
      constructor.
      * intros Hn. apply (f_equal (@length _)) in Hn.
        rewrite list_set_length in Hn. destruct cs; [easy|discriminate].
      * now apply Forall_list_set.
    + cbn. rewrite (list_set_split _ _ _ Hc).
      rewrite (nth_error_split' _ _ Hc) at 3.
      rewrite !flat_map_app. cbn. rewrite IH2.
      rewrite list_set_app2 by lia. f_equal.
      replace (i - length (flat_map elems (firstn k cs))) with j by lia.
      now rewrite list_set_app1.
  - split; auto. cbn. symmetry. now apply list_set_ge.
Qed.

Lemma pair_ok a b :
  node_ok a -> node_ok b ->
  node_ok (Branch [a; b] (Some [calculate_size a; calculate_size b])).
Proof.
  intros Ha Hb. rewrite !calculate_size_ok by auto.
  change [esize a; esize b] with (map esize [a; b]).
  constructor; [discriminate|auto].
Qed.

Lemma push_leaf_ok n leaf :
  node_ok n -> node_ok leaf ->
  node_ok (push_leaf n leaf) /\ elems (push_leaf n leaf) = elems n ++ elems leaf.
Proof.
  intros Hn Hl. unfold push_leaf.
  destruct n as [es|cs sz].
  - split; [now apply pair_ok|]. cbn. now rewrite app_nil_r.
  - destruct (length cs <? BRANCHING_FACTOR).
    + apply node_ok_branch_inv in Hn as (Hne & Hok & ->). split.
      * rewrite calculate_size_ok by auto.
        change (map esize cs ++ [esize leaf]) with (map esize cs ++ map esize [leaf]).
        rewrite <- map_app. constructor.
        -- destruct cs; discriminate.
        -- apply Forall_app; auto.
      * cbn. rewrite flat_map_app. cbn. now rewrite app_nil_r.
    + split; [now apply pair_ok|]. cbn. now rewrite app_nil_r.
Qed.

Lemma push_front_leaf_ok n leaf :
  node_ok n -> node_ok leaf ->
  node_ok (push_front_leaf n leaf) /\ elems (push_front_leaf n leaf) = elems leaf ++ elems n.
Proof.
  intros Hn Hl. unfold push_front_leaf.
  destruct n as [es|cs sz].
  - split; [now apply pair_ok|]. cbn. now rewrite app_nil_r.
  - destruct (length cs <? BRANCHING_FACTOR).
    + apply node_ok_branch_inv in Hn as (Hne & Hok & ->). split.
      * rewrite calculate_size_ok by auto.
        change (esize leaf :: map esize cs) with (map esize (leaf :: cs)).
        constructor; [discriminate|auto].
      * reflexivity.
    + split; [now apply pair_ok|]. cbn. now rewrite app_nil_r.
Qed.

Lemma concat_nodes_ok a b :
  node_ok a -> node_ok b ->
  node_ok (concat_nodes a b) /\ elems (concat_nodes a b) = elems a ++ elems b.
Proof.
  revert b; induction a as [le|lc lsz IH] using node_ind'; intros b Ha Hb;
    destruct b as [re|rc rsz].
  - cbn [concat_nodes]. destruct (length (le ++ re) <=? LEAF_CAPACITY).
    + split; [constructor|reflexivity].
    + split.
      * apply make_relaxed_ok; [discriminate|]. repeat constructor.
      * rewrite elems_make_relaxed. cbn [flat_map elems]. rewrite app_nil_r.
        apply firstn_skipn.
  - apply node_ok_branch_inv in Hb as (Hne & Hok & ->). cbn [concat_nodes]. split.
    + apply make_relaxed_ok; [discriminate|]. constructor; auto.
    + reflexivity.
  - apply node_ok_branch_inv in Ha as (Hne & Hok & ->). cbn [concat_nodes]. split.
    + apply make_relaxed_ok. { destruct lc; discriminate. }
      apply Forall_app; split; auto.
    + rewrite elems_make_relaxed, flat_map_app. cbn. now rewrite app_nil_r.
  - apply node_ok_branch_inv in Ha as (Hane & Haok & ->).
    apply node_ok_branch_inv in Hb as (Hbne & Hbok & ->).
    destruct rc as [|rf rrest]; [easy|].
    destruct (list_last_case lc) as [->|(lc' & ll & ->)]; [easy|].
    cbn [concat_nodes].
    assert (Hlen : length (lc' ++ [ll]) - 1 = length lc').
    { rewrite app_length. cbn. lia. }
    rewrite Hlen.
    assert (Hn : nth_error (lc' ++ [ll]) (length lc') = Some ll).
    { rewrite nth_error_app2, Nat.sub_diag by lia. reflexivity. }
    rewrite (nth_error_map_some _ _ _ Hn).
    rewrite firstn_all_app by reflexivity.
    apply Forall_app in Haok as [Hl1 Hl2]. inversion Hl2; subst.
    inversion Hbok; subst.
    apply Forall_app in IH as [_ IH]. inversion IH as [|? ? IHll _]; subst.
    destruct (IHll rf) as [M1 M2]; auto.
    split.
    + apply make_relaxed_ok. { destruct lc'; discriminate. }
      apply Forall_app; split; auto. cbn. auto.
    + rewrite elems_make_relaxed. cbn [skipn elems].
      rewrite !flat_map_app. cbn. rewrite M2, app_nil_r, app_nil_r.
      rewrite <- !app_assoc. reflexivity.
Qed.

(** ** Trees *)

Definition tree_elems (t : tree) : list T := t_head t ++ elems (t_root t) ++ t_tail t.

Definition tree_ok (t : tree) : Prop :=
  node_ok (t_root t) /\ t_len t = length (tree_elems t).

Lemma tree_elems_length t :
  length (tree_elems t) = length (t_head t) + esize (t_root t) + length (t_tail t).
Proof. unfold tree_elems, esize. rewrite !app_length. lia. Qed.

(** *** Construction *)

Lemma build_next_shorter (nodes : list node) :
  2 <= length nodes ->
  1 <= length (map make_relaxed (chunks BRANCHING_FACTOR nodes)) < length nodes.
Proof.
  intros H. pose proof branching_ge2 as HB.
  rewrite map_length, chunks_length by lia.
  set (k := BRANCHING_FACTOR) in *. set (n := length nodes) in *.
  split.
  - apply Nat.div_le_lower_bound; lia.
  - apply Nat.div_lt_upper_bound; nia.
Qed.

Lemma flat_map_concat_elems (css : list (list node)) :
  flat_map elems (map make_relaxed css) = flat_map elems (concat css).
Proof.
  induction css as [|cs css IH]; cbn; [reflexivity|].
  now rewrite flat_map_app, IH.
Qed.

Lemma next_level_ok (nodes : list node) :
  Forall node_ok nodes ->
  Forall node_ok (map make_relaxed (chunks BRANCHING_FACTOR nodes)) /\
  flat_map elems (map make_relaxed (chunks BRANCHING_FACTOR nodes)) = flat_map elems nodes.
Proof.
  intros H. pose proof branching_ge2 as HB. split.
  - rewrite Forall_map. rewrite Forall_forall. intros cs Hcs.
    pose proof (chunks_bounds nodes (k:=BRANCHING_FACTOR) ltac:(lia)) as Hb.
    rewrite Forall_forall in Hb. specialize (Hb _ Hcs).
    apply make_relaxed_ok.
    + intros ->; cbn in Hb; lia.
    + rewrite Forall_forall in *. intros c Hc. apply H.
      rewrite <- (chunks_concat nodes (k:=BRANCHING_FACTOR)) by lia.
      apply in_concat. eauto.
  - rewrite flat_map_concat_elems, chunks_concat by lia. reflexivity.
Qed.

Lemma build_tree_recursive_ok fuel nodes :
  nodes <> [] -> length nodes <= fuel -> Forall node_ok nodes ->
  node_ok (fst (build_tree_recursive fuel nodes)) /\
  elems (fst (build_tree_recursive fuel nodes)) = flat_map elems nodes.
Proof.
  revert nodes; induction fuel as [|fuel IH]; intros nodes Hne Hl Hok.
  { destruct nodes; [easy|cbn in Hl; lia]. }
  destruct nodes as [|n1 [|n2 rest]]; [easy| |].
  - cbn. inversion Hok; subst. split; auto. now rewrite app_nil_r.
  - cbn [build_tree_recursive].
    set (nodes := n1 :: n2 :: rest) in *.
    destruct (next_level_ok Hok) as [N1 N2].
    destruct (build_next_shorter nodes) as [L1 L2]. { cbn; lia. }
    set (next := map make_relaxed (chunks BRANCHING_FACTOR nodes)) in *.
    destruct (IH next) as [I1 I2]; auto.
    { intros E; rewrite E in L1; cbn in L1; lia. }
    { lia. }
    destruct (build_tree_recursive fuel next) as [root sh]. cbn in *.
    split; auto. now rewrite I2.
Qed.

Lemma Forall_leaf_ok (ls : list (list T)) : Forall node_ok (map Leaf ls).
Proof. induction ls; constructor; auto; constructor. Qed.

Lemma flat_map_leaf (ls : list (list T)) : flat_map elems (map Leaf ls) = concat ls.
Proof. induction ls; cbn; congruence. Qed.

Lemma from_elements_ok l : tree_ok (from_elements l) /\ tree_elems (from_elements l) = l.
Proof.
  unfold from_elements.
  destruct (length l <=? LEAF_CAPACITY).
  { assert (E : tree_elems (mkTree (Leaf l) [] [] 0 (length l)) = l)
      by (unfold tree_elems; cbn; apply app_nil_r).
    split; auto. split; [constructor|now rewrite E]. }
  unfold build_tree_with_tail.
  set (k := length l / LEAF_CAPACITY * LEAF_CAPACITY).
  destruct (firstn k l) as [|x xs] eqn:E.
  - assert (E2 : tree_elems (mkTree (Leaf []) (skipn k l) [] 0 (length l)) = l).
    { unfold tree_elems; cbn. rewrite <- (firstn_skipn k l) at 2. now rewrite E. }
    split; auto. split; [constructor|now rewrite E2].
  - rewrite <- E.
    set (leaves := map Leaf (chunks LEAF_CAPACITY (firstn k l))).
    pose proof leaf_capacity_pos as HL.
    destruct (@build_tree_recursive_ok (length leaves) leaves) as [B1 B2].
    { unfold leaves. intros Hn. apply map_eq_nil in Hn.
      pose proof (chunks_concat (firstn k l) (k:=LEAF_CAPACITY) HL) as Hc.
      rewrite Hn in Hc. cbn in Hc. rewrite E in Hc. discriminate. }
    { lia. }
    { apply Forall_leaf_ok. }
    destruct (build_tree_recursive (length leaves) leaves) as [root h]. cbn in *.
    assert (E2 : tree_elems (mkTree root (skipn k l) [] h (length l)) = l).
    { unfold tree_elems; cbn. rewrite B2. unfold leaves.
      rewrite flat_map_leaf, chunks_concat by auto. apply firstn_skipn. }
    split; auto. split; auto. now rewrite E2.
Qed.

(** *** Reading and updating *)

Lemma tree_get_ok t i : tree_ok t -> tree_get t i = Ret (nth_error (tree_elems t) i).
Proof.
  intros [Hok Hlen]. pose proof (tree_elems_length t) as HL. rewrite HL in Hlen.
  unfold tree_get, tree_elems.
  destruct (Nat.leb_spec (t_len t) i) as [Hge|Hlt].
  { f_equal. symmetry. apply nth_error_None. fold (tree_elems t). lia. }
  destruct (Nat.ltb_spec i (length (t_head t))) as [H1|H1].
  { now rewrite nth_error_app1. }
  unfold esize in *.
  rewrite !usub_ok by lia. cbn [obind]. rewrite usub_ok by lia. cbn [obind].
  rewrite nth_error_app2 by lia.
  match goal with |- context [?a <? ?b] => destruct (Nat.ltb_spec a b) as [H2|H2] end.
  - rewrite get_from_tree_ok by auto. rewrite nth_error_app1 by lia. reflexivity.
  - rewrite usub_ok by lia. cbn [obind]. rewrite nth_error_app2 by lia.
    do 2 f_equal. lia.
Qed.

Lemma tree_update_ok t i x : tree_ok t ->
  exists t', tree_update t i x = Ret t' /\ tree_ok t' /\
             tree_elems t' = list_set (tree_elems t) i x.
Proof.
  intros [Hok Hlen]. pose proof (tree_elems_length t) as HL. pose proof Hlen as Hlen0.
  rewrite HL in Hlen.
  unfold tree_update.
  destruct (Nat.leb_spec (t_len t) i) as [Hge|Hlt].
  { exists t. split; auto. split; [now split|]. rewrite list_set_ge; auto. lia. }
  destruct (Nat.ltb_spec i (length (t_head t))) as [H1|H1].
  { eexists; split; [reflexivity|].
    assert (E : tree_elems (mkTree (t_root t) (t_tail t) (list_set (t_head t) i x) (t_height t)
              (t_len t)) = list_set (tree_elems t) i x).
    { unfold tree_elems; cbn. now rewrite list_set_app1. }
    split; auto. split; auto. rewrite E, list_set_length. auto. }
  unfold esize in *.
  rewrite !usub_ok by lia. cbn [obind]. rewrite usub_ok by lia. cbn [obind].
  match goal with |- context [?a <? ?b] => destruct (Nat.ltb_spec a b) as [H2|H2] end.
  - eexists; split; [reflexivity|].
    destruct (@node_update_ok (t_root t) (i - length (t_head t)) x Hok) as [U1 U2].
    match goal with |- tree_ok ?t' /\ _ =>
      assert (E : tree_elems t' = list_set (tree_elems t) i x) end.
    { unfold tree_elems; cbn. rewrite U2.
      rewrite list_set_app2 by lia. now rewrite list_set_app1 by lia. }
    split; auto. split; auto. rewrite E, list_set_length. auto.
  - rewrite usub_ok by lia. cbn [obind]. eexists; split; [reflexivity|].
    match goal with |- tree_ok ?t' /\ _ =>
      assert (E : tree_elems t' = list_set (tree_elems t) i x) end.
    { unfold tree_elems; cbn.
      rewrite list_set_app2 by lia. rewrite list_set_app2 by lia.
      do 3 f_equal. lia. }
    split; auto. split; auto. rewrite E, list_set_length. auto.
Qed.

(** *** Pushing *)

Lemma push_tail_to_tree_ok t : tree_ok t ->
  tree_ok (push_tail_to_tree t) /\ tree_elems (push_tail_to_tree t) = tree_elems t.
Proof.
  intros [Hok Hlen]. unfold push_tail_to_tree.
  destruct (t_tail t) as [|x xs] eqn:E; [split; auto; now split|].
  destruct (@push_leaf_ok (t_root t) (Leaf (x :: xs)) Hok (ok_leaf _)) as [P1 P2].
  match goal with |- tree_ok ?t' /\ _ => assert (E2 : tree_elems t' = tree_elems t) end.
  { unfold tree_elems; cbn. rewrite P2, E, app_nil_r. reflexivity. }
  split; auto. split; auto. rewrite E2. auto.
Qed.

Lemma push_head_to_tree_ok t : tree_ok t ->
  tree_ok (push_head_to_tree t) /\ tree_elems (push_head_to_tree t) = tree_elems t.
Proof.
  intros [Hok Hlen]. unfold push_head_to_tree.
  destruct (t_head t) as [|x xs] eqn:E; [split; auto; now split|].
  destruct (@push_front_leaf_ok (t_root t) (Leaf (x :: xs)) Hok (ok_leaf _)) as [P1 P2].
  match goal with |- tree_ok ?t' /\ _ => assert (E2 : tree_elems t' = tree_elems t) end.
  { unfold tree_elems; cbn. rewrite P2, E, <- app_assoc. reflexivity. }
  split; auto. split; auto. rewrite E2. auto.
Qed.

Lemma tree_push_back_tail_ok t x : tree_ok t ->
  tree_ok (tree_push_back_tail t x) /\
  tree_elems (tree_push_back_tail t x) = tree_elems t ++ [x].
Proof.
  intros [Hok Hlen].
  assert (E : tree_elems (tree_push_back_tail t x) = tree_elems t ++ [x]).
  { unfold tree_elems; cbn. now rewrite <- !app_assoc. }
  split; auto. split; auto. rewrite E, app_length. cbn. lia.
Qed.

Lemma tree_push_back_ok t x : tree_ok t ->
  tree_ok (tree_push_back t x) /\ tree_elems (tree_push_back t x) = tree_elems t ++ [x].
Proof.
  intros H. unfold tree_push_back.
  destruct (length (t_tail t) <? LEAF_CAPACITY).
  - now apply tree_push_back_tail_ok.
  - destruct (push_tail_to_tree_ok H) as [P1 P2].
    rewrite <- P2. now apply tree_push_back_tail_ok.
Qed.

Lemma tree_push_front_head_ok t x : tree_ok t ->
  tree_ok (tree_push_front_head t x) /\
  tree_elems (tree_push_front_head t x) = x :: tree_elems t.
Proof.
  intros [Hok Hlen].
  assert (E : tree_elems (tree_push_front_head t x) = x :: tree_elems t) by reflexivity.
  split; auto. split; auto. rewrite E. cbn. lia.
Qed.

Lemma tree_push_front_ok t x : tree_ok t ->
  tree_ok (tree_push_front t x) /\ tree_elems (tree_push_front t x) = x :: tree_elems t.
Proof.
  intros H. unfold tree_push_front.
  destruct (length (t_head t) <? LEAF_CAPACITY).
  - now apply tree_push_front_head_ok.
  - destruct (push_head_to_tree_ok H) as [P1 P2].
    rewrite <- P2. now apply tree_push_front_head_ok.
Qed.

(** *** Concatenation *)

Lemma elevate_iter_ok k n : node_ok n ->
  node_ok (Nat.iter k elevate_once n) /\ elems (Nat.iter k elevate_once n) = elems n.
Proof.
  intros H. induction k as [|k [I1 I2]]; cbn; [auto|]. split.
  - unfold elevate_once. rewrite calculate_size_ok by auto.
    change [esize (Nat.iter k elevate_once n)] with (map esize [Nat.iter k elevate_once n]).
    constructor; [discriminate|auto].
  - now rewrite app_nil_r.
Qed.

Lemma elevate_tree_ok t h : tree_ok t ->
  tree_ok (elevate_tree t h) /\ tree_elems (elevate_tree t h) = tree_elems t.
Proof.
  intros [Hok Hlen].
  destruct (elevate_iter_ok (h - t_height t) Hok) as [E1 E2].
  assert (E : tree_elems (elevate_tree t h) = tree_elems t).
  { unfold tree_elems, elevate_tree; cbn. now rewrite E2. }
  split; auto. split; auto. rewrite E. auto.
Qed.

Lemma concat_same_height_ok a b : tree_ok a -> tree_ok b ->
  tree_ok (concat_same_height a b) /\
  tree_elems (concat_same_height a b) = tree_elems a ++ tree_elems b.
Proof.
  intros Ha Hb.
  set (left := match t_tail a with [] => a | _ => push_tail_to_tree a end).
  set (right := match t_head b with [] => b | _ => push_head_to_tree b end).
  assert (HL : tree_ok left /\ tree_elems left = tree_elems a /\ t_tail left = []).
  { unfold left. destruct (t_tail a) eqn:E; [auto|].
    destruct (push_tail_to_tree_ok Ha). split; auto. split; auto.
    unfold push_tail_to_tree. rewrite E. reflexivity. }
  assert (HR : tree_ok right /\ tree_elems right = tree_elems b /\ t_head right = []).
  { unfold right. destruct (t_head b) eqn:E; [auto|].
    destruct (push_head_to_tree_ok Hb). split; auto. split; auto.
    unfold push_head_to_tree. rewrite E. reflexivity. }
  destruct HL as ((HL1 & HL2) & HL3 & HL4). destruct HR as ((HR1 & HR2) & HR3 & HR4).
  destruct (concat_nodes_ok HL1 HR1) as [C1 C2].
  assert (E : tree_elems (concat_same_height a b) = tree_elems a ++ tree_elems b).
  { rewrite <- HL3, <- HR3. unfold tree_elems, concat_same_height; cbn.
    fold left right. rewrite C2, HL4, HR4. cbn. rewrite app_nil_r, <- !app_assoc.
    reflexivity. }
  split; auto. split; auto.
  rewrite E, app_length. cbn. destruct Ha as [_ ->], Hb as [_ ->]. reflexivity.
Qed.

(** Exact contents of a tree concatenation: swapped when the left tree is
    recorded as lower than the right one. *)
Definition concat_content (a b : tree) : list T :=
  if (negb (t_len a =? 0) && negb (t_len b =? 0) && (t_height a <? t_height b))%bool
  then tree_elems b ++ tree_elems a else tree_elems a ++ tree_elems b.

Lemma tree_len0 t : tree_ok t -> t_len t = 0 -> tree_elems t = [].
Proof. intros [_ H] E. rewrite E in H. destruct (tree_elems t); [reflexivity|discriminate]. Qed.

Lemma tree_concat_ok a b : tree_ok a -> tree_ok b ->
  tree_ok (tree_concat a b) /\ tree_elems (tree_concat a b) = concat_content a b /\
  t_len (tree_concat a b) = t_len a + t_len b.
Proof.
  intros Ha Hb. unfold tree_concat, concat_content.
  destruct (Nat.eqb_spec (t_len a) 0) as [Za|Za]; cbn [negb andb].
  { rewrite (tree_len0 Ha Za). rewrite Za. auto. }
  destruct (Nat.eqb_spec (t_len b) 0) as [Zb|Zb]; cbn [negb andb].
  { rewrite (tree_len0 Hb Zb), app_nil_r. rewrite Zb. repeat split; auto; apply Ha. }
  destruct (Nat.eqb_spec (t_height a) (t_height b)) as [Eh|Eh].
  { destruct (concat_same_height_ok Ha Hb) as [C1 C2].
    replace (t_height a <? t_height b) with false
      by (symmetry; apply Nat.ltb_ge; lia). auto. }
  destruct (Nat.ltb_spec (t_height a) (t_height b)) as [Hh|Hh]; unfold concat_different_height.
  - destruct (elevate_tree_ok (t_height a) Hb) as [E1 E2].
    destruct (concat_same_height_ok E1 Ha) as [C1 C2].
    split; auto. split; [now rewrite C2, E2|]. cbn. lia.
  - destruct (elevate_tree_ok (t_height a) Hb) as [E1 E2].
    destruct (concat_same_height_ok Ha E1) as [C1 C2].
    split; auto. split; [now rewrite C2, E2|]. cbn. lia.
Qed.

(** ** Vectors *)

Definition pv_elems (v : pvec) : list T :=
  match inner v with Inline es => es | Tree t => tree_elems t end.

Definition pv_ok (v : pvec) : Prop :=
  pv_len v = length (pv_elems v) /\
  match inner v with Inline _ => True | Tree t => tree_ok t end.

Lemma pv_get_ok v i : pv_ok v -> pv_get v i = Ret (nth_error (pv_elems v) i).
Proof.
  intros [Hl Ho]. unfold pv_get, pv_elems in *.
  destruct (Nat.leb_spec (pv_len v) i) as [H|H].
  - f_equal. symmetry. apply nth_error_None. lia.
  - destruct (inner v) as [es|t]; [reflexivity|]. now apply tree_get_ok.
Qed.

Lemma iter_collect_ok v fuel pos : pv_ok v ->
  pv_len v < fuel + pos ->
  iter_collect fuel v pos = Ret (skipn pos (pv_elems v)).
Proof.
  intros H. revert pos; induction fuel as [|fuel IH]; intros pos Hf; cbn.
  - rewrite skipn_all2; auto. destruct H as [H _]. lia.
  - unfold iter_next. destruct (Nat.ltb_spec pos (pv_len v)) as [Hlt|Hge].
    + rewrite pv_get_ok by auto. cbn.
      destruct (nth_error (pv_elems v) pos) as [x|] eqn:E.
      * rewrite IH by lia. cbn. f_equal.
        rewrite (nth_error_split' _ _ E) at 2.
        rewrite skipn_all_app; auto.
        rewrite firstn_length. destruct H as [H _]. lia.
      * apply nth_error_None in E. destruct H as [H _]. lia.
    + cbn. rewrite skipn_all2; auto. destruct H as [H _]. lia.
Qed.

Lemma pv_iter_ok v : pv_ok v -> pv_iter v = Ret (pv_elems v).
Proof. intros H. unfold pv_iter. rewrite iter_collect_ok; auto. lia. Qed.

Lemma pv_new_ok : pv_ok pv_new /\ pv_elems pv_new = [].
Proof. repeat split. Qed.

Lemma pv_from_iter_ok l : pv_ok (pv_from_iter l) /\ pv_elems (pv_from_iter l) = l.
Proof.
  unfold pv_from_iter. destruct (length l <=? ADAPTIVE_INLINE_SIZE).
  - repeat split.
  - destruct (from_elements_ok l) as [F1 F2]. split.
    + split; cbn; auto. unfold pv_elems; cbn. now rewrite F2.
    + exact F2.
Qed.

Lemma pv_push_back_ok v x : pv_ok v ->
  pv_ok (pv_push_back v x) /\ pv_elems (pv_push_back v x) = pv_elems v ++ [x].
Proof.
  intros [Hl Ho]. unfold pv_push_back, pv_elems, pv_ok in *.
  destruct (inner v) as [es|t] eqn:Ei.
  - destruct (length es <? ADAPTIVE_INLINE_SIZE).
    + cbn. repeat split. rewrite app_length; cbn; lia.
    + destruct (from_elements_ok es) as [F1 F2].
      destruct (tree_push_back_ok x F1) as [P1 P2]. cbn.
      rewrite P2, F2, app_length. split; [split|]; auto.
      unfold transition_to_tree. rewrite Ei. cbn. lia.
  - destruct (tree_push_back_ok x Ho) as [P1 P2]. cbn.
    rewrite P2, app_length. cbn. split; [split|]; auto; lia.
Qed.

Lemma pv_push_front_ok v x : pv_ok v ->
  pv_ok (pv_push_front v x) /\ pv_elems (pv_push_front v x) = x :: pv_elems v.
Proof.
  intros [Hl Ho]. unfold pv_push_front, pv_elems, pv_ok in *.
  destruct (inner v) as [es|t] eqn:Ei.
  - destruct (length es <? ADAPTIVE_INLINE_SIZE).
    + cbn. repeat split. lia.
    + destruct (from_elements_ok es) as [F1 F2].
      destruct (tree_push_front_ok x F1) as [P1 P2]. cbn.
      rewrite P2, F2. split; [split|]; auto.
      unfold transition_to_tree. rewrite Ei. cbn. lia.
  - destruct (tree_push_front_ok x Ho) as [P1 P2]. cbn.
    rewrite P2. cbn. split; [split|]; auto; lia.
Qed.

Lemma pv_update_ok v i x : pv_ok v ->
  exists v', pv_update v i x = Ret v' /\ pv_ok v' /\ pv_elems v' = list_set (pv_elems v) i x.
Proof.
  intros [Hl Ho]. unfold pv_update, pv_ok, pv_elems in *.
  destruct (Nat.leb_spec (pv_len v) i) as [H|H].
  { exists v. split; auto. split; auto. rewrite list_set_ge; auto. lia. }
  destruct (inner v) as [es|t] eqn:Ei.
  - destruct (Nat.ltb_spec i (length es)) as [H1|H1]; [|lia].
    eexists; split; [reflexivity|]. cbn. rewrite list_set_length. auto.
  - destruct (tree_update_ok i x Ho) as (t' & E1 & E2 & E3).
    rewrite E1. cbn. eexists; split; [reflexivity|]. cbn.
    rewrite E3, list_set_length. auto.
Qed.

Lemma pv_extend_ok v xs : pv_ok v ->
  pv_ok (pv_extend v xs) /\ pv_elems (pv_extend v xs) = pv_elems v ++ xs.
Proof.
  unfold pv_extend. revert v; induction xs as [|x xs IH]; intros v H; cbn [fold_left].
  - rewrite app_nil_r. auto.
  - destruct (pv_push_back_ok x H) as [P1 P2].
    destruct (IH _ P1) as [I1 I2]. split; auto.
    rewrite I2, P2, <- app_assoc. reflexivity.
Qed.

(** Recorded height of a vector when it takes part in [concat]. *)
Definition pv_height (v : pvec) : nat :=
  match inner v with Inline es => t_height (from_elements es) | Tree t => t_height t end.

Definition pv_is_inline (v : pvec) : bool :=
  match inner v with Inline _ => true | Tree _ => false end.

Definition pv_concat_content (a b : pvec) : list T :=
  if (negb (pv_len a =? 0) && negb (pv_len b =? 0) && (pv_height a <? pv_height b)
      && negb (pv_is_inline a && pv_is_inline b))%bool
  then pv_elems b ++ pv_elems a else pv_elems a ++ pv_elems b.

Lemma pv_concat_ok a b : pv_ok a -> pv_ok b ->
  pv_ok (pv_concat a b) /\ pv_elems (pv_concat a b) = pv_concat_content a b.
Proof.
  intros [La Oa] [Lb Ob].
  unfold pv_concat, pv_concat_content, pv_height, pv_is_inline, pv_ok, pv_elems in *.
  destruct (inner a) as [l|s] eqn:Ea; destruct (inner b) as [r|t] eqn:Eb;
    cbn [negb andb]; rewrite ?andb_true_r, ?andb_false_r; rewrite ?La, ?Lb.
  - destruct (pv_from_iter_ok (l ++ r)) as [F1 F2]. split; auto.
  - destruct (from_elements_ok l) as [F1 F2].
    destruct (tree_concat_ok F1 Ob) as (C1 & C2 & C3).
    cbn [inner pv_len]. rewrite C2. unfold concat_content.
    destruct F1 as [F1 F1']. destruct Ob as [Ob Ob']. rewrite F1', Ob', F2.
    split; auto. split; auto.
    destruct (_ && _)%bool; rewrite app_length; lia.
  - destruct (from_elements_ok r) as [F1 F2].
    destruct (tree_concat_ok Oa F1) as (C1 & C2 & C3).
    cbn [inner pv_len]. rewrite C2. unfold concat_content.
    destruct F1 as [F1 F1']. destruct Oa as [Oa Oa']. rewrite F1', Oa', F2.
    split; auto. split; auto.
    destruct (_ && _)%bool; rewrite app_length; lia.
  - destruct (tree_concat_ok Oa Ob) as (C1 & C2 & C3).
    cbn [inner pv_len]. rewrite C2. unfold concat_content.
    destruct Oa as [Oa Oa']. destruct Ob as [Ob Ob']. rewrite Oa', Ob'.
    split; auto. split; auto.
    destruct (_ && _)%bool; rewrite app_length; lia.
Qed.

End Facts.

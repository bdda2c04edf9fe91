(** C95: how many elements an operation copies. *)
From Coq Require Import List Arith Lia Bool.
From Verif Require Import Base ListFacts PvecModel PvecSpec CopyModel CopySpec CostProps.
Import ListNotations.
Open Scope outcome_scope.
Set Implicit Arguments.
Local Transparent BRANCHING_FACTOR LEAF_CAPACITY ADAPTIVE_INLINE_SIZE.

Section Props.
Context {T : Type}.
Notation node := (node T).
Notation tree := (tree T).
Notation pvec := (pvec T).

(** No leaf and no buffer holds more than 64 elements. *)
Inductive capped : node -> Prop :=
| capped_leaf es : length es <= LEAF_CAPACITY -> capped (Leaf es)
| capped_branch cs sz : (forall c, In c cs -> capped c) -> capped (Branch cs sz).

Definition capped_tree (t : tree) : Prop :=
  capped (t_root t) /\ length (t_tail t) <= LEAF_CAPACITY /\ length (t_head t) <= LEAF_CAPACITY.

Definition capped_vec (v : pvec) : Prop :=
  match inner v with
  | Inline es => length es <= LEAF_CAPACITY
  | Tree t => capped_tree t
  end.

Lemma capped_leaf_inv es : capped (Leaf es) -> length es <= LEAF_CAPACITY.
Proof. inversion 1; auto. Qed.
Lemma capped_branch_inv cs sz : capped (Branch cs sz) -> forall c, In c cs -> capped c.
Proof. inversion 1; auto. Qed.
Lemma capped_nil : capped (Leaf []).
Proof. constructor. cbn. lia. Qed.
Hint Resolve capped_nil : core.

Lemma In_list_set {A} (l : list A) k x y : In y (list_set l k x) -> y = x \/ In y l.
Proof.
  revert k. induction l as [|a l IH]; intros k H; [destruct k; cbn in H; tauto|].
  destruct k; cbn in H.
  - destruct H as [<-|H]; auto. right. now right.
  - destruct H as [<-|H]; [right; now left|]. destruct (IH _ H); auto. right. now right.
Qed.
Lemma In_removelast {A} (l : list A) y : In y (removelast l) -> In y l.
Proof.
  induction l as [|a l IH]; [auto|]. destruct l as [|b l]; [intros []|].
  change (removelast (a :: b :: l)) with (a :: removelast (b :: l)).
  intros [H|H]; [now left|]. right. auto.
Qed.
Lemma In_firstn' {A} k (l : list A) y : In y (firstn k l) -> In y l.
Proof. intros H. rewrite <- (firstn_skipn k l). apply in_or_app. auto. Qed.
Lemma In_skipn' {A} k (l : list A) y : In y (skipn k l) -> In y l.
Proof. intros H. rewrite <- (firstn_skipn k l). apply in_or_app. auto. Qed.

(** ** Buffers stay within 64 *)

Lemma node_update_capped n i x : capped n -> capped (node_update n i x).
Proof.
  intros H. revert i. induction H as [es He|cs sz Hc IH]; intros i; cbn [node_update].
  - constructor. now rewrite list_set_length.
  - destruct (find_child sz i) as [[ci si]|]; [|now constructor].
    rewrite nth_error_map. destruct (nth_error cs ci) as [c|] eqn:E; cbn [option_map]; [|now constructor].
    constructor. intros c' Hin. apply In_list_set in Hin. destruct Hin as [->|Hin]; auto.
    apply IH. eapply nth_error_In; eauto.
Qed.

Lemma push_leaf_capped n l : capped n -> capped l -> capped (push_leaf n l).
Proof.
  intros Hn Hl. unfold push_leaf.
  destruct n as [es|cs sz].
  - constructor. intros c [<-|[<-|[]]]; auto.
  - destruct (_ <? _).
    + constructor. intros c Hc. apply in_app_or in Hc. destruct Hc as [Hc|[<-|[]]]; auto.
      eapply capped_branch_inv; eauto.
    + constructor. intros c [<-|[<-|[]]]; auto.
Qed.

Lemma push_front_leaf_capped n l : capped n -> capped l -> capped (push_front_leaf n l).
Proof.
  intros Hn Hl. unfold push_front_leaf.
  destruct n as [es|cs sz].
  - constructor. intros c [<-|[<-|[]]]; auto.
  - destruct (_ <? _).
    + constructor. intros c [<-|Hc]; auto. eapply capped_branch_inv; eauto.
    + constructor. intros c [<-|[<-|[]]]; auto.
Qed.

Lemma pop_last_length {A} (l l' : list A) x : pop_last l = Some (l', x) -> length l' <= length l.
Proof.
  unfold pop_last. destruct (rev l) as [|y r] eqn:E; [discriminate|]. intros [= <- <-].
  rewrite <- (rev_length l), E, rev_length. cbn. lia.
Qed.

Lemma node_pop_back_capped n n' x : capped n -> node_pop_back n = Ret (Some (n', x)) -> capped n'.
Proof.
  intros H. revert n' x. induction H as [es He|cs sz Hc IH]; intros n' x; cbn [node_pop_back].
  - destruct (pop_last es) as [[es' y]|] eqn:E; [|discriminate]. intros [= <- <-].
    apply pop_last_length in E. constructor. lia.
  - rewrite nth_error_map. destruct (nth_error cs (length cs - 1)) as [c|] eqn:E; [|discriminate].
    cbn [option_map]. pose proof (nth_error_In _ _ E) as Hin.
    destruct (node_pop_back c) as [[[c' y]|]|] eqn:Ec; cbn [obind]; try discriminate.
    specialize (IH c Hin c' y Ec).
    destruct (calculate_size c' =? 0).
    + destruct (sizes_after_removal sz (length cs - 1)) as [s'|]; cbn [obind]; [|discriminate].
      destruct (removelast cs) as [|z zs] eqn:Er; intros [= <- <-]; auto.
      constructor. intros d Hd. apply Hc. apply In_removelast. rewrite Er. exact Hd.
    + intros [= <- <-]. constructor. intros d Hd. apply In_list_set in Hd.
      destruct Hd as [->|Hd]; auto.
Qed.

Lemma node_pop_front_capped n n' x : capped n -> node_pop_front n = Ret (Some (n', x)) -> capped n'.
Proof.
  intros H. revert n' x. induction H as [es He|cs sz Hc IH]; intros n' x; cbn [node_pop_front].
  - destruct es as [|y es]; [discriminate|]. intros [= <- <-]. constructor. cbn in He. lia.
  - destruct cs as [|c rest]; [discriminate|].
    destruct (node_pop_front c) as [[[c' y]|]|] eqn:Ec; cbn [obind]; try discriminate.
    specialize (IH c (or_introl eq_refl) c' y Ec).
    destruct (calculate_size c' =? 0).
    + destruct (sizes_after_removal sz 0) as [s'|]; cbn [obind]; [|discriminate].
      destruct rest as [|z zs]; intros [= <- <-]; auto.
      constructor. intros d Hd. apply Hc. now right.
    + intros [= <- <-]. constructor. intros d [<-|Hd]; auto. apply Hc. now right.
Qed.

Lemma concat_nodes_capped a b : capped a -> capped b -> capped (concat_nodes a b).
Proof.
  intros Ha. revert b. induction Ha as [le Hle|lc sz Hc IH]; intros b Hb; destruct b as [re|rc szr];
    cbn [concat_nodes].
  - apply capped_leaf_inv in Hb.
    destruct (length (le ++ re) <=? LEAF_CAPACITY) eqn:E.
    + apply Nat.leb_le in E. now constructor.
    + unfold make_relaxed. constructor. intros c [<-|[<-|[]]]; constructor.
      * rewrite firstn_length. lia.
      * rewrite skipn_length, app_length. lia.
  - unfold make_relaxed. constructor. intros c [<-|H]; [now constructor|].
    eapply capped_branch_inv; eauto.
  - unfold make_relaxed. constructor. intros c H. apply in_app_or in H.
    destruct H as [H|[<-|[]]]; auto.
  - unfold make_relaxed. constructor. intros c H.
    apply in_app_or in H. destruct H as [H|H]; [apply Hc; eapply In_firstn'; eauto|].
    apply in_app_or in H. destruct H as [H|H].
    + rewrite nth_error_map in H. destruct (nth_error lc (length lc - 1)) as [c'|] eqn:E;
        cbn [option_map] in H; [|destruct H].
      destruct rc as [|d rc]; [destruct H|]. destruct H as [<-|[]].
      apply IH; [eapply nth_error_In; eauto|]. eapply capped_branch_inv; [exact Hb|now left].
    + eapply capped_branch_inv; [exact Hb|]. eapply In_skipn'; eauto.
Qed.

Lemma create_left_capped cs k c :
  (forall d, In d cs -> capped d) -> capped c -> capped (create_left_branch cs k c).
Proof.
  intros H Hc. unfold create_left_branch.
  destruct (firstn k cs ++ _) as [|z zs] eqn:E; auto.
  unfold make_relaxed. constructor. intros d Hd. rewrite <- E in Hd.
  apply in_app_or in Hd. destruct Hd as [Hd|Hd]; [apply H; eapply In_firstn'; eauto|].
  destruct (0 <? _); [destruct Hd as [<-|[]]; auto|destruct Hd].
Qed.
Lemma create_right_capped cs k c :
  (forall d, In d cs -> capped d) -> capped c -> capped (create_right_branch cs k c).
Proof.
  intros H Hc. unfold create_right_branch.
  destruct (_ ++ skipn (k + 1) cs) as [|z zs] eqn:E; auto.
  unfold make_relaxed. constructor. intros d Hd. rewrite <- E in Hd.
  apply in_app_or in Hd. destruct Hd as [Hd|Hd]; [|apply H; eapply In_skipn'; eauto].
  destruct (0 <? _); [destruct Hd as [<-|[]]; auto|destruct Hd].
Qed.

Lemma split_along_path_capped n path i h :
  capped n -> capped (fst (split_along_path n path i h)) /\ capped (snd (split_along_path n path i h)).
Proof.
  intros H. revert path i h. induction H as [es He|cs sz Hc IH]; intros path i h.
  - cbn [split_along_path fst snd]. split; constructor.
    + rewrite firstn_length. lia.
    + rewrite skipn_length. lia.
  - cbn [split_along_path]. destruct path as [|ci rest].
    + destruct cs as [|c cs]; [split; auto|]. apply IH. now left.
    + rewrite nth_error_map. destruct (nth_error cs ci) as [c|] eqn:E; cbn [option_map]; [|split; auto].
      specialize (IH c (nth_error_In _ _ E) rest
        (calculate_adjusted_index i ci sz (h - 1)) (h - 1)).
      destruct (split_along_path c rest _ (h - 1)) as [l r]. cbn [fst snd] in *.
      destruct IH. split; [now apply create_left_capped|now apply create_right_capped].
Qed.

Lemma build_capped fuel nodes :
  (forall c, In c nodes -> capped c) -> capped (fst (build_tree_recursive fuel nodes)).
Proof.
  revert nodes. induction fuel as [|fuel IH]; intros nodes H; cbn [build_tree_recursive fst]; auto.
  assert (Hn : forall c, In c (map make_relaxed (chunks BRANCHING_FACTOR nodes)) -> capped c).
  { intros c Hc. apply in_map_iff in Hc. destruct Hc as (ch & <- & Hin).
    unfold make_relaxed. constructor. intros d Hd. apply H.
    rewrite <- (chunks_concat nodes (k:=BRANCHING_FACTOR)) by (unfold BRANCHING_FACTOR; lia).
    apply in_concat. eauto. }
  specialize (IH _ Hn).
  destruct nodes as [|a [|b r]].
  - destruct (build_tree_recursive fuel _). exact IH.
  - apply H. now left.
  - destruct (build_tree_recursive fuel _). exact IH.
Qed.

Lemma from_elements_capped es : capped_tree (from_elements es).
Proof.
  unfold from_elements. destruct (length es <=? LEAF_CAPACITY) eqn:E.
  - apply Nat.leb_le in E. repeat split; cbn [t_root t_tail t_head length]; try lia. now constructor.
  - unfold build_tree_with_tail.
    set (k := length es / LEAF_CAPACITY * LEAF_CAPACITY).
    assert (Ht : length (skipn k es) <= LEAF_CAPACITY).
    { rewrite skipn_length. subst k.
      pose proof (Nat.div_mod (length es) LEAF_CAPACITY ltac:(discriminate)).
      pose proof (Nat.mod_upper_bound (length es) LEAF_CAPACITY ltac:(discriminate)). lia. }
    destruct (firstn k es) as [|x r].
    + repeat split; cbn [t_root t_tail t_head length]; auto. lia.
    + set (leaves := map Leaf (chunks LEAF_CAPACITY (x :: r))).
      pose proof (@build_capped (length leaves) leaves) as Hb.
      destruct (build_tree_recursive (length leaves) leaves) as [root h].
      repeat split; cbn [t_root t_tail t_head length fst] in *; auto; [|lia].
      apply Hb. intros c Hc. apply in_map_iff in Hc. destruct Hc as (ch & <- & Hin).
      constructor.
      pose proof (chunks_bounds (x :: r) (k:=LEAF_CAPACITY) ltac:(unfold LEAF_CAPACITY; lia)) as Hbb.
      rewrite Forall_forall in Hbb. apply Hbb in Hin. lia.
Qed.

Lemma push_tail_capped t : capped_tree t ->
  capped_tree (push_tail_to_tree t) /\
  length (t_tail (push_tail_to_tree t)) = 0 /\ t_head (push_tail_to_tree t) = t_head t.
Proof.
  intros (H1 & H2 & H3). unfold push_tail_to_tree.
  destruct (t_tail t) as [|x r] eqn:E.
  - rewrite E. repeat split; auto; rewrite ?E; cbn; lia.
  - cbn [t_root t_tail t_head length]. repeat split; cbn [t_root t_tail t_head length]; auto; try lia.
    apply push_leaf_capped; auto. now constructor.
Qed.
Lemma push_head_capped t : capped_tree t ->
  capped_tree (push_head_to_tree t) /\
  length (t_head (push_head_to_tree t)) = 0 /\ t_tail (push_head_to_tree t) = t_tail t.
Proof.
  intros (H1 & H2 & H3). unfold push_head_to_tree.
  destruct (t_head t) as [|x r] eqn:E.
  - rewrite E. repeat split; auto; rewrite ?E; cbn; lia.
  - cbn [t_root t_tail t_head length]. repeat split; cbn [t_root t_tail t_head length]; auto; try lia.
    apply push_front_leaf_capped; auto. now constructor.
Qed.

Lemma tree_push_back_capped t x : capped_tree t -> capped_tree (tree_push_back t x).
Proof.
  intros H. unfold tree_push_back. destruct (length (t_tail t) <? LEAF_CAPACITY) eqn:E.
  - apply Nat.ltb_lt in E. destruct H as (H1 & H2 & H3).
    repeat split; cbn [tree_push_back_tail t_root t_tail t_head]; auto.
    rewrite app_length. cbn. lia.
  - destruct (push_tail_capped H) as ((H1 & H2 & H3) & E0 & E1).
    repeat split; cbn [tree_push_back_tail t_root t_tail t_head]; auto.
    rewrite app_length, E0. cbn. unfold LEAF_CAPACITY. lia.
Qed.
Lemma tree_push_front_capped t x : capped_tree t -> capped_tree (tree_push_front t x).
Proof.
  intros H. unfold tree_push_front. destruct (length (t_head t) <? LEAF_CAPACITY) eqn:E.
  - apply Nat.ltb_lt in E. destruct H as (H1 & H2 & H3).
    repeat split; cbn [tree_push_front_head t_root t_tail t_head length]; auto.
  - destruct (push_head_capped H) as ((H1 & H2 & H3) & E0 & E1).
    repeat split; cbn [tree_push_front_head t_root t_tail t_head length]; auto.
    rewrite E0. unfold LEAF_CAPACITY. lia.
Qed.

Lemma tree_update_capped t i x t' :
  capped_tree t -> tree_update t i x = Ret t' -> capped_tree t'.
Proof.
  intros (H1 & H2 & H3). unfold tree_update.
  destruct (t_len t <=? i); [intros [= <-]; repeat split; auto|].
  destruct (i <? length (t_head t)).
  - intros [= <-]. repeat split; cbn [t_root t_tail t_head]; auto. now rewrite list_set_length.
  - destruct (usub i _) as [a|]; cbn [obind]; [|discriminate].
    destruct (usub (t_len t) _) as [s1|]; cbn [obind]; [|discriminate].
    destruct (usub s1 _) as [s|]; cbn [obind]; [|discriminate].
    destruct (a <? s).
    + intros [= <-]. repeat split; cbn [t_root t_tail t_head]; auto. now apply node_update_capped.
    + destruct (usub a s); cbn [obind]; [|discriminate]. intros [= <-].
      repeat split; cbn [t_root t_tail t_head]; auto. now rewrite list_set_length.
Qed.

Lemma elevate_capped t h : capped_tree t -> capped_tree (elevate_tree t h).
Proof.
  intros (H1 & H2 & H3). unfold elevate_tree. repeat split; cbn [t_root t_tail t_head]; auto.
  generalize (h - t_height t). intros k.
  induction k as [|k IH]; cbn; auto. constructor. intros c [<-|[]]; auto.
Qed.

Lemma left_part_capped t : capped_tree t ->
  let l := match t_tail t with [] => t | _ => push_tail_to_tree t end in
  capped_tree l /\ t_tail l = [] /\ t_head l = t_head t.
Proof.
  intros H. cbv zeta. destruct (push_tail_capped H) as (Hp & E0 & E1).
  destruct (t_tail t) as [|x r] eqn:E; [auto|].
  split; [exact Hp|]. split; [|exact E1]. destruct (t_tail (push_tail_to_tree t)); [auto|discriminate].
Qed.
Lemma right_part_capped t : capped_tree t ->
  let r := match t_head t with [] => t | _ => push_head_to_tree t end in
  capped_tree r /\ t_head r = [] /\ t_tail r = t_tail t.
Proof.
  intros H. cbv zeta. destruct (push_head_capped H) as (Hp & E0 & E1).
  destruct (t_head t) as [|x r] eqn:E; [auto|].
  split; [exact Hp|]. split; [|exact E1]. destruct (t_head (push_head_to_tree t)); [auto|discriminate].
Qed.

Lemma concat_same_height_capped a b :
  capped_tree a -> capped_tree b -> capped_tree (concat_same_height a b).
Proof.
  intros Ha Hb. unfold concat_same_height.
  destruct (left_part_capped Ha) as ((A1 & A2 & A3) & _).
  destruct (right_part_capped Hb) as ((B1 & B2 & B3) & _).
  repeat split; cbn [t_root t_tail t_head]; auto. now apply concat_nodes_capped.
Qed.

Lemma tree_concat_capped a b : capped_tree a -> capped_tree b -> capped_tree (tree_concat a b).
Proof.
  intros Ha Hb. unfold tree_concat, concat_different_height.
  destruct (t_len a =? 0); auto. destruct (t_len b =? 0); auto.
  destruct (t_height a =? t_height b); [now apply concat_same_height_capped|].
  destruct (t_height a <? t_height b); apply concat_same_height_capped; auto using elevate_capped.
Qed.

Lemma tree_pop_back_capped t t' x :
  capped_tree t -> tree_pop_back t = Ret (Some (t', x)) -> capped_tree t'.
Proof.
  intros (H1 & H2 & H3). unfold tree_pop_back.
  destruct (t_len t =? 0); [discriminate|].
  destruct (pop_last (t_tail t)) as [[tl y]|] eqn:E.
  - intros [= <- <-]. apply pop_last_length in E. repeat split; cbn [t_root t_tail t_head]; auto. lia.
  - unfold pop_from_tree. destruct (t_len t =? 0); [discriminate|].
    destruct (usub _ _) as [s|]; cbn [obind]; [|discriminate].
    destruct (s =? 0); [discriminate|].
    destruct (node_get _ _) as [y|]; [|discriminate].
    destruct (s =? 1); cbn [obind].
    + intros [= <- <-]. repeat split; cbn [t_root t_tail t_head fst]; auto.
    + destruct (node_pop_back (t_root t)) as [[[n' z]|]|] eqn:En; cbn [obind]; try discriminate;
        intros [= <- <-]; repeat split; cbn [t_root t_tail t_head fst]; auto.
      eapply node_pop_back_capped; eauto.
Qed.

Lemma tree_pop_front_capped t t' x :
  capped_tree t -> tree_pop_front t = Ret (Some (t', x)) -> capped_tree t'.
Proof.
  intros (H1 & H2 & H3). unfold tree_pop_front.
  destruct (t_len t =? 0); [discriminate|].
  destruct (t_head t) as [|y hd] eqn:E.
  - unfold pop_front_from_tree. rewrite E.
    destruct (usub _ _) as [s1|]; cbn [obind]; [|discriminate].
    destruct (usub s1 _) as [s|]; cbn [obind]; [|discriminate].
    assert (Htail : forall t' x, pop_front_from_tail t = Some (t', x) -> capped_tree t').
    { unfold pop_front_from_tail. intros t1 x1.
      destruct (pop_last (rev (t_tail t))) as [[nh p]|] eqn:Ep; [|discriminate].
      intros [= <- <-]. apply pop_last_length in Ep. rewrite rev_length in Ep.
      repeat split; cbn [t_root t_tail t_head length]; auto; lia. }
    destruct (0 <? s); cbn [obind].
    + destruct (node_pop_front (t_root t)) as [[[n' z]|]|] eqn:En; cbn [obind]; try discriminate.
      * intros [= <- <-]. repeat split; cbn [t_root t_tail t_head length]; auto; try (rewrite E; cbn; lia).
        eapply node_pop_front_capped; eauto.
      * intros [= Ht]. eauto.
    + intros [= Ht]. eauto.
  - intros [= <- <-]. cbn in H3. repeat split; cbn [t_root t_tail t_head]; auto. lia.
Qed.

Lemma tree_split_capped t i l r :
  capped_tree t -> tree_split_at t i = Ret (l, r) -> capped_tree l /\ capped_tree r.
Proof.
  intros Ht. pose proof Ht as (H1 & H2 & H3). unfold tree_split_at.
  assert (He : capped_tree (@tree_empty T)) by (repeat split; cbn; auto; lia).
  destruct (i =? 0); [intros [= <- <-]; auto|].
  destruct (t_len t <=? i); [intros [= <- <-]; auto|].
  destruct (i <=? length (t_head t)).
  - intros [= <- <-]. split; repeat split;
      cbn [t_root t_tail t_head from_head from_head_and_tree_and_tail length]; auto; try lia.
    + rewrite firstn_length. lia.
    + rewrite skipn_length. lia.
  - destruct (usub (t_len t) _) as [s1|]; cbn [obind]; [|discriminate].
    destruct (usub s1 _) as [s|]; cbn [obind]; [|discriminate].
    destruct (_ <=? i).
    + destruct (usub i _) as [i1|]; cbn [obind]; [|discriminate].
      destruct (usub i1 _) as [ti|]; cbn [obind]; [|discriminate].
      intros [= <- <-]. split; repeat split;
        cbn [t_root t_tail t_head from_tail from_head_and_tree_and_tail length]; auto; try lia.
      * rewrite firstn_length. lia.
      * rewrite skipn_length. lia.
    + destruct (usub i _) as [i1|]; cbn [obind]; [|discriminate].
      unfold split_tree_at.
      pose proof (@split_along_path_capped (t_root t)
        (find_path_to_index (t_height t) (t_root t) i1) i1 (t_height t) H1) as [Hl Hr].
      destruct (split_along_path _ _ _ _) as [nl nr]. cbn [fst snd] in *.
      intros [= <- <-]. split; repeat split;
        cbn [t_root t_tail t_head from_head_and_root from_root_and_tail length]; auto; lia.
Qed.

Lemma from_iter_capped l : capped_vec (pv_from_iter l).
Proof.
  unfold pv_from_iter, capped_vec. destruct (length l <=? ADAPTIVE_INLINE_SIZE) eqn:E; cbn [inner].
  - apply Nat.leb_le in E. exact E.
  - apply from_elements_capped.
Qed.

Lemma push_back_capped v x : capped_vec v -> capped_vec (pv_push_back v x).
Proof.
  unfold capped_vec, pv_push_back, pv_tree_push_back. destruct (inner v) as [es|t].
  - intros H. destruct (length es <? ADAPTIVE_INLINE_SIZE) eqn:E; cbn [inner].
    + apply Nat.ltb_lt in E. rewrite app_length. cbn [length]. unfold LEAF_CAPACITY, ADAPTIVE_INLINE_SIZE in *. lia.
    + apply tree_push_back_capped, from_elements_capped.
  - apply tree_push_back_capped.
Qed.
Lemma push_front_capped v x : capped_vec v -> capped_vec (pv_push_front v x).
Proof.
  unfold capped_vec, pv_push_front, pv_tree_push_front. destruct (inner v) as [es|t].
  - intros H. destruct (length es <? ADAPTIVE_INLINE_SIZE) eqn:E; cbn [inner].
    + apply Nat.ltb_lt in E. cbn [length]. unfold LEAF_CAPACITY, ADAPTIVE_INLINE_SIZE in *. lia.
    + apply tree_push_front_capped, from_elements_capped.
  - apply tree_push_front_capped.
Qed.
Lemma concat_capped a b : capped_vec a -> capped_vec b -> capped_vec (pv_concat a b).
Proof.
  unfold pv_concat. intros Ha Hb.
  destruct (inner a) as [l|s] eqn:Ea; destruct (inner b) as [r|t] eqn:Eb;
    [apply from_iter_capped|..]; unfold capped_vec in *; rewrite ?Ea, ?Eb in *; cbn [inner];
    apply tree_concat_capped; auto using from_elements_capped.
Qed.
Lemma new_capped : capped_vec pv_new.
Proof. unfold capped_vec. cbn. lia. Qed.
Lemma split_capped v i l r :
  capped_vec v -> pv_split_at v i = Ret (l, r) -> capped_vec l /\ capped_vec r.
Proof.
  intros H. unfold pv_split_at.
  destruct (pv_len v <=? i); [intros [= <- <-]; auto using new_capped|].
  destruct (i =? 0); [intros [= <- <-]; auto using new_capped|].
  unfold capped_vec in *. destruct (inner v) as [es|t].
  - intros [= <- <-]. cbn [inner]. rewrite firstn_length, skipn_length. lia.
  - destruct (tree_split_at t i) as [[lt rt]|] eqn:E; cbn [obind]; [|discriminate].
    intros [= <- <-]. cbn [inner fst snd]. eapply tree_split_capped; eauto.
Qed.
Lemma take_capped v n v' : capped_vec v -> pv_take v n = Ret v' -> capped_vec v'.
Proof.
  intros H. unfold pv_take. destruct (_ <=? _); [intros [= <-]; auto|].
  destruct (pv_split_at v n) as [[l r]|] eqn:E; cbn; [|discriminate]. intros [= <-].
  destruct (split_capped _ _ H E); auto.
Qed.
Lemma skip_capped v n v' : capped_vec v -> pv_skip v n = Ret v' -> capped_vec v'.
Proof.
  intros H. unfold pv_skip. destruct (_ <=? _); [intros [= <-]; auto using new_capped|].
  destruct (pv_split_at v n) as [[l r]|] eqn:E; cbn; [|discriminate]. intros [= <-].
  destruct (split_capped _ _ H E); auto.
Qed.

Lemma step_capped o v v' r : capped_vec v -> vec_step o v = Ret (v', r) -> capped_vec v'.
Proof.
  intros H. destruct o; cbn [vec_step].
  - intros [= <- _]. now apply push_back_capped.
  - intros [= <- _]. now apply push_front_capped.
  - unfold pv_pop_back. destruct (pv_is_empty v); cbn [obind]; [intros [= <- _]; auto|].
    unfold capped_vec in *. destruct (inner v) as [es|t] eqn:Ei.
    + destruct (pop_last es) as [[es' x]|] eqn:E; cbn [obind]; intros [= <- _].
      * cbn [inner]. apply pop_last_length in E. lia.
      * now rewrite Ei.
    + destruct (tree_pop_back t) as [[[t' x]|]|] eqn:E; cbn [obind]; try discriminate; intros [= <- _].
      * cbn [inner]. eapply tree_pop_back_capped; eauto.
      * now rewrite Ei.
  - unfold pv_pop_front. destruct (pv_is_empty v); cbn [obind]; [intros [= <- _]; auto|].
    unfold capped_vec in *. destruct (inner v) as [es|t] eqn:Ei.
    + destruct es as [|x es]; cbn [obind]; intros [= <- _].
      * now rewrite Ei.
      * cbn [inner]. cbn in H. lia.
    + destruct (tree_pop_front t) as [[[t' x]|]|] eqn:E; cbn [obind]; try discriminate; intros [= <- _].
      * cbn [inner]. eapply tree_pop_front_capped; eauto.
      * now rewrite Ei.
  - unfold pv_update. destruct (_ <=? _); cbn [obind]; [intros [= <- _]; auto|].
    unfold capped_vec in *. destruct (inner v) as [es|t] eqn:Ei.
    + destruct (_ <? _); cbn [obind]; [|discriminate]. intros [= <- _]. cbn [inner].
      now rewrite list_set_length.
    + destruct (tree_update t i x) as [t'|] eqn:E; cbn [obind]; [|discriminate].
      intros [= <- _]. cbn [inner]. eapply tree_update_capped; eauto.
  - intros [= <- _]. unfold pv_extend. revert v H.
    induction xs as [|x xs IH]; intros v H; cbn [fold_left]; auto using push_back_capped.
  - unfold pv_map. destruct (pv_iter v) as [l|]; cbn; [|discriminate].
    intros [= <- _]. apply from_iter_capped.
  - unfold pv_filter. destruct (pv_iter v) as [l|]; cbn; [|discriminate].
    intros [= <- _]. apply from_iter_capped.
  - destruct (pv_take v n) as [w|] eqn:E; cbn [obind]; [|discriminate]. intros [= <- _].
    eapply take_capped; eauto.
  - destruct (pv_skip v n) as [w|] eqn:E; cbn [obind]; [|discriminate]. intros [= <- _].
    eapply skip_capped; eauto.
  - destruct (pv_split_at v i) as [[a b]|] eqn:E; cbn [obind]; [|discriminate]. intros [= <- _].
    destruct (split_capped _ _ H E); auto.
  - destruct (pv_split_at v i) as [[a b]|] eqn:E; cbn [obind]; [|discriminate]. intros [= <- _].
    destruct (split_capped _ _ H E); auto.
  - unfold pv_insert. destruct (_ <=? _); cbn [obind]; [intros [= <- _]; now apply push_back_capped|].
    destruct (_ =? _); cbn [obind]; [intros [= <- _]; now apply push_front_capped|].
    destruct (pv_split_at v i) as [[a b]|] eqn:E; cbn [obind]; [|discriminate]. intros [= <- _].
    destruct (split_capped _ _ H E). cbn [fst snd]. apply concat_capped; auto using push_back_capped.
  - unfold pv_remove. destruct (_ <=? _); cbn [obind]; [intros [= <- _]; auto|].
    destruct (_ =? _); cbn [obind]; [intros [= <- _]; apply new_capped|].
    destruct (pv_split_at v i) as [[a b]|] eqn:E; cbn [obind]; [|discriminate].
    destruct (split_capped _ _ H E). cbn [fst snd].
    destruct (pv_skip b 1) as [w|] eqn:Es; cbn [obind]; [|discriminate]. intros [= <- _].
    apply concat_capped; auto. eapply skip_capped; eauto.
  - intros [= <- _]. apply concat_capped; auto using from_iter_capped.
  - intros [= <- _]. apply concat_capped; auto using from_iter_capped.
Qed.

Lemma made_capped v : made v -> capped_vec v.
Proof.
  induction 1 as [v l H|o v v' r _ IH H|a b _ IHa _ IHb].
  - destruct H; [apply new_capped|unfold capped_vec; cbn; unfold LEAF_CAPACITY; lia|apply from_iter_capped].
  - eapply step_capped; eauto.
  - now apply concat_capped.
Qed.

(** ** Counting *)

Lemma node_update_copies_le n i : capped n -> node_update_copies n i <= 64.
Proof.
  intros H. revert i. induction H as [es He|cs sz Hc IH]; intros i; cbn [node_update_copies]; [exact He|].
  destruct (find_child sz i) as [[ci si]|]; [|lia].
  rewrite nth_error_map. destruct (nth_error cs ci) as [c|] eqn:E; cbn [option_map]; [|lia].
  apply IH. eapply nth_error_In; eauto.
Qed.

Lemma concat_nodes_copies_le a b : capped a -> capped b -> concat_nodes_copies a b <= 256.
Proof.
  intros Ha. revert b. induction Ha as [le Hle|lc sz Hc IH]; intros b Hb; destruct b as [re|rc szr];
    cbn [concat_nodes_copies]; try lia.
  - apply capped_leaf_inv in Hb. unfold LEAF_CAPACITY in *. rewrite app_length.
    destruct (_ <=? _); lia.
  - rewrite nth_error_map. destruct (nth_error lc (length lc - 1)) as [c|] eqn:E; cbn [option_map]; [|lia].
    destruct rc as [|d rc]; [lia|]. apply IH; [eapply nth_error_In; eauto|].
    eapply capped_branch_inv; [exact Hb|now left].
Qed.

Lemma node_pop_back_copies_le n : capped n -> node_pop_back_copies n <= 64.
Proof.
  induction 1 as [es He|cs sz Hc IH]; cbn [node_pop_back_copies]; [exact He|].
  rewrite nth_error_map. destruct (nth_error cs (length cs - 1)) as [c|] eqn:E; cbn [option_map]; [|lia].
  apply IH. eapply nth_error_In; eauto.
Qed.

Lemma node_pop_front_copies_le n : capped n -> node_pop_front_copies n <= 64.
Proof.
  induction 1 as [es He|cs sz Hc IH]; cbn [node_pop_front_copies]; [exact He|].
  destruct cs as [|c cs]; [lia|]. apply IH. now left.
Qed.

Lemma split_copies_le n path : capped n -> split_along_path_copies n path <= 64.
Proof.
  intros H. revert path. induction H as [es He|cs sz Hc IH]; intros path; cbn [split_along_path_copies]; [exact He|].
  destruct path as [|ci rest].
  - destruct cs as [|c cs]; [lia|]. apply IH. now left.
  - rewrite nth_error_map. destruct (nth_error cs ci) as [c|] eqn:E; cbn [option_map]; [|lia].
    apply IH. eapply nth_error_In; eauto.
Qed.

Lemma push_leaf_copies_le n : capped n -> push_leaf_copies n <= 64.
Proof.
  intros H. destruct n as [es|cs sz]; cbn [push_leaf_copies node_clone_copies].
  - now apply capped_leaf_inv in H.
  - destruct (_ <? _); lia.
Qed.
Lemma push_leaf_branch (n l : node) : node_clone_copies (push_leaf n l) = 0.
Proof. destruct n; cbn [push_leaf]; [reflexivity|]. now destruct (_ <? _). Qed.
Lemma push_front_leaf_branch (n l : node) : node_clone_copies (push_front_leaf n l) = 0.
Proof. destruct n; cbn [push_front_leaf]; [reflexivity|]. now destruct (_ <? _). Qed.

Lemma push_tail_copies_le t : capped_tree t -> push_tail_copies t <= 192.
Proof.
  intros (H1 & H2 & H3). unfold push_tail_copies, tree_clone_copies.
  pose proof (push_leaf_copies_le H1). unfold LEAF_CAPACITY in *.
  destruct (t_tail t) as [|x r] eqn:E; rewrite ?E; [cbn [length]; lia|].
  rewrite push_leaf_branch. lia.
Qed.
Lemma push_head_copies_le t : capped_tree t -> push_head_copies t <= 192.
Proof.
  intros (H1 & H2 & H3). unfold push_head_copies, tree_clone_copies.
  pose proof (push_leaf_copies_le H1). unfold LEAF_CAPACITY in *.
  destruct (t_head t) as [|x r] eqn:E; rewrite ?E; [cbn [length]; lia|].
  rewrite push_front_leaf_branch. lia.
Qed.

Lemma tree_push_back_copies_le t : capped_tree t -> tree_push_back_copies t <= 256.
Proof.
  intros H. unfold tree_push_back_copies. pose proof (push_tail_copies_le H).
  destruct (push_tail_capped H) as (_ & E0 & E1). rewrite E0, E1.
  destruct H as (H1 & H2 & H3). unfold LEAF_CAPACITY in *. destruct (_ <? _); lia.
Qed.
Lemma tree_push_front_copies_le t : capped_tree t -> tree_push_front_copies t <= 256.
Proof.
  intros H. unfold tree_push_front_copies. pose proof (push_head_copies_le H).
  destruct (push_head_capped H) as (_ & E0 & E1). rewrite E0, E1.
  destruct H as (H1 & H2 & H3). unfold LEAF_CAPACITY in *. destruct (_ <? _); lia.
Qed.

Lemma from_small (es : list T) : length es <= LEAF_CAPACITY ->
  from_elements_copies es = 0 /\ from_elements es = mkTree (Leaf es) [] [] 0 (length es).
Proof.
  intros H. unfold from_elements_copies, from_elements. apply Nat.leb_le in H. rewrite H. auto.
Qed.

Lemma pv_push_back_copies_le v : capped_vec v -> pv_push_back_copies v <= 256.
Proof.
  unfold capped_vec, pv_push_back_copies. destruct (inner v) as [es|t]; [|apply tree_push_back_copies_le].
  intros H. destruct (from_small _ H) as [E1 E2]. rewrite E1, E2. unfold LEAF_CAPACITY in *.
  destruct (_ <? _); [lia|]. unfold tree_push_back_copies. cbn. lia.
Qed.
Lemma pv_push_front_copies_le v : capped_vec v -> pv_push_front_copies v <= 256.
Proof.
  unfold capped_vec, pv_push_front_copies. destruct (inner v) as [es|t]; [|apply tree_push_front_copies_le].
  intros H. destruct (from_small _ H) as [E1 E2]. rewrite E1, E2. unfold LEAF_CAPACITY in *.
  destruct (_ <? _); [lia|]. unfold tree_push_front_copies. cbn. lia.
Qed.

Lemma concat_same_height_copies_le a b :
  capped_tree a -> capped_tree b ->
  concat_same_height_copies a b <= 1024.
Proof.
  intros Ha Hb. unfold concat_same_height_copies, tree_clone_copies.
  pose proof (push_tail_copies_le Ha) as P1. pose proof (push_head_copies_le Hb) as P2.
  destruct (left_part_capped Ha) as ((A1 & A2 & A3) & E1 & E2).
  destruct (right_part_capped Hb) as ((B1 & B2 & B3) & F1 & F2).
  set (l := match t_tail a with [] => a | _ => push_tail_to_tree a end) in *.
  set (r := match t_head b with [] => b | _ => push_head_to_tree b end) in *.
  pose proof (concat_nodes_copies_le A1 B1) as P3.
  destruct Ha as (_ & Ha2 & Ha3). destruct Hb as (_ & Hb2 & Hb3).
  unfold LEAF_CAPACITY in *.
  assert (match t_tail a with [] => 0 | _ => push_tail_copies a end <= 192)
    by (destruct (t_tail a); lia).
  assert (match t_head b with [] => 0 | _ => push_head_copies b end <= 192)
    by (destruct (t_head b); lia).
  lia.
Qed.

Lemma tree_concat_copies_le a b : capped_tree a -> capped_tree b -> tree_concat_copies a b <= 1152.
Proof.
  intros Ha Hb. unfold tree_concat_copies, concat_different_height_copies, elevate_copies, tree_clone_copies.
  pose proof (concat_same_height_copies_le Ha Hb).
  pose proof (concat_same_height_copies_le Ha (elevate_capped (t_height a) Hb)).
  pose proof (concat_same_height_copies_le (elevate_capped (t_height a) Hb) Ha).
  destruct Ha as (_ & Ha2 & Ha3). destruct Hb as (_ & Hb2 & Hb3). unfold LEAF_CAPACITY in *.
  destruct (t_len a =? 0); [lia|]. destruct (t_len b =? 0); [lia|].
  destruct (t_height a =? t_height b); [lia|]. destruct (_ <? _); lia.
Qed.

Lemma pv_concat_copies_le a b : capped_vec a -> capped_vec b -> pv_concat_copies a b <= 1408.
Proof.
  unfold capped_vec, pv_concat_copies. intros Ha Hb.
  destruct (inner a) as [l|s]; destruct (inner b) as [r|t].
  - unfold pv_from_iter_copies, from_elements_copies, tree_clone_copies.
    destruct (from_elements_capped (l ++ r)) as (_ & H2 & H3).
    rewrite app_length. unfold LEAF_CAPACITY in *.
    repeat match goal with |- context [if ?c then _ else _] => destruct c end; lia.
  - destruct (from_small _ Ha) as [E1 _]. rewrite E1.
    pose proof (tree_concat_copies_le (from_elements_capped l) Hb). unfold LEAF_CAPACITY in *. lia.
  - destruct (from_small _ Hb) as [E1 _]. rewrite E1.
    pose proof (tree_concat_copies_le Ha (from_elements_capped r)). unfold LEAF_CAPACITY in *. lia.
  - pose proof (tree_concat_copies_le Ha Hb). unfold tree_clone_copies.
    destruct Ha as (_ & Ha2 & Ha3). destruct Hb as (_ & Hb2 & Hb3). unfold LEAF_CAPACITY in *. lia.
Qed.

Lemma pv_split_at_copies_le v i : capped_vec v -> pv_split_at_copies v i <= 320.
Proof.
  unfold pv_split_at_copies, pv_clone_copies, capped_vec. intros H.
  destruct (inner v) as [es|t].
  - unfold LEAF_CAPACITY in *. destruct (_ <=? _); [lia|]. destruct (_ =? _); lia.
  - destruct (_ <=? _); [lia|]. destruct (_ =? _); [lia|].
    destruct H as (H1 & H2 & H3). unfold tree_split_at_copies, tree_clone_copies. cbv zeta.
    pose proof (split_copies_le (find_path_to_index (t_height t) (t_root t) (i - length (t_head t))) H1).
    rewrite !firstn_length, !skipn_length. unfold LEAF_CAPACITY in *.
    repeat match goal with |- context [if ?c then _ else _] => destruct c end; lia.
Qed.

(** ** Theorems: whatever the length of the vector *)

Theorem C95_push : forall v : pvec, made v ->
  pv_push_back_copies v <= 256 /\ pv_push_front_copies v <= 256.
Proof.
  intros v H. apply made_capped in H. split.
  - now apply pv_push_back_copies_le.
  - now apply pv_push_front_copies_le.
Qed.

Theorem C95_update : forall (v : pvec) i, made v -> pv_update_copies v i <= 192.
Proof.
  intros v i H. apply made_capped in H. unfold pv_update_copies, pv_clone_copies, capped_vec in *.
  destruct (inner v) as [es|t]; [unfold LEAF_CAPACITY in *; destruct (_ <=? _); lia|].
  destruct (_ <=? _); [lia|]. destruct H as (H1 & H2 & H3).
  unfold tree_update_copies, tree_clone_copies. cbv zeta.
  pose proof (node_update_copies_le (i - length (t_head t)) H1). unfold LEAF_CAPACITY in *.
  destruct (_ <=? _); [lia|]. destruct (_ <? _); [lia|]. destruct (_ <? _); lia.
Qed.

Theorem C95_pop : forall v : pvec, made v ->
  pv_pop_back_copies v <= 129 /\
  (forall k, pv_pop_front_copies v = Ret k -> k <= 128).
Proof.
  intros v H. apply made_capped in H. unfold capped_vec in H. split.
  - unfold pv_pop_back_copies. destruct (pv_is_empty v); [lia|].
    destruct (inner v) as [[|x es]|t]; [lia|unfold LEAF_CAPACITY in *; cbn [length] in *; lia|].
    destruct H as (H1 & H2 & H3). unfold tree_pop_back_copies, pop_from_tree_copies.
    pose proof (node_pop_back_copies_le H1). unfold LEAF_CAPACITY in *.
    destruct (t_len t =? 0); [lia|]. destruct (t_tail t) as [|x r]; [|cbn [length] in *; lia].
    cbv zeta. destruct (_ =? _); [lia|]. destruct (node_get _ _); [|lia].
    destruct (_ =? _); cbn [length]; lia.
  - intros k. unfold pv_pop_front_copies. destruct (pv_is_empty v); [intros [= <-]; lia|].
    destruct (inner v) as [es|t].
    + destruct es as [|x es]; intros [= <-]; unfold LEAF_CAPACITY in *; cbn [length] in *; lia.
    + destruct H as (H1 & H2 & H3). unfold tree_pop_front_copies, pop_front_from_tree_copies.
      pose proof (node_pop_front_copies_le H1). unfold LEAF_CAPACITY in *.
      destruct (t_len t =? 0); [intros [= <-]; lia|].
      destruct (t_head t) as [|x r]; [|intros [= <-]; cbn [length] in *; lia].
      cbv zeta. destruct (0 <? _); cbn [obind].
      * destruct (node_pop_front (t_root t)) as [[[? ?]|]|]; cbn [obind]; try discriminate;
          intros [= <-]; cbn [length]; lia.
      * intros [= <-]. lia.
Qed.

Theorem C95_split : forall (v : pvec) i, made v ->
  pv_split_at_copies v i <= 320 /\ pv_take_copies v i <= 320 /\ pv_skip_copies v i <= 320.
Proof.
  intros v i H. apply made_capped in H. pose proof (pv_split_at_copies_le _ i H).
  unfold pv_take_copies, pv_skip_copies.
  assert (pv_clone_copies v <= 64).
  { unfold pv_clone_copies, capped_vec in *. destruct (inner v); [exact H|lia]. }
  destruct (_ <=? _); lia.
Qed.

Theorem C95_concat : forall a b : pvec, made a -> made b -> pv_concat_copies a b <= 1408.
Proof. intros a b Ha Hb. apply pv_concat_copies_le; now apply made_capped. Qed.

Theorem C95_edit : forall (v : pvec) i x k, made v ->
  (pv_insert_copies v i x = Ret k -> k <= 1984) /\
  (pv_remove_copies v i = Ret k -> k <= 2048).
Proof.
  intros v i x k H. apply made_capped in H. split.
  - unfold pv_insert_copies. pose proof (pv_push_back_copies_le _ H). pose proof (pv_push_front_copies_le _ H).
    destruct (_ <=? _); [intros [= <-]; lia|]. destruct (_ =? _); [intros [= <-]; lia|].
    destruct (pv_split_at v i) as [[a b]|] eqn:E; cbn [obind fst snd]; [|discriminate].
    destruct (split_capped _ _ H E) as [Ha Hb]. intros [= <-].
    pose proof (pv_split_at_copies_le _ i H). pose proof (pv_push_back_copies_le _ Ha).
    pose proof (pv_concat_copies_le _ _ (push_back_capped _ x Ha) Hb). lia.
  - unfold pv_remove_copies.
    destruct (_ <=? _); [intros [= <-]; lia|]. destruct (_ =? _); [intros [= <-]; lia|].
    destruct (pv_split_at v i) as [[a b]|] eqn:E; cbn [obind fst snd]; [|discriminate].
    destruct (split_capped _ _ H E) as [Ha Hb].
    destruct (pv_skip b 1) as [w|] eqn:Es; cbn [obind]; [|discriminate]. intros [= <-].
    pose proof (pv_split_at_copies_le _ i H). pose proof (pv_split_at_copies_le _ 1 Hb).
    pose proof (pv_concat_copies_le _ _ Ha (skip_capped _ _ Hb Es)).
    assert (pv_skip_copies b 1 <= 320) by (unfold pv_skip_copies; destruct (_ <=? _); lia).
    lia.
Qed.

(** An empty vector has nothing to copy. *)
Theorem C95_empty : forall v : pvec, pv_len v = 0 ->
  pv_pop_back_copies v = 0 /\ pv_pop_front_copies v = Ret 0 /\
  (forall i, pv_skip_copies v i = 0 /\ pv_remove_copies v i = Ret 0).
Proof.
  intros v H. unfold pv_pop_back_copies, pv_pop_front_copies, pv_is_empty, pv_skip_copies,
    pv_remove_copies. rewrite H. cbn. repeat split; auto.
Qed.

(** The counts exist whenever the operation answers. *)
Theorem C95_counted : forall (v : pvec) i x,
  (pv_pop_front_copies v = Panic -> pv_pop_front v = Panic) /\
  (pv_insert_copies v i x = Panic <-> pv_insert v i x = Panic) /\
  (pv_remove_copies v i = Panic <-> pv_remove v i = Panic).
Proof.
  intros v i x. split; [|split].
  - unfold pv_pop_front_copies, pv_pop_front, tree_pop_front_copies, tree_pop_front, pop_front_from_tree_copies,
      pop_front_from_tree, usub. destruct (pv_is_empty v); [discriminate|].
    destruct (inner v) as [[|y es]|t]; try discriminate. destruct (t_len t =? 0); [discriminate|].
    destruct (t_head t) as [|y r]; [|discriminate]. cbn [length]. cbn zeta.
    destruct (0 <=? t_len t); [|reflexivity]. cbn [obind].
    destruct (length (t_tail t) <=? t_len t - 0); [|reflexivity]. cbn [obind].
    destruct (0 <? _); cbn [obind]; [|discriminate].
    destruct (node_pop_front (t_root t)) as [o|]; cbn [obind]; [discriminate|reflexivity].
  - unfold pv_insert_copies, pv_insert. destruct (_ <=? _); [split; discriminate|].
    destruct (_ =? _); [split; discriminate|]. destruct (pv_split_at v i); cbn [obind]; split; now intros.
  - unfold pv_remove_copies, pv_remove. destruct (_ <=? _); [split; discriminate|].
    destruct (_ =? _); [split; discriminate|]. destruct (pv_split_at v i) as [[a b]|]; cbn [obind fst snd]; [|tauto].
    destruct (pv_skip b 1); cbn [obind]; split; now intros.
Qed.

(** ** Exact counts *)

(** Collecting: nothing is copied up to 64 elements; beyond, every element is
    copied once and those of the tail once more. *)
Theorem C95_collect : forall l : list T,
  pv_from_iter_copies l = if length l <=? 64 then 0 else length l + length l mod 64.
Proof.
  intros l. unfold pv_from_iter_copies, from_elements_copies, tree_clone_copies, from_elements.
  change ADAPTIVE_INLINE_SIZE with 64. change LEAF_CAPACITY with 64.
  destruct (length l <=? 64) eqn:E; [reflexivity|]. apply Nat.leb_gt in E.
  unfold build_tree_with_tail.
  set (k := length l / LEAF_CAPACITY * LEAF_CAPACITY).
  assert (Hk : length (skipn k l) = length l mod 64).
  { rewrite skipn_length. subst k. change LEAF_CAPACITY with 64.
    pose proof (Nat.div_mod (length l) 64 ltac:(lia)). lia. }
  destruct (firstn k l) as [|x r]; cbn [t_tail t_head length].
  - rewrite Hk. lia.
  - destruct (build_tree_recursive _ _) as [root h]. cbn [t_tail t_head length]. rewrite Hk. lia.
Qed.

(** Appending to a vector grown with [push_back]: the elements of the last
    block of 64; when that block is full it is copied into the tree, the first
    time together with the root leaf. *)
Theorem C95_append : forall l : list T,
  pv_push_back_copies (pv_extend pv_new l)
  = if length l <=? 64 then length l
    else if length l mod 64 =? 0 then (if length l =? 128 then 128 else 64)
    else length l mod 64.
Proof.
  intros l. destruct (pushed_all l) as [Hlen [[H Hi]|(t & f & Hi & Hh & Hg & Ht & Htl & Hll)]];
    unfold pv_push_back_copies; rewrite Hi.
  - replace (length l <=? 64) with true by (symmetry; now apply Nat.leb_le).
    change ADAPTIVE_INLINE_SIZE with 64.
    destruct (length l <? 64) eqn:E; [reflexivity|].
    destruct (from_small l H) as [E1 E2]. rewrite E1, E2. unfold tree_push_back_copies. cbn. lia.
  - replace (length l <=? 64) with false by (symmetry; apply Nat.leb_gt; lia).
    unfold tree_push_back_copies, push_tail_copies, push_tail_to_tree. rewrite Hh.
    destruct (Nat.eq_dec (length (t_tail t)) 64) as [E|E].
    + rewrite E. change (64 <? LEAF_CAPACITY) with false. cbv iota.
      replace (length l mod 64) with 0
        by (rewrite Hll, E; apply (Nat.mod_unique _ 64 (f + 2) 0); lia).
      change (0 =? 0) with true. cbv iota.
      destruct (t_tail t) as [|y ys] eqn:Et; [discriminate|].
      rewrite push_leaf_branch. cbn [t_tail t_head]. rewrite E, ?Hh. cbn [length].
      inversion Hg as [es He Hf Hr|q r c ls Hc Hls Hl Hr Hf Hroot]; subst.
      * rewrite E in Hll. replace (length l =? 128) with true by (symmetry; apply Nat.eqb_eq; lia).
        cbn [push_leaf_copies node_clone_copies].
        lia.
      * replace (length l =? 128) with false by (symmetry; apply Nat.eqb_neq; lia).
        cbn [push_leaf_copies node_clone_copies]. destruct (_ <? _); lia.
    + replace (length (t_tail t) <? LEAF_CAPACITY) with true
        by (symmetry; apply Nat.ltb_lt; change LEAF_CAPACITY with 64; lia).
      replace (length l mod 64) with (length (t_tail t))
        by (rewrite Hll; apply (Nat.mod_unique _ 64 (f + 1) (length (t_tail t))); lia).
      destruct (length (t_tail t) =? 0) eqn:E'; [apply Nat.eqb_eq in E'; lia|]. cbn [length]. lia.
Qed.

End Props.

(** Concrete cases: a vector of 192 elements whose buffers and root leaf are
    all full attains most of the bounds. *)
Definition full_vector : pvec nat :=
  pv_extend (fold_left pv_push_front (seq 0 64) (pv_from_iter (seq 100 64))) (seq 200 64).

Lemma full_vector_made : made full_vector.
Proof.
  unfold full_vector.
  apply (@made_step nat (Extend (seq 200 64))
           (fold_left pv_push_front (seq 0 64) (pv_from_iter (seq 100 64))) _ None); [|reflexivity].
  assert (H : forall l (v : pvec nat), made v -> made (fold_left pv_push_front l v)).
  { induction l as [|x l IH]; intros v Hv; cbn [fold_left]; auto.
    apply IH. apply (@made_step nat (PushFront x) v _ None); [exact Hv|reflexivity]. }
  apply H. eapply made_start. apply starts_slice.
Qed.

Example C95_push_case :
  pv_push_back_copies full_vector = 256 /\ pv_push_front_copies full_vector = 256.
Proof. vm_compute. auto. Qed.
Example C95_update_case : pv_update_copies full_vector 100 = 192.
Proof. vm_compute. reflexivity. Qed.
Example C95_pop_case :
  pv_pop_back_copies full_vector = 128 /\ pv_pop_front_copies full_vector = Ret 128.
Proof. vm_compute. auto. Qed.
Example C95_split_case :
  map (pv_split_at_copies full_vector) [0; 10; 100; 150; 200] = [0; 256; 320; 256; 0].
Proof. vm_compute. reflexivity. Qed.
Example C95_concat_case : pv_concat_copies full_vector full_vector = 1280.
Proof. vm_compute. reflexivity. Qed.
Example C95_edit_case :
  pv_insert_copies full_vector 100 7 = Ret 871 /\ pv_remove_copies full_vector 100 = Ret 923.
Proof. vm_compute. auto. Qed.
Example C95_append_case :
  map (fun n => pv_push_back_copies (pv_extend pv_new (seq 0 n))) [10; 64; 65; 100; 128; 192; 200]
  = [10; 64; 1; 36; 128; 64; 8].
Proof. vm_compute. reflexivity. Qed.
Example C95_collect_case :
  map (fun n => pv_from_iter_copies (seq 0 n)) [64; 65; 128; 200] = [0; 66; 128; 208].
Proof. vm_compute. reflexivity. Qed.

Print Assumptions C95_push.
Print Assumptions C95_update.
Print Assumptions C95_pop.
Print Assumptions C95_split.
Print Assumptions C95_concat.
Print Assumptions C95_edit.
Print Assumptions C95_empty.
Print Assumptions C95_counted.
Print Assumptions C95_collect.
Print Assumptions C95_append.

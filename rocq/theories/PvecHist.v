(** Histories of calls: preservation of the invariants call by call. *)
From Coq Require Import List Arith Lia Bool.
From Verif Require Import Base ListFacts PvecModel PvecSpec PvecFacts PvecShape PvecEnds.
Import ListNotations.
Open Scope outcome_scope.
Set Implicit Arguments.

Section Hist.
Context {T : Type}.
Notation node := (node T).
Notation tree := (tree T).
Notation pvec := (pvec T).
Notation op := (op T).

Lemma pv_ok_represents (v : pvec) : pv_ok v -> represents v (pv_elems v).
Proof.
  intros H. split; [apply H|]. split.
  - intros i. now apply pv_get_ok.
  - now apply pv_iter_ok.
Qed.

(** Generic induction over histories. *)
Lemma run_invariant (Inv : pvec -> Prop) (cls : op -> bool) :
  (forall v, Inv v -> pv_ok v) ->
  (forall o v, cls o = true -> Inv v ->
     exists v', vec_step o v = Ret (v', snd (list_step o (pv_elems v))) /\
                Inv v' /\ pv_elems v' = fst (list_step o (pv_elems v))) ->
  forall ops v, Inv v -> Forall (fun o => cls o = true) ops ->
  exists v', vec_run ops v = Ret (v', snd (list_run ops (pv_elems v))) /\
             Inv v' /\ pv_elems v' = fst (list_run ops (pv_elems v)).
Proof.
  intros Hok Hstep ops. induction ops as [|o ops IH]; intros v Hv Hops.
  - exists v. auto.
  - inversion Hops; subst.
    destruct (Hstep o v) as (v1 & S1 & I1 & E1); auto.
    destruct (IH v1) as (v2 & S2 & I2 & E2); auto.
    exists v2. cbn [vec_run list_run]. rewrite S1. cbn [obind fst snd].
    rewrite S2. cbn [obind fst snd]. rewrite E1 in *.
    destruct (list_step o (pv_elems v)) as [l1 r1]. cbn [fst snd] in *.
    destruct (list_run ops l1) as [l2 rs]. cbn [fst snd] in *. auto.
Qed.

Lemma run_faithful (Inv : pvec -> Prop) (cls : op -> bool) :
  (forall v, Inv v -> pv_ok v) ->
  (forall o v, cls o = true -> Inv v ->
     exists v', vec_step o v = Ret (v', snd (list_step o (pv_elems v))) /\
                Inv v' /\ pv_elems v' = fst (list_step o (pv_elems v))) ->
  forall ops v, Inv v -> Forall (fun o => cls o = true) ops -> faithful v (pv_elems v) ops.
Proof.
  intros Hok Hstep ops v Hv Hops.
  destruct (run_invariant Inv cls Hok Hstep _ Hv Hops) as (v' & H1 & H2 & H3).
  exists v'. split; auto. rewrite <- H3. apply pv_ok_represents. auto.
Qed.

Lemma list_run_app (ops1 ops2 : list op) l :
  list_run (ops1 ++ ops2) l =
  (fst (list_run ops2 (fst (list_run ops1 l))),
   snd (list_run ops1 l) ++ snd (list_run ops2 (fst (list_run ops1 l)))).
Proof.
  revert l; induction ops1 as [|o ops1 IH]; intros l; cbn [app list_run].
  - cbn. now destruct (list_run ops2 l).
  - destruct (list_step o l) as [l1 r]. rewrite IH.
    destruct (list_run ops1 l1) as [l2 rs]. cbn.
    now destruct (list_run ops2 l2).
Qed.

Lemma vec_run_app (ops1 ops2 : list op) v :
  vec_run (ops1 ++ ops2) v =
  obind (vec_run ops1 v) (fun a =>
    omap (fun b => (fst b, snd a ++ snd b)) (vec_run ops2 (fst a))).
Proof.
  revert v; induction ops1 as [|o ops1 IH]; intros v; cbn [app vec_run].
  - cbn. destruct (vec_run ops2 v) as [[v' rs]|]; reflexivity.
  - destruct (vec_step o v) as [[v1 r]|]; cbn [obind fst snd]; [|reflexivity].
    rewrite IH. destruct (vec_run ops1 v1) as [[v2 rs]|]; cbn [obind fst snd]; [|reflexivity].
    destruct (vec_run ops2 v2) as [[v3 rs']|]; reflexivity.
Qed.

Lemma list_set_update (l : list T) i x :
  list_set l i x = if i <? length l then firstn i l ++ x :: skipn (S i) l else l.
Proof.
  destruct (Nat.ltb_spec i (length l)) as [H|H].
  - destruct (nth_error l i) as [c|] eqn:E.
    + now apply list_set_split with c.
    + apply nth_error_None in E. lia.
  - now apply list_set_ge.
Qed.

(** ** Growing histories *)

Lemma starts_ok (v : pvec) l : starts v l -> pv_ok v /\ pv_elems v = l.
Proof.
  inversion 1; subst; [repeat split|repeat split|].
  apply pv_from_iter_ok.
Qed.

Lemma pv_map_ok {U} (f : T -> U) v : pv_ok v ->
  pv_map f v = Ret (pv_from_iter (map f (pv_elems v))).
Proof. intros H. unfold pv_map. now rewrite pv_iter_ok. Qed.

Lemma pv_filter_ok p (v : pvec) : pv_ok v ->
  pv_filter p v = Ret (pv_from_iter (filter p (pv_elems v))).
Proof. intros H. unfold pv_filter. now rewrite pv_iter_ok. Qed.

Lemma grow_step o (v : pvec) : is_grow o = true -> pv_ok v ->
  exists v', vec_step o v = Ret (v', snd (list_step o (pv_elems v))) /\
             pv_ok v' /\ pv_elems v' = fst (list_step o (pv_elems v)).
Proof.
  intros Hc Hok. destruct o; try discriminate Hc; cbn [vec_step list_step fst snd].
  - eexists; split; [reflexivity|]. now apply pv_push_back_ok.
  - eexists; split; [reflexivity|]. now apply pv_push_front_ok.
  - destruct (pv_update_ok i x Hok) as (v' & E1 & E2 & E3).
    exists v'. rewrite E1. cbn. rewrite E3, list_set_update. auto.
  - eexists; split; [reflexivity|]. now apply pv_extend_ok.
  - rewrite pv_map_ok by auto. cbn. eexists; split; [reflexivity|]. apply pv_from_iter_ok.
Qed.

Lemma grow_faithful (v : pvec) l ops : starts v l ->
  Forall (fun o => is_grow o = true) ops -> faithful v l ops.
Proof.
  intros Hs Hops. destruct (starts_ok Hs) as [Hok <-].
  apply run_faithful with (Inv := @pv_ok T) (cls := is_grow); auto.
  intros; now apply grow_step.
Qed.

(** ** Back histories *)

Definition back_tree (t : tree) : Prop :=
  t_head t = [] /\ gshape (t_root t) /\ depth (t_root t) <= t_height t.

Definition back_inv (v : pvec) : Prop :=
  pv_ok v /\ match inner v with
             | Inline es => length es <= ADAPTIVE_INLINE_SIZE
             | Tree t => back_tree t
             end.

Lemma inline_size_pos : 1 <= ADAPTIVE_INLINE_SIZE.
Proof. Transparent ADAPTIVE_INLINE_SIZE. unfold ADAPTIVE_INLINE_SIZE; lia. Qed.
Opaque ADAPTIVE_INLINE_SIZE.

Lemma build_tree_recursive_uni fuel (nodes : list node) d :
  nodes <> [] -> length nodes <= fuel -> Forall (uni d) nodes ->
  uni (d + snd (build_tree_recursive fuel nodes)) (fst (build_tree_recursive fuel nodes)).
Proof.
  revert nodes d; induction fuel as [|fuel IH]; intros nodes d Hne Hl Hu.
  { destruct nodes; [easy|cbn in Hl; lia]. }
  destruct nodes as [|n1 [|n2 rest]]; [easy| |].
  - cbn. inversion Hu; subst. now rewrite Nat.add_0_r.
  - cbn [build_tree_recursive].
    set (nodes := n1 :: n2 :: rest) in *.
    destruct (build_next_shorter nodes) as [L1 L2]. { cbn; lia. }
    assert (Hnext : Forall (uni (S d)) (map make_relaxed (chunks BRANCHING_FACTOR nodes))).
    { rewrite Forall_map, Forall_forall. intros cs Hcs.
      pose proof branching_ge2 as HB.
      pose proof (@chunks_bounds _ BRANCHING_FACTOR nodes ltac:(lia)) as Hb.
      rewrite Forall_forall in Hb. specialize (Hb _ Hcs).
      apply uni_branch. exists d. split; auto. split.
      - intros ->; cbn in Hb; lia.
      - rewrite Forall_forall in *. intros c Hc. apply Hu.
        rewrite <- (@chunks_concat _ BRANCHING_FACTOR nodes) by lia.
        apply in_concat. eauto. }
    set (next := map make_relaxed (chunks BRANCHING_FACTOR nodes)) in *.
    assert (Hnn : next <> []). { intros E; rewrite E in L1; cbn in L1; lia. }
    specialize (IH next (S d) Hnn ltac:(lia) Hnext).
    destruct (build_tree_recursive fuel next) as [root sh]. cbn in *.
    now replace (d + (sh + 1)) with (S (d + sh)) by lia.
Qed.

(** A tree built from a list is a leaf or uniform of the recorded height,
    with a tail shorter than a leaf. *)
Lemma from_elements_shape (l : list T) :
  t_head (from_elements l) = [] /\
  (length l <= LEAF_CAPACITY /\ from_elements l = mkTree (Leaf l) [] [] 0 (length l) \/
   LEAF_CAPACITY < length l /\ uni (t_height (from_elements l)) (t_root (from_elements l)) /\
   length (t_tail (from_elements l)) = length l mod LEAF_CAPACITY).
Proof.
  unfold from_elements. destruct (Nat.leb_spec (length l) LEAF_CAPACITY) as [Hle|Hgt].
  { split; auto. }
  unfold build_tree_with_tail. pose proof leaf_capacity_pos as HL.
  set (k := length l / LEAF_CAPACITY * LEAF_CAPACITY).
  assert (Hk : LEAF_CAPACITY <= k <= length l).
  { unfold k. split.
    - assert (1 <= length l / LEAF_CAPACITY) by (apply Nat.div_le_lower_bound; lia). nia.
    - rewrite Nat.mul_comm. apply Nat.mul_div_le. lia. }
  assert (Hkm : length (skipn k l) = length l mod LEAF_CAPACITY).
  { rewrite skipn_length. unfold k. rewrite (Nat.div_mod (length l) LEAF_CAPACITY) at 1 by lia.
    lia. }
  destruct (firstn k l) as [|x xs] eqn:E.
  { exfalso. apply (f_equal (@length _)) in E. rewrite firstn_length in E. cbn in E. lia. }
  rewrite <- E.
  set (leaves := map Leaf (chunks LEAF_CAPACITY (firstn k l))).
  assert (Hne : leaves <> []).
  { unfold leaves. intros Hn. apply map_eq_nil in Hn.
    pose proof (@chunks_concat _ LEAF_CAPACITY (firstn k l) HL) as Hc.
    rewrite Hn, E in Hc. discriminate. }
  assert (Hu : Forall (uni 0) leaves).
  { unfold leaves. rewrite Forall_map.
    eapply Forall_impl; [|apply chunks_bounds; lia].
    intros c Hc. split; auto. intros ->. cbn in Hc. lia. }
  pose proof (@build_tree_recursive_uni (length leaves) leaves 0 Hne (le_n _) Hu) as U.
  destruct (build_tree_recursive (length leaves) leaves) as [root h]. cbn in *. auto.
Qed.

Lemma from_elements_back (l : list T) : back_tree (from_elements l).
Proof.
  destruct (from_elements_shape l) as [H1 [[_ E]|(_ & Hu & _)]].
  - rewrite E. repeat split; cbn; auto. constructor.
  - split; auto. split; [eapply uni_gshape; eauto|].
    destruct (uni_depth _ _ Hu) as [-> _]. lia.
Qed.

Lemma from_iter_back (l : list T) : back_inv (pv_from_iter l).
Proof.
  split; [apply pv_from_iter_ok|]. unfold pv_from_iter.
  destruct (Nat.leb_spec (length l) ADAPTIVE_INLINE_SIZE); cbn; auto. apply from_elements_back.
Qed.

Lemma starts_back (v : pvec) l : starts v l -> back_inv v.
Proof.
  pose proof inline_size_pos.
  inversion 1; subst; [repeat split; cbn; lia|repeat split; cbn; lia|]. apply from_iter_back.
Qed.

Lemma tree_push_back_back (t : tree) x : back_tree t -> back_tree (tree_push_back t x).
Proof.
  intros (H1 & H2 & H3). unfold tree_push_back.
  destruct (length (t_tail t) <? LEAF_CAPACITY); [now split|].
  unfold push_tail_to_tree. destruct (t_tail t) as [|y ys]; [now split|].
  assert (G : gshape (push_leaf (t_root t) (Leaf (y :: ys)))).
  { now apply gshape_push_leaf. }
  split; [exact H1|]. cbn [t_root t_height tree_push_back_tail].
  split; auto. now rewrite gshape_depth.
Qed.

Lemma pv_push_back_back (v : pvec) x : back_inv v -> back_inv (pv_push_back v x).
Proof.
  intros [Hok Hb]. split; [now apply pv_push_back_ok|].
  unfold pv_push_back. destruct (inner v) as [es|t].
  - destruct (Nat.ltb_spec (length es) ADAPTIVE_INLINE_SIZE); cbn [inner pv_tree_push_back].
    { rewrite app_length. cbn. lia. }
    apply tree_push_back_back, from_elements_back.
  - now apply tree_push_back_back.
Qed.

Lemma pv_extend_back xs (v : pvec) : back_inv v -> back_inv (pv_extend v xs).
Proof.
  unfold pv_extend. revert v; induction xs as [|x xs IH]; intros v H; cbn; auto.
  apply IH. now apply pv_push_back_back.
Qed.

(** *** update keeps every shape *)

Lemma node_update_branch_cases (cs : list node) sz i x :
  node_update (Branch cs sz) i x = Branch cs sz \/
  exists k j c, nth_error cs k = Some c /\
    node_update (Branch cs sz) i x = Branch (list_set cs k (node_update c j x)) sz.
Proof.
  cbn. destruct (find_child sz i) as [[k j]|]; [|auto].
  destruct (nth_error cs k) as [c|] eqn:E.
  - right. exists k, j, c. rewrite (nth_error_map_some _ _ _ E). auto.
  - left. apply nth_error_None in E.
    assert (E2 : nth_error (map (fun c => node_update c) cs) k = None).
    { apply nth_error_None. now rewrite map_length. }
    now rewrite E2.
Qed.

Lemma list_set_nonnil {A} (l : list A) k x : l <> [] -> list_set l k x <> [].
Proof. destruct l, k; easy. Qed.

Lemma node_update_uni (n : node) : forall d i x, uni d n -> uni d (node_update n i x).
Proof.
  induction n as [es|cs sz IH] using node_ind'; intros d i x H.
  - apply uni_leaf in H as [-> H]. split; auto. now apply list_set_nonnil.
  - destruct (node_update_branch_cases cs sz i x) as [->|(k & j & c & Hc & ->)]; auto.
    apply uni_branch in H as (d' & -> & Hne & H). apply uni_branch. exists d'.
    split; auto. split; [now apply list_set_nonnil|].
    apply Forall_list_set; auto. apply (Forall_nth _ IH Hc). apply (Forall_nth _ H Hc).
Qed.

Lemma node_update_neleaf (n : node) i x : neleaf n -> neleaf (node_update n i x).
Proof. rewrite !neleaf_uni. apply node_update_uni. Qed.

Lemma node_update_depth (n : node) : forall i x, depth (node_update n i x) = depth n.
Proof.
  induction n as [es|cs sz IH] using node_ind'; intros i x; [reflexivity|].
  destruct (node_update_branch_cases cs sz i x) as [->|(k & j & c & Hc & ->)]; auto.
  cbn [depth]. do 2 f_equal. apply map_list_set_same with c; auto.
  apply (Forall_nth _ IH Hc).
Qed.

Lemma node_update_gshape (n : node) : gshape n -> forall i x, gshape (node_update n i x).
Proof.
  induction 1 as [es|d us ls sz Hne Hu Hl|g ls sz Hg IH Hl]; intros i x.
  - constructor.
  - destruct (node_update_branch_cases (us ++ ls) sz i x) as [->|(k & j & c & Hc & ->)].
    { now apply G_uni with d. }
    destruct (Nat.lt_ge_cases k (length us)) as [Hk|Hk].
    + rewrite list_set_app1 by auto. rewrite nth_error_app1 in Hc by auto.
      apply G_uni with d; auto; [now apply list_set_nonnil|].
      apply Forall_list_set; auto. apply node_update_uni. apply (Forall_nth _ Hu Hc).
    + rewrite list_set_app2 by auto. rewrite nth_error_app2 in Hc by auto.
      apply G_uni with d; auto.
      apply Forall_list_set; auto. apply node_update_neleaf. apply (Forall_nth _ Hl Hc).
  - destruct (node_update_branch_cases (g :: ls) sz i x) as [->|(k & j & c & Hc & ->)].
    { now apply G_one. }
    destruct k as [|k]; cbn in *.
    + injection Hc as ->. now apply G_one.
    + apply G_one; auto.
      apply Forall_list_set; auto. apply node_update_neleaf. apply (Forall_nth _ Hl Hc).
Qed.

Lemma tree_update_cases (t t' : tree) i x : tree_update t i x = Ret t' ->
  t' = t \/
  t' = mkTree (t_root t) (t_tail t) (list_set (t_head t) i x) (t_height t) (t_len t) \/
  (exists j, t' = mkTree (node_update (t_root t) j x) (t_tail t) (t_head t) (t_height t) (t_len t)) \/
  (exists j, t' = mkTree (t_root t) (list_set (t_tail t) j x) (t_head t) (t_height t) (t_len t)).
Proof.
  unfold tree_update.
  destruct (t_len t <=? i); [injection 1 as <-; auto|].
  destruct (i <? length (t_head t)); [injection 1 as <-; auto|].
  destruct (usub i (length (t_head t))) as [a|]; [|discriminate].
  cbn [obind]. destruct (usub (t_len t) (length (t_head t))) as [b|]; [|discriminate].
  cbn [obind]. destruct (usub b (length (t_tail t))) as [c|]; [|discriminate].
  cbn [obind]. destruct (a <? c); [injection 1 as <-; eauto 6|].
  destruct (usub a c) as [d|]; [|discriminate].
  injection 1 as <-; eauto 6.
Qed.

Lemma tree_update_back (t t' : tree) i x :
  tree_update t i x = Ret t' -> back_tree t -> back_tree t'.
Proof.
  intros H (H1 & H2 & H3).
  destruct (tree_update_cases _ _ _ H) as [->|[->|[(j & ->)|(j & ->)]]].
  - now split.
  - split; cbn; auto. now rewrite H1.
  - split; cbn; auto. split; [now apply node_update_gshape|]. now rewrite node_update_depth.
  - split; cbn; auto.
Qed.

Lemma pv_update_inner (v v' : pvec) i x : pv_update v i x = Ret v' ->
  v' = v \/
  (exists es, inner v = Inline es /\ inner v' = Inline (list_set es i x)) \/
  (exists t t', inner v = Tree t /\ inner v' = Tree t' /\ tree_update t i x = Ret t').
Proof.
  unfold pv_update. destruct (pv_len v <=? i); [injection 1 as <-; auto|].
  destruct (inner v) as [es|t].
  - destruct (i <? length es); [|discriminate]. injection 1 as <-. right; left. cbn. eauto.
  - destruct (tree_update t i x) as [t'|] eqn:E; [|discriminate].
    injection 1 as <-. right; right. cbn. eauto.
Qed.

Lemma pv_update_back (v v' : pvec) i x :
  pv_update v i x = Ret v' -> back_inv v -> pv_ok v' -> back_inv v'.
Proof.
  intros H [Hok Hb] Hok'. split; auto.
  destruct (pv_update_inner _ _ _ H) as [->|[(es & E1 & E2)|(t & t' & E1 & E2 & E3)]]; auto.
  - rewrite E2, list_set_length. now rewrite E1 in Hb.
  - rewrite E2. rewrite E1 in Hb. eapply tree_update_back; eauto.
Qed.

(** *** popping at the back *)

Lemma nth_error_last {A} (l : list A) x : nth_error (l ++ [x]) (length (l ++ [x]) - 1) = Some x.
Proof.
  rewrite app_length, nth_error_app2 by (cbn; lia). cbn [length].
  replace (length l + 1 - 1 - length l) with 0 by lia. reflexivity.
Qed.

Lemma tree_pop_back_back (t : tree) : tree_ok t -> back_tree t -> t_len t <> 0 ->
  exists t' x, tree_pop_back t = Ret (Some (t', x)) /\ tree_ok t' /\ back_tree t' /\
               tree_elems t = tree_elems t' ++ [x].
Proof.
  intros [Hok Hlen] (H1 & H2 & H3) Hz. unfold tree_pop_back.
  rewrite (proj2 (Nat.eqb_neq _ _) Hz).
  unfold tree_elems in *. rewrite H1 in *. cbn [app] in *.
  destruct (list_last_case (t_tail t)) as [E|(tl & x & E)].
  - rewrite E in *. rewrite pop_last_nil. unfold pop_from_tree.
    rewrite app_nil_r in Hlen.
    rewrite (proj2 (Nat.eqb_neq _ _) Hz). rewrite E. cbn [length].
    rewrite usub_ok by lia. cbn [obind]. rewrite Nat.sub_0_r.
    rewrite (proj2 (Nat.eqb_neq _ _) Hz).
    rewrite node_get_ok by auto.
    destruct (@node_pop_back_gshape T (t_root t)) as (n' & x & P1 & P2 & P3 & P4 & P5); auto.
    { unfold esize. lia. }
    rewrite Hlen, P3, nth_error_last.
    destruct (Nat.eqb_spec (length (elems n' ++ [x])) 1) as [E1|E1].
    + cbn [obind fst snd]. eexists _, x; split; [reflexivity|].
      rewrite app_length in E1. cbn in E1.
      assert (En : elems n' = []) by (destruct (elems n'); [auto|cbn in E1; lia]).
      split; [split; [constructor|]|].
      * cbn. rewrite En, H1. reflexivity.
      * split; [|cbn; rewrite H1, En; reflexivity].
        split; [exact H1|]. split; [constructor|cbn; lia].
    + rewrite P1. cbn [obind fst snd]. eexists _, x; split; [reflexivity|].
      split; [split; [exact P2|]|].
      * cbn [t_len]. unfold tree_elems. cbn. rewrite H1, app_nil_r, app_length. cbn. lia.
      * split; [|cbn; rewrite H1, !app_nil_r; reflexivity].
        split; [exact H1|]. split; [exact P4|cbn; lia].
  - rewrite E, pop_last_app. eexists _, x; split; [reflexivity|].
    split; [split; [exact Hok|]|].
    + cbn [t_len]. unfold tree_elems. cbn. rewrite Hlen, E.
      rewrite !app_length. cbn. lia.
    + split; [|cbn; apply app_assoc]. now split.
Qed.

Lemma pop_last_rev {A} (l : list A) :
  pop_last l = match rev l with [] => None | x :: r => Some (rev r, x) end.
Proof. reflexivity. Qed.

Lemma pv_pop_back_back (v : pvec) : back_inv v ->
  exists v', vec_step PopBack v = Ret (v', snd (list_step PopBack (pv_elems v))) /\
             back_inv v' /\ pv_elems v' = fst (list_step PopBack (pv_elems v)).
Proof.
  intros [[Hl Ho] Hb]. cbn [vec_step list_step]. unfold pv_pop_back, pv_is_empty.
  destruct (Nat.eqb_spec (pv_len v) 0) as [Z|Z].
  { cbn. exists v. rewrite Z in Hl. destruct (pv_elems v) eqn:E; [|discriminate].
    cbn. split; auto. split; auto. split; auto. split; auto. now rewrite Z, E. }
  unfold pv_elems in *. destruct (inner v) as [es|t].
  - destruct (list_last_case es) as [->|(es' & x & ->)]; [cbn in Hl; lia|].
    rewrite pop_last_app. cbn [obind]. rewrite rev_app_distr. cbn [rev app fst snd].
    rewrite rev_involutive. eexists; split; [reflexivity|].
    rewrite app_length in Hl. cbn in Hl.
    split; [split; [split; cbn; [unfold pv_elems; cbn; lia|auto]|]|reflexivity].
    cbn. rewrite app_length in Hb. cbn in Hb. lia.
  - destruct (tree_pop_back_back Ho Hb) as (t' & x & E & Hok' & Hb' & He).
    { destruct Ho as [_ Ho]. lia. }
    rewrite E. cbn [obind]. rewrite He, rev_app_distr. cbn [rev app fst snd].
    rewrite rev_involutive. eexists; split; [reflexivity|].
    rewrite He, app_length in Hl. cbn in Hl.
    split; [|reflexivity]. split; [split; [|exact Hok']|exact Hb'].
    unfold pv_elems. cbn. lia.
Qed.

(** *** splitting *)

Lemma firstn_app_ge {A} i (l1 l2 : list A) :
  length l1 <= i -> firstn i (l1 ++ l2) = l1 ++ firstn (i - length l1) l2.
Proof. intros H. rewrite firstn_app. now rewrite firstn_all2 by lia. Qed.
Lemma skipn_app_ge {A} i (l1 l2 : list A) :
  length l1 <= i -> skipn i (l1 ++ l2) = skipn (i - length l1) l2.
Proof. intros H. rewrite skipn_app. now rewrite skipn_all2 by lia. Qed.

Lemma mk_tree_ok (root : node) tail head h len :
  node_ok root -> len = length head + esize root + length tail ->
  tree_ok (mkTree root tail head h len).
Proof.
  intros H1 H2. split; auto. rewrite tree_elems_length. exact H2.
Qed.

(** Splitting is right whenever the recorded height is not too small. *)
Lemma tree_split_at_ok (t : tree) i : tree_ok t -> depth (t_root t) <= t_height t ->
  0 < i < t_len t ->
  exists l r, tree_split_at t i = Ret (l, r) /\ tree_ok l /\ tree_ok r /\
    tree_elems l = firstn i (tree_elems t) /\ tree_elems r = skipn i (tree_elems t) /\
    (back_tree t -> back_tree l /\ back_tree r /\ t_height r <= t_height l /\
                    t_height r <= t_height t /\ (t_height r = 0 \/ t_tail l = [])).
Proof.
  intros [Hok Hlen] Hd [Hi0 Hi]. pose proof Hlen as Hlen'.
  rewrite tree_elems_length in Hlen. unfold tree_split_at.
  rewrite (proj2 (Nat.eqb_neq _ _)) by lia.
  rewrite (proj2 (Nat.leb_gt _ _)) by lia.
  unfold tree_elems at 2 4.
  destruct (Nat.leb_spec i (length (t_head t))) as [H1|H1].
  { eexists _, _; split; [reflexivity|].
    split; [apply mk_tree_ok; [constructor|unfold esize; cbn; lia]|].
    split; [apply mk_tree_ok; auto; now rewrite calculate_size_ok|].
    rewrite firstn_app_le, skipn_app_le by auto.
    split; [unfold tree_elems; cbn; now rewrite app_nil_r|].
    split; [reflexivity|].
    intros (B1 & _). rewrite B1 in H1. cbn in H1. lia. }
  rewrite usub_ok by lia. cbn [obind]. rewrite usub_ok by (unfold esize in *; lia). cbn [obind].
  rewrite firstn_app_ge, skipn_app_ge by lia.
  destruct (Nat.leb_spec (length (t_head t) + (t_len t - length (t_head t) - length (t_tail t))) i)
    as [H2|H2].
  - rewrite usub_ok by lia. cbn [obind]. rewrite usub_ok by lia. cbn [obind].
    eexists _, _; split; [reflexivity|].
    split; [apply mk_tree_ok; auto; now rewrite calculate_size_ok|].
    split; [apply mk_tree_ok; [constructor|unfold esize; cbn; lia]|].
    unfold esize in *.
    rewrite firstn_app_ge, skipn_app_ge by lia.
    replace (i - length (t_head t) - (t_len t - length (t_head t) - length (t_tail t)))
      with (i - length (t_head t) - length (elems (t_root t))) by lia.
    split; [reflexivity|]. split; [reflexivity|].
    intros (B1 & B2 & B3). cbn. repeat split; cbn; auto; try lia. constructor.
  - rewrite usub_ok by lia. cbn [obind]. unfold split_tree_at, esize in *.
    destruct (@split_along_path_splits T (t_root t) (t_height t) (t_height t)
                (i - length (t_head t))) as (l & r & E & S1); auto.
    { unfold esize. lia. }
    rewrite E. eexists _, _; split; [reflexivity|].
    destruct (splits_ok S1 Hok) as (L1 & R1 & L2 & R2 & _).
    split; [apply mk_tree_ok; auto; rewrite calculate_size_ok by auto; cbn; lia|].
    split; [apply mk_tree_ok; auto; rewrite calculate_size_ok by auto; cbn; lia|].
    rewrite firstn_app_le, skipn_app_le by lia.
    split; [unfold tree_elems; cbn; rewrite L2, app_nil_r; reflexivity|].
    split; [unfold tree_elems; cbn; rewrite R2; reflexivity|].
    intros (B1 & B2 & B3).
    destruct (splits_gshape S1 Hok B2) as (GL & GR & GD & GD2).
    cbn. rewrite !gshape_depth by auto.
    repeat split; cbn; auto; try (rewrite gshape_depth by auto); auto; try lia.
Qed.


Lemma pv_split_at_mid (v : pvec) i : back_inv v -> 0 < i < pv_len v ->
  exists l r, pv_split_at v i = Ret (l, r) /\ back_inv l /\ back_inv r /\
    pv_elems l = firstn i (pv_elems v) /\ pv_elems r = skipn i (pv_elems v) /\
    match inner v with
    | Inline _ => exists a b, inner l = Inline a /\ inner r = Inline b /\
                              length a < ADAPTIVE_INLINE_SIZE
    | Tree t => exists tl tr, inner l = Tree tl /\ inner r = Tree tr /\
                  t_height tr <= t_height tl /\ t_height tr <= t_height t /\
                  (t_height tr = 0 \/ t_tail tl = [])
    end.
Proof.
  intros [[Hl Ho] Hb] [Hi0 Hi]. unfold pv_split_at.
  rewrite (proj2 (Nat.leb_gt _ _)) by lia.
  rewrite (proj2 (Nat.eqb_neq _ _)) by lia.
  unfold pv_elems in *. destruct (inner v) as [es|t] eqn:Ei.
  - eexists _, _; split; [reflexivity|].
    assert (Hf : length (firstn i es) = i) by (rewrite firstn_length; lia).
    assert (Hs : length (skipn i es) = pv_len v - i) by (rewrite skipn_length; lia).
    split; [repeat split; cbn; auto; lia|]. split; [repeat split; cbn; auto; lia|].
    cbn. repeat split. eexists _, _. repeat split. lia.
  - destruct Hb as (B1 & B2 & B3).
    destruct (@tree_split_at_ok t i) as (l & r & E & L1 & R1 & L2 & R2 & Hback); auto.
    { destruct Ho as [_ Ho]. lia. }
    rewrite E. cbn [obind fst snd]. eexists _, _; split; [reflexivity|].
    destruct Hback as (BL & BR & H1 & H2 & H3); [now split|].
    assert (Hf : length (firstn i (tree_elems t)) = i) by (rewrite firstn_length; lia).
    assert (Hs : length (skipn i (tree_elems t)) = pv_len v - i) by (rewrite skipn_length; lia).
    split; [split; [split|]; cbn; auto; unfold pv_elems; cbn; congruence|].
    split; [split; [split|]; cbn; auto; unfold pv_elems; cbn; congruence|].
    cbn. repeat split; auto. eexists _, _. repeat split; auto.
Qed.

Lemma pv_new_back : back_inv (@pv_new T).
Proof. repeat split; cbn; lia. Qed.

Lemma pv_split_at_back (v : pvec) i : back_inv v ->
  exists l r, pv_split_at v i = Ret (l, r) /\ back_inv l /\ back_inv r /\
    pv_elems l = firstn i (pv_elems v) /\ pv_elems r = skipn i (pv_elems v).
Proof.
  intros Hb. pose proof Hb as [[Hl Ho] _].
  destruct (Nat.lt_ge_cases i (pv_len v)) as [H1|H1].
  - destruct (Nat.eq_dec i 0) as [->|Hi].
    + exists pv_new, v. unfold pv_split_at.
      rewrite (proj2 (Nat.leb_gt _ _)) by lia. cbn. split; auto. split; [apply pv_new_back|]. auto.
    + destruct (@pv_split_at_mid v i Hb ltac:(lia)) as (l & r & E & BL & BR & E1 & E2 & _).
      exists l, r. auto.
  - exists v, pv_new. unfold pv_split_at.
    rewrite (proj2 (Nat.leb_le _ _)) by lia.
    rewrite firstn_all2, skipn_all2 by lia.
    split; auto. split; auto. split; [apply pv_new_back|auto].
Qed.

Lemma pv_take_back (v : pvec) n : back_inv v ->
  exists v', pv_take v n = Ret v' /\ back_inv v' /\ pv_elems v' = firstn n (pv_elems v).
Proof.
  intros Hb. unfold pv_take. destruct (Nat.leb_spec (pv_len v) n) as [H|H].
  - exists v. rewrite firstn_all2; auto. destruct Hb as [[Hl _] _]. lia.
  - destruct (pv_split_at_back n Hb) as (l & r & E & BL & BR & E1 & E2).
    rewrite E. cbn. eauto.
Qed.

Lemma pv_skip_back (v : pvec) n : back_inv v ->
  exists v', pv_skip v n = Ret v' /\ back_inv v' /\ pv_elems v' = skipn n (pv_elems v).
Proof.
  intros Hb. unfold pv_skip. destruct (Nat.leb_spec (pv_len v) n) as [H|H].
  - exists pv_new. rewrite skipn_all2. 2:{ destruct Hb as [[Hl _] _]. lia. }
    split; auto. split; [apply pv_new_back|reflexivity].
  - destruct (pv_split_at_back n Hb) as (l & r & E & BL & BR & E1 & E2).
    rewrite E. cbn. eauto.
Qed.

Lemma back_step o (v : pvec) : is_back o = true -> back_inv v ->
  exists v', vec_step o v = Ret (v', snd (list_step o (pv_elems v))) /\
             back_inv v' /\ pv_elems v' = fst (list_step o (pv_elems v)).
Proof.
  intros Hc Hb. pose proof Hb as [Hok _].
  destruct o; try discriminate Hc; cbn [vec_step list_step fst snd].
  - eexists; split; [reflexivity|]. split; [now apply pv_push_back_back|now apply pv_push_back_ok].
  - now apply pv_pop_back_back.
  - destruct (pv_update_ok i x Hok) as (v' & E1 & E2 & E3).
    exists v'. rewrite E1. cbn. rewrite E3, list_set_update. split; auto. split; auto.
    eapply pv_update_back; eauto.
  - eexists; split; [reflexivity|]. split; [now apply pv_extend_back|now apply pv_extend_ok].
  - rewrite pv_map_ok by auto. cbn. eexists; split; [reflexivity|].
    split; [apply from_iter_back|apply pv_from_iter_ok].
  - rewrite pv_filter_ok by auto. cbn. eexists; split; [reflexivity|].
    split; [apply from_iter_back|apply pv_from_iter_ok].
  - destruct (pv_take_back n Hb) as (v' & E & H1 & H2). rewrite E. cbn. eauto.
  - destruct (pv_skip_back n Hb) as (v' & E & H1 & H2). rewrite E. cbn. eauto.
  - destruct (pv_split_at_back i Hb) as (l & r & E & BL & BR & E1 & E2). rewrite E. cbn. eauto.
  - destruct (pv_split_at_back i Hb) as (l & r & E & BL & BR & E1 & E2). rewrite E. cbn. eauto.
Qed.

Lemma back_faithful (v : pvec) l ops : starts v l ->
  Forall (fun o => is_back o = true) ops -> faithful v l ops.
Proof.
  intros Hs Hops. destruct (starts_ok Hs) as [Hok <-].
  apply run_faithful with (Inv := back_inv) (cls := is_back); auto.
  - now intros ? [? _].
  - intros; now apply back_step.
  - eapply starts_back; eauto.
Qed.

(** *** one insertion or removal *)

Lemma pv_concat_plain (a b : pvec) : pv_ok a -> pv_ok b ->
  pv_elems a = [] \/ pv_elems b = [] \/ pv_height b <= pv_height a \/
  pv_is_inline a && pv_is_inline b = true ->
  pv_ok (pv_concat a b) /\ pv_elems (pv_concat a b) = pv_elems a ++ pv_elems b.
Proof.
  intros Ha Hb Hc. destruct (pv_concat_ok Ha Hb) as [C1 C2]. split; auto.
  rewrite C2. unfold pv_concat_content.
  destruct Ha as [La _], Hb as [Lb _].
  destruct Hc as [E|[E|[E|E]]].
  - now rewrite La, E.
  - rewrite Lb, E. cbn. now rewrite andb_false_r.
  - rewrite (proj2 (Nat.ltb_ge _ _) E). now rewrite andb_false_r.
  - rewrite E. cbn [negb]. now rewrite andb_false_r.
Qed.

Lemma tree_height_push_back (t : tree) x h : h <= t_height t -> (h = 0 \/ t_tail t = []) ->
  h <= t_height (tree_push_back t x).
Proof.
  intros Hh Hc. destruct Hc as [->|E]; [lia|].
  unfold tree_push_back. rewrite E. cbn [length].
  destruct (0 <? LEAF_CAPACITY); [exact Hh|]. unfold push_tail_to_tree. rewrite E. exact Hh.
Qed.

Lemma insert_step (v : pvec) i x : back_inv v ->
  exists v', vec_step (Insert i x) v = Ret (v', snd (list_step (Insert i x) (pv_elems v))) /\
             pv_ok v' /\ pv_elems v' = fst (list_step (Insert i x) (pv_elems v)).
Proof.
  intros Hb. pose proof Hb as [Hok _]. pose proof Hok as [Hl _].
  cbn [vec_step list_step fst snd]. unfold pv_insert.
  destruct (Nat.leb_spec (pv_len v) i) as [H|H].
  { cbn. eexists; split; [reflexivity|]. rewrite firstn_all2, skipn_all2 by lia.
    now apply pv_push_back_ok. }
  destruct (Nat.eqb_spec i 0) as [->|Hi].
  { cbn. eexists; split; [reflexivity|]. now apply pv_push_front_ok. }
  destruct (@pv_split_at_mid v i Hb ltac:(lia)) as (l & r & E & BL & BR & E1 & E2 & E3).
  rewrite E. cbn [obind fst snd]. eexists; split; [reflexivity|].
  destruct (pv_push_back_ok x (proj1 BL)) as [P1 P2].
  destruct (@pv_concat_plain (pv_push_back l x) r) as [C1 C2]; auto.
  { apply BR. }
  { right; right. destruct (inner v) as [es|t].
    - right. destruct E3 as (a & b & A1 & A2 & A3).
      unfold pv_is_inline, pv_push_back. rewrite A1, A2.
      rewrite (proj2 (Nat.ltb_lt _ _) A3). reflexivity.
    - left. destruct E3 as (tl & tr & A1 & A2 & A3 & A4 & A5).
      unfold pv_height, pv_push_back. rewrite A1, A2. cbn.
      now apply tree_height_push_back. }
  split; auto. rewrite C2, P2, E1, E2, <- app_assoc. reflexivity.
Qed.

Lemma skipn_S_skipn {A} i (l : list A) : skipn 1 (skipn i l) = skipn (S i) l.
Proof. rewrite skipn_add. reflexivity. Qed.

Lemma remove_step (v : pvec) i : back_inv v ->
  exists v', vec_step (Remove i) v = Ret (v', snd (list_step (Remove i) (pv_elems v))) /\
             pv_ok v' /\ pv_elems v' = fst (list_step (Remove i) (pv_elems v)).
Proof.
  intros Hb. pose proof Hb as [Hok _]. pose proof Hok as [Hl _].
  cbn [vec_step list_step fst snd]. unfold pv_remove.
  destruct (Nat.leb_spec (pv_len v) i) as [H|H].
  { cbn [obind]. exists v. rewrite firstn_all2, skipn_all2 by lia. now rewrite app_nil_r. }
  destruct (Nat.eqb_spec (pv_len v) 1) as [H1|H1].
  { cbn. exists pv_new. split; auto. split; [apply pv_new_back|].
    destruct (pv_elems v) as [|a [|b l]]; cbn in *; try lia.
    replace i with 0 by lia. reflexivity. }
  assert (Hsplit : exists l r, pv_split_at v i = Ret (l, r) /\ back_inv l /\ back_inv r /\
            pv_elems l = firstn i (pv_elems v) /\ pv_elems r = skipn i (pv_elems v) /\
            (i = 0 \/ match inner v with
              | Inline _ => pv_is_inline l = true /\ pv_is_inline r = true
              | Tree _ => exists tl tr, inner l = Tree tl /\ inner r = Tree tr /\
                          t_height tr <= t_height tl end)).
  { destruct (Nat.eq_dec i 0) as [->|Hi].
    - destruct (pv_split_at_back 0 Hb) as (l & r & E & BL & BR & E1 & E2).
      exists l, r. repeat split; auto; try apply BL; try apply BR.
    - destruct (@pv_split_at_mid v i Hb ltac:(lia)) as (l & r & E & BL & BR & E1 & E2 & E3).
      exists l, r. repeat (split; auto). right. destruct (inner v).
      + destruct E3 as (a & b & A1 & A2 & A3). unfold pv_is_inline. now rewrite A1, A2.
      + destruct E3 as (tl & tr & A1 & A2 & A3 & A4 & A5). eauto. }
  destruct Hsplit as (l & r & E & BL & BR & E1 & E2 & E3).
  rewrite E. cbn [obind fst snd].
  pose proof BR as [[Lr _] _].
  assert (Hskip : exists r', pv_skip r 1 = Ret r' /\ back_inv r' /\
            pv_elems r' = skipn (S i) (pv_elems v) /\
            (pv_elems r' = [] \/ match inner r with
              | Inline _ => pv_is_inline r' = true
              | Tree t => exists t', inner r' = Tree t' /\ t_height t' <= t_height t end)).
  { unfold pv_skip. destruct (Nat.leb_spec (pv_len r) 1) as [H2|H2].
    - exists pv_new. split; auto. split; [apply pv_new_back|]. split; [|left; reflexivity].
      rewrite <- skipn_S_skipn, <- E2, skipn_all2 by lia. reflexivity.
    - destruct (@pv_split_at_mid r 1 BR ltac:(lia)) as (l' & r' & F & BL' & BR' & F1 & F2 & F3).
      rewrite F. cbn. exists r'. split; auto. split; auto.
      split; [now rewrite F2, E2, skipn_S_skipn|]. right.
      destruct (inner r).
      + destruct F3 as (a & b & A1 & A2 & A3). unfold pv_is_inline. now rewrite A2.
      + destruct F3 as (tl & tr & A1 & A2 & A3 & A4 & A5). eauto. }
  destruct Hskip as (r' & F & BR' & F1 & F2).
  rewrite F. cbn [obind]. eexists; split; [reflexivity|].
  destruct (@pv_concat_plain l r') as [C1 C2].
  - apply BL.
  - apply BR'.
  - destruct E3 as [->|E3]; [left; now rewrite E1|].
    destruct F2 as [F2|F2]; [auto|]. right; right.
    destruct (inner v).
    + right. destruct E3 as [A1 A2]. rewrite A1. unfold pv_is_inline in A2.
      destruct (inner r); [now rewrite F2|discriminate].
    + left. destruct E3 as (tl & tr & A1 & A2 & A3). rewrite A2 in F2.
      destruct F2 as (t' & B1 & B2). unfold pv_height. rewrite A1, B1. lia.
  - split; auto. now rewrite C2, E1, F1.
Qed.

Lemma back_edit_grow_faithful (v : pvec) l ops1 e ops2 : starts v l ->
  Forall (fun o => is_back o = true) ops1 -> is_edit e = true ->
  Forall (fun o => is_grow o = true) ops2 ->
  faithful v l (ops1 ++ e :: ops2).
Proof.
  intros Hs H1 He H2. destruct (starts_ok Hs) as [Hok <-].
  destruct (run_invariant back_inv is_back) with (ops := ops1) (v := v)
    as (v1 & R1 & I1 & E1); auto.
  { now intros ? [? _]. }
  { intros; now apply back_step. }
  { eapply starts_back; eauto. }
  assert (Hstep : exists v', vec_step e v1 = Ret (v', snd (list_step e (pv_elems v1))) /\
             pv_ok v' /\ pv_elems v' = fst (list_step e (pv_elems v1))).
  { destruct e; try discriminate He; [now apply insert_step|now apply remove_step]. }
  destruct Hstep as (v2 & R2 & I2 & E2).
  destruct (run_invariant (@pv_ok T) is_grow) with (ops := ops2) (v := v2)
    as (v3 & R3 & I3 & E3); auto.
  { intros; now apply grow_step. }
  exists v3. rewrite vec_run_app, R1. cbn [obind fst snd vec_run].
  rewrite R2. cbn [obind fst snd]. rewrite R3. cbn [obind omap fst snd].
  rewrite list_run_app. cbn [fst snd list_run].
  rewrite <- E1. destruct (list_step e (pv_elems v1)) as [l2 r2]. cbn [fst snd] in *.
  rewrite <- E2. destruct (list_run ops2 (pv_elems v2)) as [l3 rs]. cbn [fst snd] in *.
  split; auto. rewrite <- E3. now apply pv_ok_represents.
Qed.

End Hist.

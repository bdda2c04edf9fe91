(** Front histories, short histories, and absence of panics. *)
From Coq Require Import List Arith Lia Bool.
From Verif Require Import Base ListFacts PvecModel PvecSpec PvecFacts PvecShape PvecEnds PvecHist.
Import ListNotations.
Open Scope outcome_scope.
Set Implicit Arguments.

Section Front.
Context {T : Type}.
Notation node := (node T).
Notation tree := (tree T).
Notation pvec := (pvec T).
Notation op := (op T).

(** Exact behaviour of one [pop_front] on a tree. *)
Lemma tree_pop_front_exact (t : tree) : tree_ok t -> front_full (t_root t) -> t_len t <> 0 ->
  exists t' x, tree_pop_front t = Ret (Some (t', x)) /\ tree_ok t' /\ front_full (t_root t') /\
    (t_head t <> [] \/ 0 < esize (t_root t) ->
       tree_elems t = x :: tree_elems t' /\ t_tail t' = t_tail t) /\
    (t_head t = [] /\ esize (t_root t) = 0 ->
       exists rest, t_tail t = x :: rest /\ tree_elems t = x :: rest /\
         tree_elems t' = rev rest /\ t_tail t' = []).
Proof.
  intros [Hok Hlen] Hf Hz. pose proof Hlen as Hlen0.
  rewrite tree_elems_length in Hlen.
  unfold tree_pop_front. rewrite (proj2 (Nat.eqb_neq _ _) Hz).
  destruct (t_head t) as [|h hs] eqn:Eh.
  - unfold pop_front_from_tree. rewrite Eh. cbn [length] in *.
    rewrite usub_ok by lia. cbn [obind]. rewrite usub_ok by lia. cbn [obind].
    destruct (Nat.ltb_spec 0 (t_len t - 0 - length (t_tail t))) as [Hs|Hs].
    + destruct (@node_pop_front_full T (t_root t)) as (n' & x & P1 & P2 & P3 & P4); auto.
      { lia. }
      rewrite P1. cbn [obind]. eexists _, x; split; [reflexivity|].
      split.
      { apply mk_tree_ok; auto. cbn [length]. unfold esize in *. rewrite P3 in *.
        cbn [length] in *. lia. }
      split; [exact P4|]. split.
      * intros _. unfold tree_elems. rewrite Eh, P3. cbn. auto.
      * intros [_ E0]. lia.
    + cbn [obind]. unfold pop_front_from_tail.
      destruct (t_tail t) as [|x rest] eqn:Et. { cbn in *. lia. }
      cbn [rev]. rewrite pop_last_app.
      eexists _, x; split; [reflexivity|]. split.
      { apply mk_tree_ok; [constructor|]. rewrite rev_length. unfold esize. cbn in *. lia. }
      split; [constructor|]. split.
      * intros [A|A]; [easy|]. lia.
      * intros _. exists rest. split; auto.
        assert (E0 : elems (t_root t) = []) by (apply esize0; lia).
        unfold tree_elems. rewrite Eh, E0, Et. cbn. rewrite app_nil_r. auto.
  - eexists _, h; split; [reflexivity|]. split.
    { apply mk_tree_ok; auto. cbn in Hlen. lia. }
    split; auto. split.
    + intros _. unfold tree_elems. rewrite Eh. cbn. auto.
    + intros [A _]. easy.
Qed.

(** ** Front stacks *)

Definition front_inv (v : pvec) : Prop :=
  pv_ok v /\
  match inner v with
  | Inline es => length es <= ADAPTIVE_INLINE_SIZE
  | Tree t => front_full (t_root t) /\ length (t_tail t) <= 2
  end.

Lemma front_full_push_front_leaf (n : node) es :
  es <> [] -> front_full n -> front_full (push_front_leaf n (Leaf es)).
Proof.
  intros Hne Hf. assert (Hs : 0 < esize (Leaf es)) by (destruct es; [easy|cbn; unfold esize; cbn; lia]).
  assert (P : front_full (Branch [Leaf es; n] (Some [calculate_size (Leaf es); calculate_size n]))).
  { apply front_full_cons. split; [constructor|]. split; auto.
    apply front_full_cons. auto. }
  unfold push_front_leaf. destruct n as [es'|cs sz]; auto.
  destruct (length cs <? BRANCHING_FACTOR); auto.
  apply front_full_cons. split; [constructor|].
  destruct cs; auto. split; auto. eapply front_full_sz; eauto.
Qed.

Lemma tree_push_front_front (t : tree) x : front_full (t_root t) ->
  front_full (t_root (tree_push_front t x)) /\ t_tail (tree_push_front t x) = t_tail t.
Proof.
  intros Hf. unfold tree_push_front.
  destruct (length (t_head t) <? LEAF_CAPACITY); [auto|].
  unfold push_head_to_tree. destruct (t_head t) as [|y ys] eqn:E; [auto|].
  cbn. split; auto. now apply front_full_push_front_leaf.
Qed.

Lemma uni_front_full (n : node) : forall d, uni d n -> front_full n.
Proof.
  induction n as [es|cs sz IH] using node_ind'; intros d H; [constructor|].
  apply uni_branch in H as (d' & -> & Hne & Hu).
  destruct (list_last_case cs) as [->|(cs' & c & ->)]; [easy|].
  constructor.
  - apply Forall_app in Hu as [Hu _]. eapply Forall_impl; [|exact Hu].
    intros a. apply uni_size.
  - rewrite Forall_forall in *. eauto.
Qed.

Lemma node_update_esize (n : node) i x : node_ok n -> esize (node_update n i x) = esize n.
Proof.
  intros H. destruct (@node_update_ok T n i x H) as [_ E]. unfold esize.
  now rewrite E, list_set_length.
Qed.

Lemma node_update_front_full (n : node) : node_ok n -> front_full n ->
  forall i x, front_full (node_update n i x).
Proof.
  induction n as [es|cs sz IH] using node_ind'; intros Hok Hf i x; [constructor|].
  destruct (node_update_branch_cases cs sz i x) as [->|(k & j & c & Hc & ->)]; auto.
  apply node_ok_branch_inv in Hok as (Hne & Hok & _).
  inversion Hf as [|cs1 c1 sz1 F1 F2 E]; subst.
  pose proof (Forall_nth _ IH Hc (Forall_nth _ Hok Hc) (Forall_nth _ F2 Hc) j x) as Hu.
  destruct (Nat.lt_ge_cases k (length cs1)) as [Hk|Hk].
  - rewrite nth_error_app1 in Hc by auto. rewrite list_set_app1 by auto. constructor.
    + apply Forall_list_set; auto.
      apply Forall_app in Hok as [Hok _].
      rewrite node_update_esize by apply (Forall_nth _ Hok Hc). apply (Forall_nth _ F1 Hc).
    + apply Forall_app in F2 as [F2 F3]. apply Forall_app; split; auto.
      now apply Forall_list_set.
  - rewrite nth_error_app2 in Hc by auto. rewrite list_set_app2 by auto.
    destruct (k - length cs1) as [|k']; [|destruct k'; discriminate].
    cbn in *. injection Hc as ->. constructor; auto.
    apply Forall_app in F2 as [F2 F3]. apply Forall_app; auto.
Qed.

Lemma front_step o (v : pvec) : is_front_stack o = true -> front_inv v ->
  exists v', vec_step o v = Ret (v', snd (list_step o (pv_elems v))) /\
             front_inv v' /\ pv_elems v' = fst (list_step o (pv_elems v)).
Proof.
  intros Hc [Hok Hf]. destruct o; try discriminate Hc; cbn [vec_step list_step fst snd].
  - eexists; split; [reflexivity|].
    destruct (pv_push_front_ok x Hok) as [P1 P2]. split; auto. split; auto.
    unfold pv_push_front. destruct (inner v) as [es|t].
    + destruct (Nat.ltb_spec (length es) ADAPTIVE_INLINE_SIZE) as [Hlt|Hge];
        cbn [inner pv_tree_push_front length]; [lia|].
      assert (E : from_elements es = mkTree (Leaf es) [] [] 0 (length es)).
      { Local Transparent ADAPTIVE_INLINE_SIZE LEAF_CAPACITY.
        unfold from_elements. rewrite (proj2 (Nat.leb_le _ _)); auto.
        Local Opaque ADAPTIVE_INLINE_SIZE LEAF_CAPACITY. }
      destruct (@tree_push_front_front (from_elements es) x) as [A1 A2].
      { rewrite E. constructor. }
      split; auto. rewrite A2, E. cbn. lia.
    + destruct Hf as [F1 F2]. cbn [inner pv_tree_push_front].
      destruct (@tree_push_front_front t x F1) as [A1 A2]. now rewrite A2.
  - destruct Hok as [Hl Ho]. unfold pv_pop_front, pv_is_empty.
    destruct (Nat.eqb_spec (pv_len v) 0) as [Z|Z].
    { exists v. cbn [obind]. rewrite Z in Hl.
      destruct (pv_elems v) eqn:E; [|discriminate]. cbn. split; auto. split; auto.
      split; auto. split; auto. now rewrite Z, E. }
    unfold pv_elems in *. destruct (inner v) as [es|t] eqn:Ei.
    + destruct es as [|x es']; [cbn in Hl; lia|]. cbn [obind fst snd] in *.
      eexists; split; [reflexivity|]. cbn in *. repeat split; cbn; auto; lia.
    + destruct Hf as [F1 F2].
      destruct (tree_pop_front_exact Ho F1) as (t' & x & E & Hok' & F1' & H1 & H2).
      { destruct Ho as [_ Ho]. lia. }
      rewrite E. cbn [obind].
      assert (HE : tree_elems t = x :: tree_elems t' /\ length (t_tail t') <= 2).
      { destruct (t_head t) as [|h hs] eqn:Eh.
        - destruct (Nat.eq_dec (esize (t_root t)) 0) as [E0|E0].
          + destruct H2 as (rest & R1 & R2 & R3 & R4); auto.
            rewrite R2, R3, R4. split; [|cbn; lia].
            rewrite R1 in F2. destruct rest as [|y [|z rest]]; auto. cbn in F2. lia.
          + destruct H1 as [A1 A2]; [right; lia|]. rewrite A2. auto.
        - destruct H1 as [A1 A2]; [left; discriminate|]. rewrite A2. auto. }
      destruct HE as [HE1 HE2]. rewrite HE1 in *. cbn [fst snd length] in *.
      eexists; split; [reflexivity|]. split; [|reflexivity].
      split; [split|]; cbn; auto. unfold pv_elems. cbn. lia.
  - destruct (pv_update_ok i x Hok) as (v' & E1 & E2 & E3).
    exists v'. rewrite E1. cbn. rewrite E3, list_set_update. split; auto. split; auto.
    split; auto.
    destruct (pv_update_inner _ _ _ E1) as [->|[(es & A1 & A2)|(t & t' & A1 & A2 & A3)]]; auto.
    + rewrite A2, list_set_length. now rewrite A1 in Hf.
    + rewrite A2. rewrite A1 in Hf. destruct Hf as [F1 F2].
      destruct Hok as [_ Ho]. rewrite A1 in Ho. destruct Ho as [Ho _].
      destruct (tree_update_cases _ _ _ A3) as [->|[->|[(j & ->)|(j & ->)]]]; cbn; auto.
      * split; auto. now apply node_update_front_full.
      * rewrite list_set_length. auto.
Qed.

Lemma front_start (l : list T) :
  length l <= ADAPTIVE_INLINE_SIZE \/ length l mod LEAF_CAPACITY <= 2 ->
  front_inv (pv_from_iter l).
Proof.
  intros H. split; [apply pv_from_iter_ok|]. unfold pv_from_iter.
  destruct (Nat.leb_spec (length l) ADAPTIVE_INLINE_SIZE) as [Hle|Hgt]; cbn; auto.
  destruct H as [H|H]; [lia|].
  destruct (from_elements_shape l) as [_ [[_ E]|(_ & Hu & Ht)]].
  - rewrite E. cbn. split; [constructor|lia].
  - split; [eapply uni_front_full; eauto|lia].
Qed.

Lemma front_faithful (l : list T) ops :
  length l <= 64 \/ length l mod 64 <= 2 ->
  Forall (fun o => is_front_stack o = true) ops -> faithful (pv_from_iter l) l ops.
Proof.
  intros Hl Hops. destruct (pv_from_iter_ok l) as [_ E].
  rewrite <- E at 2.
  apply run_faithful with (Inv := front_inv) (cls := is_front_stack); auto.
  - now intros ? [? _].
  - intros; now apply front_step.
  - now apply front_start.
Qed.

(** ** Growing, then popping at the front *)

(** Every leaf is non-empty. *)
Inductive full : node -> Prop :=
| full_leaf es : es <> [] -> full (Leaf es)
| full_branch cs sz : cs <> [] -> Forall full cs -> full (Branch cs sz).

Lemma full_size (n : node) : full n -> 0 < esize n.
Proof.
  induction n as [es|cs sz IH] using node_ind'; inversion 1; subst.
  - unfold esize; cbn. destruct es; [easy|cbn; lia].
  - destruct cs as [|c cs]; [easy|]. inversion IH; inversion H3; subst.
    unfold esize; cbn. rewrite app_length. fold (esize c). specialize (H4 H8). lia.
Qed.

Lemma full_front_full (n : node) : full n -> front_full n.
Proof.
  induction n as [es|cs sz IH] using node_ind'; inversion 1; subst; [constructor|].
  destruct (list_last_case cs) as [->|(cs' & c & ->)]; [easy|].
  constructor.
  - apply Forall_app in H3 as [H3 _]. eapply Forall_impl; [|exact H3]. apply full_size.
  - rewrite Forall_forall in *. eauto.
Qed.

Lemma uni_full (n : node) : forall d, uni d n -> full n.
Proof.
  induction n as [es|cs sz IH] using node_ind'; intros d H.
  - apply uni_leaf in H as [_ H]. now constructor.
  - apply uni_branch in H as (d' & -> & Hne & Hu). constructor; auto.
    rewrite Forall_forall in *. eauto.
Qed.

Definition grow_inv (v : pvec) : Prop :=
  pv_ok v /\
  match inner v with
  | Inline es => length es <= ADAPTIVE_INLINE_SIZE
  | Tree t => full (t_root t) /\ length (t_tail t) <= LEAF_CAPACITY
  end.

Lemma full_push_leaf (n : node) es : es <> [] -> full n -> full (push_leaf n (Leaf es)).
Proof.
  intros Hne Hf.
  assert (P : full (Branch [n; Leaf es] (Some [calculate_size n; calculate_size (Leaf es)]))).
  { constructor; [discriminate|]. repeat constructor; auto. }
  unfold push_leaf. destruct n as [es'|cs sz]; auto.
  destruct (length cs <? BRANCHING_FACTOR); auto.
  inversion Hf; subst. constructor; [destruct cs; discriminate|].
  apply Forall_app; split; auto. repeat constructor; auto.
Qed.

Lemma full_push_front_leaf (n : node) es : es <> [] -> full n -> full (push_front_leaf n (Leaf es)).
Proof.
  intros Hne Hf.
  assert (P : full (Branch [Leaf es; n] (Some [calculate_size (Leaf es); calculate_size n]))).
  { constructor; [discriminate|]. repeat constructor; auto. }
  unfold push_front_leaf. destruct n as [es'|cs sz]; auto.
  destruct (length cs <? BRANCHING_FACTOR); auto.
  inversion Hf; subst. constructor; [discriminate|].
  constructor; auto. now constructor.
Qed.

Lemma node_update_full (n : node) : full n -> forall i x, full (node_update n i x).
Proof.
  induction n as [es|cs sz IH] using node_ind'; inversion 1; subst; intros i x.
  - constructor. now apply list_set_nonnil.
  - destruct (node_update_branch_cases cs sz i x) as [->|(k & j & c & Hc & ->)]; auto.
    constructor; [now apply list_set_nonnil|]. apply Forall_list_set; auto.
    apply (Forall_nth _ IH Hc). apply (Forall_nth _ H3 Hc).
Qed.

Lemma tree_push_back_grow (t : tree) x :
  full (t_root t) -> length (t_tail t) <= LEAF_CAPACITY ->
  full (t_root (tree_push_back t x)) /\ length (t_tail (tree_push_back t x)) <= LEAF_CAPACITY.
Proof.
  intros H1 H2. pose proof leaf_capacity_pos. unfold tree_push_back.
  destruct (Nat.ltb_spec (length (t_tail t)) LEAF_CAPACITY).
  - cbn. rewrite app_length. cbn. split; auto. lia.
  - unfold push_tail_to_tree. destruct (t_tail t) as [|y ys] eqn:E.
    + cbn in *. lia.
    + cbn. split; auto. now apply full_push_leaf.
Qed.

Lemma tree_push_front_grow (t : tree) x :
  full (t_root t) -> full (t_root (tree_push_front t x)) /\
  t_tail (tree_push_front t x) = t_tail t.
Proof.
  intros H1. unfold tree_push_front.
  destruct (length (t_head t) <? LEAF_CAPACITY); [auto|].
  unfold push_head_to_tree. destruct (t_head t) as [|y ys] eqn:E; [auto|].
  cbn. split; auto. now apply full_push_front_leaf.
Qed.

Lemma from_elements_grow (es : list T) : ADAPTIVE_INLINE_SIZE <= length es ->
  full (t_root (from_elements es)) /\ length (t_tail (from_elements es)) <= LEAF_CAPACITY.
Proof.
  intros H. pose proof leaf_capacity_pos. pose proof inline_size_pos.
  destruct (from_elements_shape es) as [_ [[_ E]|(_ & Hu & Ht)]].
  - rewrite E. cbn. split; [|lia]. constructor. intros ->. cbn in H. lia.
  - split; [eapply uni_full; eauto|]. rewrite Ht.
    pose proof (Nat.mod_upper_bound (length es) LEAF_CAPACITY). lia.
Qed.

Lemma from_iter_grow (l : list T) : grow_inv (pv_from_iter l).
Proof.
  split; [apply pv_from_iter_ok|]. unfold pv_from_iter.
  destruct (Nat.leb_spec (length l) ADAPTIVE_INLINE_SIZE) as [Hle|Hgt]; cbn; auto.
  apply from_elements_grow. lia.
Qed.

Lemma starts_grow (v : pvec) l : starts v l -> grow_inv v.
Proof.
  pose proof inline_size_pos.
  inversion 1; subst; [repeat split; cbn; lia|repeat split; cbn; lia|]. apply from_iter_grow.
Qed.

Lemma push_back_grow (v : pvec) x : grow_inv v -> grow_inv (pv_push_back v x).
Proof.
  intros [Hok Hf]. split; [now apply pv_push_back_ok|].
  unfold pv_push_back. destruct (inner v) as [es|t].
  - destruct (Nat.ltb_spec (length es) ADAPTIVE_INLINE_SIZE) as [Hlt|Hge];
      cbn [inner pv_tree_push_back length].
    + rewrite app_length; cbn; lia.
    + apply tree_push_back_grow; now apply from_elements_grow.
  - cbn. apply tree_push_back_grow; tauto.
Qed.

Lemma grow_inv_step o (v : pvec) : is_grow o = true -> grow_inv v ->
  exists v', vec_step o v = Ret (v', snd (list_step o (pv_elems v))) /\
             grow_inv v' /\ pv_elems v' = fst (list_step o (pv_elems v)).
Proof.
  intros Hc Hg. pose proof Hg as [Hok Hf].
  destruct (grow_step _ Hc Hok) as (v' & E1 & E2 & E3).
  exists v'. split; auto. split; auto.
  destruct o; try discriminate Hc; cbn [vec_step] in E1.
  - injection E1 as <-. now apply push_back_grow.
  - injection E1 as <-. split; auto.
    unfold pv_push_front. destruct (inner v) as [es|t].
    + destruct (Nat.ltb_spec (length es) ADAPTIVE_INLINE_SIZE) as [Hlt|Hge];
        cbn [inner pv_tree_push_front length]; [lia|].
      destruct (from_elements_grow _ Hge) as [F1 F2].
      destruct (@tree_push_front_grow (from_elements es) x F1) as [A1 A2]. now rewrite A2.
    + cbn. destruct Hf as [F1 F2].
      destruct (@tree_push_front_grow t x F1) as [A1 A2]. now rewrite A2.
  - destruct (pv_update v i x) as [w|] eqn:E; [|discriminate]. cbn in E1. injection E1 as <-.
    split; auto.
    destruct (pv_update_inner _ _ _ E) as [->|[(es & A1 & A2)|(t & t' & A1 & A2 & A3)]]; auto.
    + rewrite A2, list_set_length. now rewrite A1 in Hf.
    + rewrite A2. rewrite A1 in Hf. destruct Hf as [F1 F2].
      destruct (tree_update_cases _ _ _ A3) as [->|[->|[(j & ->)|(j & ->)]]]; cbn; auto.
      * split; auto. now apply node_update_full.
      * rewrite list_set_length. auto.
  - injection E1 as <-. clear - Hg. unfold pv_extend. revert v Hg.
    induction xs as [|x xs IH]; intros v Hg; cbn; auto.
    apply IH. now apply push_back_grow.
  - rewrite pv_map_ok in E1 by auto. cbn in E1. injection E1 as <-. apply from_iter_grow.
Qed.

(** [k] more pops at the front are safe. *)
Definition pops_left (k : nat) (v : pvec) : Prop :=
  pv_ok v /\
  match inner v with
  | Inline _ => True
  | Tree t => front_full (t_root t) /\ k <= length (t_head t) + esize (t_root t)
  end.

Lemma pop_front_step k (v : pvec) : pops_left (S k) v ->
  exists v', vec_step PopFront v = Ret (v', snd (list_step PopFront (pv_elems v))) /\
             pops_left k v' /\ pv_elems v' = fst (list_step PopFront (pv_elems v)).
Proof.
  intros [[Hl Ho] Hf]. cbn [vec_step list_step]. unfold pv_pop_front, pv_is_empty.
  destruct (Nat.eqb_spec (pv_len v) 0) as [Z|Z].
  { exists v. cbn [obind]. rewrite Z in Hl.
    destruct (pv_elems v) eqn:E; [|discriminate]. cbn. split; auto. split; auto.
    split; [split; auto; now rewrite Z, E|]. destruct (inner v); auto.
    destruct Hf; split; auto; lia. }
  unfold pv_elems in *. destruct (inner v) as [es|t] eqn:Ei.
  - destruct es as [|x es']; [cbn in Hl; lia|]. cbn [obind fst snd] in *.
    eexists; split; [reflexivity|]. cbn in *. repeat split; cbn; auto; lia.
  - destruct Hf as [F1 F2].
    destruct (tree_pop_front_exact Ho F1) as (t' & x & E & Hok' & F1' & H1 & _).
    { destruct Ho as [_ Ho]. lia. }
    rewrite E. cbn [obind].
    destruct H1 as [HE1 HE2].
    { destruct (t_head t); [right; cbn in F2; lia|left; discriminate]. }
    assert (HL : length (t_head t) + esize (t_root t) = S (length (t_head t') + esize (t_root t'))).
    { apply (f_equal (@length _)) in HE1. cbn [length] in HE1.
      rewrite !tree_elems_length, HE2 in HE1. lia. }
    rewrite HE1 in *. cbn [fst snd length] in *.
    eexists; split; [reflexivity|]. split; [|reflexivity].
    split; [split|]; cbn; auto.
    + unfold pv_elems. cbn. lia.
    + split; auto. lia.
Qed.

Lemma pop_fronts k (v : pvec) : pops_left k v ->
  exists v', vec_run (repeat PopFront k) v = Ret (v', snd (list_run (repeat PopFront k) (pv_elems v)))
    /\ pv_ok v' /\ pv_elems v' = fst (list_run (repeat PopFront k) (pv_elems v)).
Proof.
  revert v; induction k as [|k IH]; intros v H.
  - exists v. cbn. split; auto. split; auto. apply H.
  - destruct (pop_front_step H) as (v1 & S1 & I1 & E1).
    destruct (IH _ I1) as (v2 & S2 & I2 & E2).
    exists v2. cbn [repeat vec_run list_run]. rewrite S1. cbn [obind fst snd].
    rewrite S2. cbn [obind fst snd]. rewrite E1 in *.
    destruct (list_step PopFront (pv_elems v)) as [l1 r1]. cbn [fst snd] in *.
    destruct (list_run (repeat PopFront k) l1) as [l2 rs]. cbn [fst snd] in *. auto.
Qed.

Lemma grow_then_pop_front_faithful (v : pvec) l ops k : starts v l ->
  Forall (fun o => is_grow o = true) ops ->
  k + 64 <= length (fst (list_run ops l)) ->
  faithful v l (ops ++ repeat PopFront k).
Proof.
  intros Hs H1 Hk. destruct (starts_ok Hs) as [Hok <-].
  destruct (run_invariant grow_inv is_grow) with (ops := ops) (v := v)
    as (v1 & R1 & I1 & E1); auto.
  { now intros ? [? _]. }
  { intros; now apply grow_inv_step. }
  { eapply starts_grow; eauto. }
  destruct (@pop_fronts k v1) as (v2 & R2 & I2 & E2).
  { destruct I1 as [I1 I1']. split; auto. rewrite <- E1 in Hk. unfold pv_elems in Hk.
    destruct (inner v1) as [es|t]; auto. destruct I1' as [F1 F2].
    split; [now apply full_front_full|]. rewrite tree_elems_length in Hk.
    Local Transparent LEAF_CAPACITY. unfold LEAF_CAPACITY in F2. Local Opaque LEAF_CAPACITY.
    lia. }
  exists v2. rewrite vec_run_app, R1. cbn [obind fst snd]. rewrite R2. cbn [omap fst snd].
  rewrite list_run_app. cbn [fst snd]. rewrite <- E1, <- E2.
  split; auto. now apply pv_ok_represents.
Qed.

(** ** Short histories: every operation is right up to 64 elements *)

Definition small_inv (v : pvec) : Prop :=
  exists es, inner v = Inline es /\ pv_len v = length es /\ length es <= ADAPTIVE_INLINE_SIZE.

Lemma small_ok (v : pvec) : small_inv v -> pv_ok v.
Proof. intros (es & E & H & _). split; unfold pv_elems; rewrite E; auto. Qed.

Lemma small_from_iter (l : list T) : length l <= ADAPTIVE_INLINE_SIZE -> small_inv (pv_from_iter l).
Proof.
  intros H. unfold pv_from_iter. rewrite (proj2 (Nat.leb_le _ _) H). exists l. auto.
Qed.

Lemma small_back (v : pvec) : small_inv v -> back_inv v.
Proof.
  intros H. split; [now apply small_ok|]. destruct H as (es & E & _ & H). now rewrite E.
Qed.

Lemma small_push_back (v : pvec) x : small_inv v -> pv_len v < ADAPTIVE_INLINE_SIZE ->
  small_inv (pv_push_back v x).
Proof.
  intros (es & E & H & _) Hl. unfold pv_push_back. rewrite E.
  rewrite (proj2 (Nat.ltb_lt _ _)) by lia. eexists; split; [reflexivity|]. cbn.
  rewrite app_length. cbn. lia.
Qed.

Lemma small_push_front (v : pvec) x : small_inv v -> pv_len v < ADAPTIVE_INLINE_SIZE ->
  small_inv (pv_push_front v x).
Proof.
  intros (es & E & H & _) Hl. unfold pv_push_front. rewrite E.
  rewrite (proj2 (Nat.ltb_lt _ _)) by lia. eexists; split; [reflexivity|]. cbn. lia.
Qed.

Lemma small_concat (a b : pvec) : small_inv a -> small_inv b ->
  pv_len a + pv_len b <= ADAPTIVE_INLINE_SIZE -> small_inv (pv_concat a b).
Proof.
  intros (es & E & H & _) (fs & F & G & _) Hl. unfold pv_concat. rewrite E, F.
  apply small_from_iter. rewrite app_length. lia.
Qed.

Lemma small_new : small_inv (@pv_new T).
Proof. exists []. cbn. repeat split. lia. Qed.

Lemma small_split (v l r : pvec) i : small_inv v -> pv_split_at v i = Ret (l, r) ->
  small_inv l /\ small_inv r.
Proof.
  intros Hs. pose proof Hs as (es & E & H & Hl). unfold pv_split_at.
  destruct (Nat.leb_spec (pv_len v) i). { injection 1 as <- <-. split; auto. apply small_new. }
  destruct (Nat.eqb_spec i 0). { injection 1 as <- <-. split; auto. apply small_new. }
  rewrite E. injection 1 as <- <-.
  split; eexists; (split; [reflexivity|]); cbn; rewrite ?firstn_length, ?skipn_length; lia.
Qed.

Lemma small_step o (v : pvec) : small_inv v ->
  length (fst (list_step o (pv_elems v))) <= ADAPTIVE_INLINE_SIZE ->
  exists v', vec_step o v = Ret (v', snd (list_step o (pv_elems v))) /\
             small_inv v' /\ pv_elems v' = fst (list_step o (pv_elems v)).
Proof.
  intros Hs Hlen. pose proof (small_back Hs) as Hb. pose proof (small_ok Hs) as Hok.
  pose proof Hok as [Hl _].
  destruct (is_back o) eqn:Eb.
  - destruct (back_step _ Eb Hb) as (v' & E1 & E2 & E3). exists v'. split; auto. split; auto.
    destruct o; try discriminate Eb; cbn [vec_step] in E1.
    + injection E1 as <-. apply small_push_back; auto.
      cbn in Hlen. rewrite app_length in Hlen. cbn in Hlen. lia.
    + unfold pv_pop_back, pv_is_empty in E1. destruct (pv_len v =? 0).
      { cbn in E1. now injection E1 as <-. }
      destruct Hs as (es & E & H1 & H2). rewrite E in E1.
      destruct (list_last_case es) as [->|(es' & x & ->)].
      * rewrite pop_last_nil in E1. cbn in E1. injection E1 as <-. exists []. auto.
      * rewrite pop_last_app in E1. cbn in E1. injection E1 as <-.
        rewrite app_length in *. cbn in *. eexists; split; [reflexivity|]. cbn. lia.
    + unfold pv_update in E1. destruct (pv_len v <=? i).
      { cbn in E1. now injection E1 as <-. }
      destruct Hs as (es & E & H1 & H2). rewrite E in E1.
      destruct (i <? length es); [|discriminate]. cbn in E1. injection E1 as <-.
      eexists; split; [reflexivity|]. cbn. now rewrite list_set_length.
    + injection E1 as <-. cbn in Hlen. rewrite app_length in Hlen.
      clear - Hs Hl Hlen. unfold pv_extend. rewrite <- Hl in Hlen. clear Hl.
      revert v Hs Hlen. induction xs as [|x xs IH]; intros v Hs Hlen; cbn; auto.
      cbn in Hlen. pose proof (@small_push_back v x Hs ltac:(lia)) as Hs'.
      apply IH; auto.
      destruct (pv_push_back_ok x (small_ok Hs)) as [[A _] B]. rewrite A, B, app_length.
      destruct (small_ok Hs) as [C _]. cbn. lia.
    + rewrite pv_map_ok in E1 by auto. cbn in E1. injection E1 as <-.
      now apply small_from_iter.
    + rewrite pv_filter_ok in E1 by auto. cbn in E1. injection E1 as <-.
      now apply small_from_iter.
    + unfold pv_take in E1. destruct (pv_len v <=? n). { cbn in E1. now injection E1 as <-. }
      destruct (pv_split_at v n) as [[l r]|] eqn:E; [|discriminate]. cbn in E1. injection E1 as <-.
      destruct (small_split _ Hs E); auto.
    + unfold pv_skip in E1. destruct (pv_len v <=? n).
      { cbn in E1. injection E1 as <-. apply small_new. }
      destruct (pv_split_at v n) as [[l r]|] eqn:E; [|discriminate]. cbn in E1. injection E1 as <-.
      destruct (small_split _ Hs E); auto.
    + destruct (pv_split_at v i) as [[l r]|] eqn:E; [|discriminate]. cbn in E1. injection E1 as <-.
      destruct (small_split _ Hs E); auto.
    + destruct (pv_split_at v i) as [[l r]|] eqn:E; [|discriminate]. cbn in E1. injection E1 as <-.
      destruct (small_split _ Hs E); auto.
  - destruct o; try discriminate Eb.
    + (* push_front *)
      cbn in *. eexists; split; [reflexivity|]. split; [apply small_push_front; auto; lia|].
      now apply pv_push_front_ok.
    + (* pop_front *)
      destruct Hs as (es & E & H1 & H2). cbn [vec_step list_step]. unfold pv_pop_front, pv_is_empty, pv_elems.
      rewrite E. destruct es as [|x es'].
      * rewrite H1. cbn. exists v. split; auto. split; [now exists []|]. now rewrite E.
      * rewrite H1. cbn. eexists; split; [reflexivity|]. cbn. split; auto.
        eexists; split; [reflexivity|]. cbn in *. lia.
    + (* insert *)
      destruct (insert_step i x Hb) as (v' & E1 & E2 & E3). exists v'. split; auto. split; auto.
      cbn [vec_step] in E1. unfold pv_insert in E1. cbn [list_step fst] in Hlen.
      rewrite app_length in Hlen. cbn [length] in Hlen.
      rewrite firstn_length, skipn_length in Hlen.
      destruct (Nat.leb_spec (pv_len v) i).
      { cbn in E1. injection E1 as <-. apply small_push_back; auto. lia. }
      destruct (Nat.eqb_spec i 0).
      { cbn in E1. injection E1 as <-. apply small_push_front; auto. lia. }
      destruct (pv_split_at v i) as [[l r]|] eqn:E; [|discriminate].
      cbn [obind fst snd] in E1. injection E1 as <-.
      destruct (small_split _ Hs E) as [Sl Sr].
      destruct (pv_split_at_back i Hb) as (l' & r' & E' & _ & _ & F1 & F2).
      rewrite E in E'. injection E' as <- <-.
      destruct (small_ok Sl) as [Ll _]. destruct (small_ok Sr) as [Lr _].
      rewrite F1, firstn_length in Ll. rewrite F2, skipn_length in Lr.
      apply small_concat; auto.
      { apply small_push_back; auto. lia. }
      destruct (pv_push_back_ok x (small_ok Sl)) as [[A _] B]. rewrite A, B, app_length.
      destruct (small_ok Sl) as [C _]. cbn. lia.
    + (* remove *)
      destruct (remove_step i Hb) as (v' & E1 & E2 & E3). exists v'. split; auto. split; auto.
      cbn [vec_step] in E1. unfold pv_remove in E1.
      destruct (Nat.leb_spec (pv_len v) i). { cbn in E1. now injection E1 as <-. }
      destruct (Nat.eqb_spec (pv_len v) 1). { cbn in E1. injection E1 as <-. apply small_new. }
      destruct (pv_split_at v i) as [[l r]|] eqn:E; [|discriminate].
      cbn [obind fst snd] in E1. destruct (small_split _ Hs E) as [Sl Sr].
      destruct (pv_split_at_back i Hb) as (l' & r' & E' & _ & _ & F1 & F2).
      rewrite E in E'. injection E' as <- <-.
      destruct (pv_skip_back 1 (small_back Sr)) as (r1 & Er & _ & Er2).
      rewrite Er in E1. cbn in E1. injection E1 as <-.
      assert (Sr1 : small_inv r1).
      { unfold pv_skip in Er. destruct (pv_len r <=? 1).
        - injection Er as <-. apply small_new.
        - destruct (pv_split_at r 1) as [[a b]|] eqn:Es; [|discriminate]. injection Er as <-.
          destruct (small_split _ Sr Es); auto. }
      apply small_concat; auto.
      destruct (small_ok Sl) as [Ll _]. destruct (small_ok Sr1) as [Lr _].
      rewrite F1, firstn_length in Ll. rewrite Er2, skipn_length, F2, skipn_length in Lr.
      destruct Hs as (es & _ & H1 & H2). lia.
    + (* concat *)
      cbn in *. rewrite app_length in Hlen. eexists; split; [reflexivity|].
      assert (Sx : small_inv (pv_from_iter xs)) by (apply small_from_iter; lia).
      destruct (pv_from_iter_ok xs) as [[X1 X2] X3].
      assert (Hsm : small_inv (pv_concat v (pv_from_iter xs))).
      { apply small_concat; auto. rewrite X1, X3. lia. }
      split; auto. destruct Hs as (es & E & H1 & H2). destruct Sx as (fs & F & G1 & G2).
      rewrite <- X3 at 2. unfold pv_concat, pv_elems. rewrite E, F. apply pv_from_iter_ok.
    + cbn in *. rewrite app_length in Hlen. eexists; split; [reflexivity|].
      assert (Sx : small_inv (pv_from_iter xs)) by (apply small_from_iter; lia).
      destruct (pv_from_iter_ok xs) as [[X1 X2] X3].
      assert (Hsm : small_inv (pv_concat (pv_from_iter xs) v)).
      { apply small_concat; auto. rewrite X1, X3. lia. }
      split; auto. destruct Hs as (es & E & H1 & H2). destruct Sx as (fs & F & G1 & G2).
      rewrite <- X3 at 2. unfold pv_concat, pv_elems. rewrite E, F. apply pv_from_iter_ok.
Qed.

Lemma small_run ops : forall v : pvec, small_inv v ->
  stays_within ADAPTIVE_INLINE_SIZE ops (pv_elems v) -> faithful v (pv_elems v) ops.
Proof.
  induction ops as [|o ops IH]; intros v Hs Hw.
  - exists v. split; auto. apply pv_ok_represents. now apply small_ok.
  - cbn in Hw. destruct Hw as [_ Hw].
    assert (Hlen : length (fst (list_step o (pv_elems v))) <= ADAPTIVE_INLINE_SIZE).
    { destruct ops; cbn in Hw; tauto. }
    destruct (small_step _ Hs Hlen) as (v1 & S1 & I1 & E1).
    rewrite <- E1 in Hw. destruct (IH v1 I1 Hw) as (v2 & S2 & R2).
    exists v2. cbn [vec_run list_run]. rewrite S1. cbn [obind fst snd].
    rewrite S2. cbn [obind fst snd]. rewrite E1 in *.
    destruct (list_step o (pv_elems v)) as [l1 r1]. cbn [fst snd] in *.
    destruct (list_run ops l1) as [l2 rs]. cbn [fst snd] in *. auto.
Qed.

Lemma small_faithful (v : pvec) l ops :
  starts v l -> stays_within 64 ops l -> faithful v l ops.
Proof.
  intros Hs Hw. destruct (starts_ok Hs) as [Hok E].
  assert (Hl : length l <= ADAPTIVE_INLINE_SIZE).
  { destruct ops; cbn in Hw; tauto. }
  pose proof inline_size_pos.
  rewrite <- E. apply small_run; [|now rewrite E].
  destruct Hs as [|x|l].
  - apply small_new.
  - exists [x]. cbn. auto.
  - now apply small_from_iter.
Qed.

End Front.

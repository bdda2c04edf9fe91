(** Growth at both ends keeps the tree flat up to 2112 elements, so that the
    recorded height is right and splitting works. *)
From Coq Require Import List Arith Lia Bool.
From Verif Require Import Base ListFacts PvecModel PvecSpec PvecFacts PvecShape PvecEnds PvecHist PvecFront PvecSafe.
Import ListNotations.
Open Scope outcome_scope.
Set Implicit Arguments.

Section Flat.
Context {T : Type}.
Notation node := (node T).
Notation tree := (tree T).
Notation pvec := (pvec T).
Notation op := (op T).

Definition is_leaf (n : node) : Prop := match n with Leaf _ => True | Branch _ _ => False end.

(** A leaf or one level of leaves, none of them less than full on average. *)
Definition flat (n : node) : Prop :=
  match n with
  | Leaf es => LEAF_CAPACITY <= length es
  | Branch cs sz => cs <> [] /\ Forall is_leaf cs /\ LEAF_CAPACITY * length cs <= esize n
  end.

Lemma leaves_depth0 (cs : list node) : Forall is_leaf cs -> list_max (map depth cs) = 0.
Proof. induction 1 as [|[es|cs' sz] cs H1 H2 IH]; cbn in *; auto; contradiction. Qed.
Lemma flat_depth (n : node) : flat n -> depth n = calculate_height n.
Proof.
  destruct n as [es|cs sz]; cbn; [auto|]. intros (H1 & H2 & _). rewrite leaves_depth0 by auto.
  destruct H2 as [|[es|cs' sz'] cs A B]; cbn in *; [congruence|auto|contradiction].
Qed.

Definition fits (n : node) : Prop :=
  match n with Leaf _ => True | Branch cs _ => length cs < BRANCHING_FACTOR end.

Lemma flat_fits (n : node) : flat n -> esize n < LEAF_CAPACITY * BRANCHING_FACTOR -> fits n.
Proof. pose proof leaf_capacity_pos. destruct n as [es|cs sz]; cbn; [auto|]. intros (_ & _ & H1) H2. nia. Qed.

Lemma esize_branch (cs : list node) sz : esize (Branch cs sz) = list_sum (map esize cs).
Proof.
  unfold esize at 1. cbn [elems].
  induction cs as [|c cs IH]; cbn; [auto|]. rewrite app_length. cbn in IH. rewrite IH. reflexivity.
Qed.

Lemma flat_push_leaf (n : node) es : flat n -> fits n -> LEAF_CAPACITY <= length es ->
  flat (push_leaf n (Leaf es)).
Proof.
  pose proof leaf_capacity_pos. intros Hf Hn He. destruct n as [es'|cs sz]; cbn [push_leaf].
  - cbn [flat] in *. split; [discriminate|]. split; [repeat constructor|]. rewrite esize_branch. unfold esize. cbn. lia.
  - cbn in Hn. rewrite (proj2 (Nat.ltb_lt _ _)) by auto. destruct Hf as (A & B & C). rewrite esize_branch in C.
    split; [destruct cs; discriminate|]. split; [apply Forall_app; split; auto; repeat constructor|].
    rewrite esize_branch, map_app, list_sum_app, app_length. unfold esize at 2. cbn. lia.
Qed.

Lemma flat_push_front_leaf (n : node) es : flat n -> fits n -> LEAF_CAPACITY <= length es ->
  flat (push_front_leaf n (Leaf es)).
Proof.
  pose proof leaf_capacity_pos. intros Hf Hn He. destruct n as [es'|cs sz]; cbn [push_front_leaf].
  - cbn [flat] in *. split; [discriminate|]. split; [repeat constructor|]. rewrite esize_branch. unfold esize. cbn. lia.
  - cbn in Hn. rewrite (proj2 (Nat.ltb_lt _ _)) by auto. destruct Hf as (A & B & C). rewrite esize_branch in C.
    split; [discriminate|]. split; [constructor; auto; exact I|].
    rewrite esize_branch. cbn [map list_sum fold_right length]. unfold esize at 1. cbn [elems].
    change (fold_right Nat.add 0 (map esize cs)) with (list_sum (map esize cs)). lia.
Qed.

(** [n] is the length; at exactly [limit] no further push is possible *)
Definition limit : nat := LEAF_CAPACITY * BRANCHING_FACTOR + LEAF_CAPACITY.
Local Transparent LEAF_CAPACITY BRANCHING_FACTOR.
Lemma limit_value : limit = 2112.
Proof. vm_compute. reflexivity. Qed.
Local Opaque LEAF_CAPACITY BRANCHING_FACTOR.
Definition flat_tree (t : tree) : Prop :=
  depth (t_root t) <= t_height t /\ (t_len t = limit \/ flat (t_root t)).

Definition flat_inv (v : pvec) : Prop :=
  pv_ok v /\ match inner v with Inline es => length es <= ADAPTIVE_INLINE_SIZE | Tree t => flat_tree t end.

Lemma flat_tree_push_back (t : tree) x : tree_ok t -> flat_tree t -> t_len t < limit -> flat_tree (tree_push_back t x).
Proof.
  intros [Hok Hl] [D [F|F]] L; [lia|]. rewrite tree_elems_length in Hl. unfold tree_push_back.
  destruct (Nat.ltb_spec (length (t_tail t)) LEAF_CAPACITY) as [H|H]; [split; cbn; auto|].
  unfold push_tail_to_tree. pose proof leaf_capacity_pos. destruct (t_tail t) as [|y ys] eqn:E; [cbn in H; lia|].
  assert (Fl : flat (push_leaf (t_root t) (Leaf (y :: ys)))).
  { apply flat_push_leaf; auto. apply flat_fits; auto. unfold limit in L. lia. }
  split; cbn; auto. now rewrite flat_depth.
Qed.
Lemma flat_tree_push_front (t : tree) x : tree_ok t -> flat_tree t -> t_len t < limit -> flat_tree (tree_push_front t x).
Proof.
  intros [Hok Hl] [D [F|F]] L; [lia|]. rewrite tree_elems_length in Hl. unfold tree_push_front.
  destruct (Nat.ltb_spec (length (t_head t)) LEAF_CAPACITY) as [H|H]; [split; cbn; auto|].
  unfold push_head_to_tree. pose proof leaf_capacity_pos. destruct (t_head t) as [|y ys] eqn:E; [cbn in H; lia|].
  assert (Fl : flat (push_front_leaf (t_root t) (Leaf (y :: ys)))).
  { apply flat_push_front_leaf; auto. apply flat_fits; auto. unfold limit in L. lia. }
  split; cbn; auto. now rewrite flat_depth.
Qed.

Lemma node_update_flat (n : node) i x : node_ok n -> flat n -> flat (node_update n i x).
Proof.
  intros Hok H. pose proof (node_update_esize i x Hok) as Es. destruct n as [es|cs sz].
  - cbn in *. now rewrite list_set_length.
  - destruct (node_update_branch_cases cs sz i x) as [E|(k & j & c & Hc & E)]; rewrite E in *; auto.
    destruct H as (A & B & C). split; [now apply list_set_nonnil|]. rewrite list_set_length, Es. split; auto.
    apply Forall_list_set; auto. pose proof (Forall_nth _ B Hc) as D. destruct c; [exact I|contradiction].
Qed.

Lemma flat_tree_update (t t' : tree) i x : tree_ok t -> tree_update t i x = Ret t' -> flat_tree t -> flat_tree t'.
Proof.
  intros [Hok _] H [D F].
  destruct (tree_update_cases _ _ _ H) as [->|[->|[(j & ->)|(j & ->)]]]; split; cbn; auto.
  - now rewrite node_update_depth.
  - destruct F; auto. right. now apply node_update_flat.
Qed.

(** *** Slices *)
Lemma build_one_level (leaves : list node) fuel : 2 <= length leaves <= BRANCHING_FACTOR -> length leaves <= fuel ->
  build_tree_recursive fuel leaves = (make_relaxed leaves, 1).
Proof.
  intros [H1 H2] H3. destruct fuel as [|[|fuel]]; [lia|lia|].
  destruct leaves as [|a [|b rest]]; [cbn in H1; lia|cbn in H1; lia|]. 
  cbn [build_tree_recursive]. set (l := a :: b :: rest) in *.
  assert (E : chunks BRANCHING_FACTOR l = [l]).
  { pose proof branching_ge2 as HB. pose proof (@chunks_concat _ BRANCHING_FACTOR l ltac:(lia)) as Hc.
    pose proof (@chunks_length _ BRANCHING_FACTOR l ltac:(lia)) as Hl.
    assert (E1 : (length l + BRANCHING_FACTOR - 1) / BRANCHING_FACTOR = 1).
    { symmetry. apply Nat.div_unique with (r := length l - 1); lia. }
    rewrite E1 in Hl. destruct (chunks BRANCHING_FACTOR l) as [|c [|? ?]]; cbn in Hl; try lia.
    cbn in Hc. rewrite app_nil_r in Hc. now subst. }
  rewrite E. cbn. destruct fuel; reflexivity.
Qed.

Lemma from_elements_flat (l : list T) : LEAF_CAPACITY <= length l -> length l < limit -> flat_tree (from_elements l).
Proof.
  intros Hl Hu. pose proof leaf_capacity_pos as HL. pose proof (from_elements_back l) as (_ & _ & D).
  split; [auto|]. right. unfold from_elements.
  destruct (Nat.leb_spec (length l) LEAF_CAPACITY) as [Hle|Hgt]; [exact Hl|].
  unfold build_tree_with_tail.
  set (k := length l / LEAF_CAPACITY * LEAF_CAPACITY).
  assert (Hq : 1 <= length l / LEAF_CAPACITY) by (apply Nat.div_le_lower_bound; lia).
  assert (Hq2 : length l / LEAF_CAPACITY <= BRANCHING_FACTOR).
  { assert (length l / LEAF_CAPACITY < S BRANCHING_FACTOR); [|lia]. apply Nat.div_lt_upper_bound; unfold limit in Hu; lia. }
  assert (Hk : LEAF_CAPACITY <= k <= length l).
  { unfold k. split; [nia|]. rewrite Nat.mul_comm. apply Nat.mul_div_le. lia. }
  assert (Hf : length (firstn k l) = k) by (rewrite firstn_length; lia).
  destruct (firstn k l) as [|x xs] eqn:E. { cbn in Hf. lia. }
  rewrite <- E in *.
  set (leaves := map Leaf (chunks LEAF_CAPACITY (firstn k l))).
  assert (Hlv : length leaves = length l / LEAF_CAPACITY).
  { unfold leaves. rewrite map_length, chunks_length by auto. rewrite Hf. unfold k.
    symmetry. apply Nat.div_unique with (r := LEAF_CAPACITY - 1); lia. }
  assert (Hel : list_sum (map esize leaves) = k).
  { rewrite <- Hf. transitivity (length (concat (chunks LEAF_CAPACITY (firstn k l)))); [|now rewrite chunks_concat by lia]. unfold leaves. clear.
    induction (chunks LEAF_CAPACITY (firstn k l)) as [|c cs IH]; [auto|]. cbn [map concat]. rewrite app_length, <- IH. reflexivity. }
  assert (Hlf : Forall is_leaf leaves). { unfold leaves. apply Forall_map, Forall_forall. cbn. auto. }
  destruct (Nat.eq_dec (length leaves) 1) as [E1|E1].
  - destruct leaves as [|[es|] [|? ?]]; cbn in E1; try discriminate; cbn.
    + cbn in Hel. unfold esize in Hel. cbn in Hel. lia.
    + inversion Hlf; subst; contradiction.
  - rewrite build_one_level by lia. cbn [t_root flat]. unfold make_relaxed.
    split; [intros A; rewrite A in Hlv; cbn in Hlv; lia|]. split; auto. rewrite esize_branch, Hel, Hlv. unfold k. lia.
Qed.
Lemma from_iter_flat (l : list T) : length l <= limit -> flat_inv (pv_from_iter l).
Proof.
  intros Hl. destruct (pv_from_iter_ok l) as [Hok _]. split; auto. unfold pv_from_iter.
  destruct (Nat.leb_spec (length l) ADAPTIVE_INLINE_SIZE) as [Hle|Hgt]; cbn; auto.
  Local Transparent LEAF_CAPACITY ADAPTIVE_INLINE_SIZE. assert (LEAF_CAPACITY = ADAPTIVE_INLINE_SIZE) by reflexivity.
  Local Opaque LEAF_CAPACITY ADAPTIVE_INLINE_SIZE.
  destruct (Nat.eq_dec (length l) limit) as [E|E]; [|apply from_elements_flat; lia].
  destruct (from_elements_back l) as (_ & _ & D). split; auto. left.
  unfold pv_from_iter in Hok. rewrite (proj2 (Nat.leb_gt _ _)) in Hok by auto. destruct Hok as [Hok1 Hok2]. cbn in *.
  destruct Hok2 as [_ Hok2]. unfold pv_elems in Hok1. cbn in Hok1. congruence.
Qed.
Lemma starts_flat (v : pvec) l : starts v l -> length l <= limit -> flat_inv v.
Proof.
  pose proof inline_size_pos.
  inversion 1; subst; intros L; [repeat split; cbn; lia|repeat split; cbn; lia|]. now apply from_iter_flat.
Qed.

Lemma flat_push_back (v : pvec) x : flat_inv v -> pv_len v < limit -> flat_inv (pv_push_back v x).
Proof.
  intros [Hok Hf] L. split; [now apply pv_push_back_ok|]. unfold pv_push_back.
  Local Transparent LEAF_CAPACITY ADAPTIVE_INLINE_SIZE. assert (LEAF_CAPACITY = ADAPTIVE_INLINE_SIZE) by reflexivity.
  Local Opaque LEAF_CAPACITY ADAPTIVE_INLINE_SIZE. destruct Hok as [Hl Ho]. unfold pv_elems in Hl. destruct (inner v) as [es|t].
  - destruct (Nat.ltb_spec (length es) ADAPTIVE_INLINE_SIZE) as [Hlt|Hge]; cbn [inner pv_tree_push_back]; [rewrite app_length; cbn; lia|].
    destruct (from_elements_ok es) as [O1 O2]. assert (K : t_len (from_elements es) = length es) by (destruct O1 as [_ O1]; congruence).
    apply flat_tree_push_back; auto; [apply from_elements_flat; lia|lia].
  - cbn. destruct Ho as [Ho1 Ho2]. apply flat_tree_push_back; auto; [now split|lia].
Qed.
Lemma flat_push_front (v : pvec) x : flat_inv v -> pv_len v < limit -> flat_inv (pv_push_front v x).
Proof.
  intros [Hok Hf] L. split; [now apply pv_push_front_ok|]. unfold pv_push_front.
  Local Transparent LEAF_CAPACITY ADAPTIVE_INLINE_SIZE. assert (LEAF_CAPACITY = ADAPTIVE_INLINE_SIZE) by reflexivity.
  Local Opaque LEAF_CAPACITY ADAPTIVE_INLINE_SIZE. destruct Hok as [Hl Ho]. unfold pv_elems in Hl. destruct (inner v) as [es|t].
  - destruct (Nat.ltb_spec (length es) ADAPTIVE_INLINE_SIZE) as [Hlt|Hge]; cbn [inner pv_tree_push_front length]; [lia|].
    destruct (from_elements_ok es) as [O1 O2]. assert (K : t_len (from_elements es) = length es) by (destruct O1 as [_ O1]; congruence).
    apply flat_tree_push_front; auto; [apply from_elements_flat; lia|lia].
  - cbn. destruct Ho as [Ho1 Ho2]. apply flat_tree_push_front; auto; [now split|lia].
Qed.

Lemma flat_step o (v : pvec) : is_grow o = true -> flat_inv v ->
  length (fst (list_step o (pv_elems v))) <= limit ->
  exists v', vec_step o v = Ret (v', snd (list_step o (pv_elems v))) /\
             flat_inv v' /\ pv_elems v' = fst (list_step o (pv_elems v)).
Proof.
  intros Hc Hg Hlen. pose proof Hg as [Hok Hf].
  destruct (grow_step _ Hc Hok) as (v' & E1 & E2 & E3).
  exists v'. split; auto. split; auto. pose proof Hok as [Hl _].
  destruct o; try discriminate Hc; cbn [vec_step list_step fst] in *.
  - injection E1 as <-. rewrite app_length in Hlen. cbn in Hlen. apply flat_push_back; auto. lia.
  - injection E1 as <-. cbn in Hlen. apply flat_push_front; auto. lia.
  - destruct (pv_update v i x) as [w|] eqn:E; [|discriminate]. cbn in E1. injection E1 as <-. split; auto.
    destruct (pv_update_inner _ _ _ E) as [->|[(es & A1 & A2)|(t & t' & A1 & A2 & A3)]]; auto.
    + rewrite A2, list_set_length. now rewrite A1 in Hf.
    + rewrite A2. rewrite A1 in Hf. destruct Hok as [_ Ho]. rewrite A1 in Ho. eapply flat_tree_update; eauto.
  - injection E1 as <-. rewrite app_length in Hlen. rewrite <- Hl in Hlen. clear - Hg Hlen. unfold pv_extend. revert v Hg Hlen.
    induction xs as [|x xs IH]; intros v Hg Hlen; cbn in *; auto.
    apply IH; [apply flat_push_back; auto; lia|].
    destruct (pv_push_back_ok x (proj1 Hg)) as [[A1 _] A2]. rewrite A1, A2, app_length. cbn. destruct Hg as [[B _] _]. lia.
  - rewrite pv_map_ok in E1 by auto. cbn in E1. injection E1 as <-. now apply from_iter_flat.
Qed.

Lemma flat_run ops : forall v : pvec, flat_inv v -> Forall (fun o => is_grow o = true) ops ->
  stays_within limit ops (pv_elems v) ->
  exists v', vec_run ops v = Ret (v', snd (list_run ops (pv_elems v))) /\
             flat_inv v' /\ pv_elems v' = fst (list_run ops (pv_elems v)).
Proof.
  induction ops as [|o ops IH]; intros v Hs Hc Hw.
  - exists v. auto.
  - inversion Hc; subst. cbn in Hw. destruct Hw as [_ Hw].
    assert (Hlen : length (fst (list_step o (pv_elems v))) <= limit) by (destruct ops; cbn in Hw; tauto).
    destruct (flat_step _ H1 Hs Hlen) as (v1 & S1 & I1 & E1).
    rewrite <- E1 in Hw. destruct (IH v1 I1 H2 Hw) as (v2 & S2 & I2 & E2).
    exists v2. cbn [vec_run list_run]. rewrite S1. cbn [obind fst snd]. rewrite S2. cbn [obind fst snd]. rewrite E1 in *.
    destruct (list_step o (pv_elems v)) as [l1 r1]. cbn [fst snd] in *.
    destruct (list_run ops l1) as [l2 rs]. cbn [fst snd] in *. auto.
Qed.

Lemma flat_split (v : pvec) i : flat_inv v ->
  exists l r, pv_split_at v i = Ret (l, r) /\ pv_ok l /\ pv_ok r /\
    pv_elems l = firstn i (pv_elems v) /\ pv_elems r = skipn i (pv_elems v).
Proof.
  intros [Hok Hf]. pose proof Hok as [Hl Ho]. assert (Hn : pv_ok (@pv_new T)) by (split; reflexivity || (cbn; auto)).
  unfold pv_split_at. destruct (Nat.leb_spec (pv_len v) i) as [H|H].
  { exists v, pv_new. rewrite firstn_all2, skipn_all2 by lia. auto 6. }
  destruct (Nat.eqb_spec i 0) as [->|Hi]; [exists pv_new, v; auto 6|].
  unfold pv_elems in *. destruct (inner v) as [es|t] eqn:Ei.
  - eexists _, _; split; [reflexivity|].
    assert (Hx : length (firstn i es) = i) by (rewrite firstn_length; lia).
    assert (Hs : length (skipn i es) = pv_len v - i) by (rewrite skipn_length; lia).
    repeat split; cbn; auto.
  - destruct Hf as [D _]. destruct (@tree_split_at_ok T t i) as (l & r & E & L1 & R1 & L2 & R2 & _); auto.
    { destruct Ho as [_ Ho]. lia. }
    rewrite E. cbn [obind fst snd]. eexists _, _; split; [reflexivity|].
    assert (Hx : length (firstn i (tree_elems t)) = i) by (rewrite firstn_length; lia).
    assert (Hs : length (skipn i (tree_elems t)) = pv_len v - i) by (rewrite skipn_length; lia).
    split; [split; cbn; auto; unfold pv_elems; cbn; congruence|].
    split; [split; cbn; auto; unfold pv_elems; cbn; congruence|]. auto.
Qed.

Lemma flat_split_view o (v : pvec) : is_split_view o = true -> flat_inv v ->
  exists v', vec_step o v = Ret (v', snd (list_step o (pv_elems v))) /\
             pv_ok v' /\ pv_elems v' = fst (list_step o (pv_elems v)).
Proof.
  intros Hc Hf. pose proof Hf as [[Hl _] _]. assert (Hn : pv_ok (@pv_new T)) by (split; reflexivity || (cbn; auto)).
  destruct o; try discriminate Hc; cbn [vec_step list_step fst snd].
  - unfold pv_take. destruct (Nat.leb_spec (pv_len v) n); [exists v; rewrite firstn_all2 by lia; repeat split; apply Hf|].
    destruct (flat_split n Hf) as (l & r & -> & A & B & C & D). cbn. eauto.
  - unfold pv_skip. destruct (Nat.leb_spec (pv_len v) n); [exists pv_new; rewrite skipn_all2 by lia; auto|].
    destruct (flat_split n Hf) as (l & r & -> & A & B & C & D). cbn. eauto.
  - destruct (flat_split i Hf) as (l & r & -> & A & B & C & D). cbn. eauto.
  - destruct (flat_split i Hf) as (l & r & -> & A & B & C & D). cbn. eauto.
Qed.

Lemma flat_split_grow_faithful (v : pvec) l ops1 s ops2 : starts v l ->
  Forall (fun o => is_grow o = true) ops1 -> stays_within limit ops1 l -> is_split_view s = true ->
  Forall (fun o => is_grow o = true) ops2 ->
  faithful v l (ops1 ++ s :: ops2).
Proof.
  intros Hs H1 Hw He H2. destruct (starts_ok Hs) as [Hok El].
  destruct (@flat_run ops1 v) as (v1 & R1 & I1 & E1); auto.
  { eapply starts_flat; eauto. destruct ops1; cbn in Hw; tauto. }
  { now rewrite El. }
  destruct (flat_split_view _ He I1) as (v2 & R2 & I2 & E2).
  destruct (run_invariant (@pv_ok T) is_grow) with (ops := ops2) (v := v2)
    as (v3 & R3 & I3 & E3); auto.
  { intros; now apply grow_step. }
  rewrite El in *.
  exists v3. rewrite vec_run_app, R1. cbn [obind fst snd vec_run].
  rewrite R2. cbn [obind fst snd]. rewrite R3. cbn [obind omap fst snd].
  rewrite list_run_app. cbn [fst snd list_run].
  rewrite <- E1. destruct (list_step s (pv_elems v1)) as [l2 r2]. cbn [fst snd] in *.
  rewrite <- E2. destruct (list_run ops2 (pv_elems v2)) as [l3 rs]. cbn [fst snd] in *.
  split; auto. rewrite <- E3. now apply pv_ok_represents.
Qed.

End Flat.

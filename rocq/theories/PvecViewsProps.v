(** C06, C07, C08 for histories at both ends that also cut the vector, as counted by [PvecViewsSpec.cut_run]. *)
From Coq Require Import List Arith Lia Bool.
From Verif Require Import Base ListFacts PvecModel PvecSpec PvecFacts PvecShape PvecEnds PvecHist PvecFront PvecQueue
  PvecProps PvecDequeSpec PvecDequeProps PvecViewsSpec CopySpec CopyProps.
Import ListNotations.
Open Scope outcome_scope.
Set Implicit Arguments.
Unset Strict Implicit.

Section Views.
Context {T : Type}.
Notation node := (node T).
Notation tree := (tree T).
Notation pvec := (pvec T).
Notation op := (op T).

(** ** The shape of the middle *)
Definition shaped (v : pvec) : Prop :=
  match inner v with Inline _ => True | Tree t => gshape (t_root t) /\ depth (t_root t) <= t_height t end.

Lemma node_pop_front_uni (n : node) : forall d n' x, node_ok n -> uni d n -> node_pop_front n = Ret (Some (n', x)) ->
  node_ok n' /\ (uni d n' \/ esize n' = 0).
Proof.
  induction n as [es|cs sz IH] using node_ind'; intros d n' x Hok Hu E.
  - apply uni_leaf in Hu as [-> Hne]. destruct es as [|y es]; [easy|]. cbn in E. injection E as <- <-.
    split; [constructor|]. destruct es; [now right|left; now split].
  - apply uni_branch in Hu as (d' & -> & Hne & Hu). apply node_ok_branch_inv in Hok as (_ & Hok & ->).
    destruct cs as [|c cs']; [easy|].
    inversion IH as [|? ? IHc _]; subst. inversion Hok as [|? ? Hokc Hok1]; subst. inversion Hu as [|? ? Huc Hu1]; subst.
    destruct (node_pop_front_filled Hokc (uni_full _ _ Huc)) as (c' & y & Ec & _ & _ & _).
    destruct (IHc _ _ _ Hokc Huc Ec) as [Hc' Hd].
    rewrite (node_pop_front_branch _ _ Hc' Ec) in E. injection E as <- <-.
    split; [now apply drop_front_ok|]. unfold drop_front. destruct (Nat.eqb_spec (esize c') 0) as [E0|E0].
    + destruct cs' as [|a cs']; [now right|]. left. apply uni_branch. exists d'. repeat split; [discriminate|auto].
    + left. apply uni_branch. exists d'. repeat split; [discriminate|]. constructor; [|auto]. now destruct Hd.
Qed.
Lemma leaves_shape (ls : list node) sz : ls <> [] -> Forall neleaf ls -> gshape (Branch ls sz) /\ depth (Branch ls sz) = 1.
Proof.
  intros Hne Hl. destruct ls as [|x xs]; [easy|]. inversion Hl as [|? ? Hx Hxs]; subst. split.
  - apply G_one; [apply uni_gshape with 0; now apply neleaf_uni|exact Hxs].
  - cbn [depth map]. rewrite list_max_cons_leaves by exact Hxs. destruct x; [reflexivity|easy].
Qed.
Lemma node_pop_front_gshape (n n' : node) x : gshape n -> node_ok n -> full n -> node_pop_front n = Ret (Some (n', x)) ->
  gshape n' /\ depth n' <= depth n.
Proof.
  intros Hg. revert n' x. induction Hg as [es|d us ls sz Hne Hu Hl|g ls sz Hg IH Hl]; intros n' x Hok Hf E.
  - destruct es as [|y es]; [discriminate|]. cbn in E. injection E as <- <-. split; [constructor|cbn; lia].
  - pose proof (@uni_G_depth _ d us ls sz Hne Hu Hl) as Dn. apply node_ok_branch_inv in Hok as (_ & Hok & ->). rewrite Dn.
    destruct us as [|u us]; [easy|]. inversion Hu as [|? ? Hu1 Hu2]; subst.
    cbn [app] in *. inversion Hok as [|? ? Hoku Hok']; subst.
    destruct (node_pop_front_filled Hoku (uni_full _ _ Hu1)) as (u' & y & Ec & _ & _ & _).
    destruct (node_pop_front_uni Hoku Hu1 Ec) as [Hu' Hd].
    rewrite (node_pop_front_branch _ _ Hu' Ec) in E. injection E as <- <-.
    unfold drop_front. destruct (Nat.eqb_spec (esize u') 0) as [E0|E0].
    + destruct us as [|u2 us].
      * cbn [app]. destruct ls as [|a ls]; [split; [constructor|cbn; lia]|].
        destruct (@leaves_shape (a :: ls) (Some (map esize (a :: ls)))) as [A B]; [discriminate|exact Hl|].
        split; [exact A|]. rewrite B. lia.
      * cbn [app]. set (s := Some _). split.
        -- apply (@G_uni _ d (u2 :: us)); [discriminate|exact Hu2|exact Hl].
        -- pose proof (@uni_G_depth _ d (u2 :: us) ls s ltac:(discriminate) Hu2 Hl) as D. cbn [app] in D. lia.
    + destruct Hd as [Hd|]; [|contradiction]. set (s := Some _). split.
      * apply (@G_uni _ d (u' :: us)); [discriminate|now constructor|exact Hl].
      * pose proof (@uni_G_depth _ d (u' :: us) ls s ltac:(discriminate) ltac:(now constructor) Hl) as D. cbn [app] in D. lia.
  - apply node_ok_branch_inv in Hok as (_ & Hok & ->). inversion Hok as [|? ? Hokg Hok']; subst.
    inversion Hf as [|? ? _ Hfs]; subst. inversion Hfs as [|? ? Hfg _]; subst.
    destruct (node_pop_front_filled Hokg Hfg) as (g' & y & Ec & Hg' & _ & _).
    destruct (IH _ _ Hokg Hfg Ec) as [Gs Gd].
    rewrite (node_pop_front_branch _ _ Hg' Ec) in E. injection E as <- <-.
    cbn [depth map]. rewrite (list_max_cons_leaves _ Hl).
    unfold drop_front. destruct (Nat.eqb_spec (esize g') 0) as [E0|E0].
    + destruct ls as [|a ls]; [split; [constructor|cbn; lia]|].
      destruct (@leaves_shape (a :: ls) (Some (map esize (a :: ls)))) as [A B]; [discriminate|exact Hl|].
      split; [exact A|]. rewrite B. lia.
    + split; [now apply G_one|]. cbn [depth map]. rewrite (list_max_cons_leaves _ Hl). lia.
Qed.

Lemma splits_filled (n l r : node) i : splits n i l r -> node_ok n -> full n -> filled l /\ filled r.
Proof.
  intros Hs. induction Hs as [es i Hi|cs sz k c j l r Hc Hj Hs IH]; intros Hok Hf.
  - split.
    + destruct (firstn i es) eqn:E; [now left|right; constructor; discriminate].
    + destruct (skipn i es) eqn:E; [now left|right; constructor; discriminate].
  - apply node_ok_branch_inv in Hok as (_ & Hok & ->). inversion Hf as [|? ? _ Hfs]; subst.
    destruct (IH (Forall_nth _ Hok Hc) (Forall_nth _ Hfs Hc)) as [Fl Fr].
    destruct (splits_ok Hs (Forall_nth _ Hok Hc)) as (L1 & R1 & _).
    assert (Hopt : forall a : node, node_ok a -> filled a -> Forall full (if 0 <? calculate_size a then [a] else [])).
    { intros a Ha Fa. rewrite calculate_size_ok by exact Ha. destruct (Nat.ltb_spec 0 (esize a)); [|constructor].
      repeat constructor. now apply filled_full. }
    assert (Hb : forall ks : list node, Forall full ks -> filled (match ks with [] => Leaf [] | _ => make_relaxed ks end)).
    { intros [|a ks] H; [now left|]. right. now constructor. }
    split.
    + unfold create_left_branch. apply Hb. apply Forall_app; split; [now apply Forall_firstn'|now apply Hopt].
    + unfold create_right_branch. apply Hb. apply Forall_app; split; [now apply Hopt|now apply Forall_skipn'].
Qed.

(** ** The calls at the ends keep the shape *)
Lemma from_iter_shaped (l : list T) : shaped (pv_from_iter l).
Proof.
  destruct (from_iter_back l) as [_ H]. unfold shaped. destruct (inner (pv_from_iter l)); [exact I|].
  destruct H as (_ & A & B). now split.
Qed.
Lemma push_back_shaped (v : pvec) x : shaped v -> shaped (pv_push_back v x).
Proof.
  assert (G : forall t : tree, gshape (t_root t) /\ depth (t_root t) <= t_height t ->
              gshape (t_root (tree_push_back t x)) /\ depth (t_root (tree_push_back t x)) <= t_height (tree_push_back t x)).
  { intros t [A B]. unfold tree_push_back. destruct (length (t_tail t) <? LEAF_CAPACITY); [now split|].
    unfold push_tail_to_tree. destruct (t_tail t) as [|y ys]; [now split|].
    assert (P : gshape (push_leaf (t_root t) (Leaf (y :: ys)))) by now apply gshape_push_leaf.
    cbn [t_root t_height tree_push_back_tail]. split; [exact P|]. now rewrite gshape_depth. }
  unfold shaped, pv_push_back. destruct (inner v) as [es|t]; intros H.
  - destruct (length es <? ADAPTIVE_INLINE_SIZE); cbn [inner]; [exact I|]. apply G.
    destruct (from_elements_back es) as (_ & A & B). now split.
  - cbn [inner]. now apply G.
Qed.
Lemma push_front_shaped (v : pvec) x s : at_place v s -> place_front s < 64 -> shaped v -> shaped (pv_push_front v x).
Proof.
  intros [_ P] L. unfold shaped, pv_push_front. destruct (inner v) as [es|t]; intros H.
  - destruct (length es <? ADAPTIVE_INLINE_SIZE); cbn [inner]; [exact I|].
    destruct (from_elements_back es) as (E & A & B). unfold pv_tree_push_front, tree_push_front. rewrite E, leaf64.
    cbn [Nat.ltb Nat.leb length]. now split.
  - destruct s as [n|f m b]; [easy|]. destruct P as [Hf _]. cbn [place_front] in L.
    cbn [inner]. unfold pv_tree_push_front, tree_push_front. rewrite leaf64, (proj2 (Nat.ltb_lt _ _)) by lia. exact H.
Qed.
Lemma pop_back_shaped (v v' : pvec) s r : at_place v s -> place_pop_back s <> None -> shaped v ->
  vec_step PopBack v = Ret (v', r) -> shaped v'.
Proof.
  intros [[Hl Ho] P] Hs H E. cbn [vec_step] in E. unfold pv_pop_back in E. destruct (pv_is_empty v).
  { cbn in E. now injection E as <- <-. }
  unfold shaped in *. destruct (inner v) as [es|t] eqn:Ei.
  - destruct (pop_last es) as [[es' x]|]; cbn in E; injection E as <- _; [exact I|]. now rewrite Ei.
  - destruct s as [n|f m b]; [easy|]. destruct P as (Hf & Hm & Hb & _ & _ & Hfill). destruct Ho as [Nk Hlen].
    destruct H as [Hg Hd]. unfold tree_pop_back in E. destruct (t_len t =? 0).
    { cbn in E. injection E as <- _. rewrite Ei. now split. }
    destruct (list_last_case (t_tail t)) as [Et|(a & x & Et)].
    + rewrite Et in E. cbn [pop_last rev] in E. unfold pop_from_tree in E.
      destruct (t_len t =? 0). { cbn in E. injection E as <- _. rewrite Ei. now split. }
      destruct (usub (t_len t) (length (t_tail t))) as [k|]; [|discriminate]. cbn [obind] in E.
      destruct (k =? 0). { cbn in E. injection E as <- _. rewrite Ei. now split. }
      destruct (node_get (t_root t) (k - 1)) as [y|] eqn:Eg; [|cbn in E; injection E as <- _; rewrite Ei; now split].
      destruct (k =? 1).
      { cbn in E. injection E as <- _. cbn. split; [constructor|lia]. }
      assert (Hz : 0 < esize (t_root t)).
      { rewrite node_get_ok in Eg by exact Nk. destruct (elems (t_root t)) eqn:Ee; [now destruct (k - 1)|]. unfold esize. rewrite Ee. cbn. lia. }
      destruct (node_pop_back_gshape Nk Hg Hz) as (n' & z & E1 & _ & _ & G' & D').
      rewrite E1 in E. cbn in E. injection E as <- _. cbn. split; [exact G'|lia].
    + rewrite Et, pop_last_app in E. cbn in E. injection E as <- _. cbn. now split.
Qed.
Lemma pop_front_shaped (v v' : pvec) s r : at_place v s -> shaped v ->
  vec_step PopFront v = Ret (v', r) -> shaped v'.
Proof.
  intros [[Hl Ho] P] H E. cbn [vec_step] in E. unfold pv_pop_front in E. destruct (pv_is_empty v).
  { cbn in E. now injection E as <- <-. }
  unfold shaped in *. destruct (inner v) as [es|t] eqn:Ei.
  - destruct es as [|x es]; cbn in E; injection E as <- _; [now rewrite Ei|exact I].
  - destruct s as [n|f m b]; [easy|]. destruct P as (Hf & Hm & Hb & _ & _ & Hfill). destruct Ho as [Nk Hlen].
    destruct H as [Hg Hd]. unfold tree_pop_front in E. destruct (t_len t =? 0).
    { cbn in E. injection E as <- _. rewrite Ei. now split. }
    destruct (t_head t) as [|h hs] eqn:Eh; [|cbn in E; injection E as <- _; cbn; now split].
    unfold pop_front_from_tree in E. destruct (usub (t_len t) (length (t_head t))) as [s1|]; [|discriminate].
    cbn [obind] in E. destruct (usub s1 (length (t_tail t))) as [k|]; [|discriminate]. cbn [obind] in E.
    assert (Tl : forall o, o = pop_front_from_tail t ->
      match o with Some (t', x) => gshape (t_root t') /\ depth (t_root t') <= t_height t' | None => True end).
    { intros o ->. unfold pop_front_from_tail. destruct (pop_last (rev (t_tail t))) as [[a b']|]; cbn; [|exact I].
      split; [constructor|lia]. }
    specialize (Tl _ eq_refl).
    destruct (0 <? k); cbn [obind] in E.
    + destruct Hfill as [E0|Hfull].
      * rewrite E0 in E. cbn [node_pop_front obind] in E.
        destruct (pop_front_from_tail t) as [[t' x]|]; cbn in E; injection E as <- _; [exact Tl|]. rewrite Ei. now split.
      * destruct (node_pop_front_filled Nk Hfull) as (n' & x & E1 & _ & _ & _).
        destruct (node_pop_front_gshape Hg Nk Hfull E1) as [G' D'].
        rewrite E1 in E. cbn in E. injection E as <- _. cbn. split; [exact G'|lia].
    + destruct (pop_front_from_tail t) as [[t' x]|]; cbn in E; injection E as <- _; [exact Tl|]. rewrite Ei. now split.
Qed.

(** ** Cutting *)
Definition good_root (t : tree) : Prop :=
  filled (t_root t) /\ gshape (t_root t) /\ depth (t_root t) <= t_height t.
Lemma empty_root : filled (@Leaf T []) /\ gshape (@Leaf T []) /\ depth (@Leaf T []) <= 0.
Proof. repeat split; [now left|constructor|cbn; lia]. Qed.

Lemma tree_split_place (t : tree) i : tree_ok t -> good_root t -> 0 < i < t_len t ->
  exists l r, tree_split_at t i = Ret (l, r) /\ tree_ok l /\ tree_ok r /\
    tree_elems l = firstn i (tree_elems t) /\ tree_elems r = skipn i (tree_elems t) /\ good_root l /\ good_root r /\
    let f := length (t_head t) in let m := esize (t_root t) in
    ((i <= f /\ length (t_head l) = i /\ esize (t_root l) = 0 /\ t_tail l = [] /\ t_height l = 0 /\
      length (t_head r) = f - i /\ t_root r = t_root t /\ t_tail r = t_tail t /\ t_height r = t_height t) \/
     (f < i < f + m /\ t_head l = t_head t /\ esize (t_root l) = i - f /\ t_tail l = [] /\
      t_head r = [] /\ esize (t_root r) = f + m - i /\ t_tail r = t_tail t /\
      t_height r <= t_height l /\ t_height r <= t_height t) \/
     (f < i /\ f + m <= i /\ t_head l = t_head t /\ t_root l = t_root t /\ length (t_tail l) = i - f - m /\
      t_head r = [] /\ esize (t_root r) = 0 /\ length (t_tail r) = f + m + length (t_tail t) - i /\ t_height r = 0)).
Proof.
  intros Hok (Hfill & Hg & Hd) Hi.
  destruct (tree_split_at_ok Hok Hd Hi) as (l & r & E & L1 & R1 & L2 & R2 & _).
  exists l, r. split; [exact E|]. split; [exact L1|]. split; [exact R1|]. split; [exact L2|]. split; [exact R2|].
  destruct Hok as [Nk Hlen]. rewrite tree_elems_length in Hlen. cbv zeta.
  unfold tree_split_at in E. rewrite (proj2 (Nat.eqb_neq _ _)), (proj2 (Nat.leb_gt _ _)) in E by lia.
  destruct (Nat.leb_spec i (length (t_head t))) as [H1|H1].
  { injection E as <- <-. split; [exact empty_root|]. split; [repeat split; assumption|]. left.
    cbn. rewrite firstn_length, skipn_length. unfold esize. cbn. repeat split; lia. }
  rewrite usub_ok in E by lia. cbn [obind] in E. rewrite usub_ok in E by lia. cbn [obind] in E.
  destruct (Nat.leb_spec (length (t_head t) + (t_len t - length (t_head t) - length (t_tail t))) i) as [H2|H2].
  - rewrite usub_ok in E by lia. cbn [obind] in E. rewrite usub_ok in E by lia. cbn [obind] in E.
    injection E as <- <-. split; [repeat split; assumption|]. split; [exact empty_root|]. right; right.
    cbn. rewrite firstn_length, skipn_length. change (esize (@Leaf T [])) with 0. repeat split; lia.
  - rewrite usub_ok in E by lia. cbn [obind] in E. unfold split_tree_at in E.
    destruct (@split_along_path_splits T (t_root t) (t_height t) (t_height t) (i - length (t_head t)) Nk Hd)
      as (a & b & E1 & S1); [lia|].
    rewrite E1 in E. injection E as <- <-.
    destruct (splits_gshape S1 Nk Hg) as (GL & GR & GD & GD2).
    destruct (splits_ok S1 Nk) as (NL & NR & EL & ER & _).
    assert (Hfull : full (t_root t)) by (apply filled_full; [exact Hfill|lia]).
    destruct (splits_filled S1 Nk Hfull) as [FL FR].
    assert (Sa : esize a = i - length (t_head t)).
    { unfold esize. rewrite EL, firstn_length. fold (esize (t_root t)). lia. }
    assert (Sb : esize b = length (t_head t) + esize (t_root t) - i).
    { unfold esize at 1. rewrite ER, skipn_length. fold (esize (t_root t)). lia. }
    unfold good_root. cbn. rewrite !gshape_depth by assumption.
    split; [repeat split; auto|]. split; [repeat split; auto|]. right; left. repeat split; auto; lia.
Qed.

Definition cut_heights (v l r : pvec) : Prop :=
  match inner v with
  | Inline _ => exists a b, inner l = Inline a /\ inner r = Inline b /\ length a < 64
  | Tree t => exists tl tr, inner l = Tree tl /\ inner r = Tree tr /\ t_height tr <= t_height tl /\
                t_height tr <= t_height t /\ (t_height tr = 0 \/ t_tail tl = [])
  end.
Definition front_heights (v l r : pvec) : Prop :=
  exists t tl tr, inner v = Tree t /\ inner l = Tree tl /\ inner r = Tree tr /\ t_height tl = 0 /\ t_tail tl = [] /\
    t_root tr = t_root t /\ t_height tr = t_height t.

Lemma new_place : at_place (@pv_new T) (Short 0) /\ shaped (@pv_new T).
Proof. repeat split; cbn; lia. Qed.
Lemma split_place (v : pvec) s i : at_place v s -> shaped v ->
  exists l r, pv_split_at v i = Ret (l, r) /\ at_place l (place_left i s) /\ shaped l /\
    at_place r (place_right i s) /\ shaped r /\
    pv_elems l = firstn i (pv_elems v) /\ pv_elems r = skipn i (pv_elems v) /\
    (place_front s < i < pv_len v -> cut_heights v l r) /\ (0 < i <= place_front s -> i < pv_len v -> front_heights v l r).
Proof.
  intros P Hsh. pose proof (at_place_size P) as Hsz. pose proof P as [[Hl Ho] P0].
  assert (Hlen : pv_len v = place_size s) by congruence.
  unfold pv_split_at, place_left, place_right. rewrite Hlen.
  destruct (Nat.leb_spec (place_size s) i) as [H|H].
  { exists v, pv_new. split; [reflexivity|]. split; [exact P|]. split; [exact Hsh|]. split; [apply new_place|].
    split; [exact I|]. rewrite firstn_all2, skipn_all2 by lia. repeat split; try lia. }
  destruct (Nat.eqb_spec i 0) as [->|Hi].
  { exists pv_new, v. split; [reflexivity|]. split; [apply new_place|]. split; [exact I|]. split; [exact P|].
    split; [exact Hsh|]. repeat split; lia. }
  unfold shaped in Hsh. unfold pv_elems in *. unfold cut_heights, front_heights.
  destruct (inner v) as [es|t] eqn:Ei, s as [n|f m b]; try easy.
  - cbn in *. eexists _, _. split; [reflexivity|].
    assert (Hf : length (firstn i es) = i) by (rewrite firstn_length; lia).
    assert (Hs : length (skipn i es) = n - i) by (rewrite skipn_length; lia).
    split; [repeat split; cbn; auto; lia|]. split; [exact I|]. split; [repeat split; cbn; auto; lia|]. split; [exact I|].
    split; [reflexivity|]. split; [reflexivity|]. split; [|lia]. intros _. eexists _, _. repeat split. lia.
  - destruct P0 as (Hf & Hm & Hb & Lb & Lf & Hfill). pose proof Ho as [Nk Hlen']. cbn [place_size place_front] in *.
    destruct (@tree_split_place t i Ho) as (l & r & E & OL & OR & EL & ER & GL & GR & Hc); [now split|lia|].
    rewrite E. cbn [obind fst snd]. eexists _, _. split; [reflexivity|].
    assert (Hx : length (tree_elems l) = i) by (rewrite EL, firstn_length; lia).
    assert (Hy : length (tree_elems r) = f + m + b - i) by (rewrite ER, skipn_length; lia).
    assert (PL : pv_ok (mkPvec (Tree l) i (generation v + 1))) by (split; [cbn; unfold pv_elems; cbn; lia|exact OL]).
    assert (PR : pv_ok (mkPvec (Tree r) (f + m + b - i) (generation v + 1))) by (split; [cbn; unfold pv_elems; cbn; lia|exact OR]).
    destruct GL as (FL & SL), GR as (FR & SR).
    assert (G : at_place (mkPvec (Tree l) i (generation v + 1))
                  (if i <=? f then Long i 0 0 else if i <? f + m then Long f (i - f) 0 else Long f m (i - f - m)) /\
                at_place (mkPvec (Tree r) (f + m + b - i) (generation v + 1))
                  (if i <=? f then Long (f - i) m b else if i <? f + m then Long 0 (f + m - i) b
                   else Long 0 0 (f + m + b - i)) /\
                (f < i -> t_height r <= t_height l /\ t_height r <= t_height t /\ (t_height r = 0 \/ t_tail l = [])) /\
                (i <= f -> t_height l = 0 /\ t_tail l = [] /\ t_root r = t_root t /\ t_height r = t_height t)).
    { cbv zeta in Hc. rewrite Hf, Hm, Hb in Hc. destruct Hc as [Hc|[Hc|Hc]].
      - destruct Hc as (C1 & C2 & C3 & C4 & C5 & C6 & C7 & C8 & C9). rewrite (proj2 (Nat.leb_le _ _) C1).
        split; [split; [exact PL|]; cbn; rewrite C4; cbn; repeat split; auto; lia|].
        split; [split; [exact PR|]; cbn; rewrite C8, C7; repeat split; auto; try lia; now rewrite <- C7|]. split; [lia|auto].
      - destruct Hc as (C1 & C2 & C3 & C4 & C5 & C6 & C7 & C8 & C9).
        rewrite (proj2 (Nat.leb_gt _ _)), (proj2 (Nat.ltb_lt _ _)) by lia.
        split; [split; [exact PL|]; cbn; rewrite C4, C2; cbn; repeat split; auto; lia|].
        split; [split; [exact PR|]; cbn; rewrite C5, C7; cbn; repeat split; auto; lia|]. split; [auto|lia].
      - destruct Hc as (C0 & C1 & C2 & C3 & C4 & C5 & C6 & C7 & C8).
        rewrite (proj2 (Nat.leb_gt _ _)), (proj2 (Nat.ltb_ge _ _)) by lia.
        split; [split; [exact PL|]; cbn; rewrite C2, C3; repeat split; auto; try lia; now rewrite <- C3|].
        split; [split; [exact PR|]; cbn; rewrite C5; cbn; repeat split; auto; lia|]. split; [lia|lia]. }
    destruct G as (G1 & G2 & G3 & G4). split; [exact G1|]. split; [exact SL|]. split; [exact G2|]. split; [exact SR|].
    split; [exact EL|]. split; [exact ER|]. split.
    + intros Hi'. destruct G3 as (A & B & C); [lia|]. exists l, r. auto 6.
    + intros Hi' _. destruct G4 as (A & B & C & D); [lia|]. exists t, l, r. auto 8.
Qed.

(** ** Histories *)
Lemma update_shaped (v v' : pvec) i x : shaped v -> pv_update v i x = Ret v' -> shaped v'.
Proof.
  intros H E. unfold shaped in *.
  destruct (pv_update_inner _ _ _ E) as [->|[(es & A1 & A2)|(t & t' & A1 & A2 & A3)]]; [exact H|now rewrite A2|].
  rewrite A1 in H. rewrite A2. destruct H as [G D].
  destruct (tree_update_cases _ _ _ A3) as [->|[->|[(j & ->)|(j & ->)]]]; cbn; auto.
  split; [now apply node_update_gshape|]. now rewrite node_update_depth.
Qed.
Lemma extend_shaped xs : forall v : pvec, shaped v -> shaped (pv_extend v xs).
Proof. unfold pv_extend. induction xs as [|x xs IH]; intros v H; cbn; [exact H|]. now apply IH, push_back_shaped. Qed.
Lemma starts_shaped (v : pvec) l : starts v l -> shaped v.
Proof. intros [|x|l']; [exact I|exact I|apply from_iter_shaped]. Qed.

Lemma cut_step_right (v : pvec) s s' o : at_place v s -> shaped v -> is_cut o = true ->
  cut_step o (pv_elems v) s = Some s' ->
  exists v', vec_step o v = Ret (v', snd (list_step o (pv_elems v))) /\
    at_place v' s' /\ shaped v' /\ pv_elems v' = fst (list_step o (pv_elems v)).
Proof.
  intros P Hs Ho E. pose proof (at_place_size P) as Hsz. pose proof P as [Hok P0].
  assert (Hlen : pv_len v = place_size s) by (destruct Hok as [Hl _]; congruence).
  destruct (is_ends o) eqn:He.
  - assert (E' : place_step o (pv_elems v) s = Some s' /\
                 match o with PushFront _ => place_front s < 64 | _ => True end).
    { destruct o; try discriminate He; cbn [cut_step] in E; auto.
      destruct (Nat.ltb_spec (place_front s) 64); [auto|discriminate]. }
    destruct E' as [E' Hfr]. destruct (place_step_right P He E') as (v' & R & P' & L').
    exists v'. split; [exact R|]. split; [exact P'|]. split; [|exact L'].
    destruct o as [x|x| | |i x|xs|f|p|n|n|i|i|i x|i|xs|xs]; try discriminate He; cbn [vec_step] in R.
    + injection R as <-. now apply push_back_shaped.
    + injection R as <-. eapply push_front_shaped; eauto.
    + apply (fun H => pop_back_shaped P H Hs R). change (place_step PopBack (pv_elems v) s <> None). now rewrite E'.
    + exact (pop_front_shaped P Hs R).
    + destruct (pv_update v i x) as [w|] eqn:Eu; [|discriminate]. injection R as <-. eapply update_shaped; eauto.
    + injection R as <-. now apply extend_shaped.
    + rewrite pv_map_ok in R by exact Hok. injection R as <-. apply from_iter_shaped.
    + rewrite pv_filter_ok in R by exact Hok. injection R as <-. apply from_iter_shaped.
  - unfold is_cut in Ho. rewrite He in Ho. cbn [orb] in Ho.
    assert (Hl : forall i, place_size s <= i -> place_left i s = s /\ place_right i s = Short 0).
    { intros i Hi. unfold place_left, place_right. now rewrite (proj2 (Nat.leb_le _ _) Hi). }
    destruct o as [x|x| | |i x|xs|f|p|n|n|i|i|i x|i|xs|xs]; try discriminate Ho; cbn [cut_step] in E; injection E as <-;
      cbn [vec_step list_step fst snd].
    + unfold pv_take. rewrite Hlen. destruct (Nat.leb_spec (place_size s) n) as [H|H].
      * exists v. split; [reflexivity|]. rewrite (proj1 (Hl n H)). rewrite firstn_all2 by lia. auto.
      * destruct (split_place n P Hs) as (l & r & -> & A1 & A2 & A3 & A4 & A5 & A6 & _). cbn. eauto 6.
    + unfold pv_skip. rewrite Hlen. destruct (Nat.leb_spec (place_size s) n) as [H|H].
      * exists pv_new. split; [reflexivity|]. rewrite (proj2 (Hl n H)). rewrite skipn_all2 by lia.
        split; [apply new_place|]. split; [exact I|reflexivity].
      * destruct (split_place n P Hs) as (l & r & -> & A1 & A2 & A3 & A4 & A5 & A6 & _). cbn. eauto 6.
    + destruct (split_place i P Hs) as (l & r & -> & A1 & A2 & A3 & A4 & A5 & A6 & _). cbn. eauto 6.
    + destruct (split_place i P Hs) as (l & r & -> & A1 & A2 & A3 & A4 & A5 & A6 & _). cbn. eauto 6.
Qed.
Lemma cut_run_right ops : forall (v : pvec) s s', at_place v s -> shaped v -> Forall (fun o => is_cut o = true) ops ->
  cut_run ops (pv_elems v) s = Some s' ->
  exists v', vec_run ops v = Ret (v', snd (list_run ops (pv_elems v))) /\
    at_place v' s' /\ shaped v' /\ pv_elems v' = fst (list_run ops (pv_elems v)).
Proof.
  induction ops as [|o ops IH]; intros v s s' H Hs Ho E.
  - injection E as <-. exists v. auto.
  - inversion Ho; subst. cbn [cut_run] in E. destruct (cut_step o (pv_elems v) s) as [s1|] eqn:E1; [|discriminate].
    destruct (cut_step_right H Hs H2 E1) as (v1 & R1 & P1 & S1 & L1). rewrite <- L1 in E.
    destruct (IH v1 s1 s' P1 S1 H3 E) as (v2 & R2 & P2 & S2 & L2). rewrite L1 in R2, L2.
    exists v2. cbn [vec_run list_run]. rewrite R1. cbn [obind fst snd]. rewrite R2. cbn [obind fst snd].
    destruct (list_step o (pv_elems v)) as [l1 r1]. cbn [fst snd] in *.
    destruct (list_run ops l1) as [l2 rs]. cbn [fst snd] in *. auto.
Qed.
Lemma cut_history (v : pvec) l ops s : starts v l -> Forall (fun o => is_cut o = true) ops ->
  cut_run ops l (place_start (length l)) = Some s ->
  exists v', vec_run ops v = Ret (v', snd (list_run ops l)) /\ at_place v' s /\ shaped v' /\
    pv_elems v' = fst (list_run ops l).
Proof.
  intros Hs Ho E. pose proof (starts_place Hs) as P. pose proof (starts_shaped Hs) as S.
  destruct (starts_ok Hs) as [_ <-]. eapply cut_run_right; eauto.
Qed.
End Views.

(** Full statements: C06, C07 for every history.  Here: every history of calls at both ends, rebuilding calls and cuts,
    of any length, as long as [cut_run] goes on. *)
Theorem C06_cut_histories_partial {T} (v : pvec T) l ops : starts v l -> Forall (fun o => is_cut o = true) ops ->
  cut_run ops l (place_start (length l)) <> None -> faithful v l ops.
Proof.
  intros Hs Ho E. destruct (cut_run ops l (place_start (length l))) as [s|] eqn:Er; [|easy].
  destruct (cut_history Hs Ho Er) as (v' & R & P & _ & L). exists v'. split; [exact R|]. rewrite <- L.
  apply pv_ok_represents, P.
Qed.
(** Both halves at once *)
Theorem C06_cut_halves_partial {T} (v : pvec T) l ops i : starts v l -> Forall (fun o => is_cut o = true) ops ->
  cut_run ops l (place_start (length l)) <> None ->
  exists w rs a b, vec_run ops v = Ret (w, rs) /\ pv_split_at w i = Ret (a, b) /\
    represents a (firstn i (fst (list_run ops l))) /\ represents b (skipn i (fst (list_run ops l))).
Proof.
  intros Hs Ho E. destruct (cut_run ops l (place_start (length l))) as [s|] eqn:Er; [|easy].
  destruct (cut_history Hs Ho Er) as (w & R & P & S & L).
  destruct (split_place i P S) as (a & b & E1 & A1 & _ & B1 & _ & A2 & B2 & _).
  exists w, (snd (list_run ops l)), a, b. split; [exact R|]. split; [exact E1|]. rewrite <- L, <- A2, <- B2.
  split; apply pv_ok_represents; [apply A1|apply B1].
Qed.
Theorem C07_cut_views_partial {T} (v : pvec T) l ops n : starts v l -> Forall (fun o => is_cut o = true) ops ->
  cut_run ops l (place_start (length l)) <> None ->
  exists w rs a b, vec_run ops v = Ret (w, rs) /\ pv_take w n = Ret a /\ pv_skip w n = Ret b /\
    represents a (firstn n (fst (list_run ops l))) /\ represents b (skipn n (fst (list_run ops l))).
Proof.
  intros Hs Ho E. destruct (cut_run ops l (place_start (length l))) as [s|] eqn:Er; [|easy].
  destruct (cut_history Hs Ho Er) as (w & R & P & S & L).
  destruct (@cut_step_right T w s (place_left n s) (Take n) P S eq_refl eq_refl) as (a & A1 & A2 & _ & A3).
  destruct (@cut_step_right T w s (place_right n s) (Skip n) P S eq_refl eq_refl) as (b & B1 & B2 & _ & B3).
  cbn [vec_step list_step fst snd] in *. exists w, (snd (list_run ops l)), a, b. split; [exact R|].
  destruct (pv_take w n) as [a'|]; [|discriminate]. injection A1 as ->.
  destruct (pv_skip w n) as [b'|]; [|discriminate]. injection B1 as ->.
  rewrite <- L, <- A3, <- B3. repeat (split; [reflexivity|]). split; apply pv_ok_represents; [apply A2|apply B2].
Qed.

(** ** Edits *)
Definition edit_index {T} (o : op T) : nat := match o with Insert i _ | Remove i => i | _ => 0 end.
Lemma insert_right {T} (v : pvec T) s i x : at_place v s -> shaped v ->
  i = 0 \/ place_front s < i \/ place_size s <= i ->
  exists v', vec_step (Insert i x) v = Ret (v', snd (list_step (Insert i x) (pv_elems v))) /\
             pv_ok v' /\ pv_elems v' = fst (list_step (Insert i x) (pv_elems v)).
Proof.
  intros P S Hi. pose proof (at_place_size P) as Hsz. pose proof P as [Hok _]. pose proof Hok as [Hl _].
  cbn [vec_step list_step fst snd]. unfold pv_insert.
  destruct (Nat.leb_spec (pv_len v) i) as [H|H].
  { cbn. eexists; split; [reflexivity|]. rewrite firstn_all2, skipn_all2 by lia. now apply pv_push_back_ok. }
  destruct (Nat.eqb_spec i 0) as [->|Hi0].
  { cbn. eexists; split; [reflexivity|]. now apply pv_push_front_ok. }
  destruct (split_place i P S) as (l & r & E & A1 & _ & B1 & _ & A2 & B2 & Hh & _).
  rewrite E. cbn [obind fst snd]. eexists; split; [reflexivity|].
  destruct (pv_push_back_ok x (proj1 A1)) as [P1 P2].
  destruct (@pv_concat_plain T (pv_push_back l x) r) as [C1 C2]; [exact P1|apply B1| |].
  { right; right. specialize (Hh ltac:(lia)). unfold cut_heights in Hh. destruct (inner v) as [es|t].
    - right. destruct Hh as (a & b & D1 & D2 & D3). unfold pv_is_inline, pv_push_back. rewrite D1, D2, inline64.
      now rewrite (proj2 (Nat.ltb_lt _ _) D3).
    - left. destruct Hh as (tl & tr & D1 & D2 & D3 & D4 & D5). unfold pv_height, pv_push_back. rewrite D1, D2. cbn.
      now apply tree_height_push_back. }
  split; [exact C1|]. now rewrite C2, P2, A2, B2, <- app_assoc.
Qed.
Lemma remove_right {T} (v : pvec T) s i : at_place v s -> shaped v ->
  i = 0 \/ place_front s < i \/ place_size s <= i ->
  exists v', vec_step (Remove i) v = Ret (v', snd (list_step (Remove i) (pv_elems v))) /\
             pv_ok v' /\ pv_elems v' = fst (list_step (Remove i) (pv_elems v)).
Proof.
  intros P S Hi. pose proof (at_place_size P) as Hsz. pose proof P as [Hok _]. pose proof Hok as [Hl _].
  cbn [vec_step list_step fst snd]. unfold pv_remove.
  destruct (Nat.leb_spec (pv_len v) i) as [H|H].
  { cbn [obind]. exists v. rewrite firstn_all2, skipn_all2 by lia. now rewrite app_nil_r. }
  destruct (Nat.eqb_spec (pv_len v) 1) as [H1|H1].
  { cbn. exists pv_new. split; auto. split; [apply new_place|].
    destruct (pv_elems v) as [|a [|b l]]; cbn in *; try lia. replace i with 0 by lia. reflexivity. }
  destruct (split_place i P S) as (l & r & E & A1 & A1' & B1 & B1' & A2 & B2 & Hh & _).
  rewrite E. cbn [obind fst snd].
  assert (Hr : at_place r (place_right i s) /\ (i <> 0 -> place_front (place_right i s) = 0)).
  { split; [exact B1|]. intros Hi0. unfold place_right. rewrite (proj2 (Nat.leb_gt _ _)), (proj2 (Nat.eqb_neq _ _)) by lia.
    destruct s as [n|f m b]; [reflexivity|]. cbn [place_front place_size] in *.
    rewrite (proj2 (Nat.leb_gt _ _)) by lia. now destruct (i <? f + m). }
  destruct Hr as [_ Hfr].
  assert (Hskip : exists r', pv_skip r 1 = Ret r' /\ pv_ok r' /\ pv_elems r' = skipn (Datatypes.S i) (pv_elems v) /\
            (i <> 0 -> pv_elems r' = [] \/ match inner r with
              | Inline _ => pv_is_inline r' = true
              | Tree t => exists t', inner r' = Tree t' /\ t_height t' <= t_height t end)).
  { unfold pv_skip. destruct (Nat.leb_spec (pv_len r) 1) as [H2|H2].
    - exists pv_new. split; auto. split; [apply new_place|]. destruct B1 as [[Lr _] _].
      split; [rewrite <- skipn_S_skipn, <- B2, skipn_all2 by lia; reflexivity|left; reflexivity].
    - destruct (split_place 1 B1 B1') as (l' & r' & F & _ & _ & D1 & _ & _ & D2 & Hg & _).
      rewrite F. cbn. exists r'. split; auto. split; [apply D1|].
      split; [now rewrite D2, B2, skipn_S_skipn|]. intros Hi0. right. rewrite (Hfr Hi0) in Hg. specialize (Hg ltac:(lia)).
      unfold cut_heights in Hg. destruct (inner r).
      + destruct Hg as (a & b & C1 & C2 & C3). unfold pv_is_inline. now rewrite C2.
      + destruct Hg as (tl & tr & C1 & C2 & C3 & C4 & C5). eauto. }
  destruct Hskip as (r' & F & Or & F1 & F2).
  rewrite F. cbn [obind]. eexists; split; [reflexivity|].
  destruct (@pv_concat_plain T l r') as [C1 C2]; [apply A1|exact Or| |].
  - destruct (Nat.eq_dec i 0) as [->|Hi0]; [left; now rewrite A2|].
    destruct (F2 Hi0) as [F3|F3]; [auto|]. right; right.
    specialize (Hh ltac:(lia)). unfold cut_heights in Hh. destruct (inner v).
    + right. destruct Hh as (a & b & D1 & D2 & D3). unfold pv_is_inline in *. rewrite D1. rewrite D2 in F3. now rewrite F3.
    + left. destruct Hh as (tl & tr & D1 & D2 & D3 & _). rewrite D2 in F3. destruct F3 as (t' & E1 & E2).
      unfold pv_height. rewrite D1, E1. lia.
  - split; [exact C1|]. now rewrite C2, A2, F1.
Qed.
(** Full statement (C08): edits anywhere in any history.  Here: one edit after a history as above, at the first place,
    behind the front buffer or beyond the end; then growth. *)
Theorem C08_edit_after_cuts_partial {T} (v : pvec T) l ops1 e ops2 s : starts v l ->
  Forall (fun o => is_cut o = true) ops1 -> cut_run ops1 l (place_start (length l)) = Some s -> is_edit e = true ->
  edit_index e = 0 \/ place_front s < edit_index e \/ place_size s <= edit_index e ->
  Forall (fun o => is_grow o = true) ops2 -> faithful v l (ops1 ++ e :: ops2).
Proof.
  intros Hs Ho Er He Hi H2. destruct (cut_history Hs Ho Er) as (v1 & R1 & P & S & L).
  assert (Hstep : exists v', vec_step e v1 = Ret (v', snd (list_step e (pv_elems v1))) /\
             pv_ok v' /\ pv_elems v' = fst (list_step e (pv_elems v1))).
  { destruct e; try discriminate He; [eapply insert_right; eauto|eapply remove_right; eauto]. }
  destruct Hstep as (v2 & R2 & I2 & E2).
  destruct (run_invariant (@pv_ok T) is_grow) with (ops := ops2) (v := v2) as (v3 & R3 & I3 & E3); auto.
  { intros; now apply grow_step. }
  apply (faithful_after (e :: ops2) R1). rewrite <- L. exists v3. cbn [vec_run list_run]. rewrite R2. cbn [obind fst snd].
  rewrite E2 in R3, E3. destruct (list_step e (pv_elems v1)) as [l2 r2]. cbn [fst snd] in *.
  rewrite R3. cbn [obind fst snd]. destruct (list_run ops2 l2) as [l3 rs]. cbn [fst snd] in *.
  split; auto. rewrite <- E3. now apply pv_ok_represents.
Qed.

(** At a place within the front buffer an edit of a vector with more than one leaf between puts the two parts together
    the wrong way round, whatever the elements are. *)
Lemma run_made {T} ops : forall (v : pvec T) v' rs, made v -> vec_run ops v = Ret (v', rs) -> made v'.
Proof.
  induction ops as [|o ops IH]; intros v v' rs H E; cbn [vec_run] in E; [now injection E as <- _|].
  destruct (vec_step o v) as [[v1 r]|] eqn:E1; cbn [obind fst snd] in E; [|discriminate].
  destruct (vec_run ops v1) as [[v2 rs']|] eqn:E2; cbn [obind fst snd] in E; [|discriminate].
  injection E as <- _. eapply IH; [|exact E2]. eapply made_step; eauto.
Qed.
Lemma tall {T} (v : pvec T) f m b : at_place v (Long f m b) -> shaped v -> capped_vec v -> 64 < m ->
  exists t, inner v = Tree t /\ 0 < t_height t.
Proof.
  intros [_ P] S C Hm. unfold shaped, capped_vec in *. destruct (inner v) as [es|t]; [easy|]. exists t. split; [reflexivity|].
  destruct P as (_ & Hr & _). destruct S as [_ D], C as [C _]. destruct (t_root t) as [es|cs sz]; [|cbn in D; lia].
  apply capped_leaf_inv in C. rewrite leaf64 in C. unfold esize in Hr. cbn in Hr. lia.
Qed.
Lemma swapped {T} (a b : pvec T) : pv_ok a -> pv_ok b -> pv_elems a <> [] -> pv_elems b <> [] ->
  pv_is_inline b = false -> pv_height a < pv_height b -> represents (pv_concat a b) (pv_elems b ++ pv_elems a).
Proof.
  intros Oa Ob Na Nb Hi H. destruct (pv_concat_ok Oa Ob) as [C1 C2]. apply pv_ok_represents in C1. rewrite C2 in C1.
  assert (E : pv_concat_content a b = pv_elems b ++ pv_elems a); [|now rewrite E in C1].
  unfold pv_concat_content. destruct Oa as [La _], Ob as [Lb _].
  rewrite (proj2 (Nat.ltb_lt _ _) H), (proj2 (Nat.eqb_neq (pv_len a) 0)), (proj2 (Nat.eqb_neq (pv_len b) 0)).
  - now rewrite Hi, andb_false_r.
  - rewrite Lb. now destruct (pv_elems b).
  - rewrite La. now destruct (pv_elems a).
Qed.
Theorem C08_insert_in_front {T} (v : pvec T) l ops f m b i x : starts v l -> Forall (fun o => is_cut o = true) ops ->
  cut_run ops l (place_start (length l)) = Some (Long f m b) -> 64 < m -> 0 < i <= f ->
  exists w rs w', vec_run ops v = Ret (w, rs) /\ pv_insert w i x = Ret w' /\
    represents w' (skipn i (fst (list_run ops l)) ++ firstn i (fst (list_run ops l)) ++ [x]).
Proof.
  intros Hs Ho Er Hm Hi. destruct (cut_history Hs Ho Er) as (w & R & P & S & L).
  pose proof (made_capped (run_made (made_start Hs) R)) as C.
  destruct (tall P S C Hm) as (t & Et & Ht). pose proof (at_place_size P) as Hsz. pose proof P as [[Hl _] _].
  cbn [place_size] in Hsz.
  destruct (split_place i P S) as (a & c & E & A1 & _ & B1 & _ & A2 & B2 & _ & Hh). cbn [place_front] in Hh.
  destruct (Hh Hi ltac:(lia)) as (t' & tl & tr & D0 & D1 & D2 & D3 & D4 & D5 & D6).
  exists w, (snd (list_run ops l)), (pv_concat (pv_push_back a x) c). split; [exact R|]. split.
  { unfold pv_insert. rewrite (proj2 (Nat.leb_gt _ _)), (proj2 (Nat.eqb_neq _ _)), E by lia. reflexivity. }
  destruct (pv_push_back_ok x (proj1 A1)) as [Oa Ea]. rewrite <- L, <- A2, <- B2, <- Ea.
  apply swapped; [exact Oa|apply B1| | |unfold pv_is_inline; now rewrite D2|].
  - rewrite Ea. now destruct (pv_elems a).
  - rewrite B2. intros Hn. apply (f_equal (@length T)) in Hn. rewrite skipn_length in Hn. cbn in Hn. lia.
  - unfold pv_height, pv_push_back. rewrite D1, D2. unfold pv_tree_push_back. cbn [inner]. unfold tree_push_back. rewrite D4, leaf64. cbn.
    rewrite D3, D6. congruence.
Qed.
Theorem C08_remove_in_front {T} (v : pvec T) l ops f m b i : starts v l -> Forall (fun o => is_cut o = true) ops ->
  cut_run ops l (place_start (length l)) = Some (Long f m b) -> 64 < m -> 0 < i < f ->
  exists w rs w', vec_run ops v = Ret (w, rs) /\ pv_remove w i = Ret (Some w') /\
    represents w' (skipn (S i) (fst (list_run ops l)) ++ firstn i (fst (list_run ops l))).
Proof.
  intros Hs Ho Er Hm Hi. destruct (cut_history Hs Ho Er) as (w & R & P & S & L).
  pose proof (made_capped (run_made (made_start Hs) R)) as C.
  destruct (tall P S C Hm) as (t & Et & Ht). pose proof (at_place_size P) as Hsz. pose proof P as [[Hl _] _].
  cbn [place_size] in Hsz.
  destruct (split_place i P S) as (a & c & E & A1 & _ & B1 & BS & A2 & B2 & _ & Hh). cbn [place_front] in Hh.
  destruct (Hh ltac:(lia) ltac:(lia)) as (t' & tl & tr & D0 & D1 & D2 & D3 & D4 & D5 & D6).
  assert (Ep : place_right i (Long f m b) = Long (f - i) m b).
  { unfold place_right. cbn [place_size].
    rewrite (proj2 (Nat.leb_gt _ _)), (proj2 (Nat.eqb_neq _ _)), (proj2 (Nat.leb_le _ _)) by lia. reflexivity. }
  rewrite Ep in B1. pose proof (at_place_size B1) as Hsc. pose proof B1 as [[Lc _] _]. cbn [place_size] in Hsc.
  destruct (split_place 1 B1 BS) as (a1 & c1 & E1 & _ & _ & C1 & _ & _ & C2 & _ & Hg). cbn [place_front] in Hg.
  destruct (Hg ltac:(lia) ltac:(lia)) as (t1 & tl1 & tr1 & F0 & F1 & F2 & F3 & F4 & F5 & F6).
  assert (Ec : pv_elems c1 = skipn (Datatypes.S i) (pv_elems w)) by now rewrite C2, B2, skipn_S_skipn.
  exists w, (snd (list_run ops l)), (pv_concat a c1). split; [exact R|]. split.
  { unfold pv_remove. rewrite (proj2 (Nat.leb_gt _ _)), (proj2 (Nat.eqb_neq _ _)), E by lia. cbn [obind fst snd].
    unfold pv_skip. rewrite (proj2 (Nat.leb_gt _ _)), E1 by lia. reflexivity. }
  rewrite <- L, <- A2, <- Ec. apply swapped; [apply A1|apply C1| | |unfold pv_is_inline; now rewrite F2|].
  - rewrite A2. intros Hn. apply (f_equal (@length T)) in Hn. rewrite firstn_length in Hn. cbn in Hn. lia.
  - rewrite Ec. intros Hn. apply (f_equal (@length T)) in Hn. rewrite skipn_length in Hn. cbn in Hn. lia.
  - unfold pv_height. rewrite D1, F2, D3, F6. congruence.
Qed.

(** ** Cases: ends and cuts mixed, buffers at both ends, more than one leaf between *)
Definition mixed : list (op nat) :=
  [PushFront 7; PushFront 8; Take 150; PushBack 9; Skip 1; SplitLeft 149; SplitRight 70; PushFront 3; PopFront; PopBack; Skip 10].
Lemma mixed_cut : Forall (fun o => is_cut o = true) mixed.
Proof. repeat constructor. Qed.
Example C06_cut_histories_case :
  cut_run mixed (seq 0 200) (place_start 200) = Some (Long 0 68 0) /\ faithful (pv_from_iter (seq 0 200)) (seq 0 200) mixed /\
  fst (list_run mixed (seq 0 200)) = seq 79 68.
Proof.
  assert (E : cut_run mixed (seq 0 200) (place_start 200) = Some (Long 0 68 0)) by (vm_compute; reflexivity).
  split; [exact E|]. split; [|vm_compute; reflexivity].
  apply C06_cut_histories_partial; [constructor|apply mixed_cut|]. change (length (seq 0 200)) with 200. now rewrite E.
Qed.
Example C06_cut_halves_case : cut_run mixed (seq 0 200) (place_start (length (seq 0 200))) <> None.
Proof. vm_compute. discriminate. Qed.
Example C07_cut_views_case : exists w rs a b, vec_run mixed (pv_from_iter (seq 0 200)) = Ret (w, rs) /\
  pv_take w 60 = Ret a /\ pv_skip w 60 = Ret b /\ represents a (seq 79 60) /\ represents b (seq 139 8).
Proof.
  exact (@C07_cut_views_partial nat _ (seq 0 200) mixed 60 (starts_slice _) mixed_cut C06_cut_halves_case).
Qed.
(** An insert and a remove behind two elements in the front buffer, and both within it *)
Definition fronted : list (op nat) := [PushFront 7; PushFront 8; Take 150; PushFront 9].
Example C08_edit_after_cuts_case :
  cut_run fronted (seq 0 200) (place_start 200) = Some (Long 3 148 0) /\
  faithful (pv_from_iter (seq 0 200)) (seq 0 200) (fronted ++ Insert 4 777 :: [PushFront 1]) /\
  faithful (pv_from_iter (seq 0 200)) (seq 0 200) (fronted ++ Remove 100 :: [PushBack 1]).
Proof.
  assert (E : cut_run fronted (seq 0 200) (place_start 200) = Some (Long 3 148 0)) by (vm_compute; reflexivity).
  assert (F : Forall (fun o => is_cut o = true) fronted) by repeat constructor.
  split; [exact E|]. split.
  - exact (@C08_edit_after_cuts_partial nat _ (seq 0 200) fronted (Insert 4 777) [PushFront 1] _ (starts_slice _) F E eq_refl
      (or_intror (or_introl (le_n 4))) ltac:(repeat constructor)).
  - refine (@C08_edit_after_cuts_partial nat _ (seq 0 200) fronted (Remove 100) [PushBack 1] _ (starts_slice _) F E eq_refl
      (or_intror (or_introl _)) ltac:(repeat constructor)). cbn. lia.
Qed.
Example C08_insert_in_front_case :
  exists w rs w', vec_run fronted (pv_from_iter (seq 0 200)) = Ret (w, rs) /\ pv_insert w 1 777 = Ret w' /\
    represents w' ([8; 7] ++ seq 0 148 ++ [9; 777]).
Proof.
  assert (E : cut_run fronted (seq 0 200) (place_start 200) = Some (Long 3 148 0)) by (vm_compute; reflexivity).
  exact (@C08_insert_in_front nat _ (seq 0 200) fronted 3 148 0 1 777 (starts_slice _) ltac:(repeat constructor) E
    ltac:(lia) ltac:(lia)).
Qed.
Example C08_remove_in_front_case :
  exists w rs w', vec_run fronted (pv_from_iter (seq 0 200)) = Ret (w, rs) /\ pv_remove w 1 = Ret (Some w') /\
    represents w' ([7] ++ seq 0 148 ++ [9]).
Proof.
  assert (E : cut_run fronted (seq 0 200) (place_start 200) = Some (Long 3 148 0)) by (vm_compute; reflexivity).
  exact (@C08_remove_in_front nat _ (seq 0 200) fronted 3 148 0 1 (starts_slice _) ltac:(repeat constructor) E
    ltac:(lia) ltac:(lia)).
Qed.

Print Assumptions C06_cut_histories_partial.
Print Assumptions C06_cut_halves_partial.
Print Assumptions C07_cut_views_partial.
Print Assumptions C08_edit_after_cuts_partial.
Print Assumptions C08_insert_in_front.
Print Assumptions C08_remove_in_front.

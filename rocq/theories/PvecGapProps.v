(** C04 past the two pushes at which [PvecDequeSpec.place_run] stops. *)
From Coq Require Import List Arith Lia Bool.
From Verif Require Import Base ListFacts PvecModel PvecSpec PvecFacts PvecShape PvecEnds PvecHist PvecFront PvecQueue
  PvecProps PvecDequeSpec PvecDequeProps PvecGapSpec.
Import ListNotations.
Open Scope outcome_scope.
Set Implicit Arguments.
Unset Strict Implicit.

Section Gap.
Context {T : Type}.
Notation node := (node T).
Notation tree := (tree T).
Notation pvec := (pvec T).
Notation op := (op T).

(** One empty leaf, with [a] elements before it; no other leaf is empty *)
Inductive gap : node -> nat -> Prop :=
| gap_leaf : gap (Leaf []) 0
| gap_branch (L : list node) c (R : list node) sz a : Forall full L -> Forall full R -> gap c a ->
    gap (Branch (L ++ c :: R) sz) (length (flat_map elems L) + a).
Definition holed (n : node) (a : nat) : Prop := filled n \/ gap n a.

Lemma gap_le (n : node) a : gap n a -> a <= esize n.
Proof.
  induction 1 as [|L c R sz a HL HR Hc IH]; [unfold esize; cbn; lia|].
  unfold esize in *. cbn [elems]. rewrite flat_map_app, app_length. cbn [flat_map]. rewrite app_length. lia.
Qed.

Lemma pair_back (n : node) es sz a : es <> [] -> gap n a -> gap (Branch [n; Leaf es] sz) a.
Proof.
  intros Hne H. apply (@gap_branch [] n [Leaf es] sz a); [constructor| |exact H]. repeat constructor. exact Hne.
Qed.
Lemma gap_push_leaf (n : node) es a : es <> [] -> gap n a -> gap (push_leaf n (Leaf es)) a.
Proof.
  intros Hne H. unfold push_leaf. destruct n as [es'|cs sz]; [now apply pair_back|].
  destruct (length cs <? BRANCHING_FACTOR); [|now apply pair_back].
  inversion H as [|L c R sz' a' HL HR Hc]; subst. rewrite <- app_assoc. cbn [app]. constructor; auto.
  apply Forall_app. split; auto. repeat constructor. exact Hne.
Qed.
Lemma pair_front (n : node) es sz a : es <> [] -> gap n a -> gap (Branch [Leaf es; n] sz) (length es + a).
Proof.
  intros Hne H. replace (length es) with (length (flat_map elems [Leaf es])) by (cbn; now rewrite app_nil_r).
  apply (@gap_branch [Leaf es] n [] sz a); [repeat constructor; exact Hne|constructor|exact H].
Qed.
Lemma gap_push_front_leaf (n : node) es a : es <> [] -> gap n a -> gap (push_front_leaf n (Leaf es)) (length es + a).
Proof.
  intros Hne H. unfold push_front_leaf. destruct n as [es'|cs sz]; [now apply pair_front|].
  destruct (length cs <? BRANCHING_FACTOR); [|now apply pair_front].
  inversion H as [|L c R sz' a' HL HR Hc]; subst.
  replace (length es + (length (flat_map elems L) + a')) with (length (flat_map elems (Leaf es :: L)) + a')
    by (cbn; rewrite app_length; lia).
  change (Leaf es :: L ++ c :: R) with ((Leaf es :: L) ++ c :: R). constructor; auto. constructor; auto. now constructor.
Qed.

Lemma node_update_gap (n : node) a : gap n a -> node_ok n -> forall i x, gap (node_update n i x) a.
Proof.
  induction 1 as [|L c R sz a HL HR Hc IH]; intros Hok i x.
  - cbn. destruct i; constructor.
  - apply node_ok_branch_inv in Hok as (_ & Hok & _). apply Forall_app in Hok as [OL Hok].
    inversion Hok as [|? ? Oc OR]; subst.
    destruct (node_update_branch_cases (L ++ c :: R) sz i x) as [->|(k & j & d & Hd & ->)]; [now constructor|].
    destruct (Nat.lt_ge_cases k (length L)) as [Lt|Ge].
    + rewrite nth_error_app1 in Hd by auto. rewrite list_set_app1 by auto.
      assert (E : length (flat_map elems L) = length (flat_map elems (list_set L k (node_update d j x)))).
      { rewrite !length_flat_map. f_equal. change (fun n => length (elems n)) with (@esize T). clear - Hd OL.
        revert k Hd OL. induction L as [|y L IHL]; intros [|k] Hd OL; cbn in *; try discriminate.
        - injection Hd as <-. inversion OL; subst. fold (esize y) (esize (node_update y j x)). now rewrite node_update_esize.
        - inversion OL; subst. f_equal. now apply IHL. }
      rewrite E. constructor; auto. apply Forall_list_set; auto. apply node_update_full. apply (Forall_nth _ HL Hd).
    + rewrite nth_error_app2 in Hd by auto. rewrite list_set_app2 by auto.
      destruct (k - length L) as [|k']; cbn in Hd |- *.
      * injection Hd as <-. constructor; auto.
      * constructor; auto. apply Forall_list_set; auto. apply node_update_full. apply (Forall_nth _ HR Hd).
Qed.

(** ** Taking from the middle *)
Lemma node_pop_front_gap (n : node) : forall a, gap n (S a) -> node_ok n ->
  exists n' x, node_pop_front n = Ret (Some (n', x)) /\ node_ok n' /\ elems n = x :: elems n' /\ holed n' a.
Proof.
  induction n as [es|cs sz IH] using node_ind'; intros a H Hok; [inversion H|].
  inversion H as [|L c R sz' a' HL HR Hc Es Ea]; subst.
  apply node_ok_branch_inv in Hok as (_ & Hok & ->). apply Forall_app in Hok as [OL Hok].
  inversion Hok as [|? ? Oc OR]; subst.
  destruct L as [|y L].
  - cbn in Ea. subst a'. cbn [app] in *. inversion IH as [|? ? IHc _]; subst.
    destruct (IHc _ Hc Oc) as (c' & x & E & Oc' & Ee & Hh).
    exists (drop_front c' R), x. rewrite (node_pop_front_branch _ _ Oc' E).
    destruct (drop_front_ok OR Oc') as [D1 D2]. split; [reflexivity|]. split; [exact D1|].
    split. { rewrite D2. cbn [elems flat_map]. now rewrite Ee. }
    unfold drop_front. destruct (Nat.eqb_spec (esize c') 0) as [E0|E0].
    + left. destruct R as [|r R]; [now left|]. right. now constructor.
    + destruct Hh as [Hf|Hg].
      * left. right. constructor; [discriminate|]. constructor; auto. apply filled_full; [exact Hf|lia].
      * right. apply (@gap_branch [] c' R _ a); auto.
  - cbn [app] in *. inversion HL as [|? ? Fy FL]; subst. inversion OL as [|? ? Oy OL']; subst.
    destruct (node_pop_front_filled Oy Fy) as (y' & x & E & Oy' & Ee & Hf).
    exists (drop_front y' (L ++ c :: R)), x. rewrite (node_pop_front_branch _ _ Oy' E).
    assert (Orest : Forall node_ok (L ++ c :: R)) by (apply Forall_app; split; auto).
    destruct (drop_front_ok Orest Oy') as [D1 D2]. split; [reflexivity|]. split; [exact D1|].
    split. { rewrite D2. cbn [elems flat_map]. now rewrite Ee. }
    cbn [flat_map] in Ea. rewrite Ee in Ea. cbn [app length] in Ea. rewrite app_length in Ea.
    right. unfold drop_front. destruct (Nat.eqb_spec (esize y') 0) as [E0|E0].
    + replace a with (length (flat_map elems L) + a') by (unfold esize in E0; lia).
      destruct (L ++ c :: R) eqn:El; [destruct L; discriminate|]. rewrite <- El. now constructor.
    + replace a with (length (flat_map elems (y' :: L)) + a') by (cbn; rewrite app_length; lia).
      change (y' :: L ++ c :: R) with ((y' :: L) ++ c :: R). constructor; auto.
      constructor; auto. apply filled_full; [exact Hf|lia].
Qed.
Lemma node_pop_back_gap (n : node) : forall a, gap n a -> a < esize n -> node_ok n ->
  exists n' x, node_pop_back n = Ret (Some (n', x)) /\ node_ok n' /\ elems n = elems n' ++ [x] /\ holed n' a.
Proof.
  induction n as [es|cs sz IH] using node_ind'; intros a H Hlt Hok; [inversion H; subst; unfold esize in Hlt; cbn in Hlt; lia|].
  inversion H as [|L c R sz' a' HL HR Hc Es Ea]; subst.
  apply node_ok_branch_inv in Hok as (_ & Hok & ->). apply Forall_app in Hok as [OL Hok].
  inversion Hok as [|? ? Oc OR]; subst.
  destruct (list_last_case R) as [->|(R' & y & ->)].
  - apply Forall_app in IH as [_ IH]. inversion IH as [|? ? IHc _]; subst.
    assert (Hlt' : a' < esize c).
    { unfold esize in *. cbn [elems] in Hlt. rewrite flat_map_app, app_length in Hlt. cbn [flat_map] in Hlt.
      rewrite app_nil_r in Hlt. lia. }
    destruct (IHc _ Hc Hlt' Oc) as (c' & x & E & Oc' & Ee & Hh).
    exists (drop_back L c'), x. rewrite (node_pop_back_branch _ _ Oc' E).
    destruct (drop_back_ok OL Oc') as [D1 D2]. split; [reflexivity|]. split; [exact D1|].
    split. { rewrite D2. cbn [elems]. rewrite flat_map_app. cbn. now rewrite app_nil_r, Ee, app_assoc. }
    unfold drop_back. destruct (Nat.eqb_spec (esize c') 0) as [E0|E0].
    + left. destruct L as [|r L]; [now left|]. right. now constructor.
    + destruct Hh as [Hf|Hg].
      * left. right. constructor; [destruct L; discriminate|]. apply Forall_app. split; auto. constructor; auto.
        apply filled_full; [exact Hf|lia].
      * right. now constructor.
  - apply Forall_app in HR as [FR Fy]. inversion Fy as [|? ? Fy' _]; subst.
    apply Forall_app in OR as [OR' Oy]. inversion Oy as [|? ? Oy' _]; subst.
    destruct (node_pop_back_filled Oy' Fy') as (y' & x & E & Oy2 & Ee & Hf).
    replace (L ++ c :: R' ++ [y]) with ((L ++ c :: R') ++ [y]) by (now rewrite <- app_assoc).
    assert (Orest : Forall node_ok (L ++ c :: R')) by (apply Forall_app; split; auto).
    exists (drop_back (L ++ c :: R') y'), x. rewrite (node_pop_back_branch _ _ Oy2 E).
    destruct (drop_back_ok Orest Oy2) as [D1 D2]. split; [reflexivity|]. split; [exact D1|].
    split. { rewrite D2. cbn [elems]. rewrite (flat_map_app _ (L ++ c :: R')). cbn [flat_map]. now rewrite app_nil_r, Ee, app_assoc. }
    right. unfold drop_back. destruct (Nat.eqb_spec (esize y') 0) as [E0|E0].
    + destruct (L ++ c :: R') eqn:El; [destruct L; discriminate|]. rewrite <- El. now constructor.
    + rewrite <- app_assoc. cbn [app]. constructor; auto. apply Forall_app. split; auto. constructor; auto.
      apply filled_full; [exact Hf|lia].
Qed.
Lemma node_pop_front_holed (n : node) a : holed n (S a) -> a < esize n -> node_ok n ->
  exists n' x, node_pop_front n = Ret (Some (n', x)) /\ node_ok n' /\ elems n = x :: elems n' /\ holed n' a.
Proof.
  intros [H|H] Hlt Hok; [|now apply node_pop_front_gap].
  assert (Fu : full n) by (apply filled_full; [exact H|lia]).
  destruct (node_pop_front_filled Hok Fu) as (n' & x & A & B & C & D). exists n', x. repeat (split; auto). now left.
Qed.
Lemma node_pop_back_holed (n : node) a : holed n a -> a < esize n -> node_ok n ->
  exists n' x, node_pop_back n = Ret (Some (n', x)) /\ node_ok n' /\ elems n = elems n' ++ [x] /\ holed n' a.
Proof.
  intros [H|H] Hlt Hok; [|now apply node_pop_back_gap].
  assert (Fu : full n) by (apply filled_full; [exact H|lia]).
  destruct (node_pop_back_filled Hok Fu) as (n' & x & A & B & C & D). exists n', x. repeat (split; auto). now left.
Qed.

(** ** The vector is right and its elements are where [w] says *)
Definition at_wide (v : pvec) (w : wide) : Prop :=
  match w with
  | Whole s => at_place v s
  | Holed f a z b => pv_ok v /\ exists t, inner v = Tree t /\ length (t_head t) = f /\ esize (t_root t) = a + z /\
      length (t_tail t) = b /\ b <= 64 /\ f <= 64 /\ holed (t_root t) a
  end.
Lemma at_wide_ok (v : pvec) w : at_wide v w -> pv_ok v.
Proof. destruct w; intros [H _]; exact H. Qed.
Lemma at_wide_size (v : pvec) w : at_wide v w -> length (pv_elems v) = wide_size w.
Proof.
  destruct w as [s|f a z b]; [apply at_place_size|]. intros (_ & t & Ei & H). unfold pv_elems. rewrite Ei, tree_elems_length.
  cbn. lia.
Qed.
Lemma is_empty_wide (v : pvec) w : at_wide v w -> pv_is_empty v = (wide_size w =? 0).
Proof. intros H. unfold pv_is_empty. rewrite <- (at_wide_size H). destruct (at_wide_ok H) as [Hl _]. now rewrite Hl. Qed.

Lemma push_tail_wide (v : pvec) t f a z x : pv_ok v -> inner v = Tree t -> length (t_head t) = f -> f <= 64 ->
  length (t_tail t) = 64 -> esize (t_root t) = a + z -> holed (t_root t) a -> (esize (t_root t) = 0 -> t_root t = Leaf [] \/ gap (t_root t) a) ->
  at_wide (pv_push_back v x) (Holed f a (z + 64) 1).
Proof.
  intros Hok Ei Hf Lf Hb Hm Hh Hz. split; [now apply pv_push_back_ok|]. unfold pv_push_back. rewrite Ei.
  unfold pv_tree_push_back, tree_push_back. rewrite leaf64, Hb. cbn [Nat.ltb Nat.leb inner].
  assert (Nk : node_ok (t_root t)) by (destruct Hok as [_ Ho]; rewrite Ei in Ho; apply Ho).
  eexists. split; [reflexivity|].
  unfold push_tail_to_tree. destruct (t_tail t) as [|y ys] eqn:Et; [discriminate|].
  unfold tree_push_back_tail. cbn [t_head t_root t_tail app length].
  repeat split; auto; try lia.
  - destruct (@push_leaf_ok T (t_root t) (Leaf (y :: ys)) Nk (ok_leaf _)) as [_ Ee].
    unfold esize in *. rewrite Ee, app_length. cbn [elems]. lia.
  - destruct Hh as [Hfl|Hg]; [|right; apply gap_push_leaf; [discriminate|exact Hg]].
    destruct (Nat.eq_dec (esize (t_root t)) 0) as [Z|Z].
    + right. apply gap_push_leaf; [discriminate|]. destruct (Hz Z) as [->|Hg]; [|exact Hg].
      replace a with 0 by lia. constructor.
    + left. right. apply full_push_leaf; [discriminate|]. apply filled_full; [exact Hfl|lia].
Qed.
Lemma push_head_wide (v : pvec) t a z b x : pv_ok v -> inner v = Tree t -> length (t_tail t) = b -> b <= 64 ->
  length (t_head t) = 64 -> esize (t_root t) = a + z -> holed (t_root t) a -> (esize (t_root t) = 0 -> t_root t = Leaf [] \/ gap (t_root t) a) ->
  at_wide (pv_push_front v x) (Holed 1 (a + 64) z b).
Proof.
  intros Hok Ei Hb Lb Hf Hm Hh Hz. split; [now apply pv_push_front_ok|]. unfold pv_push_front. rewrite Ei.
  unfold pv_tree_push_front, tree_push_front. rewrite leaf64, Hf. cbn [Nat.ltb Nat.leb inner].
  assert (Nk : node_ok (t_root t)) by (destruct Hok as [_ Ho]; rewrite Ei in Ho; apply Ho).
  eexists. split; [reflexivity|].
  unfold push_head_to_tree. destruct (t_head t) as [|y ys] eqn:Et; [discriminate|].
  unfold tree_push_front_head. cbn [t_head t_root t_tail app length].
  repeat split; auto; try lia.
  - destruct (@push_front_leaf_ok T (t_root t) (Leaf (y :: ys)) Nk (ok_leaf _)) as [_ Ee].
    unfold esize in *. rewrite Ee, app_length. cbn [elems]. lia.
  - assert (G : forall n, gap n a -> gap (push_front_leaf n (Leaf (y :: ys))) (a + 64)).
    { intros n Hg. rewrite <- Hf, Nat.add_comm. apply gap_push_front_leaf; [discriminate|exact Hg]. }
    destruct Hh as [Hfl|Hg]; [|right; now apply G].
    destruct (Nat.eq_dec (esize (t_root t)) 0) as [Z|Z].
    + right. apply G. destruct (Hz Z) as [->|Hg]; [|exact Hg]. replace a with 0 by lia. constructor.
    + left. right. apply full_push_front_leaf; [discriminate|]. apply filled_full; [exact Hfl|lia].
Qed.
Lemma holed_nothing (n : node) a : holed n a -> esize n = 0 -> n = Leaf [] \/ gap n a.
Proof. intros [H|H] Z; [left; now apply filled_empty|now right]. Qed.

Lemma push_back_wide (v : pvec) x w : at_wide v w -> at_wide (pv_push_back v x) (wide_push_back w).
Proof.
  destruct w as [s|f a z b]; intros H; cbn [wide_push_back].
  - destruct (place_push_back s) as [s'|] eqn:E; [exact (push_back_place x H E)|].
    destruct s as [n|f m b]; [discriminate|]. cbn [place_push_back] in E.
    destruct (Nat.ltb_spec b 64) as [L|L]; [discriminate|]. destruct (Nat.eqb_spec m 0) as [->|]; [|discriminate].
    destruct H as [Hok H]. destruct (inner v) as [es|t] eqn:Ei; [easy|].
    destruct H as (Hf & Hm & Hb & Lb & Lf & Hfill). replace b with (0 + 64) by lia.
    apply (@push_tail_wide v t f 0 0); auto; try lia; [now left|]. intros Z. left. now apply filled_empty.
  - destruct H as (Hok & t & Ei & Hf & Hm & Hb & Lb & Lf & Hh).
    destruct (Nat.ltb_spec b 64) as [L|L].
    + split; [now apply pv_push_back_ok|]. unfold pv_push_back. rewrite Ei. unfold pv_tree_push_back, tree_push_back.
      rewrite leaf64, Hb, (proj2 (Nat.ltb_lt _ _) L). cbn [inner]. eexists. split; [reflexivity|].
      unfold tree_push_back_tail. cbn [t_head t_root t_tail]. rewrite app_length, Hb. cbn [length]. repeat split; auto; lia.
    + replace b with 64 in * by lia. apply (@push_tail_wide v t f a z); auto. now apply holed_nothing.
Qed.
Lemma push_front_wide (v : pvec) x w : at_wide v w -> at_wide (pv_push_front v x) (wide_push_front w).
Proof.
  destruct w as [s|f a z b]; intros H; cbn [wide_push_front].
  - destruct (place_push_front s) as [s'|] eqn:E; [exact (push_front_place x H E)|].
    destruct s as [n|f m b]; [discriminate|]. cbn [place_push_front] in E.
    destruct (Nat.ltb_spec f 64) as [L|L]; [discriminate|]. destruct (Nat.eqb_spec m 0) as [->|]; [|discriminate].
    destruct H as [Hok H]. destruct (inner v) as [es|t] eqn:Ei; [easy|].
    destruct H as (Hf & Hm & Hb & Lb & Lf & Hfill). replace f with (0 + 64) by lia.
    apply (@push_head_wide v t 0 0 b); auto; try lia; [now left|]. intros Z. left. now apply filled_empty.
  - destruct H as (Hok & t & Ei & Hf & Hm & Hb & Lb & Lf & Hh).
    destruct (Nat.ltb_spec f 64) as [L|L].
    + split; [now apply pv_push_front_ok|]. unfold pv_push_front. rewrite Ei. unfold pv_tree_push_front, tree_push_front.
      rewrite leaf64, Hf, (proj2 (Nat.ltb_lt _ _) L). cbn [inner]. eexists. split; [reflexivity|].
      unfold tree_push_front_head. cbn [t_head t_root t_tail length]. repeat split; auto; lia.
    + replace f with 64 in * by lia. apply (@push_head_wide v t a z b); auto. now apply holed_nothing.
Qed.
Lemma iter_shift {A} (g : A -> A) k : forall x, Nat.iter k g (g x) = Nat.iter (S k) g x.
Proof. induction k as [|k IH]; intros x; [reflexivity|]. cbn. f_equal. apply IH. Qed.
Lemma extend_wide xs : forall (v : pvec) w, at_wide v w -> at_wide (pv_extend v xs) (Nat.iter (length xs) wide_push_back w).
Proof.
  unfold pv_extend. induction xs as [|x xs IH]; intros v w H; cbn [fold_left length]; [exact H|].
  rewrite <- iter_shift. apply IH. now apply push_back_wide.
Qed.
Lemma update_wide (v v' : pvec) i x w : at_wide v w -> pv_update v i x = Ret v' -> at_wide v' w.
Proof.
  destruct w as [s|f a z b]; [apply update_place|].
  intros (Hok & t & Ei & Hf & Hm & Hb & Lb & Lf & Hh) E.
  destruct (pv_update_ok i x Hok) as (w & E1 & E2 & _). rewrite E in E1. injection E1 as <-. split; [exact E2|].
  destruct (pv_update_inner _ _ _ E) as [->|[(es & A1 & A2)|(t0 & t' & A1 & A2 & A3)]].
  - exists t. auto 10.
  - congruence.
  - assert (t0 = t) by congruence. subst t0. exists t'. split; [exact A2|].
    assert (Nk : node_ok (t_root t)) by (destruct Hok as [_ Ho]; rewrite Ei in Ho; apply Ho).
    destruct (tree_update_cases _ _ _ A3) as [->|[->|[(j & ->)|(j & ->)]]]; cbn [t_head t_root t_tail];
      rewrite ?list_set_length; repeat split; auto.
    + rewrite node_update_esize; auto.
    + destruct Hh as [[->|Fu]|Hg].
      * left. left. cbn. now destruct j.
      * left. right. now apply node_update_full.
      * right. now apply node_update_gap.
Qed.

Lemma pop_back_wide (v : pvec) w w' : at_wide v w -> wide_pop_back w = Some w' ->
  exists v', vec_step PopBack v = Ret (v', snd (list_step PopBack (pv_elems v))) /\
    at_wide v' w' /\ pv_elems v' = fst (list_step PopBack (pv_elems v)).
Proof.
  destruct w as [s|f a z b]; intros H E; cbn [wide_pop_back] in E.
  { destruct (place_pop_back s) as [s'|] eqn:Es; [|discriminate]. injection E as <-. exact (pop_back_place H Es). }
  cbn [vec_step]. unfold pv_pop_back. rewrite (is_empty_wide H). pose proof (at_wide_size H) as Hsz.
  cbn [wide_size] in *.
  destruct (Nat.eqb_spec (f + a + z + b) 0) as [Z|Z].
  - rewrite Z in Hsz. apply length_zero_iff_nil in Hsz. rewrite Hsz. cbn [obind list_step rev fst snd].
    exists v. split; [reflexivity|]. split; [|exact Hsz]. destruct f, a, z, b; try lia. now injection E as <-.
  - destruct H as ([Hl Ho] & t & Ei & Hf & Hm & Hb & Lb & Lf & Hh). unfold pv_elems in *. rewrite Ei in *.
    destruct Ho as [Nk Hlen]. rewrite Hsz in Hlen.
    unfold tree_pop_back. rewrite (proj2 (Nat.eqb_neq _ _)) by lia.
    destruct (list_last_case (t_tail t)) as [Et|(c & x & Et)].
    + rewrite Et in *. cbn [pop_last length] in *. subst b. destruct f as [|f]; [|discriminate].
      destruct z as [|z]; [destruct a; [lia|discriminate]|]. assert (Ew : w' = if a + z =? 0 then Whole (Long 0 0 0) else Holed 0 a z 0) by (destruct a; now injection E as <-).
      subst w'. clear E.
      apply length_zero_iff_nil in Hf. unfold pop_from_tree. rewrite (proj2 (Nat.eqb_neq _ _)) by lia. rewrite Et.
      rewrite usub_ok by (cbn; lia). cbn [obind length]. rewrite Nat.sub_0_r.
      rewrite (proj2 (Nat.eqb_neq (t_len t) 0)) by lia.
      destruct (node_pop_back_holed Hh ltac:(lia) Nk) as (n' & x & E1 & Nk' & Ee & Hf').
      assert (Em : esize (t_root t) = esize n' + 1) by (unfold esize; rewrite Ee, app_length; cbn; lia).
      rewrite node_get_ok, Ee, nth_error_app2 by (auto; fold (esize n'); lia). fold (esize n').
      replace (t_len t - 1 - esize n') with 0 by lia. cbn [nth_error].
      assert (El : tree_elems t = elems n' ++ [x]) by (unfold tree_elems; rewrite Hf, Et, Ee; cbn; now rewrite app_nil_r).
      rewrite El, list_pop_back. cbn [fst snd].
      destruct (Nat.eqb_spec (t_len t) 1) as [L1|L1].
      * assert (Z' : esize n' = 0) by lia. rewrite (esize0 _ Z'). rewrite (proj2 (Nat.eqb_eq (a + z) 0)) by lia.
        cbn [obind fst snd]. eexists. split; [reflexivity|]. split.
        -- split; [split; [unfold pv_elems, tree_elems; cbn; rewrite Hf; cbn; lia|]|].
           ++ cbn. apply mk_tree_ok; [constructor|]. rewrite Hf. cbn. unfold esize. cbn. lia.
           ++ cbn. rewrite Hf. unfold esize. cbn. repeat split; auto; try lia. now left.
        -- unfold pv_elems, tree_elems. cbn. now rewrite Hf.
      * rewrite (proj2 (Nat.eqb_neq (a + z) 0)) by lia. rewrite E1. cbn [obind fst snd]. eexists. split; [reflexivity|]. split.
        -- split; [split; [unfold pv_elems, tree_elems; cbn; rewrite Hf; cbn; rewrite app_nil_r; fold (esize n'); lia|]|].
           ++ cbn. apply mk_tree_ok; [exact Nk'|]. rewrite Hf. cbn. lia.
           ++ cbn [inner]. eexists. split; [reflexivity|]. cbn [t_head t_root t_tail]. rewrite Hf. cbn [length].
              repeat split; auto; lia.
        -- unfold pv_elems, tree_elems. cbn. now rewrite Hf, app_nil_r.
    + rewrite Et in *. rewrite app_length in Hb. cbn [length] in Hb. destruct b as [|b]; [lia|].
      assert (Es' : w' = Holed f a z b) by (destruct f, a, z; now injection E as <-). subst w'. rewrite pop_last_app. cbn [obind].
      assert (El : tree_elems t = (t_head t ++ elems (t_root t) ++ c) ++ [x])
        by (unfold tree_elems; rewrite Et; now rewrite <- !app_assoc).
      rewrite El, list_pop_back. cbn [fst snd]. eexists. split; [reflexivity|]. split; [|reflexivity].
      assert (La : length (t_head t ++ elems (t_root t) ++ c) = f + (a + z) + b)
        by (rewrite !app_length; fold (esize (t_root t)); lia).
      split; [split|].
      * unfold pv_elems, tree_elems. cbn. lia.
      * cbn. apply mk_tree_ok; [exact Nk|]. lia.
      * cbn [inner]. eexists. split; [reflexivity|]. cbn [t_head t_root t_tail]. repeat split; auto; lia.
Qed.
Lemma pop_front_wide (v : pvec) w w' : at_wide v w -> wide_pop_front w = Some w' ->
  exists v', vec_step PopFront v = Ret (v', snd (list_step PopFront (pv_elems v))) /\
    at_wide v' w' /\ pv_elems v' = fst (list_step PopFront (pv_elems v)).
Proof.
  destruct w as [s|f a z b]; intros H E; cbn [wide_pop_front] in E.
  { destruct (place_pop_front s) as [s'|] eqn:Es; [|discriminate]. injection E as <-. exact (pop_front_place H Es). }
  cbn [vec_step]. unfold pv_pop_front. rewrite (is_empty_wide H). pose proof (at_wide_size H) as Hsz.
  cbn [wide_size] in *.
  destruct (Nat.eqb_spec (f + a + z + b) 0) as [Z|Z].
  - rewrite Z in Hsz. apply length_zero_iff_nil in Hsz. rewrite Hsz. cbn [obind list_step rev fst snd].
    exists v. split; [reflexivity|]. split; [|exact Hsz]. destruct f, a, z, b; try lia. now injection E as <-.
  - destruct H as ([Hl Ho] & t & Ei & Hf & Hm & Hb & Lb & Lf & Hh). unfold pv_elems in *. rewrite Ei in *.
    destruct Ho as [Nk Hlen]. rewrite Hsz in Hlen.
    unfold tree_pop_front. rewrite (proj2 (Nat.eqb_neq _ _)) by lia.
    destruct (t_head t) as [|h hs] eqn:Eh.
    + cbn in Hf. subst f. unfold pop_front_from_tree. rewrite Eh. cbn [length].
      rewrite usub_ok by lia. cbn [obind]. rewrite usub_ok by lia. cbn [obind].
      destruct a as [|a].
      * destruct z as [|z]; [|discriminate]. rewrite (proj2 (Nat.ltb_ge _ _)) by lia. cbn [obind]. unfold pop_front_from_tail.
        destruct b as [|b]; [lia|]. destruct (Nat.leb_spec (S b) 2) as [L2|L2]; [|discriminate]. injection E as <-.
        pose proof (esize0 _ Hm) as E0.
        assert (El : tree_elems t = t_tail t) by (unfold tree_elems; now rewrite Eh, E0).
        rewrite El. destruct (t_tail t) as [|x rest] eqn:Et; [cbn in Hb; lia|].
        cbn [rev]. rewrite pop_last_app. cbn [obind list_step fst snd]. eexists. split; [reflexivity|].
        assert (Er : rev rest = rest) by (destruct rest as [|y [|z rest]]; auto; cbn in Hb; lia). rewrite Er.
        cbn in Hb. split; [split; [split|]|].
        -- unfold pv_elems, tree_elems. cbn. rewrite app_nil_r. lia.
        -- cbn. apply mk_tree_ok; [constructor|]. unfold esize. cbn. lia.
        -- cbn. unfold esize. cbn. repeat split; auto; try lia. now left.
        -- unfold pv_elems, tree_elems. cbn. now rewrite app_nil_r.
      * injection E as <-. rewrite (proj2 (Nat.ltb_lt _ _)) by lia.
        destruct (node_pop_front_holed Hh ltac:(lia) Nk) as (n' & x & E1 & Nk' & Ee & Hf'). rewrite E1. cbn [obind].
        assert (Em : esize (t_root t) = S (esize n')) by (unfold esize; rewrite Ee; reflexivity).
        assert (El : tree_elems t = x :: elems n' ++ t_tail t) by (unfold tree_elems; now rewrite Eh, Ee).
        rewrite El. cbn [list_step fst snd]. eexists. split; [reflexivity|]. split; [|cbn; unfold tree_elems; cbn; auto].
        split; [split|].
        -- unfold pv_elems, tree_elems. cbn. rewrite app_length. fold (esize n'). lia.
        -- cbn. apply mk_tree_ok; [exact Nk'|]. cbn. lia.
        -- cbn [inner]. eexists. split; [reflexivity|]. cbn [t_head t_root t_tail length]. repeat split; auto; lia.
    + cbn in Hf. destruct f as [|f]; [lia|].
      assert (Es' : w' = Holed f a z b) by (now injection E as <-). subst w'.
      assert (El : tree_elems t = h :: hs ++ elems (t_root t) ++ t_tail t) by (unfold tree_elems; now rewrite Eh).
      rewrite El. cbn [obind list_step fst snd]. eexists. split; [reflexivity|]. split; [|reflexivity].
      split; [split|].
      * unfold pv_elems, tree_elems. cbn. rewrite !app_length. fold (esize (t_root t)). lia.
      * cbn. apply mk_tree_ok; [exact Nk|]. lia.
      * cbn [inner]. eexists. split; [reflexivity|]. cbn [t_head t_root t_tail]. repeat split; auto; lia.
Qed.

(** ** Histories *)
Lemma wide_step_right (v : pvec) w w' o : at_wide v w -> is_ends o = true -> wide_step o (pv_elems v) w = Some w' ->
  exists v', vec_step o v = Ret (v', snd (list_step o (pv_elems v))) /\
    at_wide v' w' /\ pv_elems v' = fst (list_step o (pv_elems v)).
Proof.
  intros H Ho E. pose proof (at_wide_ok H) as Hok. destruct o as [x|x| | |i x|xs|f|p|n|n|i|i|i x|i|xs|xs]; try discriminate Ho;
    cbn [wide_step] in E.
  - injection E as <-. cbn [vec_step list_step fst snd]. eexists. split; [reflexivity|]. split; [now apply push_back_wide|].
    now apply pv_push_back_ok.
  - injection E as <-. cbn [vec_step list_step fst snd]. eexists. split; [reflexivity|]. split; [now apply push_front_wide|].
    now apply pv_push_front_ok.
  - eapply pop_back_wide; eauto.
  - eapply pop_front_wide; eauto.
  - injection E as <-. destruct (@grow_step T (Update i x) v eq_refl Hok) as (v' & E1 & _ & E2). exists v'.
    split; [exact E1|]. split; [|exact E2]. cbn [vec_step] in E1.
    destruct (pv_update v i x) as [w2|] eqn:Eu; [|discriminate]. injection E1 as <-. eapply update_wide; eauto.
  - injection E as <-. destruct (@grow_step T (Extend xs) v eq_refl Hok) as (v' & E1 & _ & E2). exists v'.
    split; [exact E1|]. split; [|exact E2]. injection E1 as <-. now apply extend_wide.
  - injection E as <-. cbn [vec_step list_step fst snd]. rewrite pv_map_ok by exact Hok. cbn [obind].
    eexists. split; [reflexivity|]. split; [apply from_iter_place|apply pv_from_iter_ok].
  - injection E as <-. cbn [vec_step list_step fst snd]. rewrite pv_filter_ok by exact Hok. cbn [obind].
    eexists. split; [reflexivity|]. split; [apply from_iter_place|apply pv_from_iter_ok].
Qed.
Lemma wide_run_right ops : forall (v : pvec) w w', at_wide v w -> Forall (fun o => is_ends o = true) ops ->
  wide_run ops (pv_elems v) w = Some w' ->
  exists v', vec_run ops v = Ret (v', snd (list_run ops (pv_elems v))) /\
    at_wide v' w' /\ pv_elems v' = fst (list_run ops (pv_elems v)).
Proof.
  induction ops as [|o ops IH]; intros v w w' H Ho E.
  - injection E as <-. exists v. auto.
  - inversion Ho; subst. cbn [wide_run] in E. destruct (wide_step o (pv_elems v) w) as [w1|] eqn:E1; [|discriminate].
    destruct (wide_step_right H H2 E1) as (v1 & R1 & P1 & L1). rewrite <- L1 in E.
    destruct (IH v1 w1 w' P1 H3 E) as (v2 & R2 & P2 & L2). rewrite L1 in R2, L2.
    exists v2. cbn [vec_run list_run]. rewrite R1. cbn [obind fst snd]. rewrite R2. cbn [obind fst snd].
    destruct (list_step o (pv_elems v)) as [l1 r1]. cbn [fst snd] in *.
    destruct (list_run ops l1) as [l2 rs]. cbn [fst snd] in *. auto.
Qed.
Lemma wide_history (v : pvec) l ops w : starts v l -> Forall (fun o => is_ends o = true) ops ->
  wide_run ops l (wide_start (length l)) = Some w ->
  exists v', vec_run ops v = Ret (v', snd (list_run ops l)) /\ at_wide v' w /\ pv_elems v' = fst (list_run ops l).
Proof.
  intros Hs Ho E. pose proof (starts_place Hs) as P. destruct (starts_ok Hs) as [_ <-].
  eapply wide_run_right; [|exact Ho|exact E]. exact P.
Qed.
End Gap.

(** ** C04 *)

(** Right as long as every call is one [wide_run] goes on at *)
Theorem C04_past_refill_partial {T} (v : pvec T) l ops : starts v l -> Forall (fun o => is_ends o = true) ops ->
  wide_run ops l (wide_start (length l)) <> None -> faithful v l ops.
Proof.
  intros Hs Ho E. destruct (wide_run ops l (wide_start (length l))) as [w|] eqn:Es; [|congruence].
  destruct (wide_history Hs Ho Es) as (v' & R & P & L). exists v'. split; [exact R|]. rewrite <- L.
  apply pv_ok_represents, (at_wide_ok P).
Qed.
(** [pop_back] with nothing in the back buffer and something in the front buffer hands back nothing. *)
Theorem C04_holed_pop_back_wrong {T} (v : pvec T) l ops more f a z : starts v l ->
  Forall (fun o => is_ends o = true) ops ->
  wide_run ops l (wide_start (length l)) = Some (Holed (S f) a z 0) -> ~ faithful v l (ops ++ PopBack :: more).
Proof.
  intros Hs Ho E F. destruct (wide_history Hs Ho E) as (v1 & R & P & L).
  apply (proj1 (faithful_after (PopBack :: more) R)) in F.
  rewrite <- L in F. pose proof (at_wide_size P) as Hsz.
  assert (Hstep : vec_step PopBack v1 = Ret (v1, None)).
  { cbn [vec_step]. unfold pv_pop_back. rewrite (is_empty_wide P). cbn [wide_size Nat.add Nat.eqb].
    destruct P as ([_ Hok] & t & Ei & Hf & Hm & Hb & _). unfold pv_elems in Hsz. rewrite Ei in *.
    apply length_zero_iff_nil in Hb. destruct Hok as [Nk Hlen].
    rewrite Hsz in Hlen. cbn [wide_size] in Hlen. unfold tree_pop_back. rewrite (proj2 (Nat.eqb_neq _ _)) by lia.
    rewrite Hb. cbn [pop_last]. unfold pop_from_tree. rewrite (proj2 (Nat.eqb_neq _ _)), Hb by lia.
    rewrite usub_ok by (cbn; lia). cbn [obind length]. rewrite (proj2 (Nat.eqb_neq (t_len t - 0) 0)) by lia.
    rewrite node_get_ok by exact Nk.
    assert (En : nth_error (elems (t_root t)) (t_len t - 0 - 1) = None)
      by (apply nth_error_None; fold (esize (t_root t)); lia).
    rewrite En. reflexivity. }
  destruct F as (w & E1 & _). cbn [vec_run] in E1. rewrite Hstep in E1. cbn [obind fst snd] in E1.
  destruct (vec_run more v1) as [[w' rs]|]; [|discriminate]. cbn [obind fst snd] in E1.
  destruct (list_last_case (pv_elems v1)) as [E0|(c & x & E0)]; [rewrite E0 in Hsz; discriminate|].
  cbn [list_run] in E1. rewrite E0, list_pop_back in E1. destruct (list_run more c) as [l2 rs2]. cbn in E1. discriminate.
Qed.
(** [pop_front] with only the back buffer left, holding at least three: the right element, and the others in reverse. *)
Theorem C04_holed_pop_front_reverses {T} (v : pvec T) l ops b : starts v l -> Forall (fun o => is_ends o = true) ops ->
  wide_run ops l (wide_start (length l)) = Some (Holed 0 0 0 b) -> 3 <= b ->
  let left := tl (fst (list_run ops l)) in
  (exists v', vec_run (ops ++ [PopFront]) v = Ret (v', snd (list_run (ops ++ [PopFront]) l)) /\ represents v' (rev left)) /\
  (faithful v l (ops ++ [PopFront]) <-> rev left = left).
Proof.
  intros Hs Ho E Hb left. destruct (wide_history Hs Ho E) as (v1 & R & P & L). unfold left. rewrite <- L.
  pose proof (at_wide_size P) as Hsz. cbn [wide_size] in Hsz.
  assert (Hstep : exists v2 x, pv_elems v1 = x :: tl (pv_elems v1) /\ vec_step PopFront v1 = Ret (v2, Some x) /\
    represents v2 (rev (tl (pv_elems v1)))).
  { cbn [vec_step]. unfold pv_pop_front. rewrite (is_empty_wide P). cbn [wide_size].
    rewrite (proj2 (Nat.eqb_neq _ _)) by lia. destruct P as ([Hl Hok] & t & Ei & Hf & Hm & Hbk & _). unfold pv_elems in *.
    rewrite Ei in *. apply length_zero_iff_nil in Hf.
    destruct Hok as [Nk Hlen]. pose proof (esize0 _ Hm) as E0.
    assert (El : tree_elems t = t_tail t) by (unfold tree_elems; now rewrite Hf, E0). rewrite El in *.
    unfold tree_pop_front. rewrite (proj2 (Nat.eqb_neq _ _)), Hf by lia. unfold pop_front_from_tree. rewrite Hf.
    cbn [length]. rewrite usub_ok by lia. cbn [obind]. rewrite usub_ok by lia. cbn [obind].
    rewrite (proj2 (Nat.ltb_ge _ _)) by lia. cbn [obind]. unfold pop_front_from_tail.
    destruct (t_tail t) as [|x rest]; [cbn in Hbk; lia|]. cbn [rev tl]. rewrite pop_last_app. cbn [obind].
    eexists _, x. split; [reflexivity|]. split; [reflexivity|].
    set (w := mkPvec _ _ _). assert (Ew : pv_elems w = rev rest) by (unfold pv_elems, tree_elems; cbn; now rewrite app_nil_r).
    rewrite <- Ew. apply pv_ok_represents. split.
    - rewrite Ew, rev_length. cbn in *. lia.
    - cbn. apply mk_tree_ok; [constructor|]. rewrite rev_length. unfold esize. cbn in *. lia. }
  destruct Hstep as (v2 & x & Ex & S2 & R2).
  assert (Rn : vec_run [PopFront] v1 = Ret (v2, snd (list_run [PopFront] (pv_elems v1)))).
  { cbn [vec_run]. rewrite S2, Ex. reflexivity. }
  split.
  - exists v2. rewrite vec_run_app, R, list_run_app, <- L. cbn [obind fst snd]. rewrite Rn. auto.
  - rewrite (faithful_after [PopFront] R), <- L. split.
    + intros (w & E1 & Rep). rewrite Rn in E1. injection E1 as <-.
      assert (Ef : fst (list_run [PopFront] (pv_elems v1)) = tl (pv_elems v1)) by (rewrite Ex; reflexivity).
      rewrite Ef in Rep. destruct Rep as (_ & _ & A), R2 as (_ & _ & B). congruence.
    + intros Er. exists v2. split; [exact Rn|].
      assert (Ef : fst (list_run [PopFront] (pv_elems v1)) = tl (pv_elems v1)) by (rewrite Ex; reflexivity).
      rewrite Ef. now rewrite <- Er at 1.
Qed.

(** *** Taking what lies behind a hole *)
Section Behind.
Context {T : Type}.
Notation node := (node T).
Implicit Types (v : pvec T) (t : tree T) (l : list T).

(** The empty leaf has a neighbour behind it *)
Inductive backed : node -> nat -> Prop :=
| backed_here (L R : list node) sz : Forall full L -> Forall full R -> R <> [] ->
    backed (Branch (L ++ Leaf [] :: R) sz) (length (flat_map elems L))
| backed_below (L : list node) c (R : list node) sz a : Forall full L -> Forall full R -> backed c a ->
    backed (Branch (L ++ c :: R) sz) (length (flat_map elems L) + a).
Lemma backed_size (n : node) a : backed n a -> a < esize n.
Proof.
  induction 1 as [L R sz HL HR HN|L c R sz a HL HR Hc IH]; unfold esize in *; cbn [elems];
    rewrite flat_map_app, app_length; cbn [flat_map]; rewrite app_length.
  - destruct R as [|r R]; [easy|]. inversion HR as [|? ? Fr _]; subst. apply full_size in Fr. unfold esize in Fr.
    cbn [elems flat_map app length]. rewrite app_length. lia.
  - lia.
Qed.
Lemma backed_push_leaf (n : node) es a : es <> [] -> backed n a -> backed (push_leaf n (Leaf es)) a.
Proof.
  intros Hne H. assert (P : forall sz, backed (Branch [n; Leaf es] sz) a).
  { intros sz. apply (@backed_below [] n [Leaf es] sz a); [constructor|repeat constructor; exact Hne|exact H]. }
  unfold push_leaf. destruct n as [es'|cs sz]; [apply P|].
  destruct (length cs <? BRANCHING_FACTOR); [|apply P].
  assert (Fe : Forall full [Leaf es]) by (repeat constructor; exact Hne).
  inversion H as [L R sz' HL HR HN|L c R sz' a' HL HR Hc]; subst; rewrite <- app_assoc; cbn [app]; constructor; auto;
    try (apply Forall_app; auto). destruct R; discriminate.
Qed.
Lemma backed_push_front_leaf (n : node) es a : es <> [] -> backed n a -> backed (push_front_leaf n (Leaf es)) (length es + a).
Proof.
  intros Hne H. assert (P : forall sz, backed (Branch [Leaf es; n] sz) (length es + a)).
  { intros sz. replace (length es) with (length (flat_map elems [Leaf es])) by (cbn; now rewrite app_nil_r).
    apply (@backed_below [Leaf es] n [] sz a); [repeat constructor; exact Hne|constructor|exact H]. }
  unfold push_front_leaf. destruct n as [es'|cs sz]; [apply P|].
  destruct (length cs <? BRANCHING_FACTOR); [|apply P].
  inversion H as [L R sz' HL HR HN Es Ea|L c R sz' a' HL HR Hc Es Ea]; subst.
  - replace (length es + length (flat_map elems L)) with (length (flat_map elems (Leaf es :: L)))
      by (cbn; now rewrite app_length).
    change (Leaf es :: L ++ Leaf [] :: R) with ((Leaf es :: L) ++ Leaf [] :: R). constructor; auto. constructor; auto. now constructor.
  - replace (length es + (length (flat_map elems L) + a')) with (length (flat_map elems (Leaf es :: L)) + a')
      by (cbn; rewrite app_length; lia).
    change (Leaf es :: L ++ c :: R) with ((Leaf es :: L) ++ c :: R). constructor; auto. constructor; auto. now constructor.
Qed.
Lemma set_sizes (L : list node) : forall k d j x, Forall node_ok L -> nth_error L k = Some d ->
  length (flat_map elems (list_set L k (node_update d j x))) = length (flat_map elems L).
Proof.
  induction L as [|y L IH]; intros [|k] d j x OL Hd; cbn in *; try discriminate; rewrite !app_length; inversion OL; subst.
  - injection Hd as <-. fold (esize y) (esize (node_update y j x)). now rewrite node_update_esize.
  - f_equal. now apply IH.
Qed.
Lemma node_update_backed (n : node) a : backed n a -> node_ok n -> forall i x, backed (node_update n i x) a.
Proof.
  induction 1 as [L R sz HL HR HN|L c R sz a HL HR Hc IH]; intros Hok i x.
  all: apply node_ok_branch_inv in Hok as (_ & Hok & _); apply Forall_app in Hok as [OL Hok]; inversion Hok as [|? ? Oc OR]; subst.
  - destruct (node_update_branch_cases (L ++ Leaf [] :: R) sz i x) as [->|(k & j & d & Hd & ->)]; [now constructor|].
    destruct (Nat.lt_ge_cases k (length L)) as [Lt|Ge].
    + rewrite nth_error_app1 in Hd by auto. rewrite list_set_app1 by auto. rewrite <- (set_sizes j x OL Hd).
      constructor; auto. apply Forall_list_set; auto. apply node_update_full. apply (Forall_nth _ HL Hd).
    + rewrite nth_error_app2 in Hd by auto. rewrite list_set_app2 by auto.
      destruct (k - length L) as [|k']; cbn in Hd |- *.
      * injection Hd as <-. replace (node_update (Leaf []) j x) with (@Leaf T []) by (cbn; now destruct j). now constructor.
      * constructor; auto; [|now destruct R, k']. apply Forall_list_set; auto. apply node_update_full.
        apply (Forall_nth _ HR Hd).
  - destruct (node_update_branch_cases (L ++ c :: R) sz i x) as [->|(k & j & d & Hd & ->)]; [now apply backed_below|].
    destruct (Nat.lt_ge_cases k (length L)) as [Lt|Ge].
    + rewrite nth_error_app1 in Hd by auto. rewrite list_set_app1 by auto. rewrite <- (set_sizes j x OL Hd).
      apply backed_below; auto. apply Forall_list_set; auto. apply node_update_full. apply (Forall_nth _ HL Hd).
    + rewrite nth_error_app2 in Hd by auto. rewrite list_set_app2 by auto.
      destruct (k - length L) as [|k']; cbn in Hd |- *.
      * injection Hd as <-. apply backed_below; auto.
      * apply backed_below; auto. apply Forall_list_set; auto. apply node_update_full. apply (Forall_nth _ HR Hd).
Qed.
Lemma node_pop_front_backed (n : node) : forall a, backed n (S a) -> node_ok n ->
  exists n' x, node_pop_front n = Ret (Some (n', x)) /\ node_ok n' /\ backed n' a.
Proof.
  induction n as [es|cs sz IH] using node_ind'; intros a H Hok; [inversion H|].
  apply node_ok_branch_inv in Hok as (_ & Hok & ->).
  assert (Case : exists L c R a', cs = L ++ c :: R /\ S a = length (flat_map elems L) + a' /\
    Forall full L /\ Forall full R /\ ((c = Leaf [] /\ R <> [] /\ a' = 0) \/ backed c a')).
  { inversion H as [L R sz' HL HR HN Es Ea|L c R sz' a' HL HR Hc Es Ea]; subst.
    - exists L, (Leaf []), R, 0. repeat split; auto.
    - exists L, c, R, a'. repeat split; auto. }
  clear H. destruct Case as (L & c & R & a' & -> & Ea & HL & HR & Hc).
  apply Forall_app in Hok as [OL Hok]. inversion Hok as [|? ? Oc OR]; subst.
  destruct L as [|y L].
  - cbn in Ea. subst a'. destruct Hc as [(_ & _ & Hc)|Hc]; [discriminate|].
    cbn [app] in *. inversion IH as [|? ? IHc _]; subst.
    destruct (IHc _ Hc Oc) as (c' & x & E & Oc' & Hb).
    exists (drop_front c' R), x. rewrite (node_pop_front_branch _ _ Oc' E). split; [reflexivity|].
    split; [apply (drop_front_ok OR Oc')|].
    unfold drop_front. pose proof (backed_size Hb) as Hs. rewrite (proj2 (Nat.eqb_neq (esize c') 0)) by lia.
    apply (@backed_below [] c' R _ a); auto.
  - cbn [app] in *. inversion HL as [|? ? Fy FL]; subst. inversion OL as [|? ? Oy OL']; subst.
    destruct (node_pop_front_filled Oy Fy) as (y' & x & E & Oy' & Ee & Hf).
    exists (drop_front y' (L ++ c :: R)), x. rewrite (node_pop_front_branch _ _ Oy' E). split; [reflexivity|].
    assert (Orest : Forall node_ok (L ++ c :: R)) by (apply Forall_app; split; auto).
    split; [apply (drop_front_ok Orest Oy')|]. cbn [flat_map] in Ea. rewrite Ee in Ea. cbn [app length] in Ea. rewrite app_length in Ea.
    unfold drop_front. destruct (Nat.eqb_spec (esize y') 0) as [E0|E0].
    + replace a with (length (flat_map elems L) + a') by (unfold esize in E0; lia).
      destruct (L ++ c :: R) eqn:El; [destruct L; discriminate|]. rewrite <- El.
      destruct Hc as [(-> & HN & ->)|Hc]; [rewrite Nat.add_0_r; now constructor|now apply backed_below].
    + replace a with (length (flat_map elems (y' :: L)) + a') by (cbn; rewrite app_length; lia).
      change (y' :: L ++ c :: R) with ((y' :: L) ++ c :: R).
      assert (FL' : Forall full (y' :: L)) by (constructor; [apply filled_full; [exact Hf|lia]|exact FL]).
      destruct Hc as [(-> & HN & ->)|Hc]; [rewrite Nat.add_0_r; now constructor|now apply backed_below].
Qed.

Lemma node_pop_front_stuck (n : node) : forall a, backed n a -> a = 0 -> node_pop_front n = Ret None.
Proof.
  induction 1 as [L R sz HL HR HN|L c R sz a HL HR Hc IH]; intros E;
    (destruct L as [|y L]; [|inversion HL as [|? ? Fy _]; subst; apply full_size in Fy; unfold esize in Fy;
       cbn [flat_map] in E; rewrite app_length in E; lia]).
  - reflexivity.
  - cbn [app node_pop_front]. rewrite IH by exact E. reflexivity.
Qed.

(** Where [w] says, and the hole has something behind it *)
Definition at_behind v (w : wide) : Prop :=
  match w with Whole _ => False | Holed f a z b => exists t, inner v = Tree t /\ backed (t_root t) a end.

Lemma push_back_behind v x w : at_wide v w -> at_behind v w -> at_behind (pv_push_back v x) (wide_push_back w).
Proof.
  destruct w as [s|f a z b]; [easy|]. intros (_ & t & Ei & Hf & Hm & Hb & _) (t' & Ei' & H).
  assert (t' = t) by congruence. subst t'. cbn [wide_push_back]. unfold pv_push_back. rewrite Ei.
  unfold pv_tree_push_back, tree_push_back. rewrite leaf64, Hb.
  destruct (Nat.ltb_spec b 64) as [Lt|Ge]; (eexists; split; [reflexivity|]); [exact H|].
  unfold push_tail_to_tree. destruct (t_tail t) as [|y ys]; [cbn in Hb; lia|]. cbn. apply backed_push_leaf; [discriminate|exact H].
Qed.
Lemma push_front_behind v x w : at_wide v w -> at_behind v w -> at_behind (pv_push_front v x) (wide_push_front w).
Proof.
  destruct w as [s|f a z b]; [easy|]. intros (_ & t & Ei & Hf & Hm & Hb & _) (t' & Ei' & H).
  assert (t' = t) by congruence. subst t'. cbn [wide_push_front]. unfold pv_push_front. rewrite Ei.
  unfold pv_tree_push_front, tree_push_front. rewrite leaf64, Hf.
  destruct (Nat.ltb_spec f 64) as [Lt|Ge]; (eexists; split; [reflexivity|]); [exact H|].
  unfold push_head_to_tree. destruct (t_head t) as [|y ys] eqn:Et; [cbn in Hf; lia|]. cbn [tree_push_front_head t_root].
  rewrite Nat.add_comm, <- Hf. apply backed_push_front_leaf; [discriminate|exact H].
Qed.
Lemma extend_behind xs : forall v w, at_wide v w -> at_behind v w ->
  at_behind (pv_extend v xs) (Nat.iter (length xs) wide_push_back w).
Proof.
  unfold pv_extend. induction xs as [|x xs IH]; intros v w H Hb; cbn [fold_left length]; [exact Hb|].
  rewrite <- iter_shift. apply IH; [now apply push_back_wide|now apply push_back_behind].
Qed.
Lemma behind_step v w w' v' r o : at_wide v w -> at_behind v w -> is_ends o = true -> takes_behind o w = false ->
  wide_step o (pv_elems v) w = Some w' -> vec_step o v = Ret (v', r) -> at_behind v' w'.
Proof.
  intros P H Ho Hk E R. destruct o as [x|x| | |i x|xs|g|p|n|n|i|i|i x|i|xs|xs]; try discriminate Ho; try discriminate Hk;
    cbn [wide_step vec_step] in *.
  - injection E as <-. injection R as <- _. now apply push_back_behind.
  - injection E as <-. injection R as <- _. now apply push_front_behind.
  - destruct w as [s|f a z [|b]]; try discriminate Hk. cbn [wide_pop_back] in E.
    assert (Ew : w' = Holed f a z b) by (destruct f, a, z; now injection E as <-). subst w'.
    unfold pv_pop_back in R. rewrite (is_empty_wide P) in R. pose proof (at_wide_size P) as Hsz. cbn [wide_size] in *.
    rewrite (proj2 (Nat.eqb_neq _ _)) in R by lia. destruct P as ([_ Hok] & t & Ei & Hf & Hm & Hb & _).
    destruct H as (t' & Ei' & H). assert (t' = t) by congruence. subst t'. unfold pv_elems in Hsz. rewrite Ei in *. clear Ei'.
    destruct Hok as [_ Hlen]. unfold tree_pop_back in R. rewrite (proj2 (Nat.eqb_neq _ _)) in R by lia.
    destruct (list_last_case (t_tail t)) as [Et|(c & x & Et)]; rewrite Et in *; [discriminate|].
    rewrite pop_last_app in R. cbn [obind] in R. injection R as <- _. eexists. split; [reflexivity|]. exact H.
  - destruct w as [s|f a z b]; [easy|].
    unfold pv_pop_front in R. rewrite (is_empty_wide P) in R. pose proof (at_wide_size P) as Hsz. cbn [wide_size] in *.
    destruct P as ([_ Hok] & t & Ei & Hf & Hm & Hb & _).
    destruct H as (t' & Ei' & H). assert (t' = t) by congruence. subst t'. unfold pv_elems in Hsz. rewrite Ei in *. clear Ei'.
    pose proof (backed_size H) as Hlt.
    rewrite (proj2 (Nat.eqb_neq _ _)) in R by lia.
    destruct Hok as [Nk Hlen]. unfold tree_pop_front in R. rewrite (proj2 (Nat.eqb_neq _ _)) in R by lia.
    destruct (t_head t) as [|h hs] eqn:Eh.
    + cbn in Hf. subst f. cbn [wide_pop_front] in E. destruct a as [|a]; [destruct z; [lia|discriminate]|].
      injection E as <-. unfold pop_front_from_tree in R. rewrite Eh in R. cbn [length] in R.
      rewrite usub_ok in R by lia. cbn [obind] in R. rewrite usub_ok in R by lia. cbn [obind] in R.
      rewrite (proj2 (Nat.ltb_lt _ _)) in R by lia.
      destruct (node_pop_front_backed H Nk) as (n' & x & E1 & _ & H'). rewrite E1 in R. cbn [obind] in R.
      injection R as <- _. eexists. split; [reflexivity|]. exact H'.
    + destruct f as [|f]; [discriminate|]. cbn [wide_pop_front] in E. injection E as <-. cbn [obind] in R.
      injection R as <- _. eexists. split; [reflexivity|]. exact H.
  - injection E as <-. destruct w as [s|f a z b]; [easy|]. destruct H as (t & Ei & H).
    destruct (pv_update v i x) as [u|] eqn:Eu; [|discriminate]. injection R as <- _.
    destruct (pv_update_inner _ _ _ Eu) as [->|[(es & A1 & A2)|(t0 & t' & A1 & A2 & A3)]].
    + exists t. auto.
    + congruence.
    + assert (t0 = t) by congruence. subst t0. exists t'. split; [exact A2|].
      destruct P as ([_ Hok] & _). rewrite Ei in Hok.
      destruct (tree_update_cases _ _ _ A3) as [->|[->|[(j & ->)|(j & ->)]]]; cbn [t_root]; auto.
      apply node_update_backed; [exact H|apply Hok].
  - injection E as <-. injection R as <- _. now apply extend_behind.
Qed.
Lemma behind_run ops : forall v w w', at_wide v w -> at_behind v w -> Forall (fun o => is_ends o = true) ops ->
  keeps_behind ops (pv_elems v) w = true -> wide_run ops (pv_elems v) w = Some w' ->
  exists v', vec_run ops v = Ret (v', snd (list_run ops (pv_elems v))) /\
    at_wide v' w' /\ at_behind v' w' /\ pv_elems v' = fst (list_run ops (pv_elems v)).
Proof.
  induction ops as [|o ops IH]; intros v w w' P H Ho Hk E.
  - injection E as <-. exists v. auto.
  - inversion Ho as [|? ? Ho1 Ho2]; subst. cbn [wide_run keeps_behind] in E, Hk. apply andb_prop in Hk as [Hk1 Hk2].
    apply negb_true_iff in Hk1.
    destruct (wide_step o (pv_elems v) w) as [w1|] eqn:E1; [|discriminate].
    destruct (wide_step_right P Ho1 E1) as (v1 & R1 & P1 & L1). rewrite <- L1 in E, Hk2.
    pose proof (behind_step P H Ho1 Hk1 E1 R1) as H1.
    destruct (IH v1 w1 w' P1 H1 Ho2 Hk2 E) as (v2 & R2 & P2 & B2 & L2). rewrite L1 in R2, L2.
    exists v2. cbn [vec_run list_run]. rewrite R1. cbn [obind fst snd]. rewrite R2. cbn [obind fst snd].
    destruct (list_step o (pv_elems v)) as [l1 r1]. cbn [fst snd] in *.
    destruct (list_run ops l1) as [l2 rs]. cbn [fst snd] in *. auto.
Qed.
Lemma vec_run_start (v : pvec T) l ops1 ops2 w1 : starts v l -> Forall (fun o => is_ends o = true) ops1 ->
  wide_run ops1 l (wide_start (length l)) = Some w1 ->
  exists v1, vec_run ops1 v = Ret (v1, snd (list_run ops1 l)) /\ at_wide v1 w1 /\ pv_elems v1 = fst (list_run ops1 l) /\
    (faithful v l (ops1 ++ ops2) <-> faithful v1 (pv_elems v1) ops2).
Proof.
  intros Hs Ho E. destruct (wide_history Hs Ho E) as (v1 & R & P & L). exists v1. split; [exact R|]. split; [exact P|].
  split; [exact L|]. rewrite L. now apply faithful_after.
Qed.

(** A hole made at the back, and any calls after it that keep what lies behind: once everything before it is gone,
    [pop_front] either hands back nothing, or hands back an element of the back buffer and loses the others. *)
Theorem C04_hole_reached_wrong (v : pvec T) l ops x mid f z b : starts v l ->
  Forall (fun o => is_ends o = true) ops -> Forall (fun o => is_ends o = true) mid ->
  wide_run ops l (wide_start (length l)) = Some (Whole (Long f 0 64)) ->
  keeps_behind mid (fst (list_run (ops ++ [PushBack x]) l)) (Holed f 0 64 1) = true ->
  wide_run mid (fst (list_run (ops ++ [PushBack x]) l)) (Holed f 0 64 1) = Some (Holed 0 0 z b) ->
  faithful v l (ops ++ PushBack x :: mid) /\ ~ faithful v l (ops ++ PushBack x :: mid ++ [PopFront]).
Proof.
  intros Hs Ho Hm E K E2.
  destruct (wide_history Hs Ho E) as (v1 & R & P & L).
  rewrite (faithful_after (PushBack x :: mid) R), (faithful_after (PushBack x :: mid ++ [PopFront]) R).
  assert (Hl2 : fst (list_run (ops ++ [PushBack x]) l) = pv_elems (pv_push_back v1 x)).
  { rewrite list_run_app. cbn [fst]. rewrite <- L. destruct (pv_push_back_ok x (at_wide_ok P)) as [_ ->].
    cbn [list_run list_step fst]. reflexivity. }
  rewrite Hl2 in *. clear Hl2. pose proof (push_back_wide x P) as P2.
  cbn [wide_push_back place_push_back Nat.ltb Nat.leb Nat.eqb] in P2.
  assert (B2 : at_behind (pv_push_back v1 x) (Holed f 0 64 1)).
  { destruct P as [Hok P]. cbn [at_behind]. destruct (inner v1) as [es|t] eqn:Ei; [easy|].
    destruct P as (Hf & Hr & Hb & _ & _ & Hfill). unfold pv_push_back. rewrite Ei.
    unfold pv_tree_push_back, tree_push_back. rewrite leaf64, Hb. cbn [Nat.ltb Nat.leb inner]. eexists. split; [reflexivity|].
    unfold push_tail_to_tree. destruct (t_tail t) as [|y ys]; [discriminate|]. rewrite (filled_empty Hfill Hr).
    cbn [tree_push_back_tail t_root push_leaf]. apply (@backed_here [] [Leaf (y :: ys)]); repeat constructor; discriminate. }
  destruct (behind_run P2 B2 Hm K E2) as (v3 & R3 & P3 & B3 & L3).
  assert (R1 : vec_run [PushBack x] v1 = Ret (pv_push_back v1 x, snd (list_run [PushBack x] (pv_elems v1)))) by reflexivity.
  assert (Lx : fst (list_run [PushBack x] (pv_elems v1)) = pv_elems (pv_push_back v1 x)).
  { destruct (pv_push_back_ok x (at_wide_ok P)) as [_ ->]. reflexivity. }
  rewrite <- L. change (PushBack x :: mid) with ([PushBack x] ++ mid).
  change (PushBack x :: mid ++ [PopFront]) with ([PushBack x] ++ (mid ++ [PopFront])).
  rewrite (faithful_after mid R1), (faithful_after (mid ++ [PopFront]) R1), Lx, (faithful_after [PopFront] R3), <- L3.
  split. { exists v3. split; [exact R3|]. rewrite <- L3. apply pv_ok_represents, (at_wide_ok P3). }
  intros (u & E4 & Rep). pose proof (at_wide_size P3) as Hsz. pose proof (is_empty_wide P3) as Hemp. cbn [wide_size] in Hsz, Hemp.
  destruct P3 as ([Hl Hok] & t & Ei & Hf & Hr & Hb & _). destruct B3 as (t' & Ei' & B).
  assert (t' = t) by congruence. subst t'. clear Ei'. pose proof (backed_size B) as Hlt.
  apply length_zero_iff_nil in Hf. rewrite Ei in Hok. destruct Hok as [Nk Hlen].
  assert (El : pv_elems v3 = elems (t_root t) ++ t_tail t) by (unfold pv_elems, tree_elems; now rewrite Ei, Hf).
  assert (Hlen' : t_len t = z + b) by (rewrite Hlen; unfold pv_elems in Hsz; rewrite Ei in Hsz; exact Hsz).
  assert (Hstep : vec_step PopFront v3 =
    match t_tail t with
    | [] => Ret (v3, None)
    | y :: ys => Ret (mkPvec (Tree (mkTree (Leaf []) [] (rev ys) 0 (t_len t - 1))) (pv_len v3 - 1) (generation v3 + 1), Some y)
    end).
  { cbn [vec_step]. unfold pv_pop_front. rewrite Hemp, (proj2 (Nat.eqb_neq _ _)), Ei by lia.
    unfold tree_pop_front. rewrite (proj2 (Nat.eqb_neq _ _)), Hf by lia. unfold pop_front_from_tree. rewrite Hf.
    cbn [length]. rewrite usub_ok by lia. cbn [obind]. rewrite usub_ok by lia. cbn [obind].
    rewrite (proj2 (Nat.ltb_lt _ _)) by lia. rewrite (node_pop_front_stuck B eq_refl). cbn [obind].
    unfold pop_front_from_tail. destruct (t_tail t) as [|y ys]; [reflexivity|].
    cbn [rev]. rewrite pop_last_app. cbn [obind]. reflexivity. }
  cbn [vec_run] in E4. rewrite Hstep in E4. clear Hstep.
  destruct (pv_elems v3) as [|e es] eqn:Ee; [cbn in Hsz; lia|].
  destruct (t_tail t) as [|y ys] eqn:Et; cbn [obind fst snd list_run list_step] in E4; [discriminate|].
  injection E4 as <- _. cbn [list_run list_step fst] in Rep. destruct Rep as (_ & G & _).
  specialize (G (length ys)). cbn [length] in Hsz, Hb, Hl.
  unfold pv_get in G. cbn [pv_len inner] in G. rewrite (proj2 (Nat.leb_gt _ _)) in G by lia.
  unfold tree_get in G. cbn [t_len t_head t_tail t_root t_height] in G. rewrite rev_length in G.
  rewrite (proj2 (Nat.leb_gt _ _)), Nat.ltb_irrefl in G by lia. rewrite usub_ok in G by lia. cbn [obind] in G.
  rewrite usub_ok in G by lia. cbn [obind length] in G. rewrite usub_ok in G by lia. cbn [obind] in G.
  rewrite (proj2 (Nat.ltb_lt _ _)), Nat.sub_diag in G by lia. cbn [get_from_tree nth_error] in G.
  assert (Hn : nth_error es (length ys) <> None) by (apply nth_error_Some; lia). congruence.
Qed.
End Behind.

(** ** Concrete histories meeting the hypotheses *)
Definition hole_history : list (op nat) := repeat PopFront 64 ++ repeat (PushBack 5) 61.
(** Past the refill: both buffers handed on, everything before the hole taken, and part of what lies behind *)
Definition past_refill_history : list (op nat) :=
  hole_history ++ repeat (PushFront 9) 70 ++ [Update 3 8] ++ Extend (repeat 7 70) :: repeat PopFront 70 ++ repeat PopBack 80.
Example C04_past_refill_case :
  place_run past_refill_history (seq 0 68) (place_start 68) = None /\
  wide_run past_refill_history (seq 0 68) (wide_start 68) = Some (Holed 0 0 55 0) /\
  faithful (pv_from_iter (seq 0 68)) (seq 0 68) past_refill_history.
Proof.
  assert (E : wide_run past_refill_history (seq 0 68) (wide_start 68) = Some (Holed 0 0 55 0)) by (vm_compute; reflexivity).
  split; [vm_compute; reflexivity|]. split; [exact E|]. apply C04_past_refill_partial; [constructor|apply Forall_forall|].
  - intros o Ho. assert (F : forallb is_ends past_refill_history = true) by (vm_compute; reflexivity).
    rewrite forallb_forall in F. exact (F o Ho).
  - change (length (seq 0 68)) with 68. rewrite E. discriminate.
Qed.
Example C04_holed_pop_back_case :
  wide_run (hole_history ++ [PushFront 1; PopBack]) (seq 0 68) (wide_start 68) = Some (Holed 1 0 64 0).
Proof. vm_compute. reflexivity. Qed.
Example C04_holed_pop_front_case :
  wide_run (hole_history ++ repeat (PushFront 6) 65 ++ PopFront :: repeat PopBack 65 ++ repeat PopFront 64 ++
            [PushBack 1; PushBack 2; PushBack 3]) (seq 0 68) (wide_start 68) = Some (Holed 0 0 0 3).
Proof. vm_compute. reflexivity. Qed.
(** The hole made, elements put in front and taken again, some more behind *)
Definition around_hole : list (op nat) :=
  repeat (PushFront 9) 70 ++ Extend (repeat 7 70) :: PopBack :: Update 3 8 :: repeat PopFront 70.
Example C04_hole_reached_case :
  let before := repeat PopFront 64 ++ repeat (PushBack 5) 60 in
  wide_run around_hole (fst (list_run (before ++ [PushBack 5]) (seq 0 68))) (Holed 0 0 64 1) = Some (Holed 0 0 128 6) /\
  ~ faithful (pv_from_iter (seq 0 68)) (seq 0 68) (before ++ PushBack 5 :: around_hole ++ [PopFront]).
Proof.
  intros before.
  assert (F : forall ops : list (op nat), forallb is_ends ops = true -> Forall (fun o => is_ends o = true) ops).
  { intros ops F. apply Forall_forall. intros o Ho. rewrite forallb_forall in F. exact (F o Ho). }
  assert (E : wide_run around_hole (fst (list_run (before ++ [PushBack 5]) (seq 0 68))) (Holed 0 0 64 1) =
    Some (Holed 0 0 128 6)) by (vm_compute; reflexivity).
  split; [exact E|].
  refine (proj2 (@C04_hole_reached_wrong nat _ (seq 0 68) before 5 around_hole 0 128 6 (starts_slice _) _ _ _ _ E)).
  - apply F. vm_compute. reflexivity.
  - apply F. vm_compute. reflexivity.
  - vm_compute. reflexivity.
  - vm_compute. reflexivity.
Qed.

Print Assumptions C04_past_refill_partial.
Print Assumptions C04_holed_pop_back_wrong.
Print Assumptions C04_holed_pop_front_reverses.
Print Assumptions C04_hole_reached_wrong.

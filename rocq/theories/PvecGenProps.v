(** Theorems about the generation counter of [PersistentVector]: C84. *)
From Coq Require Import List Arith NArith Lia Bool.
From Verif Require Import Base PvecModel PvecSpec ListFacts PvecGenModel GenSpec.
Import ListNotations.
Open Scope outcome_scope.

(** Same contents and shape; the counter may differ. *)
Definition alike {T} (a b : pvec T) : Prop := inner a = inner b /\ pv_len a = pv_len b.
Definition alike_out {T R} (x y : outcome (pvec T * R)) : Prop :=
  match x, y with
  | Ret (a, r), Ret (b, s) => alike a b /\ r = s
  | Panic, Panic => True
  | _, _ => False
  end.
Lemma alike_set : forall T (a b : pvec T), alike a b -> b = set_generation a (generation b).
Proof. intros T [i l g] [i' l' g'] [H K]. cbn in *. now subst. Qed.
Lemma alike_iter : forall T (a b : pvec T), alike a b -> pv_iter a = pv_iter b.
Proof.
  intros T a b H. rewrite (alike_set _ _ _ H). clear H. unfold pv_iter. cbn [pv_len set_generation].
  generalize (S (pv_len a)), 0. intros n. induction n as [|n IH]; intros k; cbn [iter_collect]; [reflexivity|].
  unfold iter_next, pv_get. cbn [pv_len inner set_generation].
  destruct (k <? pv_len a); cbn [obind fst]; [|reflexivity].
  destruct (if pv_len a <=? k then Ret None else _) as [[x|]|]; cbn [obind fst snd]; auto. now rewrite IH.
Qed.
Lemma alike_split : forall T (a b : pvec T) i, alike a b -> 
  match pv_split_at a i, pv_split_at b i with
  | Ret (l, r), Ret (l', r') => alike l l' /\ alike r r'
  | Panic, Panic => True
  | _, _ => False
  end.
Proof.
  intros T a b i H. rewrite (alike_set _ _ _ H). unfold pv_split_at. cbn [pv_len inner set_generation].
  destruct (pv_len a <=? i); [split; split; reflexivity|]. destruct (i =? 0); [split; split; reflexivity|].
  destruct (inner a) as [es|t]; [split; split; reflexivity|].
  destruct (tree_split_at t i) as [[l r]|]; cbn; [split; split; reflexivity | exact I].
Qed.
Lemma alike_push_back : forall T (a b : pvec T) x, alike a b -> alike (pv_push_back a x) (pv_push_back b x).
Proof.
  intros T a b x H. rewrite (alike_set _ _ _ H). unfold pv_push_back, pv_tree_push_back, transition_to_tree. cbn [pv_len inner set_generation].
  destruct (inner a) as [es|t]; [destruct (length es <? ADAPTIVE_INLINE_SIZE)|]; split; reflexivity.
Qed.
Lemma alike_push_front : forall T (a b : pvec T) x, alike a b -> alike (pv_push_front a x) (pv_push_front b x).
Proof.
  intros T a b x H. rewrite (alike_set _ _ _ H). unfold pv_push_front, pv_tree_push_front, transition_to_tree. cbn [pv_len inner set_generation].
  destruct (inner a) as [es|t]; [destruct (length es <? ADAPTIVE_INLINE_SIZE)|]; split; reflexivity.
Qed.
Lemma alike_concat : forall T (a a' b b' : pvec T), alike a a' -> alike b b' -> alike (pv_concat a b) (pv_concat a' b').
Proof.
  intros T a a' b b' H K. rewrite (alike_set _ _ _ H), (alike_set _ _ _ K). unfold pv_concat. cbn [pv_len inner set_generation].
  destruct (inner a), (inner b); split; reflexivity.
Qed.
Lemma alike_refl : forall T (a : pvec T), alike a a.
Proof. split; reflexivity. Qed.
Lemma alike_trans : forall T (a b c : pvec T), alike a b -> alike b c -> alike a c.
Proof. intros T a b c [] []. split; congruence. Qed.
Lemma alike_sym : forall T (a b : pvec T), alike a b -> alike b a.
Proof. intros T a b []. split; congruence. Qed.
Lemma alike_skip : forall T (a b : pvec T) n, alike a b ->
  match pv_skip a n, pv_skip b n with Ret x, Ret y => alike x y | Panic, Panic => True | _, _ => False end.
Proof.
  intros T a b n H. pose proof (alike_split _ _ _ n H) as S. unfold pv_skip. rewrite <- (proj2 H).
  destruct (pv_len a <=? n); [apply alike_refl|]. destruct (pv_split_at a n) as [[l r]|], (pv_split_at b n) as [[l' r']|]; cbn; auto; apply S.
Qed.
Lemma alike_take : forall T (a b : pvec T) n, alike a b ->
  match pv_take a n, pv_take b n with Ret x, Ret y => alike x y | Panic, Panic => True | _, _ => False end.
Proof.
  intros T a b n H. pose proof (alike_split _ _ _ n H) as S. unfold pv_take. rewrite <- (proj2 H).
  destruct (pv_len a <=? n); [assumption|]. destruct (pv_split_at a n) as [[l r]|], (pv_split_at b n) as [[l' r']|]; cbn; auto; apply S.
Qed.
(** The calls do not look at the counter. *)
Lemma alike_step : forall T (o : op T) a b, alike a b -> alike_out (vec_step o a) (vec_step o b).
Proof.
  intros T o a b H. destruct o; cbn [vec_step].
  - split; [now apply alike_push_back | reflexivity].
  - split; [now apply alike_push_front | reflexivity].
  - rewrite (alike_set _ _ _ H). unfold pv_pop_back, pv_is_empty. cbn [pv_len inner set_generation].
    destruct (pv_len a =? 0); cbn; [repeat split|]. destruct (inner a) as [es|t].
    + destruct (pop_last es) as [[es' x]|]; cbn; repeat split.
    + destruct (tree_pop_back t) as [[[t' x]|]|]; cbn; repeat split.
  - rewrite (alike_set _ _ _ H). unfold pv_pop_front, pv_is_empty. cbn [pv_len inner set_generation].
    destruct (pv_len a =? 0); cbn; [repeat split|]. destruct (inner a) as [[|x es]|t]; cbn; try solve [repeat split].
    destruct (tree_pop_front t) as [[[t' x]|]|]; cbn; repeat split.
  - rewrite (alike_set _ _ _ H). unfold pv_update. cbn [pv_len inner set_generation].
    destruct (pv_len a <=? i); cbn [obind]; [repeat split|]. destruct (inner a) as [es|t].
    + destruct (i <? length es); cbn; repeat split.
    + destruct (tree_update t i x); cbn; repeat split.
  - split; [|reflexivity]. unfold pv_extend. revert a b H. induction xs as [|x xs IH]; intros a b H; cbn; [exact H|]. apply IH. now apply alike_push_back.
  - unfold pv_map. rewrite (alike_iter _ _ _ H). destruct (pv_iter b); cbn; repeat split.
  - unfold pv_filter. rewrite (alike_iter _ _ _ H). destruct (pv_iter b); cbn; repeat split.
  - pose proof (alike_take _ _ _ n H). destruct (pv_take a n), (pv_take b n); cbn; auto.
  - pose proof (alike_skip _ _ _ n H). destruct (pv_skip a n), (pv_skip b n); cbn; auto.
  - pose proof (alike_split _ _ _ i H). destruct (pv_split_at a i) as [[]|], (pv_split_at b i) as [[]|]; cbn; auto. split; tauto.
  - pose proof (alike_split _ _ _ i H). destruct (pv_split_at a i) as [[]|], (pv_split_at b i) as [[]|]; cbn; auto. split; tauto.
  - unfold pv_insert. rewrite <- (proj2 H). destruct (pv_len a <=? i); cbn [obind]; [split; [now apply alike_push_back|reflexivity]|].
    destruct (i =? 0); cbn [obind]; [split; [now apply alike_push_front|reflexivity]|].
    pose proof (alike_split _ _ _ i H). destruct (pv_split_at a i) as [[]|], (pv_split_at b i) as [[]|]; cbn; auto.
    split; [|reflexivity]. apply alike_concat; [apply alike_push_back|]; tauto.
  - unfold pv_remove. rewrite <- (proj2 H). destruct (pv_len a <=? i); cbn [obind]; [split; auto|]. destruct (pv_len a =? 1); cbn [obind]; [split; [apply alike_refl|reflexivity]|].
    pose proof (alike_split _ _ _ i H). destruct (pv_split_at a i) as [[l r]|], (pv_split_at b i) as [[l' r']|]; cbn; auto; try contradiction.
    destruct H0 as [Hl Hr]. pose proof (alike_skip _ _ _ 1 Hr). destruct (pv_skip r 1), (pv_skip r' 1); cbn; auto. split; [|reflexivity]. now apply alike_concat.
  - split; [|reflexivity]. apply alike_concat; auto using alike_refl.
  - split; [|reflexivity]. apply alike_concat; auto using alike_refl.
Qed.
Lemma count_wraps : forall T bound (v : pvec T), exists v', count bound false v = Ret v' /\ alike v v'.
Proof.
  intros. unfold count. destruct (N.of_nat (generation v) <? bound)%N; eexists; (split; [reflexivity|]); split; reflexivity.
Qed.
Lemma machine_step_wraps : forall T bound (o : op T) a b, alike a b -> alike_out (machine_step bound false o a) (vec_step o b).
Proof.
  intros T bound o a b H.
  assert (G : alike_out (do vr <- vec_step o a; do v' <- count bound false (fst vr); Ret (v', snd vr)) (vec_step o b)).
  { pose proof (alike_step T o a b H) as K. destruct (vec_step o a) as [[v r]|], (vec_step o b) as [[v' r']|]; cbn [obind fst snd]; cbn in K; auto; try contradiction.
    destruct (count_wraps T bound v) as (u & -> & Hu). cbn. destruct K as [K ->]. split; [|reflexivity]. eapply alike_trans; [apply alike_sym; eauto|exact K]. }
  destruct o; try exact G; clear G; cbn [machine_step vec_step].
  - unfold pv_insert. rewrite <- (proj2 H). destruct (pv_len a <=? i); cbn [obind].
    { destruct (count_wraps T bound (pv_push_back a x)) as (u & -> & Hu). cbn. split; [|reflexivity].
      eapply alike_trans; [apply alike_sym; eauto|]. now apply alike_push_back. }
    destruct (i =? 0); cbn [obind].
    { destruct (count_wraps T bound (pv_push_front a x)) as (u & -> & Hu). cbn. split; [|reflexivity].
      eapply alike_trans; [apply alike_sym; eauto|]. now apply alike_push_front. }
    pose proof (alike_split _ _ _ i H). destruct (pv_split_at a i) as [[l r]|], (pv_split_at b i) as [[l' r']|]; cbn [obind fst snd]; auto; try contradiction.
    destruct (count_wraps T bound l) as (l1 & -> & Hl). cbn [obind]. destruct (count_wraps T bound r) as (r1 & -> & Hr). cbn [obind].
    destruct (count_wraps T bound (pv_push_back l1 x)) as (l2 & -> & Hl2). cbn [obind].
    destruct (count_wraps T bound (pv_concat l2 r1)) as (u & -> & Hu). cbn. split; [|reflexivity].
    eapply alike_trans; [apply alike_sym; eauto|]. destruct H0 as [K1 K2]. apply alike_concat.
    + eapply alike_trans; [apply alike_sym; eauto|]. apply alike_push_back. eapply alike_trans; [apply alike_sym; eauto|]. exact K1.
    + eapply alike_trans; [apply alike_sym; eauto|]. exact K2.
  - unfold pv_remove. rewrite <- (proj2 H). destruct (pv_len a <=? i); cbn [obind]; [split; auto|]. destruct (pv_len a =? 1); cbn [obind]; [split; [apply alike_refl|reflexivity]|].
    pose proof (alike_split _ _ _ i H). destruct (pv_split_at a i) as [[l r]|], (pv_split_at b i) as [[l' r']|]; cbn [obind fst snd]; auto; try contradiction.
    destruct (count_wraps T bound l) as (l1 & -> & Hl). cbn [obind]. destruct (count_wraps T bound r) as (r1 & -> & Hr). cbn [obind].
    destruct H0 as [K1 K2]. assert (K : alike r1 r') by (eapply alike_trans; [apply alike_sym; eauto|exact K2]).
    pose proof (alike_skip _ _ _ 1 K) as Sk. destruct (pv_skip r1 1) as [s|], (pv_skip r' 1) as [s'|]; cbn [obind]; try contradiction; [|exact I].
    destruct (count_wraps T bound s) as (s1 & -> & Hs). cbn [obind].
    destruct (count_wraps T bound (pv_concat l1 s1)) as (u & -> & Hu). cbn. split; [|reflexivity].
    eapply alike_trans; [apply alike_sym; eauto|]. apply alike_concat; (eapply alike_trans; [apply alike_sym; eauto|]); auto.
Qed.
(** ** C84 *)
(** Without overflow checks: every history of any length behaves exactly as with
    an unbounded counter: same panics, same popped elements, same final vector. *)
Theorem C84_wrapping_is_harmless : forall T bound (ops : list (op T)) v,
  match machine_run bound false ops v, vec_run ops v with
  | Ret (a, r), Ret (b, s) => inner a = inner b /\ pv_len a = pv_len b /\ r = s
  | Panic, Panic => True
  | _, _ => False
  end.
Proof.
  intros T bound ops v.
  assert (G : forall ops a b, alike a b -> alike_out (machine_run bound false ops a) (@vec_run T ops b)).
  { clear. intros ops. induction ops as [|o ops IH]; intros a b H; cbn; [auto|].
    pose proof (machine_step_wraps T bound o a b H) as K. destruct (machine_step bound false o a) as [[a1 r1]|], (vec_step o b) as [[b1 s1]|]; cbn [obind fst snd]; cbn in K; auto; try contradiction.
    destruct K as [K ->]. specialize (IH a1 b1 K). destruct (machine_run bound false ops a1) as [[a2 r2]|], (vec_run ops b1) as [[b2 s2]|]; cbn [obind fst snd]; cbn in IH; auto; try contradiction.
    destruct IH as [IH ->]. split; auto. }
  specialize (G ops v v (alike_refl T v)). destruct (machine_run bound false ops v) as [[a r]|], (vec_run ops v) as [[b s]|]; cbn in *; auto.
  destruct G as [[G1 G2] G3]. auto.
Qed.
Lemma represents_alike : forall T (a b : pvec T) l, inner a = inner b -> pv_len a = pv_len b -> represents b l -> represents a l.
Proof.
  intros T a b l H K (L & G & V). unfold represents, pv_to_vec in *. rewrite (alike_iter T a b (conj H K)), K. split; [exact L|]. split; [|exact V].
  intros i. rewrite <- G. unfold pv_get. now rewrite H, K.
Qed.
(** So what is proved about the contents of vectors holds for such builds too. *)
Theorem C84_wrapping_faithful : forall T bound v l (ops : list (op T)), faithful v l ops ->
  exists v', machine_run bound false ops v = Ret (v', snd (list_run ops l)) /\ represents v' (fst (list_run ops l)).
Proof.
  intros T bound v l ops (v1 & R & P). pose proof (C84_wrapping_is_harmless T bound ops v) as H. rewrite R in H.
  destruct (machine_run bound false ops v) as [[a r]|]; [|contradiction]. destruct H as (H1 & H2 & ->).
  exists a. split; [reflexivity|]. eapply represents_alike; eauto.
Qed.
(** How much a call can raise the counter *)
Definition cost {T} (o : op T) : nat := match o with Extend xs => length xs + 1 | _ => 4 end.
Lemma gen_push_back : forall T (v : pvec T) x, generation (pv_push_back v x) <= generation v + 2.
Proof.
  intros. unfold pv_push_back, pv_tree_push_back, transition_to_tree. destruct (inner v) as [es|t] eqn:E; [destruct (length es <? ADAPTIVE_INLINE_SIZE)|]; cbn; lia.
Qed.
Lemma gen_push_front : forall T (v : pvec T) x, generation (pv_push_front v x) <= generation v + 2.
Proof.
  intros. unfold pv_push_front, pv_tree_push_front, transition_to_tree. destruct (inner v) as [es|t] eqn:E; [destruct (length es <? ADAPTIVE_INLINE_SIZE)|]; cbn; lia.
Qed.
(** Only the first push after the inline form is full raises it twice. *)
Lemma gen_extend : forall T (xs : list T) (v : pvec T), generation (pv_extend v xs) <= generation v + length xs + 1.
Proof.
  intros T xs v.
  assert (G : forall xs (v : pvec T), generation (fold_left pv_push_back xs v) <= generation v + length xs + match inner v with Inline _ => 1 | Tree _ => 0 end).
  { clear. intros xs. induction xs as [|x xs IH]; intros v; cbn [fold_left length]; [lia|].
    specialize (IH (pv_push_back v x)).
    assert (K : generation (pv_push_back v x) + match inner (pv_push_back v x) with Inline _ => 1 | Tree _ => 0 end <= generation v + 1 + match inner v with Inline _ => 1 | Tree _ => 0 end).
    { unfold pv_push_back, pv_tree_push_back, transition_to_tree.
      destruct (inner v) as [es|t] eqn:E; [destruct (length es <? ADAPTIVE_INLINE_SIZE)|]; cbn [generation inner]; lia. }
    lia. }
  specialize (G xs v). unfold pv_extend. destruct (inner v); lia.
Qed.
Lemma gen_from_iter : forall T (l : list T), generation (pv_from_iter l) = 0.
Proof. intros. unfold pv_from_iter. destruct (length l <=? ADAPTIVE_INLINE_SIZE); reflexivity. Qed.
Lemma gen_concat : forall T (a b : pvec T), generation (pv_concat a b) <= generation a + 1.
Proof. intros. unfold pv_concat. destruct (inner a), (inner b); cbn; try lia. rewrite gen_from_iter. lia. Qed.
Lemma gen_split : forall T (v : pvec T) i l r, pv_split_at v i = Ret (l, r) -> generation l <= generation v + 1 /\ generation r <= generation v + 1.
Proof.
  intros T v i l r H. unfold pv_split_at in H. destruct (pv_len v <=? i); [injection H as <- <-; cbn; lia|].
  destruct (i =? 0); [injection H as <- <-; cbn; lia|]. destruct (inner v) as [es|t]; [injection H as <- <-; cbn; lia|].
  destruct (tree_split_at t i) as [[a b]|]; cbn in H; [|discriminate]. injection H as <- <-. cbn. lia.
Qed.
Lemma gen_skip : forall T (v w : pvec T) i, pv_skip v i = Ret w -> generation w <= generation v + 1.
Proof.
  intros T v w i H. unfold pv_skip in H. destruct (pv_len v <=? i); [injection H as <-; cbn; lia|].
  destruct (pv_split_at v i) as [[l r]|] eqn:E; cbn in H; [|discriminate]. injection H as <-. now apply gen_split in E as [_ E].
Qed.
Lemma gen_take : forall T (v w : pvec T) i, pv_take v i = Ret w -> generation w <= generation v + 1.
Proof.
  intros T v w i H. unfold pv_take in H. destruct (pv_len v <=? i); [injection H as <-; cbn; lia|].
  destruct (pv_split_at v i) as [[l r]|] eqn:E; cbn in H; [|discriminate]. injection H as <-. now apply gen_split in E as [E _].
Qed.
Lemma gen_step : forall T (o : op T) v v' r, vec_step o v = Ret (v', r) -> generation v' <= generation v + cost o.
Proof.
  intros T o v v' r H. destruct o; cbn [vec_step cost] in *.
  - injection H as <- <-. pose proof (gen_push_back T v x). lia.
  - injection H as <- <-. pose proof (gen_push_front T v x). lia.
  - destruct (pv_pop_back v) as [[[w y]|]|] eqn:E; cbn in H; try discriminate; injection H as <- <-; [|lia].
    unfold pv_pop_back in E. destruct (pv_is_empty v); [discriminate|]. destruct (inner v) as [es|t].
    + destruct (pop_last es) as [[]|]; [|discriminate]. injection E as <- _. cbn. lia.
    + destruct (tree_pop_back t) as [[[]|]|]; cbn in E; try discriminate. injection E as <- _. cbn. lia.
  - destruct (pv_pop_front v) as [[[w y]|]|] eqn:E; cbn in H; try discriminate; injection H as <- <-; [|lia].
    unfold pv_pop_front in E. destruct (pv_is_empty v); [discriminate|]. destruct (inner v) as [[|z es]|t]; try discriminate.
    + injection E as <- _. cbn. lia.
    + destruct (tree_pop_front t) as [[[]|]|]; cbn in E; try discriminate. injection E as <- _. cbn. lia.
  - destruct (pv_update v i x) as [w|] eqn:E; cbn in H; [|discriminate]. injection H as <- <-.
    unfold pv_update in E. destruct (pv_len v <=? i); [injection E as <-; lia|]. destruct (inner v) as [es|t].
    + destruct (i <? length es); [|discriminate]. injection E as <-. cbn. lia.
    + destruct (tree_update t i x); cbn in E; [|discriminate]. injection E as <-. cbn. lia.
  - injection H as <- <-. pose proof (gen_extend T xs v). lia.
  - unfold pv_map in H. destruct (pv_iter v); cbn in H; [|discriminate]. injection H as <- <-. rewrite gen_from_iter. lia.
  - unfold pv_filter in H. destruct (pv_iter v); cbn in H; [|discriminate]. injection H as <- <-. rewrite gen_from_iter. lia.
  - destruct (pv_take v n) as [w|] eqn:E; cbn in H; [|discriminate]. injection H as <- <-. apply gen_take in E. lia.
  - destruct (pv_skip v n) as [w|] eqn:E; cbn in H; [|discriminate]. injection H as <- <-. apply gen_skip in E. lia.
  - destruct (pv_split_at v i) as [[l r']|] eqn:E; cbn in H; [|discriminate]. injection H as <- <-. apply gen_split in E. lia.
  - destruct (pv_split_at v i) as [[l r']|] eqn:E; cbn in H; [|discriminate]. injection H as <- <-. apply gen_split in E. lia.
  - destruct (pv_insert v i x) as [w|] eqn:E; cbn in H; [|discriminate]. injection H as <- <-. unfold pv_insert in E.
    destruct (pv_len v <=? i); [injection E as <-; pose proof (gen_push_back T v x); lia|].
    destruct (i =? 0); [injection E as <-; pose proof (gen_push_front T v x); lia|].
    destruct (pv_split_at v i) as [[l r']|] eqn:E2; cbn in E; [|discriminate]. injection E as <-. apply gen_split in E2.
    pose proof (gen_push_back T l x). pose proof (gen_concat T (pv_push_back l x) r'). lia.
  - destruct (pv_remove v i) as [[w|]|] eqn:E; cbn in H; [| injection H as <- <-; lia |discriminate]. injection H as <- <-. unfold pv_remove in E.
    destruct (pv_len v <=? i); [discriminate|]. destruct (pv_len v =? 1); [injection E as <-; cbn; lia|].
    destruct (pv_split_at v i) as [[l r']|] eqn:E2; cbn in E; [|discriminate]. destruct (pv_skip r' 1); cbn in E; [|discriminate]. injection E as <-.
    apply gen_split in E2. match goal with |- generation (pv_concat ?a ?b) <= _ => pose proof (gen_concat T a b) end. lia.
  - injection H as <- <-. pose proof (gen_concat T v (pv_from_iter xs)). lia.
  - injection H as <- <-. pose proof (gen_concat T (pv_from_iter xs) v). rewrite gen_from_iter in H. lia.
Qed.
Lemma count_fits : forall T bound checked (v : pvec T), (N.of_nat (generation v) < bound)%N -> count bound checked v = Ret v.
Proof. intros. unfold count. apply N.ltb_lt in H. now rewrite H. Qed.
Lemma machine_step_fits : forall T bound checked (o : op T) v, (N.of_nat (generation v + cost o) < bound)%N -> machine_step bound checked o v = vec_step o v.
Proof.
  intros T bound checked o v B.
  assert (G : (do vr <- vec_step o v; do v' <- count bound checked (fst vr); Ret (v', snd vr)) = vec_step o v).
  { destruct (vec_step o v) as [[v' r]|] eqn:E; cbn [obind fst snd]; [|reflexivity]. apply gen_step in E. rewrite count_fits by lia. reflexivity. }
  destruct o; try exact G; clear G; cbn [machine_step vec_step cost] in *.
  - unfold pv_insert. destruct (pv_len v <=? i); [rewrite count_fits by (pose proof (gen_push_back T v x); lia); reflexivity|].
    destruct (i =? 0); [rewrite count_fits by (pose proof (gen_push_front T v x); lia); reflexivity|].
    destruct (pv_split_at v i) as [[l r']|] eqn:E2; cbn [obind fst snd]; [|reflexivity]. apply gen_split in E2 as [G1 G2].
    rewrite (count_fits _ _ _ l) by lia. cbn [obind]. rewrite (count_fits _ _ _ r') by lia. cbn [obind].
    pose proof (gen_push_back T l x). rewrite (count_fits _ _ _ (pv_push_back l x)) by lia. cbn [obind].
    pose proof (gen_concat T (pv_push_back l x) r'). rewrite count_fits by lia. reflexivity.
  - unfold pv_remove. destruct (pv_len v <=? i); [reflexivity|]. destruct (pv_len v =? 1); [reflexivity|].
    destruct (pv_split_at v i) as [[l r']|] eqn:E2; cbn [obind fst snd]; [|reflexivity]. apply gen_split in E2 as [G1 G2].
    rewrite (count_fits _ _ _ l) by lia. cbn [obind]. rewrite (count_fits _ _ _ r') by lia. cbn [obind].
    destruct (pv_skip r' 1) as [s|] eqn:E; cbn [obind]; [|reflexivity]. apply gen_skip in E. rewrite (count_fits _ _ _ s) by lia. cbn [obind].
    pose proof (gen_concat T l s). rewrite count_fits by lia. reflexivity.
Qed.
(** With overflow checks: histories that cannot exhaust the counter behave as with
    an unbounded one.  Missing for the full property: longer histories, see below. *)
Theorem C84_short_histories_partial : forall T bound checked (ops : list (op T)) v,
  (N.of_nat (generation v + list_sum (map cost ops)) < bound)%N ->
  machine_run bound checked ops v = vec_run ops v.
Proof.
  intros T bound checked ops. induction ops as [|o ops IH]; intros v B; cbn [machine_run vec_run]; [reflexivity|].
  cbn [map list_sum fold_right] in B. change (fold_right Nat.add 0 (map cost ops)) with (list_sum (map cost ops)) in B.
  rewrite machine_step_fits by lia. destruct (vec_step o v) as [[v' r]|] eqn:E; cbn [obind fst snd]; [|reflexivity].
  apply gen_step in E. rewrite IH by lia. reflexivity.
Qed.
(** The exact limit for the simplest history: [n] updates of a one-element vector. *)
Theorem C84_update_limit : forall T (x y : T) n,
  machine_run u32 true (repeat (Update 0 y) (S n)) (pv_unit x) =
  if (N.of_nat (S n) <? 2 ^ 32)%N then Ret (mkPvec (Inline [y]) 1 (S n), repeat None (S n)) else Panic.
Proof.
  intros T x y.
  assert (St : forall (z : T) g, machine_step u32 true (Update 0 y) (mkPvec (Inline [z]) 1 g) =
    if (N.of_nat (g + 1) <? u32)%N then Ret (mkPvec (Inline [y]) 1 (g + 1), None) else Panic).
  { intros z g. cbn [machine_step vec_step]. unfold pv_update. cbn [pv_len inner]. cbn [Nat.leb length Nat.ltb list_set obind fst snd generation].
    unfold count. cbn [generation]. destruct (N.of_nat (g + 1) <? u32)%N; reflexivity. }
  assert (G : forall n (z : T) g, machine_run u32 true (repeat (Update 0 y) (S n)) (mkPvec (Inline [z]) 1 g) =
    if (N.of_nat (g + S n) <? u32)%N then Ret (mkPvec (Inline [y]) 1 (g + S n), repeat None (S n)) else Panic).
  { intros n. induction n as [|n IH]; intros z g.
    - cbn [repeat machine_run]. rewrite St. destruct (N.of_nat (g + 1) <? u32)%N; reflexivity.
    - change (repeat (Update 0 y) (S (S n))) with (Update 0 y :: repeat (Update 0 y) (S n)). cbn [machine_run]. rewrite St.
      destruct (N.of_nat (g + 1) <? u32)%N eqn:E1; cbn [obind fst snd].
      + rewrite IH. replace (g + 1 + S n) with (g + S (S n)) by lia. destruct (N.of_nat (g + S (S n)) <? u32)%N; reflexivity.
      + apply N.ltb_ge in E1. assert (E2 : (N.of_nat (g + S (S n)) <? u32)%N = false) by (apply N.ltb_ge; lia). now rewrite E2. }
  intros n. exact (G n x 0).
Qed.
(** The property fails with overflow checks: 2^32 updates of a one-element vector
    panic, although on lists they are harmless. *)
Theorem C84_long_history_refuted : exists (ops : list (op nat)) (v : pvec nat) l,
  starts v l /\ Forall (fun o => is_grow o = true) ops /\ N.of_nat (length ops) = (2 ^ 32)%N /\ length l = 1 /\ fst (list_run ops l) = l /\
  machine_run u32 true ops v = Panic.
Proof.
  assert (E : exists n, N.of_nat (S n) = u32).
  { exists (pred (N.to_nat u32)). rewrite Nat.succ_pred_pos; [apply N2Nat.id|]. unfold u32. lia. }
  destruct E as [n E]. exists (repeat (Update 0 7) (S n)), (pv_unit 7), [7]. split; [constructor|]. split; [|split; [|split; [reflexivity|split]]].
  - apply Forall_forall. intros o I. apply repeat_spec in I. now subst.
  - rewrite repeat_length. exact E.
  - generalize (S n). intros k. induction k as [|k IH]; [reflexivity|]. cbn [repeat list_run list_step length firstn skipn Nat.ltb Nat.leb app].
    destruct (list_run (repeat (Update 0 7) k) [7]) as [l r]. exact IH.
  - rewrite C84_update_limit, E. reflexivity.
Qed.
(** Cases, with a counter of four values *)
Example C84_case_checked :
  machine_run 4 true [Update 0 5; Update 0 6; PushBack 9] (pv_unit 1) = Ret (mkPvec (Inline [6; 9]) 2 3, [None; None; None]) /\
  machine_run 4 true [Update 0 5; Update 0 6; PushBack 9; PopFront] (pv_unit 1) = Panic.
Proof. split; reflexivity. Qed.
Example C84_case_wrapping :
  machine_run 4 false [Update 0 5; Update 0 6; PushBack 9; PopFront; Insert 0 3; Insert 1 4; Remove 0] (pv_unit 1) =
    Ret (mkPvec (Inline [4; 9]) 2 0, [None; None; None; Some 6; None; None; None]).
Proof. reflexivity. Qed.
Example C84_case_short : (N.of_nat (generation (pv_unit 1) + list_sum (map cost [Update 0 5; Extend [1; 2; 3]; Remove 1])) < u32)%N.
Proof. reflexivity. Qed.
(** ** The exact limit for every history *)
Definition is_tree {T} (v : pvec T) : bool := match inner v with Inline _ => false | Tree _ => true end.
(** The inline form holds what it should and no more than fits in it. *)
Definition small {T} (v : pvec T) : Prop :=
  match inner v with Inline es => length es = pv_len v /\ length es <= 64 | Tree _ => True end.
Lemma small_from_iter : forall T (l : list T),
  small (pv_from_iter l) /\ is_tree (pv_from_iter l) = (INLINE <? length l) /\ pv_len (pv_from_iter l) = length l.
Proof.
  intros T l. unfold pv_from_iter, small, is_tree, INLINE. change ADAPTIVE_INLINE_SIZE with 64.
  destruct (Nat.leb_spec (length l) 64) as [H|H]; cbn [inner pv_len];
    (destruct (Nat.ltb_spec 64 (length l)); [try lia|try lia]); auto.
Qed.
Lemma exact_push : forall T (v : pvec T) x (front : bool), small v ->
  let w := if front then pv_push_front v x else pv_push_back v x in
  small w /\ is_tree w = snd (pushed (is_tree v) (pv_len v) (generation v)) /\
  generation w = last (fst (pushed (is_tree v) (pv_len v) (generation v))) (generation v) /\
  pv_len w = pv_len v + 1.
Proof.
  intros T v x front S w. unfold small, is_tree, pushed, INLINE in *.
  destruct (inner v) as [es|t] eqn:E.
  - destruct S as [S1 S2]. subst w.
    unfold pv_push_front, pv_push_back, pv_tree_push_back, pv_tree_push_front, transition_to_tree. rewrite E, <- S1.
    change ADAPTIVE_INLINE_SIZE with 64.
    destruct front, (Nat.ltb_spec (length es) 64); cbn [inner pv_len generation fst snd last]; rewrite ?app_length;
      cbn [length]; repeat split; lia.
  - subst w. unfold pv_push_front, pv_push_back, pv_tree_push_back, pv_tree_push_front. rewrite E.
    destruct front; cbn [inner pv_len generation fst snd last]; auto.
Qed.
Lemma small_split : forall T (v : pvec T) i l r, small v -> pv_split_at v i = Ret (l, r) ->
  small l /\ small r /\ pv_len l = Nat.min i (pv_len v) /\ pv_len r = pv_len v - i /\
  (is_tree l, generation l) = (let '(gs, t) := left_part (is_tree v) (pv_len v) i (generation v) in (t, last gs 0)) /\
  (is_tree r, generation r) = (let '(gs, t) := right_part (is_tree v) (pv_len v) i (generation v) in (t, last gs 0)).
Proof.
  intros T v i l r S H. unfold pv_split_at in H. unfold left_part, right_part, same, fresh, changed.
  destruct (Nat.leb_spec (pv_len v) i) as [Hi|Hi].
  { injection H as <- <-. cbn. repeat split; auto; try lia. }
  destruct (Nat.eqb_spec i 0) as [->|Hn].
  { injection H as <- <-. cbn. repeat split; auto; try lia. }
  unfold small, is_tree in *. destruct (inner v) as [es|t].
  - destruct S as [S1 S2]. injection H as <- <-. cbn. rewrite firstn_length, skipn_length. repeat split; lia.
  - destruct (tree_split_at t i) as [[a b]|]; cbn in H; [|discriminate]. injection H as <- <-. cbn. repeat split; lia.
Qed.
Lemma small_concat : forall T (a b : pvec T), small a -> small b ->
  small (pv_concat a b) /\ pv_len (pv_concat a b) = pv_len a + pv_len b /\
  (is_tree (pv_concat a b), generation (pv_concat a b)) =
    if is_tree a || is_tree b then (true, generation a + 1) else (INLINE <? pv_len a + pv_len b, 0).
Proof.
  intros T a b Sa Sb. unfold small, is_tree in Sa, Sb. unfold pv_concat. unfold is_tree at 2 3.
  destruct (inner a) as [l|s], (inner b) as [m|t]; cbn [orb];
    try (unfold small, is_tree; cbn [inner pv_len generation]; now auto).
  destruct Sa as [<- _], Sb as [<- _]. destruct (small_from_iter T (l ++ m)) as (F1 & F2 & F3).
  rewrite app_length in *. split; auto. split; auto. now rewrite F2, gen_from_iter.
Qed.
Section Exact.
Context (bound : N).
Notation fits := (forallb (fun g => (N.of_nat g <? bound)%N)).
Notation fit g := (N.of_nat g <? bound)%N.
Lemma fit_le : forall a b, a <= b -> fit b = true -> fit a = true.
Proof. intros a b H E. apply N.ltb_lt in E. apply N.ltb_lt. lia. Qed.
Lemma fits_last : forall a g, a <= g -> (fit a && fit g)%bool = fit g.
Proof. intros a g H. destruct (fit g) eqn:E; [now rewrite (fit_le a g H E)|apply andb_false_r]. Qed.
Lemma pushed_last : forall tree n g, fits (fst (pushed tree n g)) = fit (last (fst (pushed tree n g)) g) /\ g <= last (fst (pushed tree n g)) g.
Proof.
  intros tree n g. unfold pushed. destruct tree; [|destruct (n <? INLINE)]; cbn [fst forallb last]; rewrite ?andb_true_r; split; auto; try lia.
  apply fits_last. lia.
Qed.
Lemma pushed_all_last : forall k tree n g, let m := pushed_all tree n g k in
  fst m <> [] /\ fits (fst m) = fit (last (fst m) g) /\ g <= last (fst m) g.
Proof.
  induction k as [|k IH]; intros tree n g; cbn [pushed_all].
  - cbn. rewrite andb_true_r. repeat split; auto. discriminate.
  - pose proof (pushed_last tree n g) as P. destruct (pushed tree n g) as [gs t1]. cbn [fst] in P.
    specialize (IH t1 (n + 1) (last gs g)). destruct (pushed_all t1 (n + 1) (last gs g) k) as [hs t2]. cbn [fst] in *.
    destruct IH as (N0 & F & L), P as [P1 P2].
    assert (E : last (gs ++ hs) g = last hs (last gs g)).
    { destruct (exists_last N0) as (hs' & h & ->). now rewrite app_assoc, !last_last. }
    rewrite E. split; [intros X; apply app_eq_nil in X; tauto|]. split; [|lia].
    rewrite forallb_app, F, P1. apply fits_last. lia.
Qed.
Lemma exact_extend : forall T (xs : list T) (v : pvec T), small v ->
  let m := pushed_all (is_tree v) (pv_len v) (generation v) (length xs) in
  small (pv_extend v xs) /\ is_tree (pv_extend v xs) = snd m /\ generation (pv_extend v xs) = last (fst m) (generation v) /\
  pv_len (pv_extend v xs) = pv_len v + length xs.
Proof.
  intros T xs. unfold pv_extend. induction xs as [|x xs IH]; intros v S; cbn [length pushed_all fold_left].
  - cbn. repeat split; auto.
  - destruct (exact_push T v x false S) as (S1 & E1 & E2 & E3).
    destruct (IH _ S1) as (A & B & C & D). rewrite E1, E2, E3 in *.
    pose proof (pushed_all_last (length xs) (snd (pushed (is_tree v) (pv_len v) (generation v))) (pv_len v + 1)
      (last (fst (pushed (is_tree v) (pv_len v) (generation v))) (generation v))) as (N0 & _).
    destruct (pushed (is_tree v) (pv_len v) (generation v)) as [gs t1]. cbn [fst snd] in *.
    destruct (pushed_all t1 (pv_len v + 1) (last gs (generation v)) (length xs)) as [hs t2]. cbn [fst snd] in *.
    repeat split; auto; [|lia].
    rewrite C. destruct (exists_last N0) as (hs' & h & ->). now rewrite app_assoc, !last_last.
Qed.
Lemma count_exact : forall T (v : pvec T), count bound true v = if fit (generation v) then Ret v else Panic.
Proof. reflexivity. Qed.
Definition step_exact {T} (o : op T) (v v' : pvec T) (r : option T) (m : list nat * bool) : Prop :=
  machine_step bound true o v = (if fits (fst m) then Ret (v', r) else Panic) /\
  small v' /\ is_tree v' = snd m /\ generation v' = last (fst m) (generation v).
Lemma generic_exact : forall T (o : op T) v v' r m,
  machine_step bound true o v = (do vr <- vec_step o v; do w <- count bound true (fst vr); Ret (w, snd vr)) ->
  vec_step o v = Ret (v', r) -> fits (fst m) = fit (last (fst m) (generation v)) ->
  small v' -> is_tree v' = snd m -> generation v' = last (fst m) (generation v) -> step_exact o v v' r m.
Proof.
  intros T o v v' r m M V F S I G. split; [|auto]. rewrite M, V. cbn [obind fst snd]. rewrite count_exact, G, F.
  destruct (fit (last (fst m) (generation v))); reflexivity.
Qed.
Lemma one_fit : forall g, fits [g] = fit g.
Proof. intros. apply andb_true_r. Qed.
Lemma exact_split_step : forall T (v : pvec T) i a b, small v -> pv_split_at v i = Ret (a, b) ->
  (fit (generation v) = true -> True) ->
  (is_tree a = snd (left_part (is_tree v) (pv_len v) i (generation v)) /\
   generation a = last (fst (left_part (is_tree v) (pv_len v) i (generation v))) (generation v) /\
   fits (fst (left_part (is_tree v) (pv_len v) i (generation v))) = fit (generation a)) /\
  (is_tree b = snd (right_part (is_tree v) (pv_len v) i (generation v)) /\
   generation b = last (fst (right_part (is_tree v) (pv_len v) i (generation v))) (generation v) /\
   fits (fst (right_part (is_tree v) (pv_len v) i (generation v))) = fit (generation b)).
Proof.
  intros T v i a b S H _. destruct (small_split T v i a b S H) as (_ & _ & _ & _ & A & B).
  unfold left_part, right_part, same, fresh, changed in *.
  destruct (pv_len v <=? i); [|destruct (i =? 0)]; injection A as -> ->; injection B as -> ->; cbn [fst snd last];
    rewrite !one_fit; auto.
Qed.
Lemma exact_step : forall T (o : op T) v l v' r, small v -> fit (generation v) = true -> represents v l ->
  vec_step o v = Ret (v', r) -> r = snd (list_step o l) ->
  step_exact o v v' r (meter_step o (is_tree v) l (generation v)).
Proof.
  intros T o v l v' r S F R V Er.
  assert (Ln : length l = pv_len v) by (symmetry; exact (proj1 R)).
  assert (It : pv_iter v = Ret l) by exact (proj2 (proj2 R)).
  destruct o; cbn [meter_step]; rewrite ?Ln.
  - destruct (exact_push T v x false S) as (A & B & C & _). pose proof (pushed_last (is_tree v) (pv_len v) (generation v)) as [P _].
    apply generic_exact; auto; injection V as <- <-; auto.
  - destruct (exact_push T v x true S) as (A & B & C & _). pose proof (pushed_last (is_tree v) (pv_len v) (generation v)) as [P _].
    apply generic_exact; auto; injection V as <- <-; auto.
  - (* pop_back *)
    assert (K : small v' /\ is_tree v' = is_tree v /\ generation v' = if pv_len v =? 0 then generation v else generation v + 1).
    { cbn [vec_step] in V. unfold pv_pop_back, pv_is_empty in V. destruct (Nat.eqb_spec (pv_len v) 0) as [Z|Z].
      { injection V as <- <-. auto. }
      assert (r <> None). { rewrite Er. cbn. destruct (rev l) eqn:Q; [|discriminate]. apply (f_equal (@length T)) in Q. rewrite rev_length in Q. cbn in Q. lia. }
      unfold small, is_tree in *. destruct (inner v) as [es|t].
      - unfold pop_last in V. destruct (rev es) as [|y q] eqn:Q; cbn in V; injection V as <- <-; [congruence|].
        apply (f_equal (@length T)) in Q. rewrite rev_length in Q. cbn in Q. cbn. rewrite rev_length. repeat split; lia.
      - destruct (tree_pop_back t) as [[[t' y]|]|]; cbn in V; try discriminate; injection V as <- <-; [|congruence]. cbn. auto. }
    destruct K as (K1 & K2 & K3). unfold same, changed. destruct (pv_len v =? 0); apply generic_exact; cbn [fst snd last]; auto; apply one_fit.
  - (* pop_front *)
    assert (K : small v' /\ is_tree v' = is_tree v /\ generation v' = if pv_len v =? 0 then generation v else generation v + 1).
    { cbn [vec_step] in V. unfold pv_pop_front, pv_is_empty in V. destruct (Nat.eqb_spec (pv_len v) 0) as [Z|Z].
      { injection V as <- <-. auto. }
      assert (r <> None). { rewrite Er. cbn. destruct l; [cbn in Ln; lia|discriminate]. }
      unfold small, is_tree in *. destruct (inner v) as [es|t].
      - destruct es as [|y q]; cbn in V; injection V as <- <-; [congruence|]. cbn in *. repeat split; lia.
      - destruct (tree_pop_front t) as [[[t' y]|]|]; cbn in V; try discriminate; injection V as <- <-; [|congruence]. cbn. auto. }
    destruct K as (K1 & K2 & K3). unfold same, changed. destruct (pv_len v =? 0); apply generic_exact; cbn [fst snd last]; auto; apply one_fit.
  - (* update *)
    assert (K : small v' /\ is_tree v' = is_tree v /\ generation v' = if i <? pv_len v then generation v + 1 else generation v).
    { cbn [vec_step] in V. unfold pv_update in V. unfold small, is_tree in *. destruct (Nat.leb_spec (pv_len v) i) as [H|H].
      { injection V as <- <-. destruct (Nat.ltb_spec i (pv_len v)); [lia|]. auto. }
      destruct (Nat.ltb_spec i (pv_len v)); [|lia]. destruct (inner v) as [es|t].
      - destruct (i <? length es) eqn:Q; cbn in V; [|discriminate]. injection V as <- <-. cbn.
        rewrite list_set_length. auto.
      - destruct (tree_update t i x); cbn in V; [|discriminate]. injection V as <- <-. cbn. auto. }
    destruct K as (K1 & K2 & K3). unfold same, changed. destruct (i <? pv_len v); apply generic_exact; cbn [fst snd last]; auto; apply one_fit.
  - destruct (exact_extend T xs v S) as (A & B & C & _).
    pose proof (pushed_all_last (length xs) (is_tree v) (pv_len v) (generation v)) as (_ & P & _).
    apply generic_exact; auto; injection V as <- <-; auto.
  - cbn [vec_step] in V. unfold pv_map in V. rewrite It in V. cbn in V. injection V as <- <-.
    destruct (small_from_iter T (map f l)) as (A & B & C). rewrite map_length, Ln in *.
    apply generic_exact; auto; [cbn [vec_step]; unfold pv_map; now rewrite It|apply one_fit|now rewrite gen_from_iter].
  - cbn [vec_step] in V. unfold pv_filter in V. rewrite It in V. cbn in V. injection V as <- <-.
    destruct (small_from_iter T (filter p l)) as (A & B & C).
    apply generic_exact; auto; [cbn [vec_step]; unfold pv_filter; now rewrite It|apply one_fit|now rewrite gen_from_iter].
  - (* take *)
    cbn [vec_step] in V. unfold pv_take in V.
    assert (W : vec_step (Take n) v = Ret (v', r)) by exact V.
    destruct (pv_len v <=? n) eqn:Q.
    { cbn in V. injection V as <- <-. unfold left_part. rewrite Q. apply generic_exact; auto. apply one_fit. }
    destruct (pv_split_at v n) as [[a b]|] eqn:E; cbn in V; [|discriminate]. injection V as <- <-.
    destruct (exact_split_step T v n a b S E (fun _ => I)) as ((A1 & A2 & A3) & _). destruct (small_split T v n a b S E) as (S1 & _).
    apply generic_exact; auto. now rewrite A3, A2.
  - (* skip *)
    cbn [vec_step] in V. unfold pv_skip in V.
    assert (W : vec_step (Skip n) v = Ret (v', r)) by exact V.
    destruct (pv_len v <=? n) eqn:Q.
    { cbn in V. injection V as <- <-. unfold right_part. rewrite Q. apply generic_exact; auto; [apply one_fit|cbn; lia]. }
    destruct (pv_split_at v n) as [[a b]|] eqn:E; cbn in V; [|discriminate]. injection V as <- <-.
    destruct (exact_split_step T v n a b S E (fun _ => I)) as (_ & (A1 & A2 & A3)). destruct (small_split T v n a b S E) as (_ & S1 & _).
    apply generic_exact; auto. now rewrite A3, A2.
  - assert (W : vec_step (SplitLeft i) v = Ret (v', r)) by exact V. cbn [vec_step] in V.
    destruct (pv_split_at v i) as [[a b]|] eqn:E; cbn in V; [|discriminate]. injection V as <- <-.
    destruct (exact_split_step T v i a b S E (fun _ => I)) as ((A1 & A2 & A3) & _). destruct (small_split T v i a b S E) as (S1 & _).
    apply generic_exact; auto. now rewrite A3, A2.
  - assert (W : vec_step (SplitRight i) v = Ret (v', r)) by exact V. cbn [vec_step] in V.
    destruct (pv_split_at v i) as [[a b]|] eqn:E; cbn in V; [|discriminate]. injection V as <- <-.
    destruct (exact_split_step T v i a b S E (fun _ => I)) as (_ & (A1 & A2 & A3)). destruct (small_split T v i a b S E) as (_ & S1 & _).
    apply generic_exact; auto. now rewrite A3, A2.
  - (* insert *)
    unfold step_exact. cbn [vec_step machine_step] in V |- *. unfold pv_insert in V.
    destruct (pv_len v <=? i) eqn:Q; cbn [orb].
    { destruct (exact_push T v x false S) as (A & B & C & _). pose proof (pushed_last (is_tree v) (pv_len v) (generation v)) as [P _].
      cbn in V. injection V as <- <-. rewrite count_exact, C, P. split; [|auto]. destruct (fit (last _ _)); reflexivity. }
    destruct (i =? 0) eqn:Q0.
    { destruct (exact_push T v x true S) as (A & B & C & _). pose proof (pushed_last (is_tree v) (pv_len v) (generation v)) as [P _].
      cbn in V. injection V as <- <-. rewrite count_exact, C, P. split; [|auto]. destruct (fit (last _ _)); reflexivity. }
    destruct (pv_split_at v i) as [[a b]|] eqn:E; cbn [obind fst snd] in V |- *; [|discriminate]. injection V as <- <-.
    destruct (small_split T v i a b S E) as (Sa & Sb & La & Lb & A & B).
    unfold left_part, right_part, changed in A, B. rewrite Q, Q0 in A, B. cbn [last] in A, B. injection A as A1 A2. injection B as B1 B2.
    apply Nat.leb_gt in Q. apply Nat.eqb_neq in Q0.
    destruct (exact_push T a x false Sa) as (Sp & P1 & P2 & P3). cbn [fst snd] in *.
    destruct (small_concat T (pv_push_back a x) b Sp Sb) as (Sc & C1 & C2).
    rewrite P1, B1, P3, A1, A2 in *.
    assert (Le : is_tree v = false -> pv_len v <= 64).
    { unfold small, is_tree in *. destruct (inner v); [lia|discriminate]. }
    unfold pushed in P1, P2, C2.
    destruct (is_tree v); cbn [fst snd last orb] in *.
    + injection C2 as C3 C4. rewrite !count_exact, A2, B2. cbn [forallb]. rewrite andb_true_r.
      rewrite P2 in C4. destruct (fit (generation v + 1)) eqn:F1; cbn [obind andb]; [|split; auto; repeat split; auto; lia].
      rewrite ?count_exact, ?P2. replace (generation v + 1 + 1) with (generation v + 2) by lia.
      destruct (fit (generation v + 2)) eqn:F2; cbn [obind andb]; [|split; auto; repeat split; auto; lia].
      rewrite ?count_exact, ?C4. replace (generation v + 1 + 1 + 1) with (generation v + 3) by lia.
      destruct (fit (generation v + 3)); repeat split; auto; lia.
    + specialize (Le eq_refl).
      assert (Lt : (pv_len a <? INLINE) = true) by (apply Nat.ltb_lt; unfold INLINE; lia). rewrite Lt in *. cbn [fst snd last orb] in *.
      injection C2 as C3 C4. replace (pv_len a + 1 + pv_len b) with (pv_len v + 1) in * by lia.
      rewrite !count_exact, A2, B2. cbn [forallb]. rewrite andb_true_r.
      destruct (fit (generation v + 1)) eqn:F1; cbn [obind andb]; [|repeat split; auto].
      rewrite ?count_exact, ?P2. replace (generation v + 1 + 1) with (generation v + 2) by lia.
      destruct (fit (generation v + 2)) eqn:F2; cbn [obind andb]; [|repeat split; auto].
      rewrite ?count_exact, ?C4. destruct (fit 0); repeat split; auto.
  - (* remove *)
    unfold step_exact. cbn [vec_step machine_step] in V |- *. unfold pv_remove in V.
    destruct (pv_len v <=? i) eqn:Q; cbn [orb].
    { cbn in V. injection V as <- <-. cbn [same fst snd last]. rewrite one_fit, F. auto. }
    destruct (pv_len v =? 1) eqn:Q1.
    { cbn in V. injection V as <- <-. cbn [fresh fst snd last]. rewrite one_fit, (fit_le 0 (generation v)); auto; [|lia].
      repeat split; auto. cbn. lia. }
    destruct (pv_split_at v i) as [[a b]|] eqn:E; cbn [obind fst snd] in V |- *; [|discriminate].
    destruct (pv_skip b 1) as [c|] eqn:Es; cbn [obind] in V; [|discriminate]. injection V as <- <-.
    destruct (small_split T v i a b S E) as (Sa & Sb & La & Lb & A & B).
    apply Nat.leb_gt in Q. apply Nat.eqb_neq in Q1.
    assert (Le : is_tree v = false -> pv_len v <= 64).
    { unfold small, is_tree in *. destruct (inner v); [lia|discriminate]. }
    assert (F0 : fit 0 = true) by (apply (fit_le 0 (generation v)); [lia|auto]).
    assert (Q' : (pv_len v <=? i) = false) by now apply Nat.leb_gt.
    assert (K : small c /\ pv_len c = pv_len b - 1 /\
      (is_tree c, generation c) = if pv_len b <=? 1 then (false, 0) else (is_tree b, generation b + 1)).
    { unfold pv_skip in Es. destruct (pv_len b <=? 1) eqn:Qb.
      - injection Es as <-. cbn. repeat split; auto; try lia. apply Nat.leb_le in Qb. lia.
      - destruct (pv_split_at b 1) as [[c1 c2]|] eqn:Eb; cbn in Es; [|discriminate]. injection Es as <-.
        destruct (small_split T b 1 c1 c2 Sb Eb) as (_ & Sc & _ & Lc & _ & G). unfold right_part, changed in G. rewrite Qb in G. cbn in G.
        auto. }
    destruct K as (Sc & Lc & Gc). destruct (small_concat T a c Sa Sc) as (Sd & _ & C2).
    unfold left_part, right_part, same, changed, fresh in A, B. rewrite Q' in A, B.
    destruct (i =? 0) eqn:Q0; cbn [last] in A, B.
    + apply Nat.eqb_eq in Q0. subst i.
      assert (Qb : (pv_len b <=? 1) = false) by (apply Nat.leb_gt; lia). rewrite Qb in Gc.
      injection A as A1 A2. injection B as B1 B2. injection Gc as G1 G2. rewrite A1, A2, G1, B1, La, Lc, Lb in C2.
      change (INLINE <? 0) with false in C2. cbn [orb Nat.min] in C2.
      rewrite !count_exact, A2, F0. cbn [obind]. rewrite ?count_exact, ?B2, ?F. cbn [obind]. rewrite Es. cbn [obind].
      rewrite ?count_exact, ?G2, ?B2. 
      destruct (is_tree v); injection C2 as C3 C4; cbn [fst snd forallb last]; rewrite andb_true_r.
      * destruct (fit (generation v + 1)); cbn [obind andb]; [|repeat split; auto]. rewrite ?count_exact, ?C4. cbn [Nat.add].
        destruct (fit 1); repeat split; auto.
      * specialize (Le eq_refl). assert (Lt : (INLINE <? pv_len v - 0 - 1) = false) by (apply Nat.ltb_ge; unfold INLINE; lia).
        cbn [Nat.add] in C3. rewrite Lt in C3.
        destruct (fit (generation v + 1)); cbn [obind andb]; [|repeat split; auto]. rewrite ?count_exact, ?C4, ?F0. repeat split; auto.
    + apply Nat.eqb_neq in Q0. injection A as A1 A2. injection B as B1 B2.
      rewrite !count_exact, A2.
      assert (Qn : (i + 1 =? pv_len v) = (pv_len b <=? 1)).
      { destruct (Nat.eqb_spec (i + 1) (pv_len v)), (Nat.leb_spec (pv_len b) 1); auto; lia. }
      rewrite Qn.
      destruct (pv_len b <=? 1) eqn:Qb.
      * injection Gc as G1 G2. rewrite A1, A2, G1 in C2. rewrite orb_false_r in C2.
        assert (Lt : is_tree v = false -> (INLINE <? pv_len a + pv_len c) = false) by (intros X; specialize (Le X); apply Nat.ltb_ge; unfold INLINE; lia).
        destruct (is_tree v); injection C2 as C3 C4; cbn [fst snd forallb last]; rewrite andb_true_r;
          (destruct (fit (generation v + 1)) eqn:F1; cbn [obind andb];
            [rewrite ?count_exact, ?B2, ?F1; cbn [obind]; rewrite Es; cbn [obind]; rewrite ?count_exact, ?G2, ?F0; cbn [obind]; rewrite ?count_exact, ?C4|]).
        -- replace (generation v + 1 + 1) with (generation v + 2) by lia. destruct (fit (generation v + 2)); repeat split; auto; lia.
        -- repeat split; auto; lia.
        -- rewrite F0. rewrite Lt in C3 by auto. repeat split; auto.
        -- rewrite Lt in C3 by auto. repeat split; auto.
      * injection Gc as G1 G2. rewrite A1, A2, G1, B1 in C2.
        assert (Lt : is_tree v = false -> (INLINE <? pv_len a + pv_len c) = false) by (intros X; specialize (Le X); apply Nat.ltb_ge; unfold INLINE; lia).
        destruct (is_tree v); cbn [orb] in C2; injection C2 as C3 C4; cbn [fst snd forallb last]; rewrite andb_true_r;
          (destruct (fit (generation v + 1)) eqn:F1; cbn [obind andb];
            [rewrite ?count_exact, ?B2, ?F1; cbn [obind]; rewrite Es; cbn [obind]; rewrite ?count_exact, ?G2, ?B2;
             replace (generation v + 1 + 1) with (generation v + 2) in * by lia;
             destruct (fit (generation v + 2)) eqn:F2; cbn [obind andb]; [rewrite ?count_exact, ?C4|]|]).
        -- rewrite F2. repeat split; auto; lia.
        -- repeat split; auto; lia.
        -- repeat split; auto; lia.
        -- rewrite F0. rewrite Lt in C3 by auto. repeat split; auto.
        -- rewrite Lt in C3 by auto. repeat split; auto.
        -- rewrite Lt in C3 by auto. repeat split; auto.
  - (* concat with a slice *)
    destruct (small_from_iter T xs) as (A & B & C). destruct (small_concat T v (pv_from_iter xs) S A) as (D & _ & G).
    assert (W : vec_step (ConcatSlice xs) v = Ret (v', r)) by exact V.
    cbn in V. injection V as <- <-. rewrite B, C in G.
    destruct (is_tree v || (INLINE <? length xs))%bool; injection G as G1 G2; apply generic_exact; auto; apply one_fit.
  - destruct (small_from_iter T xs) as (A & B & C). destruct (small_concat T (pv_from_iter xs) v A S) as (D & _ & G).
    assert (W : vec_step (SliceConcat xs) v = Ret (v', r)) by exact V.
    cbn in V. injection V as <- <-. rewrite B, C, gen_from_iter, orb_comm, (Nat.add_comm (length xs)) in G.
    destruct (is_tree v || (INLINE <? length xs))%bool; injection G as G1 G2; apply generic_exact; auto; apply one_fit.
Qed.
Lemma in_last : forall (gs : list nat) g, fits gs = true -> gs <> [] -> fit (last gs g) = true.
Proof.
  intros gs g H N0. destruct (exists_last N0) as (gs' & x & ->). rewrite last_last.
  rewrite forallb_app in H. apply andb_prop in H as [_ H]. now rewrite one_fit in H.
Qed.
Lemma meter_nonempty : forall T (o : op T) tree l g, fst (meter_step o tree l g) <> [].
Proof.
  assert (P : forall tree n g, fst (pushed tree n g) <> []).
  { intros. unfold pushed. destruct tree; [discriminate|]. destruct (n <? INLINE); discriminate. }
  intros T o tree l g. destruct o; cbn [meter_step]; auto; try discriminate;
    try (apply (pushed_all_last (length xs))); unfold left_part, right_part;
    repeat match goal with |- context [if ?b then _ else _] => destruct b end; try discriminate; apply P.
Qed.
Lemma exact_run : forall T (ops : list (op T)) v l, small v -> fit (generation v) = true ->
  (forall k, faithful v l (firstn k ops)) ->
  machine_run bound true ops v =
  if fits (meter_run ops (is_tree v) l (generation v)) then vec_run ops v else Panic.
Proof.
  intros T ops. induction ops as [|o ops IH]; intros v l S F H; [reflexivity|].
  assert (R : represents v l).
  { destruct (H 0) as (w & E & R). cbn in E. injection E as <-. exact R. }
  destruct (H 1) as (w & E & Rw). cbn [firstn vec_run list_run] in E, Rw.
  destruct (list_step o l) as [l1 r1] eqn:El. cbn [fst snd] in E, Rw.
  destruct (vec_step o v) as [[v1 r]|] eqn:Ev; cbn [obind fst snd] in E; [|discriminate]. injection E as -> ->.
  assert (Er : r1 = snd (list_step o l)) by now rewrite El.
  destruct (exact_step T o v l w r1 S F R Ev Er) as (M & Sw & Iw & Gw).
  pose proof (meter_nonempty T o (is_tree v) l (generation v)) as N0.
  cbn [machine_run meter_run vec_run]. rewrite El, M, Ev. cbn [fst]. clear M.
  destruct (meter_step o (is_tree v) l (generation v)) as [gs t1]. cbn [fst snd] in *.
  rewrite forallb_app. destruct (fits gs) eqn:Fg; cbn [andb obind fst snd]; [|reflexivity].
  rewrite (IH w l1); auto.
  - rewrite Iw, Gw. destruct (fits (meter_run ops t1 l1 (last gs (generation v)))); reflexivity.
  - rewrite Gw. now apply in_last.
  - intros k. destruct (H (Datatypes.S k)) as (u & E & Ru). cbn [firstn vec_run list_run] in E, Ru. rewrite El in E, Ru.
    rewrite Ev in E. cbn [obind fst snd] in E. destruct (list_run (firstn k ops) l1) as [l2 rs] eqn:El2. cbn [fst snd] in *.
    destruct (vec_run (firstn k ops) w) as [[u' rs']|] eqn:Eu; cbn in E; [|discriminate]. injection E as -> ->.
    exists u. now rewrite El2.
Qed.
End Exact.
(** With overflow checks a history that would otherwise go well panics exactly when
    one of the values its counter takes does not fit. *)
Theorem C84_exact : forall T bound (ops : list (op T)) v l, (0 < bound)%N -> starts v l ->
  (forall k, faithful v l (firstn k ops)) ->
  machine_run bound true ops v =
  if forallb (fun g => (N.of_nat g <? bound)%N) (meter_run ops (64 <? length l) l 0) then vec_run ops v else Panic.
Proof.
  intros T bound ops v l B St H. apply N.ltb_lt in B.
  assert (K : small v /\ generation v = 0 /\ is_tree v = (64 <? length l)).
  { destruct St; [cbn; repeat split; lia|cbn; repeat split; lia|].
    destruct (small_from_iter T l) as (A & C & _). split; auto. split; [apply gen_from_iter|exact C]. }
  destruct K as (S & G & I). rewrite <- I, <- G. apply exact_run; auto. now rewrite G.
Qed.
Example C84_exact_case :
  let ops := [Update 0 5; PushBack 9; Insert 1 7; PopFront] in
  starts (pv_unit 1) [1] /\ (forall k, faithful (pv_unit 1) [1] (firstn k ops)) /\
  meter_run ops false [1] 0 = [1; 2; 3; 4; 0; 1] /\
  machine_run 5 true ops (pv_unit 1) = vec_run ops (pv_unit 1) /\ machine_run 4 true ops (pv_unit 1) = Panic.
Proof.
  split; [constructor|]. split; [|repeat split].
  intros k. do 4 (destruct k as [|k]; [eexists; split; [reflexivity|]; repeat split; intros [|[|[|[|i]]]]; reflexivity|]).
  replace (firstn _ _) with [Update 0 5; PushBack 9; Insert 1 7; PopFront] by (cbn; now rewrite firstn_nil).
  eexists; split; [reflexivity|]; repeat split; intros [|[|[|[|i]]]]; reflexivity.
Qed.

Print Assumptions C84_wrapping_is_harmless.
Print Assumptions C84_wrapping_faithful.
Print Assumptions C84_short_histories_partial.
Print Assumptions C84_update_limit.
Print Assumptions C84_long_history_refuted.
Print Assumptions C84_exact.

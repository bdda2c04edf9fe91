(** C09, C10 and C14 for every vector, also those whose length does not agree with what they hold. *)
From Coq Require Import List Arith Lia Bool Permutation Sorted.
From Verif Require Import Base ListFacts PvecModel PvecSpec PvecFacts PvecComb PvecProps PvecSafe PvecPanicProps WalkSpec.
Import ListNotations.
Open Scope outcome_scope.
Set Implicit Arguments.
Unset Strict Implicit.

Section Walk.
Context {T : Type}.
Notation pvec := (pvec T).

Lemma get_past (v : pvec) p : pv_len v <= p -> pv_get v p = Ret None.
Proof. intros H. unfold pv_get. now rewrite (proj2 (Nat.leb_le _ _) H). Qed.
Lemma next_get (v : pvec) p : iter_next v p = do o <- pv_get v p; Ret (o, if p <? pv_len v then S p else p).
Proof.
  unfold iter_next. destruct (Nat.ltb_spec p (pv_len v)); auto. now rewrite get_past by assumption.
Qed.
Lemma get_some_lt (v : pvec) p x : pv_get v p = Ret (Some x) -> p < pv_len v.
Proof. intros H. destruct (Nat.lt_ge_cases p (pv_len v)) as [L|L]; auto. rewrite (get_past L) in H. discriminate. Qed.
Lemma get_panic_lt (v : pvec) p : pv_get v p = Panic -> p < pv_len v.
Proof. intros H. destruct (Nat.lt_ge_cases p (pv_len v)) as [L|L]; auto. rewrite (get_past L) in H. discriminate. Qed.

(** Every vector has such a walk, and only one *)
Lemma front_exists (v : pvec) : forall n p, pv_len v - p <= n -> exists l s, front v p l s.
Proof.
  induction n as [|n IH]; intros p Hp.
  - exists [], (Ret tt). apply front_stop, get_past. lia.
  - destruct (pv_get v p) as [[x|]|] eqn:E.
    + pose proof (get_some_lt E). destruct (IH (S p)) as (l & s & H'); [lia|].
      exists (x :: l), s. now apply front_some.
    + exists [], (Ret tt). now apply front_stop.
    + exists [], Panic. now apply front_panic.
Qed.
Lemma back_exists (v : pvec) : forall p, exists l s, back v p l s.
Proof.
  induction p as [|p (l & s & H)]; [exists [], (Ret tt); constructor|].
  destruct (pv_get v p) as [[x|]|] eqn:E.
  - exists (x :: l), s. now apply back_some.
  - exists l, s. now apply back_none.
  - exists [], Panic. now apply back_panic.
Qed.
Lemma front_unique (v : pvec) p l s : front v p l s -> forall l' s', front v p l' s' -> l' = l /\ s' = s.
Proof.
  induction 1 as [p E|p x l s E _ IH|p E]; intros l' s' H'; inversion H'; subst; try congruence; auto.
  rewrite E in H. injection H as <-. destruct (IH _ _ H0) as [-> ->]. auto.
Qed.
Lemma back_unique (v : pvec) p l s : back v p l s -> forall l' s', back v p l' s' -> l' = l /\ s' = s.
Proof.
  induction 1 as [|p x l s E _ IH|p l s E _ IH|p E]; intros l' s' H'; inversion H'; subst; try congruence; auto.
  rewrite E in H0. injection H0 as <-. destruct (IH _ _ H1) as [-> ->]. auto.
Qed.

Lemma collect_front (v : pvec) p l s : front v p l s -> forall fuel, length l < fuel ->
  iter_collect fuel v p = upto s l.
Proof.
  induction 1 as [p E|p x l s E F IH|p E]; intros [|fuel] Hf; try (cbn in Hf; lia); cbn [iter_collect];
    rewrite next_get, E; cbn [obind fst snd upto]; auto.
  rewrite (proj2 (Nat.ltb_lt _ _) (get_some_lt E)), IH by (cbn in Hf; lia). now destruct s.
Qed.
Lemma front_len (v : pvec) p l s : front v p l s -> length l <= pv_len v - p.
Proof.
  induction 1 as [p E|p x l s E F IH|p E]; cbn; try lia. pose proof (get_some_lt E). lia.
Qed.
Lemma iter_front (v : pvec) l s : front v 0 l s -> pv_iter v = upto s l.
Proof. intros H. apply (collect_front H). pose proof (front_len H). lia. Qed.
Lemma to_vec_front (v : pvec) l : pv_to_vec v = Ret l -> front v 0 l (Ret tt).
Proof.
  intros H. destruct (@front_exists v (pv_len v - 0) 0 (le_n _)) as (l' & s & F). unfold pv_to_vec in H.
  rewrite (iter_front F) in H. destruct s as [[]|]; cbn in H; [now injection H as ->|discriminate].
Qed.
Lemma front_get (v : pvec) p l s : front v p l s ->
  (forall i x, nth_error l i = Some x -> pv_get v (p + i) = Ret (Some x)) /\
  (match s with Ret _ => pv_get v (p + length l) = Ret None | Panic => pv_get v (p + length l) = Panic end).
Proof.
  induction 1 as [p E|p x l s E F [IH1 IH2]|p E]; cbn [length].
  - rewrite Nat.add_0_r. split; [now intros [|i]|assumption].
  - rewrite <- plus_n_Sm, <- plus_Sn_m. split; [|assumption]. intros [|i] y Hi; cbn in Hi.
    + injection Hi as <-. now rewrite Nat.add_0_r.
    + rewrite <- plus_n_Sm, <- plus_Sn_m. now apply IH1.
  - rewrite Nat.add_0_r. split; [now intros [|i]|assumption].
Qed.
Lemma front_of_gets (v : pvec) l : forall p, (forall i x, nth_error l i = Some x -> pv_get v (p + i) = Ret (Some x)) ->
  pv_get v (p + length l) = Ret None -> front v p l (Ret tt).
Proof.
  induction l as [|x l IH]; intros p H1 H2.
  - apply front_stop. now rewrite <- (Nat.add_0_r p).
  - apply front_some; [rewrite <- (Nat.add_0_r p); now apply H1|]. apply IH.
    + intros i y Hi. rewrite plus_Sn_m, plus_n_Sm. now apply H1.
    + cbn in H2. now rewrite plus_Sn_m, plus_n_Sm.
Qed.
Lemma represents_front (v : pvec) l : represents v l -> front v 0 l (Ret tt).
Proof. intros H. apply to_vec_front. apply (represents_iter H). Qed.

(** ** C14 *)

(** Every accessor is told by the single reads. *)
Theorem C14_from_get (v : pvec) :
  pv_first v = pv_get v 0 /\
  (pv_len v = 0 -> pv_last v = Ret None) /\ (forall n, pv_len v = S n -> pv_last v = pv_get v n) /\
  (forall i o, pv_get v i = Ret o ->
     pv_try_get v i = Ret (match o with Some x => inl x | None => inr (i, pv_len v) end) /\
     pv_index v i = match o with Some x => Ret x | None => Panic end) /\
  (forall i, pv_get v i = Panic -> pv_try_get v i = Panic /\ pv_index v i = Panic) /\
  (forall i, pv_len v <= i -> pv_get v i = Ret None).
Proof.
  split; [reflexivity|]. unfold pv_last, pv_try_get, pv_index.
  split; [intros ->; reflexivity|]. split; [intros n ->; cbn; now rewrite Nat.sub_0_r|].
  split; [intros i o ->; now destruct o|]. split; [intros i ->; auto|]. intros i. apply get_past.
Qed.

(** [to_vec] gives the elements up to the first position with nothing, and nothing else. *)
Theorem C14_to_vec_any (v : pvec) l : pv_to_vec v = Ret l <->
  (forall i x, nth_error l i = Some x -> pv_get v i = Ret (Some x)) /\ pv_get v (length l) = Ret None.
Proof.
  split.
  - intros H. apply to_vec_front in H. apply (front_get H).
  - intros [H1 H2]. unfold pv_to_vec. now rewrite (iter_front (@front_of_gets v l 0 H1 H2)).
Qed.

(** The iterator's [k]-th step reads position [k], whatever came before; the hint counts the steps left and
    never underflows. *)
Theorem C14_next_any (v : pvec) os : length os <= pv_len v ->
  (forall i o, nth_error os i = Some o -> pv_get v i = Ret o) ->
  next_times (length os) v 0 = Ret (os, length os) /\
  iter_size_hint v (length os) = Ret (pv_len v - length os) /\
  (length os = pv_len v -> forall m, next_times (length os + m) v 0 = Ret (os ++ repeat None m, length os)).
Proof.
  intros L H.
  assert (G : forall os p m, p + length os <= pv_len v -> (m = 0 \/ p + length os = pv_len v) ->
    (forall i o, nth_error os i = Some o -> pv_get v (p + i) = Ret o) ->
    next_times (length os + m) v p = Ret (os ++ repeat None m, p + length os)).
  { clear. induction os as [|o os IH]; intros p m L Hm H; cbn [length plus app].
    - rewrite Nat.add_0_r in *. destruct Hm as [->|Hm]; [reflexivity|].
      induction m as [|m IHm]; [reflexivity|]. cbn [next_times repeat]. rewrite next_get, get_past by (cbn in Hm; lia).
      cbn [obind fst snd]. rewrite (proj2 (Nat.ltb_ge _ _)) by (cbn in Hm; lia). rewrite IHm. reflexivity.
    - cbn [length] in *. cbn [next_times]. rewrite next_get. pose proof (H 0 o eq_refl) as H0. rewrite Nat.add_0_r in H0.
      rewrite H0. cbn [obind fst snd]. rewrite (proj2 (Nat.ltb_lt _ _)) by lia.
      rewrite IH; [cbn; do 2 f_equal; lia|lia|lia|].
      intros i o' Hi. rewrite plus_Sn_m, plus_n_Sm. now apply H. }
  split; [|split].
  - pose proof (G os 0 0 L (or_introl eq_refl) H) as E. now rewrite Nat.add_0_r, app_nil_r in E.
  - unfold iter_size_hint. now rewrite usub_ok.
  - intros E m. apply (G os 0 m L (or_intror E) H).
Qed.

(** Folding from the left meets what [to_vec] gives; from the right, everything there is at any position below the
    length. *)
Lemma fold_right_back {B} (f : T -> B -> B) (v : pvec) p l s : back v p l s -> forall b,
  pv_fold_right_from p f b v = upto s (fold_left (fun a x => f x a) l b).
Proof.
  induction 1 as [|p x l s E _ IH|p l s E _ IH|p E]; intros b; cbn [pv_fold_right_from]; rewrite ?E; cbn [obind]; auto.
  - rewrite IH. reflexivity.
Qed.
Theorem C14_folds_any {B} (v : pvec) l s r t : front v 0 l s -> back v (pv_len v) r t ->
  (forall (f : B -> T -> B) b, pv_fold f b v = upto s (fold_left f l b)) /\
  (forall (f : T -> B -> B) b, pv_fold_right f b v = upto t (fold_left (fun a x => f x a) r b)) /\
  pv_to_vec v = upto s l.
Proof.
  intros H K. split; [|split].
  - intros f b. unfold pv_fold. rewrite (iter_front H). now destruct s.
  - intros f b. apply (fold_right_back f K).
  - apply (iter_front H).
Qed.
Theorem C14_walks (v : pvec) :
  (exists l s, front v 0 l s /\ forall l' s', front v 0 l' s' -> l' = l /\ s' = s) /\
  (exists r t, back v (pv_len v) r t /\ forall r' t', back v (pv_len v) r' t' -> r' = r /\ t' = t).
Proof.
  split.
  - destruct (@front_exists v (pv_len v - 0) 0 (le_n _)) as (l & s & F). exists l, s. split; auto. apply (front_unique F).
  - destruct (back_exists v (pv_len v)) as (l & s & F). exists l, s. split; auto. apply (back_unique F).
Qed.

(** If nothing is missing below the length, all is well: iteration and both folds see the same [len] elements. *)
Lemma back_full (v : pvec) l : forall n, n <= length l -> (forall i x, nth_error l i = Some x -> pv_get v i = Ret (Some x)) ->
  back v n (rev (firstn n l)) (Ret tt).
Proof.
  induction n as [|n IH]; intros L H; [apply back_stop|].
  destruct (nth_error l n) as [x|] eqn:E; [|apply nth_error_None in E; lia].
  assert (Ek : firstn (S n) l = firstn n l ++ [x]).
  { clear - E. revert n E. induction l as [|y l IH]; intros [|n] E; cbn in *; try discriminate; try congruence.
    now rewrite <- (IH n E). }
  rewrite Ek, rev_app_distr. cbn. apply back_some; [now apply H|]. apply IH; auto. lia.
Qed.
Theorem C14_all_there (v : pvec) : (forall i, i < pv_len v -> exists x, pv_get v i = Ret (Some x)) <->
  exists l, length l = pv_len v /\ pv_to_vec v = Ret l.
Proof.
  split.
  - intros H. destruct (@front_exists v (pv_len v - 0) 0 (le_n _)) as (l & s & F).
    pose proof (front_len F) as L. rewrite Nat.sub_0_r in L. destruct (front_get F) as [G1 G2]. cbn [plus] in *.
    assert (E : length l = pv_len v).
    { destruct (Nat.lt_ge_cases (length l) (pv_len v)) as [K|K]; [|lia]. destruct (H _ K) as [x Hx].
      destruct s; congruence. }
    exists l. split; auto. apply C14_to_vec_any. split; auto. rewrite E. now apply get_past.
  - intros (l & E & H). apply C14_to_vec_any in H as [H _]. intros i L.
    destruct (nth_error l i) as [x|] eqn:K; [exists x; now apply H|apply nth_error_None in K; lia].
Qed.
Theorem C14_agree {B} (v : pvec) l : pv_to_vec v = Ret l -> length l = pv_len v ->
  pv_first v = Ret (nth_error l 0) /\
  pv_last v = Ret (match l with [] => None | _ => nth_error l (length l - 1) end) /\
  (forall i, pv_get v i = Ret (nth_error l i)) /\
  (forall k, exists pos, next_times k v 0 = Ret (map Some (firstn k l) ++ repeat None (k - length l), pos) /\
     iter_size_hint v pos = Ret (length l - k)) /\
  (forall (f : B -> T -> B) b, pv_fold f b v = Ret (fold_left f l b)) /\
  (forall (f : T -> B -> B) b, pv_fold_right f b v = Ret (fold_right f b l)).
Proof.
  intros H E. pose proof (to_vec_front H) as F. apply C14_to_vec_any in H as [H _].
  assert (G : forall i, pv_get v i = Ret (nth_error l i)).
  { intros i. destruct (nth_error l i) as [x|] eqn:K; [now apply H|]. apply nth_error_None in K. apply get_past. lia. }
  split; [apply G|]. split; [|split; [exact G|]].
  { unfold pv_last. rewrite G, <- E. destruct l; [reflexivity|]. cbn. reflexivity. }
  assert (Bk : back v (pv_len v) (rev l) (Ret tt)).
  { rewrite <- E. rewrite <- (firstn_all l) at 2. apply back_full; auto. }
  destruct (@C14_folds_any B v l _ _ _ F Bk) as (F1 & F2 & _).
  split; [|split; [exact F1|]].
  - intros k. destruct (Nat.le_gt_cases k (length l)) as [K|K].
    + destruct (@C14_next_any v (map Some (firstn k l))) as (N1 & N2 & _).
      * rewrite map_length, firstn_length. lia.
      * intros i o Hi. rewrite G. rewrite nth_error_map in Hi.
        destruct (nth_error (firstn k l) i) as [x|] eqn:Q; [|discriminate]. cbn in Hi. injection Hi as <-.
        rewrite <- (firstn_skipn k l), nth_error_app1; [now rewrite Q|].
        apply nth_error_Some. congruence.
      * rewrite map_length, firstn_length, Nat.min_l in N1, N2 by lia. exists k.
        replace (k - length l) with 0 by lia. rewrite app_nil_r. split; [exact N1|]. now rewrite N2, E.
    + destruct (@C14_next_any v (map Some l)) as (N1 & N2 & N3).
      * rewrite map_length. lia.
      * intros i o Hi. rewrite G. rewrite nth_error_map in Hi. now destruct (nth_error l i); cbn in Hi; [injection Hi as <-|].
      * rewrite map_length in N1, N2, N3. exists (length l).
        specialize (N3 E (k - length l)). replace (length l + (k - length l)) with k in N3 by lia.
        rewrite firstn_all2 by lia. split; [exact N3|]. rewrite N2. f_equal. lia.
  - intros f b. rewrite F2. cbn [upto]. now rewrite <- fold_left_rev_right, rev_involutive.
Qed.

(** Which positions of a vector made by the public operations hold nothing although they lie below the length *)
Theorem C14_missing_exact (v : pvec) i : arrived v -> i < pv_len v ->
  (pv_get v i = Ret None <-> exists t, inner v = Tree t /\
     (t_len t <= i \/
      length (t_head t) + length (t_tail t) <= t_len t /\
      length (t_head t) + length (elems (t_root t)) <= i /\ i + length (t_tail t) < t_len t)).
Proof.
  intros A L. apply arrived_sound in A. unfold sound in A. unfold pv_get.
  rewrite (proj2 (Nat.leb_gt _ _) L).
  destruct (inner v) as [es|t].
  - split; [intros H; injection H as H; apply nth_error_None in H; lia|now intros (t & [=] & _)].
  - transitivity (t_len t <= i \/
      length (t_head t) + length (t_tail t) <= t_len t /\
      length (t_head t) + length (elems (t_root t)) <= i /\ i + length (t_tail t) < t_len t);
      [|split; [intros H; now exists t|intros (t' & [= <-] & H); exact H]].
    unfold tree_get. destruct (Nat.leb_spec (t_len t) i) as [K|K]; [split; auto|].
    destruct (Nat.ltb_spec i (length (t_head t))) as [K1|K1].
    { split; [|lia]. intros H. injection H as H. apply nth_error_None in H. lia. }
    rewrite usub_ok by lia. cbn [obind]. rewrite (@usub_ok (t_len t)) by lia. cbn [obind].
    destruct (Nat.le_gt_cases (length (t_head t) + length (t_tail t)) (t_len t)) as [K2|K2].
    + rewrite usub_ok by lia. cbn [obind].
      destruct (Nat.ltb_spec (i - length (t_head t)) (t_len t - length (t_head t) - length (t_tail t))) as [K3|K3].
      * rewrite get_from_tree_ok by exact A. split.
        -- intros H. injection H as H. apply nth_error_None in H. right. repeat split; lia.
        -- intros [H|(_ & H & _)]; [lia|]. f_equal. apply nth_error_None. lia.
      * rewrite usub_ok by lia. cbn [obind]. split; [|lia].
        intros H. injection H as H. apply nth_error_None in H. lia.
    + rewrite (proj2 (usub_panic _ _)) by lia. cbn [obind]. split; [discriminate|lia].
Qed.
End Walk.

(** ** C09 *)
Section Comb.
Context {T : Type}.
Lemma front_zip {U} (v : pvec T) (w : pvec U) p l s : front v p l s -> forall m t, front w p m t ->
  forall fuel, length l < fuel ->
  iter_zip fuel v w p = if length m <? length l then upto t (combine l m) else upto s (combine l m).
Proof.
  induction 1 as [p E|p x l s E F IH|p E]; intros m t G [|fuel] Hf; try (cbn in Hf; lia); cbn [iter_zip];
    rewrite next_get, E; cbn [obind fst snd upto length]; auto.
  rewrite next_get. inversion G as [q E'|q y m' t' E' G'|q E']; subst; rewrite E'; cbn [obind fst snd upto length]; auto.
  cbn [length] in Hf. rewrite (IH m' t G') by lia. change (S (length m') <? S (length l)) with (length m' <? length l).
  destruct (length m' <? length l); [destruct t|destruct s]; reflexivity.
Qed.

(** With the elements that iteration meets as the list: every combinator gives the list function's answer, and panics
    when iterating does. *)
Theorem C09_any {U} (v : pvec T) l s (f : T -> U) (p : T -> bool) (g : T -> option U) (h : T -> list U) eqb leb size
    (fa : list U -> T -> list U) b :
  front v 0 l s -> total_preorder leb -> 1 <= size ->
  (exists x, pv_map f v = upto s x /\ represents x (map f l)) /\
  (exists x, pv_filter p v = upto s x /\ represents x (filter p l)) /\
  (exists x, pv_filter_map g v = upto s x /\
     represents x (flat_map (fun x => match g x with Some y => [y] | None => [] end) l)) /\
  (exists x, pv_flat_map h v = upto s x /\ represents x (flat_map h l)) /\
  (exists x y, pv_partition p v = upto s (x, y) /\ represents x (filter p l) /\
     represents y (filter (fun x => negb (p x)) l)) /\
  pv_fold fa b v = upto s (fold_left fa l b) /\
  (exists x m, pv_dedup eqb v = upto s x /\ represents x m /\ runs_collapsed eqb l m) /\
  (exists x m, pv_sorted leb v = upto s x /\ represents x m /\ Permutation m l /\
     StronglySorted (fun x y => leb x y = true) m /\
     (forall c, filter (same_class leb c) m = filter (same_class leb c) l)) /\
  (exists x xs pieces, pv_chunk v size = upto s x /\ represents x xs /\
     Forall2 represents xs pieces /\ cut_into size l pieces).
Proof.
  intros F Hl Hs.
  assert (R : forall l' : list T, represents (pv_from_iter l') l') by (intros; apply from_iter_represents).
  destruct (C09_map_filter f p g h (R l)) as ((a1 & A1 & A1') & (a2 & A2 & A2') & (a3 & A3 & A3') & (a4 & A4 & A4')).
  destruct (C09_partition p (R l)) as (a5 & b5 & A5 & A5' & B5').
  destruct (C09_dedup eqb (R l)) as (a6 & b6 & A6 & A6').
  destruct (C09_sorted (R l) Hl) as (a7 & b7 & A7 & A7').
  destruct (C09_chunk (R l) Hs) as (a8 & b8 & c8 & A8 & A8').
  unfold pv_map, pv_filter, pv_filter_map, pv_flat_map, pv_partition, pv_fold, pv_dedup, pv_sorted, pv_chunk in *.
  rewrite (iter_front F). rewrite (represents_iter (R l)) in *.
  destruct (Nat.eqb_spec size 0) as [|_]; [lia|].
  destruct s as [[]|]; cbn [upto omap] in *.
  - repeat split; eauto 10.
  - repeat split; eauto 10.
Qed.
Theorem C09_zip_any {U} (v : pvec T) (w : pvec U) l m s t : front v 0 l s -> front w 0 m t ->
  exists z, represents z (combine l m) /\ pv_zip v w = upto (if length m <? length l then t else s) z.
Proof.
  intros F G. exists (pv_from_iter (combine l m)). split; [apply from_iter_represents|].
  unfold pv_zip. rewrite (front_zip F G) by (pose proof (front_len F); lia).
  destruct (length m <? length l); [destruct t|destruct s]; reflexivity.
Qed.
End Comb.

(** ** C10 *)
Theorem C10_laws_any {T U V} (v : pvec T) l s (f : T -> U) (g : U -> V) : front v 0 l s ->
  (exists w, pv_fmap (fun x => x) v = upto s w /\ represents w l) /\
  (exists w m, (do w1 <- pv_fmap f v; pv_fmap g w1) = upto s w /\ pv_fmap (fun x => g (f x)) v = upto s w /\
     represents w m /\ pv_len w = length l).
Proof.
  intros F. unfold pv_fmap, pv_map. rewrite (iter_front F). split.
  - exists (pv_from_iter l). split; [|apply from_iter_represents]. destruct s; cbn; [now rewrite map_id|reflexivity].
  - exists (pv_from_iter (map (fun x => g (f x)) l)), (map (fun x => g (f x)) l).
    split; [|split; [now destruct s|split; [apply from_iter_represents|]]].
    + destruct s; cbn [upto omap obind]; [|reflexivity].
      rewrite (represents_iter (from_iter_represents (map f l))). cbn [omap]. now rewrite map_map.
    + rewrite (represents_len (from_iter_represents _)). apply map_length.
Qed.
(** The length is preserved exactly if iteration meets every element. *)
Theorem C10_length_exact {T U} (v : pvec T) l (f : T -> U) w : pv_to_vec v = Ret l -> pv_fmap f v = Ret w ->
  (pv_len w = pv_len v <-> length l = pv_len v).
Proof.
  intros H E. apply to_vec_front in H. unfold pv_fmap, pv_map in E. rewrite (iter_front H) in E. injection E as <-.
  rewrite (represents_len (from_iter_represents _)), map_length. reflexivity.
Qed.

(** ** A vector whose length counts elements it does not have: filled and emptied at the back, filled and emptied at the
    front, then used as a queue *)
Definition C14_short_history : list (op nat) :=
  repeat (PushBack 1) 65 ++ repeat PopBack 65 ++ repeat (PushFront 2) 65 ++ repeat PopFront 65 ++
  repeat (PushBack 3) 67 ++ [PopFront; PushBack 4].
Definition C14_short : pvec nat := match vec_run C14_short_history pv_new with Ret (v, _) => v | Panic => pv_new end.
Lemma C14_short_run : exists rs, vec_run C14_short_history pv_new = Ret (C14_short, rs).
Proof. eexists. vm_compute. reflexivity. Qed.
Lemma C14_short_arrived : arrived C14_short.
Proof.
  destruct C14_short_run as [rs E]. eapply arrived_run; [|exact E]. eapply arr_start. constructor.
Qed.
(** The length and the exact size hint promise 67 elements; iteration gives two, then nothing 64 times, then one more;
    [to_vec] and the left fold see two, the right fold three; [first] and [last] are there. *)
Theorem C14_iteration_refuted : exists (ops : list (op nat)) v rs,
  forallb is_deque ops = true /\ vec_run ops pv_new = Ret (v, rs) /\
  pv_len v = 67 /\ iter_size_hint v 0 = Ret 67 /\
  next_times 67 v 0 = Ret ([Some 3; Some 3] ++ repeat None 64 ++ [Some 4], 67) /\
  pv_to_vec v = Ret [3; 3] /\ pv_last v = Ret (Some 4) /\
  pv_fold (fun l x => l ++ [x]) [] v = Ret [3; 3] /\ pv_fold_right (@cons nat) [] v = Ret [3; 3; 4] /\
  pv_get v 2 = Ret None /\ pv_index v 2 = Panic.
Proof.
  destruct C14_short_run as [rs E]. exists C14_short_history, C14_short, rs.
  split; [vm_compute; reflexivity|]. split; [exact E|]. clear E. vm_compute. repeat split.
Qed.
Theorem C10_length_refuted : exists (ops : list (op nat)) v rs w,
  forallb is_deque ops = true /\ vec_run ops pv_new = Ret (v, rs) /\
  pv_fmap (fun x => x) v = Ret w /\ pv_len v = 67 /\ pv_len w = 2.
Proof.
  destruct C14_short_run as [rs E]. exists C14_short_history, C14_short, rs. eexists.
  split; [vm_compute; reflexivity|]. split; [exact E|]. clear E. split; [vm_compute; reflexivity|].
  vm_compute. split; reflexivity.
Qed.

(** ** Cases *)
Example C14_walk_case : front C14_short 0 [3; 3] (Ret tt) /\ back C14_short (pv_len C14_short) [4; 3; 3] (Ret tt) /\
  front C15_bad 0 [2; 2; 2; 2; 2] Panic.
Proof.
  split; [|split].
  - apply to_vec_front. vm_compute. reflexivity.
  - destruct (back_exists C14_short (pv_len C14_short)) as (r & t & K).
    assert (E1 : pv_fold_right (@cons nat) [] C14_short = Ret [3; 3; 4]) by (vm_compute; reflexivity).
    destruct (@front_exists _ C14_short (pv_len C14_short - 0) 0 (le_n _)) as (l & s & F).
    destruct (@C14_folds_any _ (list nat) C14_short l s r t F K) as (_ & F2 & _).
    rewrite F2 in E1. destruct t as [[]|]; [|discriminate]. cbn [upto] in E1. injection E1 as E1.
    assert (R : forall (r acc : list nat), fold_left (fun a x => x :: a) r acc = rev r ++ acc).
    { clear. induction r as [|x r IH]; intros acc; cbn; auto. rewrite IH, <- app_assoc. reflexivity. }
    rewrite R, app_nil_r in E1. apply (f_equal (@rev nat)) in E1. rewrite rev_involutive in E1. cbn in E1. now subst r.
  - do 5 (apply front_some; [vm_compute; reflexivity|]). apply front_panic. vm_compute. reflexivity.
Qed.
Example C14_missing_case : arrived C14_short /\ pv_get C14_short 2 = Ret None /\ pv_get C14_short 65 = Ret None /\
  pv_get C14_short 66 = Ret (Some 4).
Proof. split; [exact C14_short_arrived|]. vm_compute. repeat split. Qed.
Example C14_all_there_case : exists l, pv_to_vec (pv_from_iter (seq 0 70)) = Ret l /\ length l = 70 /\
  pv_len (pv_from_iter (seq 0 70)) = 70.
Proof. eexists. split; vm_compute; auto. Qed.
Example C14_next_case : exists os, length os = 67 /\ next_times 67 C14_short 0 = Ret (os, 67) /\
  forall i, i < 67 -> match pv_get C14_short i with Ret o => nth_error os i = Some o | Panic => False end.
Proof.
  exists ([Some 3; Some 3] ++ repeat None 64 ++ [Some 4]). split; [reflexivity|]. split; [vm_compute; reflexivity|].
  intros i L. do 67 (destruct i as [|i]; [vm_compute; reflexivity|]). lia.
Qed.
Example C09_any_case : total_preorder Nat.leb /\
  (do w <- pv_zip (pv_from_iter [7; 8; 9]) C14_short; pv_to_vec w) = Ret [(7, 3); (8, 3)] /\
  pv_zip C15_bad C15_bad = Panic /\ pv_zip (pv_from_iter [1; 2]) C15_bad <> Panic /\ pv_filter Nat.even C15_bad = Panic.
Proof.
  split; [split; intros; rewrite ?Nat.leb_le in *; lia|]. vm_compute. repeat split; discriminate.
Qed.
Example C10_any_case : (do w <- pv_fmap S C14_short; pv_to_vec w) = Ret [4; 4] /\ pv_fmap S C15_bad = Panic.
Proof. vm_compute. split; reflexivity. Qed.

Print Assumptions C14_from_get.
Print Assumptions C14_to_vec_any.
Print Assumptions C14_next_any.
Print Assumptions C14_folds_any.
Print Assumptions C14_walks.
Print Assumptions C14_all_there.
Print Assumptions C14_agree.
Print Assumptions C14_missing_exact.
Print Assumptions C14_iteration_refuted.
Print Assumptions C09_any.
Print Assumptions C09_zip_any.
Print Assumptions C10_laws_any.
Print Assumptions C10_length_exact.
Print Assumptions C10_length_refuted.

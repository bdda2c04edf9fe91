(** Combinators, equality and the closure predicates of the specification. *)
From Coq Require Import List Arith Lia Bool Permutation Sorted.
From Verif Require Import Base ListFacts PvecModel PvecSpec PvecFacts PvecShape PvecEnds PvecHist
  PvecFront PvecSafe.
Import ListNotations.
Open Scope outcome_scope.
Set Implicit Arguments.
Unset Strict Implicit.

Lemma skipn_cons_nth {A} pos (l : list A) x :
  nth_error l pos = Some x -> skipn pos l = x :: skipn (S pos) l.
Proof.
  revert l; induction pos as [|pos IH]; intros [|y l] E; try discriminate E.
  - now injection E as ->.
  - cbn [skipn]. now apply IH.
Qed.

Section Comb.
Context {T : Type}.
Notation pvec := (pvec T).

(** ** Reading *)

Lemma represents_iter (v : pvec) l : represents v l -> pv_iter v = Ret l.
Proof. now intros (_ & _ & H). Qed.

Lemma represents_len (v : pvec) l : represents v l -> pv_len v = length l.
Proof. now intros (H & _ & _). Qed.

Lemma represents_get (v : pvec) l i : represents v l -> pv_get v i = Ret (nth_error l i).
Proof. now intros (_ & H & _). Qed.

Lemma represents_unique (v : pvec) l1 l2 : represents v l1 -> represents v l2 -> l1 = l2.
Proof. intros H1 H2. apply represents_iter in H1, H2. congruence. Qed.

Lemma from_iter_represents {U} (l : list U) : represents (pv_from_iter l) l.
Proof.
  destruct (pv_from_iter_ok l) as [H E]. rewrite <- E at 2. now apply pv_ok_represents.
Qed.

Lemma next_times_ok (v : pvec) l k : represents v l -> forall pos, pos <= length l ->
  next_times k v pos =
  Ret (map Some (firstn k (skipn pos l)) ++ repeat None (k - (length l - pos)),
       Nat.min (length l) (pos + k)).
Proof.
  intros H. induction k as [|k IH]; intros pos Hp; cbn [next_times].
  { cbn. replace (Nat.min (length l) (pos + 0)) with pos by lia. reflexivity. }
  unfold iter_next. rewrite (represents_len H).
  destruct (Nat.ltb_spec pos (length l)) as [Hlt|Hge].
  - rewrite (represents_get pos H). cbn [obind fst snd]. rewrite IH by lia. cbn [obind fst snd].
    destruct (nth_error l pos) as [x|] eqn:E; [|apply nth_error_None in E; lia].
    rewrite (@skipn_cons_nth _ pos l x E). cbn [firstn map app].
    replace (S k - (length l - pos)) with (k - (length l - S pos)) by lia.
    replace (Nat.min (length l) (pos + S k)) with (Nat.min (length l) (S pos + k)) by lia.
    reflexivity.
  - cbn [obind fst snd]. rewrite IH by lia. cbn [obind fst snd].
    rewrite skipn_all2 by lia. rewrite !firstn_nil. cbn [map app].
    replace (S k - (length l - pos)) with (S k) by lia.
    replace (k - (length l - pos)) with k by lia. cbn [repeat].
    replace (Nat.min (length l) (pos + S k)) with (Nat.min (length l) (pos + k)) by lia.
    reflexivity.
Qed.

Lemma fold_right_from_ok {B} (f : T -> B -> B) (v : pvec) l : represents v l ->
  forall n acc, n <= length l -> pv_fold_right_from n f acc v = Ret (fold_right f acc (firstn n l)).
Proof.
  intros H. induction n as [|n IH]; intros acc Hn; cbn [pv_fold_right_from]; [reflexivity|].
  rewrite (represents_get n H). cbn [obind].
  destruct (nth_error l n) as [x|] eqn:E; [|apply nth_error_None in E; lia].
  rewrite IH by lia.
  replace (firstn (S n) l) with (firstn n l ++ [x]).
  - now rewrite fold_right_app.
  - symmetry. clear -E. revert n E; induction l as [|y l IHl]; intros [|n] E; cbn in *; try discriminate.
    + now injection E as ->.
    + now rewrite (IHl n E).
Qed.

(** ** dedup *)

Lemma dedup_fold eqb (l : list T) : forall acc x,
  exists r ys rest,
    fold_left (dedup_step eqb) l (acc, Some x) = (acc ++ r, snd (fold_left (dedup_step eqb) l (acc, Some x)))
    /\ l = ys ++ rest /\ Forall (fun y => eqb x y = true) ys
    /\ match rest with [] => True | z :: _ => eqb x z = false end
    /\ runs_collapsed eqb rest r.
Proof.
  induction l as [|z l IH]; intros acc x.
  - exists [], [], []. cbn. rewrite app_nil_r. repeat split; constructor.
  - cbn [fold_left dedup_step]. destruct (eqb x z) eqn:E.
    + destruct (IH acc x) as (r & ys & rest & H1 & H2 & H3 & H4 & H5).
      exists r, (z :: ys), rest. rewrite H2 at 3. repeat split; auto.
    + destruct (IH (acc ++ [z]) z) as (r & ys & rest & H1 & H2 & H3 & H4 & H5).
      exists (z :: r), [], (z :: l). rewrite H1 at 1.
      replace (acc ++ z :: r) with ((acc ++ [z]) ++ r) by now rewrite <- app_assoc.
      repeat split; auto. rewrite H2. now constructor.
Qed.

Lemma dedup_ok eqb (l : list T) :
  runs_collapsed eqb l (fst (fold_left (dedup_step eqb) l ([], None))).
Proof.
  destruct l as [|x l]; [constructor|]. cbn [fold_left dedup_step app].
  destruct (dedup_fold eqb l [x] x) as (r & ys & rest & H1 & H2 & H3 & H4 & H5).
  rewrite H1. cbn [fst app]. rewrite H2. now constructor.
Qed.

(** ** sorted *)

Lemma insert_sorted_perm leb (x : T) l : Permutation (insert_sorted leb x l) (x :: l).
Proof.
  induction l as [|y l IH]; cbn; [auto|]. destruct (leb x y); [auto|].
  rewrite IH. apply perm_swap.
Qed.

Lemma stable_sort_perm leb (l : list T) : Permutation (stable_sort leb l) l.
Proof.
  induction l as [|x l IH]; cbn; [auto|]. rewrite insert_sorted_perm. now constructor.
Qed.

Lemma insert_sorted_sorted leb (x : T) l : total_preorder leb ->
  StronglySorted (fun a b => leb a b = true) l ->
  StronglySorted (fun a b => leb a b = true) (insert_sorted leb x l).
Proof.
  intros [Ht Htr]. induction 1 as [|y l Hs IH Hy]; cbn; [repeat constructor|].
  destruct (leb x y) eqn:E.
  - constructor; [now constructor|]. constructor; auto.
    eapply Forall_impl; [|exact Hy]. intros z Hz. cbn in Hz. eauto.
  - constructor; auto. apply Forall_forall. intros z Hz.
    eapply Permutation_in in Hz; [|apply insert_sorted_perm].
    destruct Hz as [<-|Hz].
    + destruct (Ht x y); [congruence|auto].
    + rewrite Forall_forall in Hy. auto.
Qed.

Lemma stable_sort_sorted leb (l : list T) : total_preorder leb ->
  StronglySorted (fun a b => leb a b = true) (stable_sort leb l).
Proof.
  intros H. induction l as [|x l IH]; cbn; [constructor|]. now apply insert_sorted_sorted.
Qed.

Lemma insert_sorted_stable leb (x c : T) l : total_preorder leb ->
  filter (same_class leb c) (insert_sorted leb x l) = filter (same_class leb c) (x :: l).
Proof.
  intros [Ht Htr]. induction l as [|y l IH]; [reflexivity|]. cbn [insert_sorted].
  destruct (leb x y) eqn:E; [reflexivity|].
  cbn [filter] in *. rewrite IH.
  destruct (same_class leb c x) eqn:Ex; destruct (same_class leb c y) eqn:Ey; auto.
  exfalso. unfold same_class in *. apply andb_prop in Ex as [E1 E2], Ey as [E3 E4].
  rewrite (Htr _ _ _ E2 E3) in E. discriminate.
Qed.

Lemma stable_sort_stable leb (c : T) l : total_preorder leb ->
  filter (same_class leb c) (stable_sort leb l) = filter (same_class leb c) l.
Proof.
  intros H. induction l as [|x l IH]; cbn [stable_sort fold_right]; [reflexivity|].
  rewrite insert_sorted_stable by auto. cbn [filter]. fold (stable_sort leb l). now rewrite IH.
Qed.

(** ** partition, filter_map, chunk *)

Lemma partition_fold p (l : list T) : forall a b,
  fold_left (partition_step p) l (a, b) =
  (a ++ filter p l, b ++ filter (fun x => negb (p x)) l).
Proof.
  induction l as [|x l IH]; intros a b; cbn.
  - now rewrite !app_nil_r.
  - unfold partition_step at 2. cbn [fst snd]. destruct (p x); rewrite IH; cbn [negb];
      rewrite <- app_assoc; reflexivity.
Qed.

Lemma filter_map_spec {U} (f : T -> option U) l :
  list_filter_map f l = flat_map (fun x => match f x with Some y => [y] | None => [] end) l.
Proof. induction l as [|x l IH]; cbn; [auto|]. rewrite IH. now destruct (f x). Qed.

Lemma chunks_cut size (l : list T) : 1 <= size -> cut_into size l (chunks size l).
Proof.
  intros Hs. split; [now apply chunks_concat|]. intros j p Hj.
  pose proof (chunks_bounds l Hs) as HB. rewrite Forall_forall in HB.
  split; [apply HB; eapply nth_error_In; eauto|].
  intros Hlt. rewrite chunks_length in Hlt by auto.
  apply chunks_nth in Hj; auto. subst p. rewrite firstn_length, skipn_length.
  assert (S j * size + 1 <= length l).
  { destruct (le_lt_dec (length l) (S j * size)); [|lia]. exfalso.
    assert ((length l + size - 1) / size <= S j); [|lia].
    apply Nat.lt_succ_r, Nat.div_lt_upper_bound; lia. }
  lia.
Qed.

(** ** Equality *)

Lemma list_eqb_eq {A} (eqb : A -> A -> bool) l1 :
  Forall (fun x => forall y, eqb x y = true <-> x = y) l1 ->
  forall l2, list_eqb eqb l1 l2 = true <-> l1 = l2.
Proof.
  induction 1 as [|x l1 Hx _ IH]; intros [|y l2]; cbn; try (split; congruence).
  rewrite andb_true_iff, Hx, IH. split; [intros [-> ->]|intros E; injection E]; auto.
Qed.

Section Eqb.
Variable eqb : T -> T -> bool.
Hypothesis eqb_eq : forall x y, eqb x y = true <-> x = y.

Lemma list_eqb_eq' l1 l2 : list_eqb eqb l1 l2 = true <-> l1 = l2.
Proof. apply list_eqb_eq. apply Forall_forall. auto. Qed.

Lemma nat_list_eqb_eq l1 l2 : list_eqb Nat.eqb l1 l2 = true <-> l1 = l2.
Proof. apply list_eqb_eq. apply Forall_forall. intros. apply Nat.eqb_eq. Qed.

Lemma node_eqb_eq (n1 : node T) : forall n2, node_eqb eqb n1 n2 = true <-> n1 = n2.
Proof.
  induction n1 as [es|cs sz IH] using node_ind'; intros [es2|cs2 sz2]; cbn; try (split; congruence).
  - rewrite list_eqb_eq'. split; congruence.
  - rewrite andb_true_iff, list_eqb_eq by exact IH.
    assert (H : option_eqb (list_eqb Nat.eqb) sz sz2 = true <-> sz = sz2).
    { destruct sz, sz2; cbn; try (split; congruence). rewrite nat_list_eqb_eq. split; congruence. }
    rewrite H. split; [intros [-> ->]|intros E; injection E]; auto.
Qed.

Lemma pv_eqb_eq (v1 v2 : pvec) : pv_eqb eqb v1 v2 = true <-> v1 = v2.
Proof.
  unfold pv_eqb. rewrite !andb_true_iff, !Nat.eqb_eq.
  assert (H : vimpl_eqb eqb (inner v1) (inner v2) = true <-> inner v1 = inner v2).
  { destruct (inner v1) as [e1|t1], (inner v2) as [e2|t2]; cbn; try (split; congruence).
    - rewrite list_eqb_eq'. split; congruence.
    - unfold tree_eqb. rewrite !andb_true_iff, !Nat.eqb_eq, node_eqb_eq, !list_eqb_eq'.
      destruct t1, t2; cbn. split; [intuition congruence|].
      intros E; injection E; intuition. }
  rewrite H. destruct v1, v2; cbn. split; [intuition congruence|].
  intros E; injection E; intuition.
Qed.
End Eqb.

(** ** Closure predicates *)

Lemma back_run (v : pvec) l ops v' rs : starts v l ->
  Forall (fun o => is_back o = true) ops -> vec_run ops v = Ret (v', rs) ->
  back_inv v' /\ pv_elems v' = fst (list_run ops l) /\ rs = snd (list_run ops l).
Proof.
  intros Hs Hops E. destruct (starts_ok Hs) as [Hok <-].
  destruct (@run_invariant T back_inv is_back) with (ops := ops) (v := v)
    as (v1 & R1 & I1 & E1); auto.
  { now intros ? [? _]. }
  { intros; now apply back_step. }
  { eapply starts_back; eauto. }
  rewrite R1 in E. injection E as <- <-. auto.
Qed.

Lemma assembled_ok (v : pvec) : assembled v -> pv_ok v.
Proof.
  induction 1 as [v0 l0 ops v rs Hs Ho E | v0 l0 ops v rs e v' r Hs Ho E He Es
                 | o v v' r Ho Ha IH E | p v v' Ha IH E | a b Ha IHa Hb IHb].
  - destruct (back_run Hs Ho E) as [[H _] _]. exact H.
  - destruct (back_run Hs Ho E) as [H _].
    destruct e; try discriminate He.
    + destruct (insert_step i x H) as (v2 & E2 & H2 & _). rewrite E2 in Es. now injection Es as <- _.
    + destruct (remove_step i H) as (v2 & E2 & H2 & _). rewrite E2 in Es. now injection Es as <- _.
  - destruct (grow_step o Ho IH) as (v2 & E2 & H2 & _). rewrite E2 in E. now injection E as <- _.
  - unfold pv_filter in E. rewrite (pv_iter_ok IH) in E. cbn in E. injection E as <-.
    apply pv_from_iter_ok.
  - now apply pv_concat_ok.
Qed.

Lemma assembled_represents (v : pvec) : assembled v -> represents v (pv_elems v).
Proof. intros H. now apply pv_ok_represents, assembled_ok. Qed.

Lemma starts_assembled (v : pvec) l : starts v l -> assembled v.
Proof. intros H. now apply asm_back with (v0 := v) (l0 := l) (ops := []) (rs := []). Qed.

Lemma from_iter_safe_vec (l : list T) : safe_vec (pv_from_iter l).
Proof. apply from_iter_safe. Qed.

Lemma reached_safe (v : pvec) : reached v -> safe_vec v.
Proof.
  induction 1 as [v H|o v v' r Ho Hr IH E|a b _ IHa _ IHb|v i l r _ IH E|v i l r _ IH E
                 |leb v v' _ IH E|eqb v v' _ IH E].
  - now apply pv_ok_safe, assembled_ok.
  - destruct (safe_step Ho IH) as (v2 & r2 & E2 & H2). rewrite E2 in E. now injection E as <- _.
  - now apply pv_concat_safe.
  - destruct (pv_split_at_safe i IH) as (l2 & r2 & E2 & A & B). rewrite E2 in E. now injection E as <- _.
  - destruct (pv_split_at_safe i IH) as (l2 & r2 & E2 & A & B). rewrite E2 in E. now injection E as _ <-.
  - unfold pv_sorted in E. destruct (pv_iter_safe IH) as [l E2]. rewrite E2 in E.
    injection E as <-. apply from_iter_safe_vec.
  - unfold pv_dedup in E. destruct (pv_iter_safe IH) as [l E2]. rewrite E2 in E.
    injection E as <-. apply from_iter_safe_vec.
Qed.

End Comb.

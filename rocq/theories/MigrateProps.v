(** Property C109: what the documentation gives as the replacement of a deprecated
    operation, and the deprecated operation itself. *)
From Coq Require Import List Arith Lia Bool Permutation Sorted String.
From Verif Require Import Base ListFacts Types PvecModel PvecSpec PvecComb ChoiceModel ChoiceSpec ChoiceFacts ChoiceProps
  SumModel ValidatedModel WrapModel ErrModel UtilModel AliasModel MigrateModel.
Import ListNotations.
Open Scope outcome_scope.
Open Scope list_scope.

(** ** Auxiliary facts *)
Lemma filter_mut_dedup {T K} (keq : K -> K -> bool) (key : T -> K) l : forall seen,
  filter_mut (fun x s => set_insert keq (key x) s) seen l = dedup_loop keq key seen l.
Proof.
  induction l as [|x l IH]; intros seen; cbn; [reflexivity|]. unfold set_insert at 1.
  destruct (existsb (keq (key x)) seen); now rewrite IH.
Qed.
Lemma filter_len {A} (p : A -> bool) l : List.length (filter p l) <= List.length l.
Proof. induction l as [|x l IH]; cbn; [lia|]. destruct (p x); cbn; lia. Qed.
Lemma filter_all {A} (p : A -> bool) l : filter p l = l <-> forall x, In x l -> p x = true.
Proof.
  induction l as [|x l IH]; cbn; [split; [contradiction|reflexivity]|].
  destruct (p x) eqn:E.
  - split.
    + intros H y [<-|Hy]; [exact E|]. injection H as H. now apply IH.
    + intros H. f_equal. apply IH. auto.
  - split; intros H.
    + pose proof (filter_len p l) as L. rewrite H in L. cbn in L. lia.
    + rewrite H in E by auto. discriminate.
Qed.
Lemma filter_values_eq {T} (p : T -> bool) c : values (ch_filter_values p c) = filter p (values c).
Proof. unfold ch_filter_values. now destruct (filter p (values c)). Qed.
Lemma move_front {A} (p : A) u v : u ++ p :: v = p :: u ++ v <-> forall y, In y u -> y = p.
Proof.
  induction u as [|a u IH]; cbn; [split; [contradiction|reflexivity]|]. split.
  - intros H. injection H as Ha H. subst a. rewrite IH in H. intros y [<-|Hy]; auto.
  - intros H. assert (a = p) by auto. subst a. f_equal. apply IH. auto.
Qed.
Lemma list_set_mid {A} (u : list A) a b v : list_set (u ++ a :: v) (List.length u) b = u ++ b :: v.
Proof. unfold list_set. induction u as [|x u IH]; cbn; [reflexivity|]. now rewrite IH. Qed.
Lemma sorted_unique {A} (leb : A -> A -> bool) :
  (forall x y, leb x y = true -> leb y x = true -> x = y) ->
  forall l1 l2, StronglySorted (fun x y => leb x y = true) l1 ->
  StronglySorted (fun x y => leb x y = true) l2 -> Permutation l1 l2 -> l1 = l2.
Proof.
  intros Ha. induction l1 as [|x l1 IH]; intros l2 H1 H2 Hp.
  - now apply Permutation_nil in Hp.
  - destruct l2 as [|y l2]; [now apply Permutation_sym, Permutation_nil in Hp|].
    inversion H1 as [|? ? H1s H1f]; subst. inversion H2 as [|? ? H2s H2f]; subst.
    assert (x = y) as ->.
    { assert (Hx : In x (y :: l2)) by (eapply Permutation_in; [exact Hp|now left]).
      assert (Hy : In y (x :: l1)) by (eapply Permutation_in; [apply Permutation_sym, Hp|now left]).
      destruct Hx as [->|Hx]; [reflexivity|]. destruct Hy as [->|Hy]; [reflexivity|].
      rewrite Forall_forall in H1f, H2f. auto. }
    f_equal. apply IH; auto. now apply Permutation_cons_inv in Hp.
Qed.
Lemma app_inj_len {A} (a b c d : list A) : List.length a = List.length c -> a ++ b = c ++ d -> a = c /\ b = d.
Proof.
  revert c. induction a as [|x a IH]; intros [|y c] Hl H; try discriminate; [auto|].
  injection H as -> H. injection Hl as Hl. destruct (IH c Hl H) as [-> ->]. auto.
Qed.
Lemma find_ext {A} (p q : A -> bool) l : (forall x, p x = q x) -> find p l = find q l.
Proof. intros H. induction l as [|x l IH]; cbn; [reflexivity|]. now rewrite H, IH. Qed.
Lemma find_app' {A} (p : A -> bool) l1 l2 :
  find p (l1 ++ l2) = match find p l1 with Some x => Some x | None => find p l2 end.
Proof. induction l1 as [|x l1 IH]; cbn; [reflexivity|]. destruct (p x); auto. Qed.
Lemma existsb_find {A} (p : A -> bool) l : existsb p l = match find p l with Some _ => true | None => false end.
Proof. induction l as [|x l IH]; cbn; [reflexivity|]. now destruct (p x). Qed.
Lemma keq_swap {K} (keq : K -> K -> bool) : equivalence keq ->
  forall a b c, keq a b = true -> keq a c = keq b c.
Proof.
  intros (Hr & Hs & Ht) a b c H. destruct (keq a c) eqn:E, (keq b c) eqn:E'; try reflexivity.
  - rewrite (Ht b a c) in E'; [discriminate|auto|auto].
  - rewrite (Ht a b c) in E; [discriminate|auto|auto].
Qed.
Lemma map_get_insert {K V} (keq : K -> K -> bool) (m : list (K * V)) k k' v : equivalence keq ->
  map_get keq k (map_insert keq m k' v) = if keq k k' then Some v else map_get keq k m.
Proof.
  intros He. pose proof He as (Hr & Hs & Ht). unfold map_insert, map_get.
  destruct (existsb (fun kv => keq k' (fst kv)) m) eqn:Ex.
  - destruct (keq k k') eqn:E.
    + induction m as [|[a b] m IH]; cbn in *; [discriminate|].
      rewrite <- (keq_swap keq He _ _ a E) in *. destruct (keq k a) eqn:Ea; cbn [fst].
      * rewrite Ea. reflexivity.
      * rewrite Ea. apply IH. exact Ex.
    + clear Ex. f_equal. induction m as [|[a b] m IH]; cbn; [reflexivity|].
      destruct (keq k' a) eqn:Ea; cbn [fst].
      * destruct (keq k a) eqn:Eb; [|apply IH].
        rewrite (Ht k a k') in E; [discriminate|exact Eb|auto].
      * destruct (keq k a) eqn:Eb; [reflexivity|apply IH].
  - rewrite find_app'. cbn [find fst]. destruct (keq k k') eqn:E.
    + rewrite (find_ext _ (fun kv => keq k' (fst kv))) by (intros kv; now apply keq_swap).
      rewrite existsb_find in Ex. now destruct (find (fun kv : K * V => keq k' (fst kv)) m).
    + now destruct (find (fun kv : K * V => keq k (fst kv)) m).
Qed.
Lemma map_get_or_insert {K V} (keq : K -> K -> bool) (m : list (K * V)) k k' v : equivalence keq ->
  map_get keq k (entry_or_insert keq m k' v) =
  match map_get keq k m with Some y => Some y | None => if keq k k' then Some v else None end.
Proof.
  intros He. unfold entry_or_insert, map_get. destruct (existsb (fun kv => keq k' (fst kv)) m) eqn:Ex.
  - destruct (find (fun kv => keq k (fst kv)) m) eqn:Ef; cbn; [reflexivity|].
    destruct (keq k k') eqn:E; [|reflexivity]. exfalso.
    rewrite (find_ext _ (fun kv => keq k' (fst kv))) in Ef by (intros kv; now apply keq_swap).
    rewrite existsb_find, Ef in Ex. discriminate.
  - rewrite find_app'. cbn [find fst]. destruct (find (fun kv => keq k (fst kv)) m); cbn; [reflexivity|].
    now destruct (keq k k').
Qed.

(** ** Replacements that do what the deprecated operation did *)
(** Reading: whether there are alternatives, the vector of all values, the first match, the
    alternatives. *)
Theorem C109_reading : forall (T : Type) (p : T -> bool) (c : choice T),
  ch_has_alternatives c = rp_has_alternatives c /\
  ch_to_vec c = rp_to_vec c /\
  ch_find_first p c = rp_find_first p c /\
  ch_iter_alternatives c = rp_iter_alternatives c.
Proof.
  intros T p c. unfold ch_has_alternatives, rp_has_alternatives, note_has_alternatives, ch_to_vec, rp_to_vec,
    ch_iter, rp_iter_alternatives, ch_iter_alternatives.
  rewrite ch_alternatives_tl, map_id. destruct c as [[|x [|y l]]]; repeat split; reflexivity.
Qed.
(** But the note printed by the compiler for [has_alternatives] leaves the negation out: what it
    says to use answers the opposite, for every choice. *)
Theorem C109_note_has_alternatives_refuted : forall (T : Type) (c : choice T),
  note_has_alternatives c = negb (ch_has_alternatives c).
Proof.
  intros T c. destruct (C109_reading T (fun _ => true) c) as (-> & _).
  unfold rp_has_alternatives. now rewrite negb_involutive.
Qed.
(** Deduplicating, folding and adding: the same choice, for every choice and every equality. *)
Theorem C109_dedup_fold_add : forall (T K B : Type) (teq : T -> T -> bool) (keq : K -> K -> bool) (key : T -> K)
    (b : B) (f : B -> T -> B) (c : choice T) (y : T) (ys : list T),
  ch_dedup teq c = rp_dedup teq c /\
  ch_dedup_by_key keq key c = rp_dedup_by_key keq key c /\
  fold_left f (values c) b = rp_fold b f c /\
  ch_add_alternatives c (y :: ys) = rp_add_alternatives c y ys /\
  ch_add_alternatives c ys = rp_add_many c ys.
Proof.
  intros. unfold ch_dedup, rp_dedup, ch_dedup_by_key, rp_dedup_by_key.
  rewrite (filter_mut_dedup keq key), (filter_mut_dedup teq (fun x => x)).
  assert (Hf : forall l : list T, ch_from_iter l = mkChoice l)
    by (intros l; apply choice_ext; now destruct (C16_construction T y l []) as (_ & _ & _ & -> & _)).
  rewrite !Hf. split; [now destruct c as [[|x l]]|]. split; [now destruct c as [[|x l]]|].
  split; [reflexivity|]. unfold rp_add_alternatives, rp_add_many. split; apply choice_ext; rewrite ch_combine_values.
  - reflexivity.
  - now destruct (C16_construction T y ys []) as (_ & _ & -> & _).
Qed.
(** The map that keeps the first value of each key; what it answers for a key is the first value
    with that key. *)
Theorem C109_map : forall (T K : Type) (keq : K -> K -> bool) (key : T -> K) (c : choice T),
  equivalence keq ->
  ch_to_map_with_key keq key c = rp_to_map keq key c /\
  (forall k, map_get keq k (rp_to_map keq key c) = find (fun x => keq k (key x)) (values c)) /\
  (forall k, map_get keq k (note_to_map keq key c) = find (fun x => keq k (key x)) (rev (values c))).
Proof.
  intros T K keq key c He. split; [|split].
  - unfold ch_to_map_with_key, rp_to_map. generalize (@nil (K * T)). induction (ch_iter c) as [|x l IH]; intros m;
      [reflexivity|]. cbn. now rewrite IH.
  - intros k. unfold rp_to_map, ch_iter.
    assert (G : forall l m, map_get keq k (fold_left (fun acc x => entry_or_insert keq acc (key x) x) l m) =
      match map_get keq k m with Some y => Some y | None => find (fun x => keq k (key x)) l end).
    { induction l as [|x l IH]; intros m; cbn; [now destruct (map_get keq k m)|].
      rewrite IH, map_get_or_insert by exact He. destruct (map_get keq k m); [reflexivity|].
      now destruct (keq k (key x)). }
    rewrite G. reflexivity.
  - intros k. unfold note_to_map, ch_iter.
    assert (G : forall l m, map_get keq k (fold_left (fun acc kv => map_insert keq acc (fst kv) (snd kv))
        (map (fun x => (key x, x)) l) m) =
      match find (fun x => keq k (key x)) (rev l) with Some y => Some y | None => map_get keq k m end).
    { induction l as [|x l IH]; intros m; cbn; [reflexivity|].
      rewrite IH, map_get_insert, find_app' by exact He. cbn. destruct (find _ (rev l)); [reflexivity|].
      now destruct (keq k (key x)). }
    rewrite G. now destruct (find _ (rev (values c))).
Qed.
(** Removing by position does it, one further than the index: position 0 is the primary. An index
    out of range panicked; the replacement leaves the choice alone. *)
Lemma filter_position {A} (l : list A) : forall s i,
  map snd (filter (fun ix => negb (fst ix =? s + i)) (combine (seq s (List.length l)) l)) = delete_at i l.
Proof.
  unfold delete_at.
  induction l as [|x l IH]; intros s i; [now destruct i|].
  cbn [List.length seq combine filter fst map]. destruct i as [|i].
  - rewrite Nat.add_0_r, Nat.eqb_refl. cbn. clear IH.
    assert (G : forall s', s < s' ->
      map snd (filter (fun ix => negb (fst ix =? s)) (combine (seq s' (List.length l)) l)) = l).
    { induction l as [|y l IH]; intros s' Hs; [reflexivity|]. cbn.
      destruct (Nat.eqb_spec s' s); [lia|]. cbn. f_equal. apply IH. lia. }
    apply G. lia.
  - destruct (Nat.eqb_spec s (s + S i)); [lia|]. cbn [negb map snd firstn skipn app].
    f_equal. replace (s + S i) with (S s + i) by lia. apply IH.
Qed.
Theorem C109_remove_position : forall (T : Type) (c : choice T) (i : nat),
  (forall c', ch_remove_alternative c i = Ret c' -> rp_remove_position (S i) c = c') /\
  (ch_remove_alternative c i = Panic -> rp_remove_position (S i) c = c).
Proof.
  intros T c i. unfold rp_remove_position, enumerate, ch_iter.
  assert (E : forall l : list T, ch_from_iter l = mkChoice l)
    by (intros [|x l]; reflexivity).
  rewrite E. pose proof (filter_position (values c) 0 (S i)) as F. cbn [Nat.add] in F. rewrite F.
  destruct (C21_remove T c i) as [H1 H2].
  destruct (Nat.lt_ge_cases (S i) (List.length (values c))) as [H|H].
  - destruct (H1 H) as [-> _]. split; [|discriminate]. intros c' Hc. now injection Hc.
  - destruct (H2 H) as [-> _]. split; [discriminate|]. intros _. apply choice_ext. cbn [values]. unfold delete_at.
    rewrite firstn_all2, skipn_all2 by lia. apply app_nil_r.
Qed.

(** ** Replacements that do something else, and exactly when they do not *)
(** Removing by value: the same exactly when the value is at no other place. *)
Theorem C109_remove_value_exact : forall (T : Type) (teq : T -> T -> bool) (c c' : choice T) (i : nat) (v : T),
  (forall x y, teq x y = true <-> x = y) ->
  ch_remove_alternative c i = Ret c' -> nth_error (ch_alternatives c) i = Some v ->
  (rp_remove_value teq v c = c' <-> forall j, nth_error (values c) j = Some v -> j = S i).
Proof.
  intros T teq c c' i v Ht Hr Hv. rewrite ch_alternatives_tl in Hv.
  destruct c as [[|p l]]; [discriminate|]. cbn [values tl] in *.
  destruct (nth_error_split l i Hv) as (u & w & -> & Hu).
  assert (Hi : S i < List.length (p :: u ++ v :: w)) by (cbn; rewrite app_length; cbn; lia).
  destruct (C21_remove T (mkChoice (p :: u ++ v :: w)) i) as [H1 _]. destruct (H1 Hi) as [H2 _].
  rewrite H2 in Hr. injection Hr as <-. clear H1 H2 Hi.
  assert (D : delete_at (S i) (p :: u ++ v :: w) = (p :: u) ++ w).
  { unfold delete_at. subst i. change (p :: u ++ v :: w) with ((p :: u) ++ v :: w).
    change (S (List.length u)) with (List.length (p :: u)).
    rewrite firstn_app, firstn_all, Nat.sub_diag, skipn_app, skipn_all2, app_nil_r by lia.
    replace (S (List.length (p :: u)) - List.length (p :: u)) with 1 by lia. reflexivity. }
  cbn [values]. rewrite D.
  assert (N : forall l0, (filter (fun x => negb (teq x v)) l0 = l0) <-> ~ In v l0).
  { intros l0. rewrite filter_all. split.
    - intros H Hin. apply H in Hin. rewrite (proj2 (Ht v v) eq_refl) in Hin. discriminate.
    - intros H x Hin. destruct (teq x v) eqn:E; [|reflexivity]. apply Ht in E. subst. contradiction. }
  assert (F : values (rp_remove_value teq v (mkChoice (p :: u ++ v :: w))) =
    filter (fun x => negb (teq x v)) (p :: u) ++ filter (fun x => negb (teq x v)) w).
  { unfold rp_remove_value. rewrite filter_values_eq. cbn [values].
    change (p :: u ++ v :: w) with ((p :: u) ++ v :: w). rewrite filter_app. f_equal.
    cbn [filter]. now rewrite (proj2 (Ht v v) eq_refl). }
  split.
  - intros H. apply (f_equal values) in H. rewrite F in H. cbn [values] in H.
    assert (L1 := filter_len (fun x => negb (teq x v)) (p :: u)).
    assert (L2 := filter_len (fun x => negb (teq x v)) w).
    assert (L := f_equal (@List.length T) H). rewrite !app_length in L.
    apply app_inj_len in H; [|lia]. destruct H as [Ha Hb]. apply N in Ha. apply N in Hb.
    intros j Hj. change (p :: u ++ v :: w) with ((p :: u) ++ v :: w) in Hj.
    destruct (Nat.lt_trichotomy j (S i)) as [Hlt|[->|Hgt]]; [|reflexivity|]; exfalso.
    + rewrite nth_error_app1 in Hj by (cbn; lia). apply Ha. eapply nth_error_In, Hj.
    + rewrite nth_error_app2 in Hj by (cbn; lia). destruct (j - List.length (p :: u)) as [|k] eqn:Ek; [cbn in Ek; lia|].
      apply Hb. eapply nth_error_In, Hj.
  - intros H. apply choice_ext. rewrite F. cbn [values]. f_equal; apply N; intros Hin;
      apply In_nth_error in Hin; destruct Hin as [j Hj].
    + assert (Hlen : j < List.length (p :: u)) by (apply nth_error_Some; congruence).
      assert (j = S i); [|cbn in Hlen; lia].
      apply H. change (p :: u ++ v :: w) with ((p :: u) ++ v :: w). now rewrite nth_error_app1.
    + assert (List.length (p :: u) + S j = S i); [|cbn in *; lia].
      apply H. change (p :: u ++ v :: w) with ((p :: u) ++ v :: w).
      rewrite nth_error_app2 by lia.
      replace (List.length (p :: u) + S j - List.length (p :: u)) with (S j) by lia. exact Hj.
Qed.
Theorem C109_remove_refuted :
  (exists (c c' : choice nat) (i v : nat), ch_remove_alternative c i = Ret c' /\
     nth_error (ch_alternatives c) i = Some v /\ rp_remove_value Nat.eqb v c <> c') /\
  (exists (c c' : choice nat) (i : nat), ch_remove_alternative c i = Ret c' /\ rp_remove_position i c <> c').
Proof.
  split.
  - exists (ch_new 1 [2; 3; 2]), (ch_new 1 [3; 2]), 0, 2. repeat split; try reflexivity. vm_compute. discriminate.
  - exists (ch_new 1 [2; 3; 4]), (ch_new 1 [2; 3]), 2. split; [reflexivity|]. vm_compute. discriminate.
Qed.
(** Exchanging the primary with an alternative is not moving that alternative to the front: the same
    exactly when every alternative before it is the primary again (always so for index 0). *)
Theorem C109_swap_exact : forall (T : Type) (c c' : choice T) (i : nat) (primary : T),
  ch_swap c i = Ret c' -> ch_first c = Some primary ->
  exists r, rp_promote c i = Some r /\ ch_first r = ch_first c' /\ Permutation (values r) (values c') /\
    (r = c' <-> forall y, In y (firstn i (ch_alternatives c)) -> y = primary).
Proof.
  intros T c c' i p Hs Hp. unfold rp_promote. rewrite Hp, ch_alternatives_tl.
  destruct c as [[|p0 l]]; [discriminate|]. injection Hp as ->. cbn [values tl].
  destruct (C21_swap T (mkChoice (p :: l)) i) as [_ H2]. cbn [values] in H2.
  destruct (nth_error l i) as [x|] eqn:Ex; cycle 1.
  { apply nth_error_None in Ex. destruct H2 as [E _]; [cbn; lia|]. congruence. }
  destruct (nth_error_split l i Ex) as (u & w & -> & Hu).
  assert (E : c' = mkChoice (x :: u ++ p :: w)).
  { unfold ch_swap in Hs. rewrite ch_alternatives_tl in Hs. cbn [values tl] in Hs.
    destruct (List.length (p :: u ++ x :: w) <=? 1); [discriminate|].
    destruct (List.length (u ++ x :: w) <=? i); [discriminate|].
    unfold vec_swap0 in Hs. rewrite Nat.add_1_r in Hs. cbn [nth_error] in Hs. rewrite Ex in Hs.
    injection Hs as <-. f_equal. change (list_set (p :: u ++ x :: w) 0 x) with (x :: u ++ x :: w).
    rewrite <- Hu. cbn [list_set]. f_equal. apply list_set_mid. }
  assert (D : firstn i (u ++ x :: w) ++ skipn (S i) (u ++ x :: w) = u ++ w /\ firstn i (u ++ x :: w) = u).
  { subst i. rewrite firstn_app, firstn_all, Nat.sub_diag, skipn_app, skipn_all2 by lia. cbn [firstn app].
    replace (S (List.length u) - List.length u) with 1 by lia. rewrite app_nil_r. split; reflexivity. }
  destruct D as [D1 D2]. rewrite D1, D2. subst c'.
  eexists. split; [reflexivity|]. split; [reflexivity|]. split.
  - cbn [values ch_new]. constructor. apply Permutation_middle.
  - rewrite <- (move_front p u w). unfold ch_new. split.
    + intros H. injection H as H. now symmetry.
    + intros H. now rewrite H.
Qed.
Theorem C109_swap_refuted : exists (c c' : choice nat) (i : nat),
  ch_swap c i = Ret c' /\ rp_promote c i <> Some c'.
Proof.
  exists (ch_new 1 [2; 3; 4]), (ch_new 3 [2; 1; 4]), 1. split; [reflexivity|]. vm_compute. discriminate.
Qed.
(** [filter] kept the primary: the same exactly when the primary, if there is one, passes. *)
Theorem C109_filter_exact : forall (T : Type) (p : T -> bool) (c : choice T),
  ch_filter p c = rp_filter p c <-> forall x, ch_first c = Some x -> p x = true.
Proof.
  intros T p [[|x l]]; unfold rp_filter.
  - split; [discriminate|reflexivity].
  - split.
    + intros H y Hy. injection Hy as <-. apply (f_equal values) in H. rewrite filter_values_eq in H.
      cbn in H. destruct (p x) eqn:E; [reflexivity|]. pose proof (filter_len p l) as L.
      apply (f_equal (@List.length T)) in H. cbn in H. lia.
    + intros H. apply choice_ext. rewrite filter_values_eq. cbn. now rewrite (H x eq_refl).
Qed.
Theorem C109_filter_refuted : exists (p : nat -> bool) (c : choice nat), ch_filter p c <> rp_filter p c.
Proof. exists Nat.even, (ch_new 1 [2; 3; 4; 5]). vm_compute. discriminate. Qed.
(** A conditional [fmap] does what [fmap_alternatives] did exactly when the condition tells the primary
    from the alternatives, wherever the function would make a difference. *)
Theorem C109_fmap_exact : forall (T : Type) (cond : T -> bool) (f : T -> T) (c : choice T),
  ch_fmap_alternatives f c = rp_fmap_alternatives cond f c <->
  (forall x, ch_first c = Some x -> cond x = true -> f x = x) /\
  (forall x, In x (ch_alternatives c) -> cond x = false -> f x = x).
Proof.
  intros T cond f c. rewrite ch_alternatives_tl. destruct c as [[|x l]].
  - split; [|reflexivity]. intros _. split; [discriminate|contradiction].
  - unfold rp_fmap_alternatives, ch_fmap_alternatives. cbn [values tl].
    assert (V : values (ch_fmap (fun x => if cond x then f x else x) (mkChoice (x :: l))) =
       map (fun x => if cond x then f x else x) (x :: l)).
    { reflexivity. }
    split.
    + intros H. apply (f_equal values) in H. rewrite V in H. cbn in H. injection H as Hx Hl. split.
      * intros y Hy Hc. injection Hy as <-. rewrite Hc in Hx. congruence.
      * intros y Hy Hc. pose proof (ext_in_map Hl y Hy) as E. cbn in E. now rewrite Hc in E.
    + intros [Hx Hl]. apply choice_ext. rewrite V. cbn. f_equal.
      * destruct (cond x) eqn:Ec; [|reflexivity]. symmetry. now apply Hx.
      * apply map_ext_in. intros y Hy. destruct (cond y) eqn:Ec; [reflexivity|]. now apply Hl.
Qed.
Theorem C109_fmap_refuted : exists (cond : nat -> bool) (f : nat -> nat) (c : choice nat),
  ch_fmap_alternatives f c <> rp_fmap_alternatives cond f c.
Proof. exists (fun x => 1 <? x), (fun x => 2 * x), (ch_new 2 [1; 4]). vm_compute. discriminate. Qed.
(** Flattening and then sorting everything: the same panics; otherwise the same elements, in the same
    order exactly when the first element is a smallest one. *)
Theorem C109_sorted_exact : forall (I : Type) (leb : I -> I -> bool) (c : choice (list I)),
  total_preorder leb -> (forall x y, leb x y = true -> leb y x = true -> x = y) ->
  (ch_flatten_sorted leb c = Panic <-> rp_flatten_sorted leb c = Panic) /\
  (forall r r', ch_flatten_sorted leb c = Ret r -> rp_flatten_sorted leb c = Ret r' ->
     Permutation (values r) (values r') /\
     (r = r' <-> forall x y, ch_first r = Some x -> In y (values r) -> leb x y = true)).
Proof.
  intros I leb c Hp Ha. unfold ch_flatten_sorted, rp_flatten_sorted, ch_flatten.
  assert (E : forall l : list I, ch_from_iter l = mkChoice l) by (intros [|x l]; reflexivity).
  destruct c as [[|[|x a] l]]; cbn [values obind]; rewrite ?E.
  - split; [split; discriminate|]. intros r r' H1 H2. injection H1 as <-. injection H2 as <-.
    split; [constructor|]. split; [|reflexivity]. intros _ x y Hx. discriminate.
  - split; [tauto|]. intros r r' H; discriminate.
  - split; [split; discriminate|]. intros r r' H1 H2. injection H1 as <-. injection H2 as <-.
    unfold ch_iter. cbn [values ch_new skipn].
    set (b := flat_map (fun v => v) l).
    assert (P : Permutation (x :: stable_sort leb (b ++ a)) (stable_sort leb (x :: a ++ b))).
    { etransitivity; [|symmetry; apply stable_sort_perm]. constructor.
      etransitivity; [apply stable_sort_perm|]. apply Permutation_app_comm. }
    split; [exact P|]. unfold ch_first. cbn [values hd_error]. split.
    + intros H y z Hy Hz. injection Hy as <-. apply (f_equal values) in H. cbn [values ch_new] in H.
      assert (S : StronglySorted (fun u v => leb u v = true) (x :: stable_sort leb (b ++ a)))
        by (rewrite H; exact (stable_sort_sorted (x :: a ++ b) Hp)).
      inversion S as [|? ? _ Hf]; subst. destruct Hz as [<-|Hz].
      * destruct (proj1 Hp x x); assumption.
      * rewrite Forall_forall in Hf. auto.
    + intros H. unfold ch_new. f_equal. apply (sorted_unique leb Ha).
      * constructor; [now apply stable_sort_sorted|]. apply Forall_forall. intros y Hy. apply (H x y eq_refl).
        now right.
      * exact (stable_sort_sorted (x :: a ++ b) Hp).
      * exact P.
Qed.
Theorem C109_sorted_refuted : exists c r r',
  ch_flatten_sorted Nat.leb c = Ret r /\ rp_flatten_sorted Nat.leb c = Ret r' /\ ch_first r <> ch_first r'.
Proof.
  exists (ch_new [3; 1] [[4; 2]; [5]]), (ch_new 3 [1; 2; 4; 5]), (ch_new 1 [2; 3; 4; 5]).
  repeat split; try reflexivity. vm_compute. discriminate.
Qed.
(** [flat_map] yields what [bind_lazy] yielded; [bind] loses everything when the primary's choice is
    empty. *)
Theorem C109_bind_lazy_exact : forall (T U : Type) (c : choice T) (f : T -> choice U),
  ch_bind_lazy c f = rp_bind_lazy c f /\
  (ch_bind_lazy c f = rp_bind_eager c f <->
   ((forall x, In x (values c) -> values (f x) = []) \/ forall x, ch_first c = Some x -> values (f x) <> [])).
Proof.
  intros T U c f. split; [reflexivity|]. unfold rp_bind_eager, ch_iter.
  assert (G : ch_bind_lazy c f = [] <-> forall x, In x (values c) -> values (f x) = []).
  { unfold ch_bind_lazy, ch_iter. induction (values c) as [|x l IH]; cbn; [split; [contradiction|reflexivity]|].
    split.
    - intros H. apply app_eq_nil in H. destruct H as [Hx Hl]. intros y [<-|Hy]; [exact Hx|]. now apply IH.
    - intros H. rewrite (H x) by auto. cbn. apply IH. auto. }
  rewrite <- G. rewrite <- C18_bind_concat_iff. split; congruence.
Qed.
Theorem C109_bind_lazy_refuted : exists (c : choice nat) (f : nat -> choice nat),
  ch_bind_lazy c f <> rp_bind_eager c f.
Proof. exists (ch_new 1 [2]), (fun x => if x =? 1 then ch_empty else ch_new x []). vm_compute. discriminate. Qed.
(** The map of the note ([iter().map().collect()]) keeps the last value of a key, not the first. *)
Theorem C109_map_refuted : exists (key : nat -> nat) (c : choice nat) (k : nat),
  map_get Nat.eqb k (note_to_map Nat.eqb key c) <> map_get Nat.eqb k (ch_to_map_with_key Nat.eqb key c).
Proof. exists (fun x => x mod 2), (ch_new 1 [2; 3; 2; 4]), 0. vm_compute. discriminate. Qed.

(** ** The [Identity] methods *)
(** [value] and [into_value]: [unwrap] gives the same value and the same panic, for every type. *)
Theorem C109_value : forall (T L E : Type) (i : id_ T) (m : maybe T) (e : either L T) (o : option T) (r : result T E)
    (c : choice T) (f : first T) (l : last T) (w1 : WrapModel.sum T) (w2 : product T) (w3 : min T) (w4 : max T),
  (id_identity_value i = id_unwrap i /\ id_identity_value i = id_extract i /\ id_into_value i = id_unwrap i) /\
  (mb_value m = mb_unwrap m /\ mb_into_value m = mb_unwrap m) /\
  (op_value o = expect o /\ re_value r = expect (match r with Ok x => Some x | Err _ => None end)) /\
  (ch_value c = expect (ch_first c) /\ ch_into_value c = expect (ch_first c)) /\
  (first_value f = first_unwrap f /\ first_into_value f = first_unwrap f) /\
  (last_value l = last_unwrap l /\ last_into_value l = last_unwrap l) /\
  (sum_value w1 = sum_unwrap w1 /\ product_value w2 = product_unwrap w2 /\
   min_value w3 = min_unwrap w3 /\ max_value w4 = max_unwrap w4).
Proof.
  intros. repeat split; try reflexivity.
  - now destruct r.
  - destruct c as [[|x xs]]; reflexivity.
Qed.
(** [try_value] of [Option] and [Result] is [as_ref] and [as_ref().ok()]; that of the other types with
    an empty case is not the borrowing accessor: it agrees with it exactly when there is a value, and
    panics otherwise. *)
Theorem C109_try_value_exact : forall (T L E : Type) (o : option T) (r : result T E) (m : maybe T) (e : either L T)
    (c : choice T) (v : validated E T),
  op_try_value o = Ret o /\
  (forall x, r = Ok x -> re_try_value r = Ret (Some x)) /\ (forall x, r = Err x -> re_try_value r = Ret None) /\
  (mb_try_value m = Ret (mb_as_option m) <-> mb_as_option m <> None) /\
  (mb_as_option m = None -> mb_try_value m = Panic) /\
  (ei_try_value e = Ret (ei_right_option e) <-> ei_right_option e <> None) /\
  (ei_right_option e = None -> ei_try_value e = Panic) /\
  (ch_try_value c = Ret (ch_first c) <-> ch_first c <> None) /\
  (ch_first c = None -> ch_try_value c = Panic) /\
  (forall x, v = Valid x -> va_try_value v = Ret (Some x)) /\ (forall x, v = Invalid x -> va_try_value v = Panic).
Proof.
  intros. split; [reflexivity|]. split; [now intros x ->|]. split; [now intros x ->|].
  split; [destruct m; cbn; split; congruence|]. split; [destruct m; cbn; congruence|].
  split; [destruct e; cbn; split; congruence|]. split; [destruct e; cbn; congruence|].
  split; [destruct c as [[|x l]]; cbn; split; congruence|]. split; [destruct c as [[|x l]]; cbn; congruence|].
  split; now intros x ->.
Qed.
Theorem C109_try_value_refuted : exists m : maybe nat, mb_try_value m <> Ret (mb_as_option m).
Proof. exists Nothing. discriminate. Qed.

(** ** The error helpers *)
Theorem C109_errors : forall (T U E F M : Type) (r : result T E) (f : T -> U) (g : E -> F) (message : M) (context : string),
  re_to_validated r = va_from_result r /\
  re_to_either r = match r with Ok x => Right x | Err e => Left e end /\
  cu_bimap_result r f g = res_bimap r f g /\
  ce_core (ce_new message) = ae_message (@ae_new M unit message) /\
  ce_context (ce_new message) = [] /\ ae_context (@ae_new M unit message) = None /\
  ce_core (ce_with_context (ce_new message) context) = ae_message (ae_with_context message context) /\
  ce_context (ce_with_context (ce_new message) context) =
    match ae_context (ae_with_context message context) with Some c => [c] | None => [] end.
Proof. intros. repeat split; try reflexivity; now destruct r. Qed.

(** ** Cases *)
Example C109_case_remove :
  ch_remove_alternative (ch_new 1 [2; 3; 4]) 1 = Ret (ch_new 1 [2; 4]) /\
  rp_remove_position 2 (ch_new 1 [2; 3; 4]) = ch_new 1 [2; 4] /\
  rp_remove_value Nat.eqb 3 (ch_new 1 [2; 3; 4]) = ch_new 1 [2; 4] /\
  (forall j, nth_error [1; 2; 3; 4] j = Some 3 -> j = 2).
Proof.
  repeat split; try reflexivity. intros j H.
  do 4 (destruct j as [|j]; [now inversion H|]). now destruct j.
Qed.
Example C109_case_swap :
  ch_swap (ch_new 1 [2; 3; 4; 5]) 0 = Ret (ch_new 2 [1; 3; 4; 5]) /\
  rp_promote (ch_new 1 [2; 3; 4; 5]) 0 = Some (ch_new 2 [1; 3; 4; 5]) /\
  ch_swap (ch_new 1 [1; 3; 4]) 1 = Ret (ch_new 3 [1; 1; 4]) /\ rp_promote (ch_new 1 [1; 3; 4]) 1 = Some (ch_new 3 [1; 1; 4]).
Proof. repeat split. Qed.
Example C109_case_dedup :
  rp_dedup Nat.eqb (ch_new 1 [2; 3; 2; 4]) = ch_new 1 [2; 3; 4] /\
  rp_dedup_by_key Nat.eqb (fun x => x mod 2) (ch_new 1 [2; 3; 2; 4]) = ch_new 1 [2] /\
  rp_to_map Nat.eqb (fun x => x mod 2) (ch_new 1 [2; 3; 2; 4]) = [(1, 1); (0, 2)] /\
  note_to_map Nat.eqb (fun x => x mod 2) (ch_new 1 [2; 3; 2; 4]) = [(1, 3); (0, 4)] /\ equivalence Nat.eqb.
Proof.
  split; [reflexivity|]. split; [reflexivity|]. split; [reflexivity|]. split; [reflexivity|].
  repeat split; intros; rewrite ?Nat.eqb_eq in *; congruence.
Qed.
Example C109_case_sorted :
  ch_flatten_sorted Nat.leb (ch_new [1; 3] [[4; 2]; [5]]) = Ret (ch_new 1 [2; 3; 4; 5]) /\
  rp_flatten_sorted Nat.leb (ch_new [1; 3] [[4; 2]; [5]]) = Ret (ch_new 1 [2; 3; 4; 5]) /\
  total_preorder Nat.leb.
Proof.
  split; [reflexivity|]. split; [reflexivity|]. split.
  - intros x y. rewrite !Nat.leb_le. lia.
  - intros x y z. rewrite !Nat.leb_le. lia.
Qed.

Print Assumptions C109_reading.
Print Assumptions C109_note_has_alternatives_refuted.
Print Assumptions C109_dedup_fold_add.
Print Assumptions C109_map.
Print Assumptions C109_remove_position.
Print Assumptions C109_remove_value_exact.
Print Assumptions C109_remove_refuted.
Print Assumptions C109_swap_exact.
Print Assumptions C109_swap_refuted.
Print Assumptions C109_filter_exact.
Print Assumptions C109_filter_refuted.
Print Assumptions C109_fmap_exact.
Print Assumptions C109_fmap_refuted.
Print Assumptions C109_sorted_exact.
Print Assumptions C109_sorted_refuted.
Print Assumptions C109_bind_lazy_exact.
Print Assumptions C109_bind_lazy_refuted.
Print Assumptions C109_map_refuted.
Print Assumptions C109_value.
Print Assumptions C109_try_value_exact.
Print Assumptions C109_try_value_refuted.
Print Assumptions C109_errors.

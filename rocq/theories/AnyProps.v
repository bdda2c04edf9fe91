(** C13 for every vector a program can make. *)
From Coq Require Import List Arith Lia Bool.
From Verif Require Import Base ListFacts PvecModel PvecSpec PvecFacts PvecShape PvecEnds PvecHist
  PvecSafe PvecComb AnySpec.
Import ListNotations.
Open Scope outcome_scope.
Set Implicit Arguments.
Unset Strict Implicit.

Section Any.
Context {T : Type}.
Notation node := (node T).
Notation tree := (tree T).
Notation pvec := (pvec T).

(** what holds of all of them: exact size tables *)
Definition fine (v : pvec) : Prop :=
  match inner v with
  | Inline es => pv_len v = length es
  | Tree t => node_ok (t_root t)
  end.

Lemma pv_ok_fine (v : pvec) : pv_ok v -> fine v.
Proof. intros H. apply pv_ok_safe in H. unfold safe_vec, fine in *. destruct (inner v); auto. apply H. Qed.

Lemma from_iter_fine (l : list T) : fine (pv_from_iter l).
Proof. apply pv_ok_fine, pv_from_iter_ok. Qed.
Lemma from_elements_fine (l : list T) : node_ok (t_root (from_elements l)).
Proof. apply from_elements_ok. Qed.

Lemma push_tail_fine (t : tree) : node_ok (t_root t) -> node_ok (t_root (push_tail_to_tree t)).
Proof.
  intros H. unfold push_tail_to_tree. destruct (t_tail t); auto. cbn. apply push_leaf_ok; auto. constructor.
Qed.
Lemma push_head_fine (t : tree) : node_ok (t_root t) -> node_ok (t_root (push_head_to_tree t)).
Proof.
  intros H. unfold push_head_to_tree. destruct (t_head t); auto. cbn.
  apply push_front_leaf_ok; auto. constructor.
Qed.
Lemma push_back_fine (v : pvec) x : fine v -> fine (pv_push_back v x).
Proof.
  unfold fine, pv_push_back. destruct (inner v) as [es|t]; intros H.
  - destruct (length es <? ADAPTIVE_INLINE_SIZE); cbn.
    + rewrite app_length. cbn. lia.
    + unfold tree_push_back. destruct (_ <? _); cbn; [|apply push_tail_fine]; apply from_elements_fine.
  - cbn. unfold tree_push_back. destruct (_ <? _); cbn; auto. now apply push_tail_fine.
Qed.
Lemma push_front_fine (v : pvec) x : fine v -> fine (pv_push_front v x).
Proof.
  unfold fine, pv_push_front. destruct (inner v) as [es|t]; intros H.
  - destruct (length es <? ADAPTIVE_INLINE_SIZE); cbn; [lia|].
    unfold tree_push_front. destruct (_ <? _); cbn; [|apply push_head_fine]; apply from_elements_fine.
  - cbn. unfold tree_push_front. destruct (_ <? _); cbn; auto. now apply push_head_fine.
Qed.
Lemma concat_same_fine (a b : tree) :
  node_ok (t_root a) -> node_ok (t_root b) -> node_ok (t_root (concat_same_height a b)).
Proof.
  intros Ha Hb. cbn. apply concat_nodes_ok.
  - destruct (t_tail a); auto. now apply push_tail_fine.
  - destruct (t_head b); auto. now apply push_head_fine.
Qed.
Lemma tree_concat_fine (a b : tree) :
  node_ok (t_root a) -> node_ok (t_root b) -> node_ok (t_root (tree_concat a b)).
Proof.
  intros Ha Hb. unfold tree_concat, concat_different_height.
  destruct (t_len a =? 0); auto. destruct (t_len b =? 0); auto.
  destruct (_ =? _); [now apply concat_same_fine|].
  destruct (_ <? _); apply concat_same_fine; auto; cbn [t_root elevate_tree]; now apply elevate_iter_ok.
Qed.
Lemma concat_fine (a b : pvec) : fine a -> fine b -> fine (pv_concat a b).
Proof.
  unfold fine, pv_concat. destruct (inner a), (inner b); intros Ha Hb; cbn [inner].
  - apply from_iter_fine.
  - apply tree_concat_fine; auto. apply from_elements_fine.
  - apply tree_concat_fine; auto. apply from_elements_fine.
  - now apply tree_concat_fine.
Qed.

Lemma usub_ret a b n : usub a b = Ret n -> b <= a /\ n = a - b.
Proof. unfold usub. destruct (Nat.leb_spec b a); intros E; [|discriminate]. injection E as <-. auto. Qed.

Lemma split_fine (v l r : pvec) i : fine v -> pv_split_at v i = Ret (l, r) -> fine l /\ fine r.
Proof.
  intros H E. unfold pv_split_at in E.
  destruct (pv_len v <=? i) eqn:E0. { injection E as <- <-. split; [auto|reflexivity]. }
  destruct (i =? 0). { injection E as <- <-. split; [reflexivity|auto]. }
  apply Nat.leb_gt in E0. unfold fine in *.
  destruct (inner v) as [es|t].
  - injection E as <- <-. cbn. rewrite firstn_length, skipn_length. lia.
  - unfold tree_split_at in E. destruct (i =? 0).
    { injection E as <- <-. cbn. split; [constructor|auto]. }
    destruct (t_len t <=? i). { injection E as <- <-. cbn. split; [auto|constructor]. }
    destruct (i <=? length (t_head t)). { injection E as <- <-. cbn. split; [constructor|auto]. }
    destruct (usub (t_len t) (length (t_head t))) as [s1|]; [|discriminate]. cbn [obind] in E.
    destruct (usub s1 (length (t_tail t))) as [ts|]; [|discriminate]. cbn [obind] in E.
    destruct (_ <=? i).
    + destruct (usub i (length (t_head t))) as [i1|]; [|discriminate]. cbn [obind] in E.
      destruct (usub i1 ts) as [ti|]; [|discriminate]. cbn [obind] in E.
      injection E as <- <-. cbn. split; [auto|constructor].
    + destruct (usub i (length (t_head t))) as [i1|]; [|discriminate]. cbn [obind] in E.
      unfold split_tree_at in E.
      pose proof (split_along_path_node_ok H (find_path_to_index (t_height t) (t_root t) i1) i1 (t_height t))
        as [A B].
      destruct (split_along_path _ _ _ _) as [lr rr]. cbn in A, B, E. injection E as <- <-. now split.
Qed.
Lemma skip_fine (v s : pvec) n : fine v -> pv_skip v n = Ret s -> fine s.
Proof.
  intros H E. unfold pv_skip in E. destruct (_ <=? _); [injection E as <-; reflexivity|].
  destruct (pv_split_at v n) as [[l r]|] eqn:E1; [|discriminate]. injection E as <-.
  now apply (split_fine H E1).
Qed.

Lemma pop_back_fine (v v' : pvec) x : fine v -> pv_pop_back v = Ret (Some (v', x)) -> fine v'.
Proof.
  intros H E. unfold pv_pop_back in E. destruct (pv_is_empty v); [discriminate|].
  unfold fine in *. destruct (inner v) as [es|t].
  - destruct (pop_last es) as [[es' y]|] eqn:Ep; [|discriminate]. injection E as <- _. cbn.
    unfold pop_last in Ep. destruct (rev es) as [|z r] eqn:Er; [discriminate|].
    injection Ep as <- _. apply (f_equal (@length _)) in Er. rewrite rev_length in Er.
    cbn in Er. rewrite rev_length. lia.
  - unfold tree_pop_back in E. destruct (t_len t =? 0); [discriminate|].
    destruct (pop_last (t_tail t)) as [[nt y]|]. { injection E as <- _. exact H. }
    unfold pop_from_tree in E. destruct (t_len t =? 0); [discriminate|].
    destruct (usub (t_len t) (length (t_tail t))) as [ts|]; [|discriminate]. cbn [obind] in E.
    destruct (ts =? 0); [discriminate|].
    destruct (node_get (t_root t) (ts - 1)) as [last|]; [|discriminate].
    destruct (ts =? 1). { injection E as <- _. constructor. }
    destruct (node_pop_back_safe H) as [P|(n' & y & P & Pn & _)]; rewrite P in E; cbn in E;
      injection E as <- _; auto.
Qed.
Lemma pop_front_fine (v v' : pvec) x : fine v -> pv_pop_front v = Ret (Some (v', x)) -> fine v'.
Proof.
  intros H E. unfold pv_pop_front in E. destruct (pv_is_empty v); [discriminate|].
  unfold fine in *. destruct (inner v) as [es|t].
  - destruct es as [|y es]; [discriminate|]. injection E as <- _. cbn in *. lia.
  - unfold tree_pop_front in E. destruct (t_len t =? 0); [discriminate|].
    destruct (t_head t) as [|y hs] eqn:Eh. 2: { injection E as <- _. exact H. }
    unfold pop_front_from_tree in E. rewrite Eh in E.
    destruct (usub (t_len t) (length (@nil T))) as [s1|]; [|discriminate]. cbn [obind] in E.
    destruct (usub s1 (length (t_tail t))) as [ts|]; [|discriminate]. cbn [obind] in E.
    assert (Ht : forall t' y, pop_front_from_tail t = Some (t', y) -> node_ok (t_root t')).
    { intros t' y Ep. unfold pop_front_from_tail in Ep. destruct (pop_last _) as [[nh z]|]; [|discriminate].
      injection Ep as <- _. constructor. }
    destruct (0 <? ts).
    + destruct (node_pop_front_safe H) as [P|(n' & y & P & Pn & _)]; rewrite P in E; cbn in E.
      * destruct (pop_front_from_tail t) as [[t' z]|] eqn:Ep; [|discriminate]. injection E as <- _.
        cbn. eapply Ht; eauto.
      * injection E as <- _. exact Pn.
    + cbn in E. destruct (pop_front_from_tail t) as [[t' z]|] eqn:Ep; [|discriminate]. injection E as <- _.
      cbn. eapply Ht; eauto.
Qed.

Lemma update_fine (v v' : pvec) i x : fine v -> pv_update v i x = Ret v' -> fine v'.
Proof.
  intros H E. unfold pv_update in E. destruct (_ <=? _); [now injection E as <-|].
  unfold fine in *. destruct (inner v) as [es|t].
  - destruct (_ <? _); [|discriminate]. injection E as <-. cbn. now rewrite list_set_length.
  - destruct (tree_update t i x) as [t'|] eqn:Et; [|discriminate]. injection E as <-. cbn.
    unfold tree_update in Et. destruct (_ <=? _); [now injection Et as <-|].
    destruct (_ <? _); [now injection Et as <-|].
    destruct (usub i _) as [ad|]; [|discriminate]. cbn [obind] in Et.
    destruct (usub (t_len t) _) as [s1|]; [|discriminate]. cbn [obind] in Et.
    destruct (usub s1 _) as [ts|]; [|discriminate]. cbn [obind] in Et.
    destruct (ad <? ts).
    + injection Et as <-. cbn. now apply node_update_ok.
    + destruct (usub ad ts) as [ti|]; [|discriminate]. cbn [obind] in Et. now injection Et as <-.
Qed.

Lemma extend_fine xs (v : pvec) : fine v -> fine (pv_extend v xs).
Proof.
  unfold pv_extend. revert v. induction xs as [|x xs IH]; intros v H; cbn; auto.
  apply IH. now apply push_back_fine.
Qed.

Lemma step_fine o (v v' : pvec) r : fine v -> vec_step o v = Ret (v', r) -> fine v'.
Proof.
  intros H E. destruct o; cbn [vec_step] in E.
  - injection E as <- _. now apply push_back_fine.
  - injection E as <- _. now apply push_front_fine.
  - destruct (pv_pop_back v) as [[[w y]|]|] eqn:P; [| |discriminate]; injection E as <- _; auto.
    eapply pop_back_fine; eauto.
  - destruct (pv_pop_front v) as [[[w y]|]|] eqn:P; [| |discriminate]; injection E as <- _; auto.
    eapply pop_front_fine; eauto.
  - destruct (pv_update v i x) as [w|] eqn:P; [|discriminate]. injection E as <- _.
    eapply update_fine; eauto.
  - injection E as <- _. now apply extend_fine.
  - unfold pv_map in E. destruct (pv_iter v); [|discriminate]. injection E as <- _. apply from_iter_fine.
  - unfold pv_filter in E. destruct (pv_iter v); [|discriminate]. injection E as <- _. apply from_iter_fine.
  - destruct (pv_take v n) as [w|] eqn:P; [|discriminate]. injection E as <- _.
    unfold pv_take in P. destruct (_ <=? _); [now injection P as <-|].
    destruct (pv_split_at v n) as [[a b]|] eqn:S; [|discriminate]. injection P as <-.
    now apply (split_fine H S).
  - destruct (pv_skip v n) as [w|] eqn:P; [|discriminate]. injection E as <- _. eapply skip_fine; eauto.
  - destruct (pv_split_at v i) as [[a b]|] eqn:S; [|discriminate]. injection E as <- _.
    now apply (split_fine H S).
  - destruct (pv_split_at v i) as [[a b]|] eqn:S; [|discriminate]. injection E as <- _.
    now apply (split_fine H S).
  - destruct (pv_insert v i x) as [w|] eqn:P; [|discriminate]. injection E as <- _.
    unfold pv_insert in P. destruct (_ <=? _); [injection P as <-; now apply push_back_fine|].
    destruct (_ =? 0); [injection P as <-; now apply push_front_fine|].
    destruct (pv_split_at v i) as [[a b]|] eqn:S; [|discriminate]. injection P as <-.
    destruct (split_fine H S). apply concat_fine; auto. now apply push_back_fine.
  - destruct (pv_remove v i) as [[w|]|] eqn:P; [| |discriminate]; injection E as <- _; auto.
    unfold pv_remove in P. destruct (_ <=? _); [discriminate|].
    destruct (_ =? 1); [injection P as <-; reflexivity|].
    destruct (pv_split_at v i) as [[a b]|] eqn:S; [|discriminate]. cbn [obind fst snd] in P.
    destruct (split_fine H S) as [Fa Fb].
    destruct (pv_skip b 1) as [b'|] eqn:K; [|discriminate]. injection P as <-.
    apply concat_fine; auto. eapply skip_fine; eauto.
  - injection E as <- _. apply concat_fine; auto. apply from_iter_fine.
  - injection E as <- _. apply concat_fine; auto. apply from_iter_fine.
Qed.

Lemma made_fine (v : pvec) : made v -> fine v.
Proof.
  induction 1 as [v l H|o v v' r _ IH E|a b _ IHa _ IHb].
  - apply pv_ok_fine, assembled_ok. eapply starts_assembled; eauto.
  - eapply step_fine; eauto.
  - now apply concat_fine.
Qed.

Lemma set_reads (l : list T) i j x :
  nth_error (list_set l i x) j =
  if j =? i then match nth_error l i with Some _ => Some x | None => None end else nth_error l j.
Proof.
  destruct (Nat.eqb_spec j i) as [->|H].
  - destruct (nth_error l i) eqn:E.
    + apply nth_error_list_set_eq. apply nth_error_Some. congruence.
    + apply nth_error_None. rewrite list_set_length. now apply nth_error_None.
  - apply nth_error_list_set_ne. auto.
Qed.

Lemma fine_update (v : pvec) i x : fine v ->
  match pv_get v i with
  | Panic => pv_update v i x = Panic
  | Ret o => exists v', pv_update v i x = Ret v' /\ pv_len v' = pv_len v /\
      (forall j, j <> i -> pv_get v' j = pv_get v j) /\
      pv_get v' i = Ret (match o with Some _ => Some x | None => None end)
  end.
Proof.
  intros H. unfold fine in H. unfold pv_get at 1. unfold pv_update.
  destruct (Nat.leb_spec (pv_len v) i) as [L|L].
  { exists v. split; auto. split; auto. split; auto. unfold pv_get.
    now rewrite (proj2 (Nat.leb_le _ _) L). }
  destruct (inner v) as [es|t] eqn:Ev.
  { rewrite (proj2 (Nat.ltb_lt i (length es))) by lia.
    eexists. split; [reflexivity|]. split; [reflexivity|]. unfold pv_get. cbn [pv_len inner]. rewrite Ev. split.
    - intros j Hj. rewrite set_reads. now rewrite (proj2 (Nat.eqb_neq _ _) Hj).
    - rewrite (proj2 (Nat.leb_gt _ _) L), set_reads, Nat.eqb_refl. reflexivity. }
  unfold tree_get at 1. unfold tree_update.
  destruct (t_len t <=? i) eqn:L2.
  { (* recorded tree shorter than the vector *)
    cbn [obind]. eexists. split; [reflexivity|]. split; [reflexivity|]. unfold pv_get. cbn [pv_len inner].
    rewrite Ev. split; [auto|]. rewrite (proj2 (Nat.leb_gt _ _) L). unfold tree_get. now rewrite L2. }
  destruct (i <? length (t_head t)) eqn:L3.
  { cbn [obind]. eexists. split; [reflexivity|]. split; [reflexivity|]. unfold pv_get. cbn [pv_len inner].
    rewrite Ev. unfold tree_get. cbn [t_len t_head t_tail t_root t_height]. rewrite list_set_length. split.
    - intros j Hj. rewrite set_reads, (proj2 (Nat.eqb_neq _ _) Hj). reflexivity.
    - rewrite (proj2 (Nat.leb_gt _ _) L), L2, L3, set_reads, Nat.eqb_refl. reflexivity. }
  apply Nat.ltb_ge in L3. rewrite (usub_ok L3). cbn [obind].
  destruct (usub (t_len t) (length (t_head t))) as [s1|] eqn:U1; cbn [obind]; [|reflexivity].
  destruct (usub s1 (length (t_tail t))) as [ts|] eqn:U2; cbn [obind]; [|reflexivity].
  destruct (Nat.ltb_spec (i - length (t_head t)) ts) as [L4|L4].
  - cbn [obind]. destruct (node_update_ok (i - length (t_head t)) x H) as [N1 N2].
    eexists. split; [reflexivity|]. split; [reflexivity|]. unfold pv_get. cbn [pv_len inner].
    rewrite Ev. unfold tree_get. cbn [t_len t_head t_tail t_root t_height]. split.
    + intros j Hj. destruct (pv_len v <=? j); auto. destruct (t_len t <=? j); auto.
      destruct (Nat.ltb_spec j (length (t_head t))) as [Lj|Lj]; auto.
      rewrite (usub_ok Lj). cbn [obind]. rewrite U1. cbn [obind]. rewrite U2. cbn [obind].
      destruct (j - length (t_head t) <? ts); auto.
      rewrite !get_from_tree_ok by auto. rewrite N2, set_reads.
      rewrite (proj2 (Nat.eqb_neq _ _)) by lia. reflexivity.
    + rewrite (proj2 (Nat.leb_gt _ _) L), L2, (proj2 (Nat.ltb_ge _ _) L3), (usub_ok L3). cbn [obind].
      rewrite U1. cbn [obind]. rewrite U2. cbn [obind]. rewrite (proj2 (Nat.ltb_lt _ _) L4).
      rewrite !get_from_tree_ok by auto. rewrite N2, set_reads, Nat.eqb_refl. reflexivity.
  - rewrite (usub_ok L4). cbn [obind].
    eexists. split; [reflexivity|]. split; [reflexivity|]. unfold pv_get. cbn [pv_len inner].
    rewrite Ev. unfold tree_get. cbn [t_len t_head t_tail t_root t_height]. rewrite list_set_length. split.
    + intros j Hj. destruct (pv_len v <=? j); auto. destruct (t_len t <=? j); auto.
      destruct (Nat.ltb_spec j (length (t_head t))) as [Lj|Lj]; auto.
      rewrite (usub_ok Lj). cbn [obind]. rewrite U1. cbn [obind]. rewrite U2. cbn [obind].
      destruct (Nat.ltb_spec (j - length (t_head t)) ts) as [Lt|Lt]; auto.
      rewrite (usub_ok Lt). cbn [obind]. rewrite set_reads.
      rewrite (proj2 (Nat.eqb_neq _ _)) by lia. reflexivity.
    + rewrite (proj2 (Nat.leb_gt _ _) L), L2, (proj2 (Nat.ltb_ge _ _) L3), (usub_ok L3). cbn [obind].
      rewrite U1. cbn [obind]. rewrite U2. cbn [obind]. rewrite (proj2 (Nat.ltb_ge _ _) L4), (usub_ok L4).
      cbn [obind]. rewrite set_reads, Nat.eqb_refl. reflexivity.
Qed.
End Any.

(** [update] changes what [get] reads at that index and nothing else, on every
    vector, however it was made; it panics exactly when reading that index does. *)
Theorem C13_update_any : forall T (v : pvec T) i x, made v ->
  match pv_get v i with
  | Panic => pv_update v i x = Panic
  | Ret o => exists v', pv_update v i x = Ret v' /\ pv_len v' = pv_len v /\
      (forall j, j <> i -> pv_get v' j = pv_get v j) /\
      pv_get v' i = Ret (match o with Some _ => Some x | None => None end)
  end.
Proof. intros T v i x H. now apply fine_update, made_fine. Qed.

Lemma skipn_step {T} (l : list T) : forall p x, nth_error l p = Some x -> skipn p l = x :: skipn (S p) l.
Proof.
  induction l as [|y l IH]; intros [|p] x H; try discriminate H.
  - cbn in H. now injection H as ->.
  - exact (IH p x H).
Qed.

Lemma reads_represent {T} (v : pvec T) l :
  pv_len v = length l -> (forall i, pv_get v i = Ret (nth_error l i)) -> represents v l.
Proof.
  intros Hl Hg. split; auto. split; auto. unfold pv_to_vec, pv_iter. rewrite Hl.
  assert (G : forall fuel pos, length l < fuel + pos -> iter_collect fuel v pos = Ret (skipn pos l)).
  { induction fuel as [|fuel IH]; intros pos Hf; cbn [iter_collect].
    - now rewrite skipn_all2 by lia.
    - unfold iter_next. rewrite Hl. destruct (Nat.ltb_spec pos (length l)) as [Lp|Lp].
      + rewrite Hg. cbn [obind fst snd].
        destruct (nth_error l pos) as [x|] eqn:En; [|apply nth_error_None in En; lia].
        rewrite IH by lia. cbn [obind]. now rewrite (skipn_step En).
      + cbn [obind fst]. now rewrite skipn_all2 by lia. }
  apply G. lia.
Qed.

(** A vector that reads as a list is, however it was made, updated like the list. *)
Theorem C13_update_any_list : forall T (v : pvec T) l i x, made v -> represents v l ->
  exists v', pv_update v i x = Ret v' /\
    represents v' (if i <? length l then firstn i l ++ x :: skipn (S i) l else l).
Proof.
  intros T v l i x Hm (Hl & Hg & _). pose proof (C13_update_any i x Hm) as U. rewrite Hg in U.
  destruct U as (v' & E & El & Ej & Ei). exists v'. split; auto.
  assert (Hs : (if i <? length l then firstn i l ++ x :: skipn (S i) l else l) = list_set l i x).
  { destruct (Nat.ltb_spec i (length l)) as [L|L].
    - destruct (nth_error l i) as [y|] eqn:En; [|apply nth_error_None in En; lia].
      symmetry. now apply list_set_split with (c := y).
    - clear -L. revert i L. induction l as [|y l IH]; intros [|i] L; cbn in *; auto; [lia|].
      f_equal. apply IH. lia. }
  rewrite Hs. apply reads_represent; [now rewrite list_set_length, El|]. intros j. rewrite set_reads.
  destruct (Nat.eqb_spec j i) as [->|Hj].
  - exact Ei.
  - now rewrite Ej, Hg by auto.
Qed.

(** a vector that went wrong *)
Example C13_any_case : exists v : pvec nat, made v /\
  pv_to_vec v <> Ret (seq 0 130) /\ pv_get v 7 <> Panic /\
  exists v', pv_update v 7 1000 = Ret v' /\ pv_get v' 7 = Ret (Some 1000).
Proof.
  destruct (vec_step PopBack (pv_push_front (pv_from_iter (seq 0 130)) 7)) as [[v r]|] eqn:E;
    [|vm_compute in E; discriminate].
  exists v. split.
  - eapply made_step; [|exact E].
    eapply made_step with (o := PushFront 7) (r := None); [|reflexivity].
    eapply made_start, starts_slice.
  - vm_compute in E. injection E as <- _.
    split; [vm_compute; discriminate|]. split; [vm_compute; discriminate|].
    eexists. split; vm_compute; reflexivity.
Qed.

Print Assumptions C13_update_any.
Print Assumptions C13_update_any_list.

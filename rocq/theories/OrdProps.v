(** C91: ordering and hashing of persistent vectors. *)
From Coq Require Import List Arith Bool Lia.
From Verif Require Import Base ListFacts PvecModel PvecSpec PvecFacts PvecComb OrdModel OrdSpec.
Import ListNotations.

(** ** Total orders *)
Definition good {A} (cmp : A -> A -> comparison) (x : A) : Prop :=
  (forall y, cmp x y = Eq <-> x = y) /\
  (forall y, cmp y x = CompOpp (cmp x y)) /\
  (forall y z, cmp x y = Lt -> cmp y z = Lt -> cmp x z = Lt) /\
  (forall y z, cmp x y = Lt -> cmp y z = Eq -> cmp x z = Lt).
Lemma good_of_total {A} (cmp : A -> A -> comparison) : total_order cmp -> forall x, good cmp x.
Proof.
  intros (H1 & H2 & H3) x. repeat split; try apply H1; auto.
  - intros y z Hxy Hyz. eapply H3; eauto.
  - intros y z Hxy Hyz. apply H1 in Hyz. now subst z.
Qed.
Lemma total_of_good {A} (cmp : A -> A -> comparison) : (forall x, good cmp x) -> total_order cmp.
Proof.
  intros H. repeat split.
  - apply (H x).
  - apply (H x).
  - intros x y. apply (H x).
  - intros x y z. apply (H x).
Qed.
(** Comparing two fields one after the other. *)
Lemma good_then {A B} (ca : A -> A -> comparison) (cb : B -> B -> comparison) a b :
  good ca a -> good cb b ->
  good (fun p q => then_cmp (ca (fst p) (fst q)) (cb (snd p) (snd q))) (a, b).
Proof.
  intros (A1 & A2 & A3 & A4) (B1 & B2 & B3 & B4). unfold then_cmp. repeat split; cbn [fst snd].
  - destruct (ca a (fst y)) eqn:E; intros H; try discriminate.
    apply A1 in E. apply B1 in H. destruct y; cbn in *; congruence.
  - intros <-. cbn. rewrite (proj2 (A1 a) eq_refl). now apply B1.
  - intros [a' b']; cbn. rewrite A2, B2. destruct (ca a a'); auto.
  - intros [a' b'] [a'' b'']; cbn. destruct (ca a a') eqn:E1; try discriminate.
    + apply A1 in E1. subst a'. destruct (ca a a''); auto; try discriminate. apply B3.
    + intros _. destruct (ca a' a'') eqn:E2; try discriminate; intros _.
      * now rewrite (A4 a' a'').
      * now rewrite (A3 a' a'').
  - intros [a' b'] [a'' b'']; cbn. destruct (ca a a') eqn:E1; try discriminate.
    + apply A1 in E1. subst a'. destruct (ca a a''); auto; try discriminate. apply B4.
    + intros _. destruct (ca a' a'') eqn:E2; try discriminate; intros _.
      now rewrite (A4 a' a'').
Qed.
Lemma good_via {A B} (f : A -> B) (ca : A -> A -> comparison) (cb : B -> B -> comparison) a :
  (forall x y, ca x y = cb (f x) (f y)) -> (forall x y, f x = f y -> x = y) ->
  good cb (f a) -> good ca a.
Proof.
  intros Hc Hi (B1 & B2 & B3 & B4). repeat split.
  - rewrite Hc. intros H. apply Hi, B1, H.
  - intros <-. rewrite Hc. now apply B1.
  - intros y. rewrite !Hc. apply B2.
  - intros y z. rewrite !Hc. apply B3.
  - intros y z. rewrite !Hc. apply B4.
Qed.
Lemma good_nat n : good Nat.compare n.
Proof.
  apply good_of_total. repeat split.
  - apply Nat.compare_eq.
  - intros ->. apply Nat.compare_refl.
  - intros. apply Nat.compare_antisym.
  - intros x y z. rewrite !Nat.compare_lt_iff. lia.
Qed.
Lemma good_list {A} (cmp : A -> A -> comparison) l : Forall (good cmp) l -> good (list_cmp cmp) l.
Proof.
  induction 1 as [|x l Hx _ IH].
  - repeat split.
    + destruct y; cbn; congruence.
    + now intros <-.
    + intros [|y m]; reflexivity.
    + intros [|y m] [|z n]; cbn; congruence.
    + intros [|y m] [|z n]; cbn; congruence.
  - destruct (good_then _ _ _ _ Hx IH) as (G1 & G2 & G3 & G4). repeat split.
    + destruct y as [|y m]; cbn; [discriminate|]. intros H.
      apply (G1 (y, m)) in H. congruence.
    + intros <-. cbn. now apply (G1 (x, l)).
    + intros [|y m]; [reflexivity|]. apply (G2 (y, m)).
    + intros [|y m] [|z n]; cbn; try discriminate. apply (G3 (y, m) (z, n)).
    + intros [|y m] [|z n]; cbn; try discriminate. apply (G4 (y, m) (z, n)).
Qed.
Lemma good_list' {A} (cmp : A -> A -> comparison) : (forall x, good cmp x) -> forall l, good (list_cmp cmp) l.
Proof. intros H l. apply good_list, Forall_forall. auto. Qed.
Lemma good_option {A} (cmp : A -> A -> comparison) : (forall x, good cmp x) -> forall o, good (option_cmp cmp) o.
Proof.
  intros H [x|]; [destruct (H x) as (G1 & G2 & G3 & G4)|]; repeat split.
  - destruct y as [y|]; cbn; [|discriminate]. intros K. apply G1 in K. congruence.
  - intros <-. cbn. now apply G1.
  - intros [y|]; cbn; auto.
  - intros [y|] [z|]; cbn; try discriminate. apply G3.
  - intros [y|] [z|]; cbn; try discriminate. apply G4.
  - destruct y; cbn; [discriminate|auto].
  - now intros <-.
  - intros [y|]; reflexivity.
  - intros [y|] [z|]; cbn; auto; discriminate.
  - intros [y|] [z|]; cbn; auto; discriminate.
Qed.

Section Vector.
Context {T : Type} (cmp : T -> T -> comparison) (Hcmp : total_order cmp).

Lemma good_node (n : node T) : good (node_cmp cmp) n.
Proof.
  induction n as [es|cs sz IH] using node_ind'.
  - destruct (good_list' cmp (good_of_total _ Hcmp) es) as (G1 & G2 & G3 & G4). repeat split.
    + destruct y as [fs|]; cbn; [|discriminate]. intros H. apply G1 in H. congruence.
    + intros <-. cbn. now apply G1.
    + intros [fs|]; cbn; auto.
    + intros [fs|] [gs|]; cbn; try discriminate. apply G3.
    + intros [fs|] [gs|]; cbn; try discriminate. apply G4.
  - destruct (good_then _ _ _ _ (good_list _ _ IH)
                (good_option _ (good_list' _ good_nat) sz)) as (G1 & G2 & G3 & G4). repeat split.
    + destruct y as [|ds sz']; cbn; [discriminate|]. intros H. apply (G1 (ds, sz')) in H. congruence.
    + intros <-. cbn. now apply (G1 (cs, sz)).
    + intros [|ds sz']; cbn; auto. apply (G2 (ds, sz')).
    + intros [|ds sz'] [|es' sz'']; cbn; auto; try discriminate. apply (G3 (ds, sz') (es', sz'')).
    + intros [|ds sz'] [|es' sz'']; cbn; auto; try discriminate. apply (G4 (ds, sz') (es', sz'')).
Qed.
Lemma good_tree (t : tree T) : good (tree_cmp cmp) t.
Proof.
  pose proof (good_list' cmp (good_of_total _ Hcmp)) as HL.
  eapply (good_via (fun t => (t_root t, (t_tail t, (t_head t, (t_height t, t_len t)))))).
  3:{ apply good_then; [apply good_node|].
      apply good_then; [apply HL|]. apply good_then; [apply HL|]. apply good_then; apply good_nat. }
  - reflexivity.
  - intros [] []; cbn. congruence.
Qed.
Lemma good_vimpl (i : vimpl T) : good (vimpl_cmp cmp) i.
Proof.
  destruct i as [es|t].
  - destruct (good_list' cmp (good_of_total _ Hcmp) es) as (G1 & G2 & G3 & G4). repeat split.
    + destruct y as [fs|]; cbn; [|discriminate]. intros H. apply G1 in H. congruence.
    + intros <-. cbn. now apply G1.
    + intros [fs|]; cbn; auto.
    + intros [fs|] [gs|]; cbn; auto; try discriminate. apply G3.
    + intros [fs|] [gs|]; cbn; auto; try discriminate. apply G4.
  - destruct (good_tree t) as (G1 & G2 & G3 & G4). repeat split.
    + destruct y as [|u]; cbn; [discriminate|]. intros H. apply G1 in H. congruence.
    + intros <-. cbn. now apply G1.
    + intros [|u]; cbn; auto.
    + intros [|u] [|v]; cbn; try discriminate. apply G3.
    + intros [|u] [|v]; cbn; try discriminate. apply G4.
Qed.
Lemma good_pvec (v : pvec T) : good (pv_cmp cmp) v.
Proof.
  eapply (good_via (fun v => (inner v, (pv_len v, generation v)))).
  3:{ apply good_then; [apply good_vimpl|]. apply good_then; apply good_nat. }
  - reflexivity.
  - intros [] []; cbn. congruence.
Qed.
End Vector.

(** Ordering vectors is a total order, and agrees with comparing them for
    equality, whatever the vectors. *)
Theorem C91_total_order : forall T (cmp : T -> T -> comparison) (eqb : T -> T -> bool),
  total_order cmp -> (forall x y, eqb x y = true <-> x = y) ->
  total_order (pv_cmp cmp) /\
  (forall v w, pv_cmp cmp v w = Eq <-> pv_eqb eqb v w = true).
Proof.
  intros T cmp eqb Hc He. split; [apply total_of_good; intros; now apply good_pvec|].
  intros v w. rewrite (pv_eqb_eq He). apply (good_pvec cmp Hc v).
Qed.

(** ** Contents *)
Lemma then_cmp_assoc a b c : then_cmp (then_cmp a b) c = then_cmp a (then_cmp b c).
Proof. now destruct a. Qed.
Lemma list_cmp_before {T} (cmp : T -> T -> comparison) : total_order cmp ->
  forall l m, list_cmp cmp l m = Lt <-> before cmp l m.
Proof.
  intros (H1 & _ & _). induction l as [|x l IH]; intros [|y m]; cbn.
  - split; [discriminate|]. intros [(x & r & E)|(p & x & r & y & s & E & _)].
    + destruct (app_cons_not_nil [] r x E).
    + destruct (app_cons_not_nil p r x E).
  - split; auto. intros _. left. now exists y, m.
  - split; [discriminate|]. intros [(z & r & E)|(p & z & r & y & s & _ & E & _)].
    + discriminate E.
    + destruct (app_cons_not_nil p s y E).
  - destruct (cmp x y) eqn:E; cbn.
    + apply H1 in E. subst y. rewrite IH. split.
      * intros [(z & r & ->)|(p & a & r & b & s & -> & -> & K)].
        -- left. now exists z, r.
        -- right. now exists (x :: p), a, r, b, s.
      * intros [(z & r & [= E])|(p & a & r & b & s & E1 & E2 & K)].
        -- left. now exists z, r.
        -- destruct p as [|q p]; cbn in E1, E2; injection E1; injection E2; intros.
           ++ exfalso. assert (Hab : a = b) by congruence. apply H1 in Hab. congruence.
           ++ right. exists p, a, r, b, s. auto.
    + split; auto. intros _. right. now exists [], x, l, y, m.
    + split; [discriminate|]. intros [(z & r & [= E1 _])|(p & a & r & b & s & E1 & E2 & K)].
      * subst. rewrite (proj2 (H1 x x) eq_refl) in E. discriminate.
      * destruct p as [|q p]; cbn in E1, E2; injection E1; injection E2; intros.
        -- congruence.
        -- exfalso. assert (Hxy : x = y) by congruence. apply H1 in Hxy. congruence.
Qed.
Lemma list_cmp_length {T} (cmp : T -> T -> comparison) : forall l m, list_cmp cmp l m = Eq -> length l = length m.
Proof.
  induction l as [|x l IH]; intros [|y m]; cbn; try discriminate; auto.
  destruct (cmp x y); try discriminate. intros H. f_equal. auto.
Qed.

(** Small vectors are ordered by their contents, lexicographically; between
    equal contents the number of changes decides. *)
Theorem C91_small : forall T (cmp : T -> T -> comparison), total_order cmp ->
  forall (l m : list T) g h,
  pv_cmp cmp (mkPvec (Inline l) (length l) g) (mkPvec (Inline m) (length m) h) = Lt <->
  before cmp l m \/ (l = m /\ g < h).
Proof.
  intros T cmp Hc l m g h. rewrite <- (list_cmp_before cmp Hc).
  destruct (good_list' cmp (good_of_total _ Hc) l) as (G1 & _).
  unfold pv_cmp. cbn. destruct (list_cmp cmp l m) eqn:E; cbn.
  - apply G1 in E. subst m. rewrite Nat.compare_refl. cbn. rewrite Nat.compare_lt_iff. intuition discriminate.
  - intuition.
  - split; [discriminate|]. intros [H|[H _]]; [discriminate|]. apply G1 in H. congruence.
Qed.

(** ** Equal lengths *)
Inductive alike {T} : node T -> node T -> Prop :=
| alike_leaf es fs : length es = length fs -> alike (Leaf es) (Leaf fs)
| alike_branch cs ds sz : Forall2 alike cs ds -> alike (Branch cs sz) (Branch ds sz).
Lemma Forall2_len {A B} (R : A -> B -> Prop) l m : Forall2 R l m -> length l = length m.
Proof. induction 1; cbn; congruence. Qed.
Lemma Forall2_weaken {A B} (R S : A -> B -> Prop) l m :
  (forall a b, R a b -> S a b) -> Forall2 R l m -> Forall2 S l m.
Proof. induction 2; auto. Qed.
Lemma Forall2_firstn {A B} (R : A -> B -> Prop) k l m : Forall2 R l m -> Forall2 R (firstn k l) (firstn k m).
Proof. intros H. revert k. induction H; intros [|k]; cbn; auto. Qed.
Lemma Forall2_skipn {A B} (R : A -> B -> Prop) k l m : Forall2 R l m -> Forall2 R (skipn k l) (skipn k m).
Proof. intros H. revert k. induction H; intros [|k]; cbn; auto. Qed.
Lemma Forall2_chunks {A B} (R : A -> B -> Prop) k l m :
  Forall2 R l m -> Forall2 (Forall2 R) (chunks k l) (chunks k m).
Proof.
  intros H. unfold chunks. rewrite (Forall2_len _ _ _ H). generalize (length m) as fuel. intros fuel.
  revert l m H. induction fuel as [|fuel IH]; intros l m H; cbn; [constructor|].
  destruct H as [|x y l m Hxy H]; [constructor|]. constructor.
  - now apply Forall2_firstn; constructor.
  - apply IH. now apply Forall2_skipn; constructor.
Qed.
Lemma Forall2_map {A B C D} (R : C -> D -> Prop) (f : A -> C) (g : B -> D) l m :
  Forall2 (fun a b => R (f a) (g b)) l m -> Forall2 R (map f l) (map g m).
Proof. induction 1; cbn; auto. Qed.
Section Alike.
Context {T : Type}.
Lemma alike_size (n m : node T) : alike n m -> calculate_size n = calculate_size m.
Proof.
  revert m. induction n as [es|cs sz IH] using node_ind'; intros m H; inversion H as [? ? HL|? ? ? H2]; subst.
  - assumption.
  - destruct sz as [sz|]; [reflexivity|]. cbn. f_equal.
    clear H. revert ds H2. induction IH as [|c cs Hc _ IHcs]; intros ds H2; inversion H2; subst; cbn; auto.
    f_equal; auto.
Qed.
Lemma alike_relaxed (cs ds : list (node T)) : Forall2 alike cs ds -> alike (make_relaxed cs) (make_relaxed ds).
Proof.
  intros H. unfold make_relaxed.
  replace (map calculate_size ds) with (map calculate_size cs); [now constructor|].
  induction H; cbn; auto. f_equal; auto using alike_size.
Qed.
Lemma alike_build fuel : forall cs ds : list (node T), Forall2 alike cs ds ->
  alike (fst (build_tree_recursive fuel cs)) (fst (build_tree_recursive fuel ds)) /\
  snd (build_tree_recursive fuel cs) = snd (build_tree_recursive fuel ds).
Proof.
  induction fuel as [|fuel IH]; intros cs ds H; cbn.
  - split; auto. now constructor.
  - assert (K : Forall2 alike (map make_relaxed (chunks BRANCHING_FACTOR cs))
                              (map make_relaxed (chunks BRANCHING_FACTOR ds))).
    { apply Forall2_map. eapply Forall2_weaken; [|apply Forall2_chunks, H]. intros; now apply alike_relaxed. }
    apply IH in K as [K1 K2].
    destruct (build_tree_recursive fuel (map make_relaxed (chunks BRANCHING_FACTOR cs))) as [r1 h1].
    destruct (build_tree_recursive fuel (map make_relaxed (chunks BRANCHING_FACTOR ds))) as [r2 h2].
    cbn [fst snd] in K1, K2. subst h2.
    destruct H as [|c d cs ds Hc H]; [auto|]. destruct H; auto.
Qed.
(** Comparing alike nodes compares their contents. *)
Lemma list_cmp_app (cmp : T -> T -> comparison) : forall a b c d : list T, length a = length b ->
  list_cmp cmp (a ++ c) (b ++ d) = then_cmp (list_cmp cmp a b) (list_cmp cmp c d).
Proof.
  induction a as [|x a IH]; intros [|y b] c d H; try discriminate H; [reflexivity|].
  cbn. rewrite IH by (cbn in H; congruence). now rewrite then_cmp_assoc.
Qed.
Lemma alike_len (n m : node T) : alike n m -> length (elems n) = length (elems m).
Proof.
  revert m. induction n as [es|cs sz IH] using node_ind'; intros m H; inversion H as [? ? HL|? ? ? H2]; subst; auto.
  cbn. clear H. revert ds H2.
  induction IH as [|c cs Hc _ IHcs]; intros ds H2; inversion H2; subst; cbn; auto.
  rewrite !app_length. f_equal; auto.
Qed.
Lemma alike_cmp (cmp : T -> T -> comparison) (n m : node T) :
  alike n m -> node_cmp cmp n m = list_cmp cmp (elems n) (elems m).
Proof.
  revert m. induction n as [es|cs sz IH] using node_ind'; intros m H; inversion H as [? ? HL|? ? ? H2]; subst; auto.
  cbn. assert (E : option_cmp (list_cmp Nat.compare) sz sz = Eq).
  { now apply (good_option _ (good_list' _ good_nat) sz). }
  rewrite E. clear H E. transitivity (list_cmp (node_cmp cmp) cs ds); [now destruct (list_cmp _ cs ds)|].
  revert ds H2. induction IH as [|c cs Hc _ IHcs]; intros ds H2; inversion H2 as [|? d ? ds' Hcd Hcs]; subst; auto.
  cbn. rewrite list_cmp_app by now apply alike_len.
  now rewrite (Hc d Hcd), <- (IHcs ds' Hcs).
Qed.
Lemma Forall2_lengths (l m : list T) : length l = length m -> Forall2 (fun _ _ => True) l m.
Proof.
  revert m. induction l; intros [|y m] H; try discriminate H; constructor; auto.
Qed.
Lemma alike_from_elements (l m : list T) : length l = length m ->
  alike (t_root (from_elements l)) (t_root (from_elements m)) /\
  length (t_tail (from_elements l)) = length (t_tail (from_elements m)) /\
  t_height (from_elements l) = t_height (from_elements m) /\
  t_head (from_elements l) = [] /\ t_head (from_elements m) = [].
Proof.
  intros H. unfold from_elements. rewrite H. destruct (length m <=? LEAF_CAPACITY).
  - cbn. repeat split. now constructor.
  - unfold build_tree_with_tail. rewrite H. set (k := length m / LEAF_CAPACITY * LEAF_CAPACITY).
    assert (F : Forall2 (fun _ _ => True) (firstn k l) (firstn k m)) by now apply Forall2_firstn, Forall2_lengths.
    assert (L : length (skipn k l) = length (skipn k m)) by (rewrite !skipn_length; lia).
    assert (K : Forall2 alike (map Leaf (chunks LEAF_CAPACITY (firstn k l)))
                              (map Leaf (chunks LEAF_CAPACITY (firstn k m)))).
    { apply Forall2_map. eapply Forall2_weaken; [|apply Forall2_chunks, F].
      intros a b Hab. constructor. now apply Forall2_len in Hab. }
    rewrite (Forall2_len _ _ _ K).
    destruct (alike_build (length (map Leaf (chunks LEAF_CAPACITY (firstn k m)))) _ _ K) as [K1 K2].
    destruct F as [|x y l' m' _ F].
    + cbn. repeat split; auto; now constructor.
    + destruct (build_tree_recursive _ (map Leaf (chunks LEAF_CAPACITY (x :: l')))).
      destruct (build_tree_recursive _ (map Leaf (chunks LEAF_CAPACITY (y :: m')))).
      cbn in *. auto.
Qed.
End Alike.

(** Vectors made from slices of the same length, or of at most 64 elements,
    are ordered by their contents. *)
Theorem C91_slices_partial : forall T (cmp : T -> T -> comparison), total_order cmp ->
  forall l m : list T,
  length l = length m \/ (length l <= ADAPTIVE_INLINE_SIZE /\ length m <= ADAPTIVE_INLINE_SIZE) ->
  (pv_cmp cmp (pv_from_iter l) (pv_from_iter m) = Lt <-> before cmp l m) /\
  (pv_cmp cmp (pv_from_iter l) (pv_from_iter m) = Eq <-> l = m) /\
  (pv_cmp cmp (pv_from_iter l) (pv_from_iter m) = Gt <-> before cmp m l).
Proof.
  intros T cmp Hc.
  assert (K : forall l m : list T,
    length l = length m \/ (length l <= ADAPTIVE_INLINE_SIZE /\ length m <= ADAPTIVE_INLINE_SIZE) ->
    pv_cmp cmp (pv_from_iter l) (pv_from_iter m) = list_cmp cmp l m).
  { intros l m H. unfold pv_from_iter, pv_cmp.
    destruct (Nat.leb_spec (length l) ADAPTIVE_INLINE_SIZE) as [Hl|Hl],
             (Nat.leb_spec (length m) ADAPTIVE_INLINE_SIZE) as [Hm|Hm]; try lia; cbn [inner pv_len generation vimpl_cmp].
    - destruct (list_cmp cmp l m) eqn:E; auto. apply list_cmp_length in E. cbn. now rewrite E, Nat.compare_refl.
    - assert (E : length l = length m) by lia.
      destruct (alike_from_elements l m E) as (A1 & A2 & A3 & A4 & A5).
      destruct (from_elements_ok l) as [[_ B1] B2], (from_elements_ok m) as [[_ C1] C2].
      unfold tree_cmp. rewrite A3, A4, A5, B1, C1, B2, C2, E, !Nat.compare_refl. cbn [list_cmp then_cmp].
      rewrite (alike_cmp cmp _ _ A1).
      unfold tree_elems in B2, C2. rewrite A4 in B2. rewrite A5 in C2. cbn in B2, C2.
      rewrite <- B2, <- C2 at 3. rewrite list_cmp_app by now apply alike_len.
      destruct (list_cmp cmp (elems (t_root (from_elements l))) (elems (t_root (from_elements m)))); auto.
      cbn. now destruct (list_cmp cmp (t_tail (from_elements l)) (t_tail (from_elements m))). }
  intros l m H. rewrite (K l m H). destruct (good_list' cmp (good_of_total _ Hc) l) as (G1 & G2 & _).
  split; [now apply list_cmp_before|]. split; [apply G1|].
  rewrite <- (list_cmp_before cmp Hc), G2. destruct (list_cmp cmp l m); cbn; split; congruence.
Qed.

Lemma nat_total : total_order Nat.compare.
Proof. apply total_of_good, good_nat. Qed.
Example C91_case :
  pv_cmp Nat.compare (pv_from_iter [1; 2; 3]) (pv_from_iter [1; 3]) = Lt /\
  pv_cmp Nat.compare (pv_from_iter (repeat 0 100)) (pv_from_iter (repeat 0 99 ++ [1])) = Lt /\
  before Nat.compare [1; 2; 3] [1; 3].
Proof.
  split; [reflexivity|]. split; [vm_compute; reflexivity|].
  right. now exists [1], 2, [3], 3, [].
Qed.

(** In general they are not: a small vector comes before every large one, a
    beginning of a vector can come after it, and so can a vector with a smaller
    first element; and equal contents can be ordered strictly. *)
Theorem C91_refuted :
  (exists l m : list nat, before Nat.compare l m /\ length m < length l /\
     pv_cmp Nat.compare (pv_from_iter m) (pv_from_iter l) = Lt) /\
  (exists l m r : list nat, m = l ++ r /\ r <> [] /\
     pv_cmp Nat.compare (pv_from_iter m) (pv_from_iter l) = Lt) /\
  (exists v w : pvec nat, pv_to_vec v = Ret [1] /\ pv_to_vec w = Ret [1] /\ pv_cmp Nat.compare v w = Lt).
Proof.
  split; [|split].
  - exists (repeat 0 65), [1]. split; [|split; [vm_compute; lia|vm_compute; reflexivity]].
    right. now exists [], 0, (repeat 0 64), 1, [].
  - exists (repeat 0 65), (repeat 0 65 ++ repeat 0 64), (repeat 0 64). split; [reflexivity|].
    split; [discriminate|vm_compute; reflexivity].
  - exists (pv_from_iter [1]), (pv_push_back pv_new 1). repeat split.
Qed.

(** ** Hashing *)
Lemma list_eqb_hash {A} (eqb : A -> A -> bool) (h : A -> list nat) l :
  Forall (fun x => forall y, eqb x y = true -> h x = h y) l ->
  forall m, list_eqb eqb l m = true -> list_hash h l = list_hash h m.
Proof.
  intros H m E. unfold list_hash.
  assert (K : length l = length m /\
    (fix go (l : list A) := match l with [] => [] | x :: l' => h x ++ go l' end) l =
    (fix go (l : list A) := match l with [] => [] | x :: l' => h x ++ go l' end) m).
  { revert m E. induction H as [|x l Hx _ IH]; intros [|y m] E; try discriminate E; auto.
    cbn in E. apply andb_true_iff in E as [E1 E2]. destruct (IH m E2) as [F1 F2].
    cbn [length]. now rewrite F1, F2, (Hx y E1). }
  destruct K as [-> ->]. reflexivity.
Qed.
Lemma list_eqb_hash' {A} (eqb : A -> A -> bool) (h : A -> list nat) :
  (forall x y, eqb x y = true -> h x = h y) ->
  forall l m, list_eqb eqb l m = true -> list_hash h l = list_hash h m.
Proof. intros H l m. apply list_eqb_hash, Forall_forall. auto. Qed.
(** Equal vectors have equal hashes whenever equal elements do. *)
Theorem C91_hash : forall T (eqb : T -> T -> bool) (hash : T -> list nat),
  (forall x y, eqb x y = true -> hash x = hash y) ->
  forall v w, pv_eqb eqb v w = true -> pv_hash hash v = pv_hash hash w.
Proof.
  intros T eqb hash H.
  assert (HL := list_eqb_hash' eqb hash H).
  assert (HN : forall x y, Nat.eqb x y = true -> [x] = [y]) by (intros x y E; apply Nat.eqb_eq in E; congruence).
  assert (Hn : forall n m, node_eqb eqb n m = true -> node_hash hash n = node_hash hash m).
  { induction n as [es|cs sz IH] using node_ind'; intros [fs|ds sz'] E; cbn in E; try discriminate E.
    - cbn [node_hash]. f_equal. now apply HL.
    - apply andb_true_iff in E as [E1 E2]. cbn [node_hash]. f_equal. f_equal.
      + now apply (list_eqb_hash (node_eqb eqb)).
      + destruct sz, sz'; try discriminate E2; auto. cbn. f_equal. now apply (list_eqb_hash' Nat.eqb). }
  intros [i1 l1 g1] [i2 l2 g2] E. unfold pv_eqb in E. cbn [inner pv_len generation] in E.
  apply andb_true_iff in E as [E E3]. apply andb_true_iff in E as [E1 E2].
  apply Nat.eqb_eq in E2, E3. unfold pv_hash. cbn [inner pv_len generation]. subst. f_equal.
  destruct i1 as [e1|t1], i2 as [e2|t2]; try discriminate E1; cbn in *.
  - f_equal. now apply HL.
  - f_equal. unfold tree_eqb in E1. repeat rewrite andb_true_iff in E1.
    destruct E1 as [[[[F1 F2] F3] F4] F5]. apply Nat.eqb_eq in F4, F5. unfold tree_hash.
    now rewrite (Hn _ _ F1), (HL _ _ F2), (HL _ _ F3), F4, F5.
Qed.
(** Unequal vectors are written to the hasher differently, whenever unequal
    elements are. *)
Lemma delimit_list {A} (h : A -> list nat) l :
  Forall (fun x => forall y r s, h x ++ r = h y ++ s -> x = y /\ r = s) l ->
  forall m r s, list_hash h l ++ r = list_hash h m ++ s -> l = m /\ r = s.
Proof.
  intros H m r s E. unfold list_hash in E. cbn [app] in E. injection E as EL E.
  revert m EL E. induction H as [|x l Hx _ IH]; intros [|y m] EL E; try discriminate EL; auto.
  rewrite <- !app_assoc in E. apply Hx in E as [-> E]. apply IH in E as [-> ->]; auto.
Qed.
Lemma delimit_list' {A} (h : A -> list nat) : self_delimiting h -> self_delimiting (list_hash h).
Proof. intros H l m r s. apply delimit_list, Forall_forall. intros x _. apply H. Qed.
Lemma delimit_nat : self_delimiting (fun k : nat => [k]).
Proof. intros x y r s [= -> ->]. auto. Qed.
Lemma delimit_node {T} (hash : T -> list nat) : self_delimiting hash -> self_delimiting (node_hash hash).
Proof.
  intros Hh n. induction n as [es|cs sz IH] using node_ind'; intros [fs|ds sz'] r s E;
    cbn [node_hash app] in E; try discriminate E; apply (f_equal (@tl nat)) in E; cbn [tl] in E.
  - apply delimit_list' in E as [-> ->]; auto.
  - rewrite <- !app_assoc in E. apply delimit_list in E as [-> E]; auto.
    destruct sz as [sz|], sz' as [sz'|]; cbn [option_hash app] in E; try discriminate E; apply (f_equal (@tl nat)) in E; cbn [tl] in E.
    + now apply (delimit_list' _ delimit_nat) in E as [-> ->].
    + now subst.
Qed.
Theorem C91_hash_distinct : forall T (hash : T -> list nat), self_delimiting hash ->
  forall v w, pv_hash hash v = pv_hash hash w -> v = w.
Proof.
  intros T hash Hh [i1 l1 g1] [i2 l2 g2] E. unfold pv_hash in E. cbn [inner pv_len generation] in E.
  destruct i1 as [e1|[r1 t1 hd1 h1 n1]], i2 as [e2|[r2 t2 hd2 h2 n2]];
    cbn [vimpl_hash app] in E; try discriminate E; apply (f_equal (@tl nat)) in E; cbn [tl] in E.
  - apply delimit_list' in E as [-> E]; auto. now injection E as -> ->.
  - unfold tree_hash in E. cbn [t_root t_tail t_head t_height t_len] in E. rewrite <- !app_assoc in E.
    apply delimit_node in E as [-> E]; auto.
    apply delimit_list' in E as [-> E]; auto.
    apply delimit_list' in E as [-> E]; auto. now injection E as -> -> -> ->.
Qed.
Example C91_hash_distinct_case : self_delimiting (fun b : bool => [if b then 1 else 0]) /\
  pv_hash (fun b : bool => [if b then 1 else 0]) (pv_from_iter [true; false]) <>
  pv_hash (fun b : bool => [if b then 1 else 0]) (pv_from_iter [true]).
Proof. split; [|discriminate]. intros [] [] r s [= E]; auto; discriminate. Qed.
(** Vectors holding the same elements can have different hashes. *)
Theorem C91_hash_refuted : exists v w : pvec nat,
  pv_to_vec v = Ret [1] /\ pv_to_vec w = Ret [1] /\ pv_hash (fun n => [n]) v <> pv_hash (fun n => [n]) w.
Proof. exists (pv_from_iter [1]), (pv_push_back pv_new 1). repeat split. discriminate. Qed.

Print Assumptions C91_total_order.
Print Assumptions C91_small.
Print Assumptions C91_slices_partial.
Print Assumptions C91_refuted.
Print Assumptions C91_hash.
Print Assumptions C91_hash_distinct.
Print Assumptions C91_hash_refuted.

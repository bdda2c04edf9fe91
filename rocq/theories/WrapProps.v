(** Theorems about the wrappers: C59-C62, C81. *)
From Coq Require Import List Bool ZArith Lia SpecFloat.
From Verif Require Import Base LawSpec WrapModel WrapSpec.
Import ListNotations.

Local Arguments Z.add : simpl never.
Local Arguments Z.mul : simpl never.

(** ** C59 *)
(** With lawful element arithmetic that does not panic, both wrappers are monoids and functors. *)
Theorem C59_lawful_arithmetic : forall T (op : T -> T -> T) (e : T), monoid_laws op e ->
  (exists f, (forall a b, sum_combine (fun x y => Ret (op x y)) a b = Ret (f a b)) /\ monoid_laws f (sum_empty e)) /\
  (exists f, (forall a b, product_combine (fun x y => Ret (op x y)) a b = Ret (f a b)) /\ monoid_laws f (product_empty e)).
Proof.
  intros T op e (A & L & R). split.
  - exists (fun a b => mkSum (op (sum_val a) (sum_val b))). split; [reflexivity|].
    split; [|split].
    + intros [x] [y] [z]. cbn. now rewrite A.
    + intros [x]. cbn. now rewrite L.
    + intros [x]. cbn. now rewrite R.
  - exists (fun a b => mkProduct (op (product_val a) (product_val b))). split; [reflexivity|].
    split; [|split].
    + intros [x] [y] [z]. cbn. now rewrite A.
    + intros [x]. cbn. now rewrite L.
    + intros [x]. cbn. now rewrite R.
Qed.
Theorem C59_functor :
  functor_laws sum (fun _ => eq) (@sum_fmap) /\ functor_laws product (fun _ => eq) (@product_fmap) /\
  (forall T (s : sum T) d, sum_unwrap_or s d = sum_unwrap s) /\
  (forall T (s : product T) d, product_unwrap_or s d = product_unwrap s).
Proof. repeat split; intros; try (destruct x; reflexivity). Qed.

Lemma Zsum_app : forall a b, Zsum (a ++ b) = (Zsum a + Zsum b)%Z.
Proof. induction a as [|x a IH]; intros b; cbn [app]; [reflexivity|]. cbn [Zsum fold_right]. fold (Zsum (a ++ b)) (Zsum a). rewrite IH. lia. Qed.
Lemma Zprod_app : forall a b, Zprod (a ++ b) = (Zprod a * Zprod b)%Z.
Proof. induction a as [|x a IH]; intros b; cbn [app]; [cbn [Zprod fold_right]; lia|]. cbn [Zprod fold_right]. fold (Zprod (a ++ b)) (Zprod a). rewrite IH. lia. Qed.
Lemma checked_ret : forall lo hi z x, checked lo hi z = Ret x -> x = z.
Proof. unfold checked. intros. destruct (_ && _); congruence. Qed.
Lemma checked_in : forall lo hi z, (lo <= z <= hi)%Z -> checked lo hi z = Ret z.
Proof.
  intros. unfold checked. destruct (Z.leb_spec lo z), (Z.leb_spec z hi); cbn; auto; lia.
Qed.
Lemma checked_above : forall lo hi z, (hi < z)%Z -> checked lo hi z = Panic.
Proof. intros. unfold checked. destruct (Z.leb_spec z hi); [lia|]. now rewrite andb_false_r. Qed.

(** Overflow-checked integers of any width: all groupings that do not panic agree. *)
Theorem C59_groupings_agree : forall lo hi t,
  (forall s, grouped (sum_combine (checked_add lo hi)) t = Ret s -> sum_val s = Zsum (map sum_val (leaves t))).
Proof.
  intros lo hi. induction t as [a|l IHl r IHr]; cbn; intros s H.
  - injection H as <-. lia.
  - destruct (grouped _ l) as [x|] eqn:El; [|discriminate]. destruct (grouped _ r) as [y|] eqn:Er; [|discriminate].
    unfold sum_combine, checked_add in H. destruct (checked lo hi _) eqn:C; [|discriminate].
    apply checked_ret in C. injection H as <-. cbn. subst.
    now rewrite map_app, Zsum_app, <- (IHl x), <- (IHr y).
Qed.
Theorem C59_product_groupings_agree : forall lo hi t,
  (forall s, grouped (product_combine (checked_mul lo hi)) t = Ret s ->
     product_val s = Zprod (map product_val (leaves t))).
Proof.
  intros lo hi. induction t as [a|l IHl r IHr]; cbn [grouped leaves]; intros s H.
  - injection H as <-. cbn. lia.
  - destruct (grouped _ l) as [x|] eqn:El; [|discriminate]. destruct (grouped _ r) as [y|] eqn:Er; [|discriminate].
    unfold product_combine, checked_mul in H. destruct (checked lo hi _) eqn:C; [|discriminate].
    apply checked_ret in C. injection H as <-. cbn [product_val]. subst.
    now rewrite map_app, Zprod_app, <- (IHl x), <- (IHr y).
Qed.
(** Unsigned sums: every grouping panics exactly when the total does not fit. *)
Theorem C59_unsigned_sum_partial : forall hi t, Forall (fun s => 0 <= sum_val s <= hi)%Z (leaves t) ->
  grouped (sum_combine (checked_add 0 hi)) t =
    let total := Zsum (map sum_val (leaves t)) in
    if (total <=? hi)%Z then Ret (mkSum total) else Panic.
Proof.
  intros hi. assert (P : forall l, Forall (fun s => 0 <= sum_val s <= hi)%Z l -> (0 <= Zsum (map sum_val l))%Z).
  { induction 1; cbn; unfold Zsum in *; lia. }
  induction t as [a|l IHl r IHr]; cbn [grouped leaves]; intros H.
  - inversion H; subst. destruct a as [a]. cbn in *. rewrite Z.add_0_r.
    destruct (Z.leb_spec a hi); auto; lia.
  - apply Forall_app in H as [Hl Hr]. rewrite IHl, IHr by auto. rewrite map_app, Zsum_app. cbn zeta.
    pose proof (P _ Hl). pose proof (P _ Hr).
    set (x := Zsum (map sum_val (leaves l))) in *. set (y := Zsum (map sum_val (leaves r))) in *.
    destruct (Z.leb_spec x hi), (Z.leb_spec y hi), (Z.leb_spec (x + y) hi); try lia; auto.
    + unfold sum_combine, checked_add. cbn [sum_val]. now rewrite checked_in by lia.
    + unfold sum_combine, checked_add. cbn [sum_val]. now rewrite checked_above by lia.
Qed.
(** The same for products of positive numbers. *)
Theorem C59_positive_product_partial : forall hi t, Forall (fun s => 1 <= product_val s <= hi)%Z (leaves t) ->
  grouped (product_combine (checked_mul 0 hi)) t =
    let total := Zprod (map product_val (leaves t)) in
    if (total <=? hi)%Z then Ret (mkProduct total) else Panic.
Proof.
  intros hi. assert (P : forall l, Forall (fun s => 1 <= product_val s <= hi)%Z l -> (1 <= Zprod (map product_val l))%Z).
  { induction 1; cbn; [lia|]. change (1 <= product_val x * Zprod (map product_val l))%Z. nia. }
  induction t as [a|l IHl r IHr]; cbn [grouped leaves]; intros H.
  - inversion H; subst. destruct a as [a]. cbn [product_val map Zprod fold_right] in *. rewrite Z.mul_1_r. cbn zeta.
    destruct (Z.leb_spec a hi); auto; lia.
  - apply Forall_app in H as [Hl Hr]. rewrite IHl, IHr by auto. rewrite map_app, Zprod_app. cbn zeta.
    pose proof (P _ Hl). pose proof (P _ Hr).
    set (x := Zprod (map product_val (leaves l))) in *. set (y := Zprod (map product_val (leaves r))) in *.
    destruct (Z.leb_spec x hi), (Z.leb_spec y hi), (Z.leb_spec (x * y) hi); try nia; auto.
    + unfold product_combine, checked_mul. cbn [product_val]. now rewrite checked_in by lia.
    + unfold product_combine, checked_mul. cbn [product_val]. now rewrite checked_above by lia.
Qed.
(** Any width, signed or not: a grouping returns exactly when each of its intermediate results fits,
    so two groupings behave differently only by their intermediate results. *)
Theorem C59_sum_fits : forall lo hi t,
  (Forall (fun p => lo <= Zsum (map sum_val p) <= hi)%Z (runs t) ->
     grouped (sum_combine (checked_add lo hi)) t = Ret (mkSum (Zsum (map sum_val (leaves t))))) /\
  (~ Forall (fun p => lo <= Zsum (map sum_val p) <= hi)%Z (runs t) ->
     grouped (sum_combine (checked_add lo hi)) t = Panic).
Proof.
  intros lo hi t. assert (E : forall t, (exists s, grouped (sum_combine (checked_add lo hi)) t = Ret s) <->
      Forall (fun p => lo <= Zsum (map sum_val p) <= hi)%Z (runs t)).
  { clear t. induction t as [a|l IHl r IHr]; cbn [grouped runs].
    - split; [constructor|]. intros _. now exists a.
    - rewrite !Forall_app, <- IHl, <- IHr. split.
      + intros [s H]. destruct (grouped _ l) as [x|] eqn:El; [|discriminate].
        destruct (grouped _ r) as [y|] eqn:Er; [|discriminate]. repeat split; eauto.
        apply C59_groupings_agree in El, Er. constructor; [|constructor].
        rewrite map_app, Zsum_app, <- El, <- Er. unfold sum_combine, checked_add, checked in H.
        destruct (Z.leb_spec lo (sum_val x + sum_val y)), (Z.leb_spec (sum_val x + sum_val y) hi); try discriminate H; lia.
      + intros [[x El] [[y Er] F]]. rewrite El, Er. apply C59_groupings_agree in El, Er.
        inversion F as [|? ? G]; subst. rewrite map_app, Zsum_app, <- El, <- Er in G.
        unfold sum_combine, checked_add. rewrite checked_in by lia. eexists. reflexivity. }
  split; intros H.
  - apply E in H as [[s] H]. rewrite H. apply C59_groupings_agree in H. cbn in H. now rewrite H.
  - destruct (grouped _ t) eqn:G; auto. exfalso. apply H, E. eauto.
Qed.
Theorem C59_product_fits : forall lo hi t,
  (Forall (fun p => lo <= Zprod (map product_val p) <= hi)%Z (runs t) ->
     grouped (product_combine (checked_mul lo hi)) t = Ret (mkProduct (Zprod (map product_val (leaves t))))) /\
  (~ Forall (fun p => lo <= Zprod (map product_val p) <= hi)%Z (runs t) ->
     grouped (product_combine (checked_mul lo hi)) t = Panic).
Proof.
  intros lo hi t. assert (E : forall t, (exists s, grouped (product_combine (checked_mul lo hi)) t = Ret s) <->
      Forall (fun p => lo <= Zprod (map product_val p) <= hi)%Z (runs t)).
  { clear t. induction t as [a|l IHl r IHr]; cbn [grouped runs].
    - split; [constructor|]. intros _. now exists a.
    - rewrite !Forall_app, <- IHl, <- IHr. split.
      + intros [s H]. destruct (grouped _ l) as [x|] eqn:El; [|discriminate].
        destruct (grouped _ r) as [y|] eqn:Er; [|discriminate]. repeat split; eauto.
        apply C59_product_groupings_agree in El, Er. constructor; [|constructor].
        rewrite map_app, Zprod_app, <- El, <- Er. unfold product_combine, checked_mul, checked in H.
        destruct (Z.leb_spec lo (product_val x * product_val y)), (Z.leb_spec (product_val x * product_val y) hi);
          try discriminate H; lia.
      + intros [[x El] [[y Er] F]]. rewrite El, Er. apply C59_product_groupings_agree in El, Er.
        inversion F as [|? ? G]; subst. rewrite map_app, Zprod_app, <- El, <- Er in G.
        unfold product_combine, checked_mul. rewrite checked_in by lia. eexists. reflexivity. }
  split; intros H.
  - apply E in H as [[s] H]. rewrite H. apply C59_product_groupings_agree in H. cbn [product_val] in H. now rewrite H.
  - destruct (grouped _ t) eqn:G; auto. exfalso. apply H, E. eauto.
Qed.
Example C59_fits_case :
  runs (Node (Leaf 1) (Node (Leaf 2) (Leaf 3))) = [[2; 3]; [1; 2; 3]] /\
  grouped (sum_combine (checked_add (-128) 127)) ((Node (Leaf (mkSum 100)) (Node (Leaf (mkSum 100)) (Leaf (mkSum (-90)))))%Z)
    = Ret (mkSum 110%Z) /\
  grouped (sum_combine (checked_add (-128) 127)) ((Node (Node (Leaf (mkSum 100)) (Leaf (mkSum 100))) (Leaf (mkSum (-90))))%Z)
    = Panic.
Proof. repeat split. Qed.
(** Signed sums: [(127 + 1) + -1] panics on [i8], [127 + (1 + -1)] does not. *)
Theorem C59_signed_sum_refuted : exists a b c,
  grouped (sum_combine (checked_add (-128) 127)) (Node (Node (Leaf a) (Leaf b)) (Leaf c)) = Panic /\
  grouped (sum_combine (checked_add (-128) 127)) (Node (Leaf a) (Node (Leaf b) (Leaf c))) = Ret (mkSum 127%Z).
Proof. exists (mkSum 127%Z), (mkSum 1%Z), (mkSum (-1)%Z). split; reflexivity. Qed.
(** Unsigned products: [(200 * 2) * 0] panics on [u8], [200 * (2 * 0)] does not. *)
Theorem C59_product_with_zero_refuted : exists a b c,
  grouped (product_combine (checked_mul 0 255)) (Node (Node (Leaf a) (Leaf b)) (Leaf c)) = Panic /\
  grouped (product_combine (checked_mul 0 255)) (Node (Leaf a) (Node (Leaf b) (Leaf c))) = Ret (mkProduct 0%Z).
Proof. exists (mkProduct 200%Z), (mkProduct 2%Z), (mkProduct 0%Z). split; reflexivity. Qed.
(** The identities never panic on values of the type. *)
Theorem C59_identity : forall lo hi z, (lo <= z <= hi)%Z ->
  sum_combine (checked_add lo hi) (sum_empty 0%Z) (mkSum z) = Ret (mkSum z) /\
  sum_combine (checked_add lo hi) (mkSum z) (sum_empty 0%Z) = Ret (mkSum z) /\
  product_combine (checked_mul lo hi) (product_empty 1%Z) (mkProduct z) = Ret (mkProduct z) /\
  product_combine (checked_mul lo hi) (mkProduct z) (product_empty 1%Z) = Ret (mkProduct z).
Proof.
  intros lo hi z H. unfold sum_combine, product_combine, checked_add, checked_mul.
  cbn [sum_val sum_empty product_val product_empty].
  rewrite Z.add_0_l, Z.add_0_r, Z.mul_1_l, Z.mul_1_r, checked_in by auto. repeat split.
Qed.
(** Wrapping arithmetic (release builds): no grouping panics and all groupings agree. *)
Lemma wrap_range : forall lo hi z, (lo <= hi)%Z -> (lo <= wrap lo hi z <= hi)%Z.
Proof. intros. unfold wrap. pose proof (Z.mod_pos_bound (z - lo) (hi - lo + 1)). lia. Qed.
Lemma wrap_id : forall lo hi z, (lo <= z <= hi)%Z -> wrap lo hi z = z.
Proof. intros. unfold wrap. rewrite Z.mod_small; lia. Qed.
Lemma wrap_diff : forall lo hi z, (lo <= hi)%Z -> exists k, wrap lo hi z = (z + k * (hi - lo + 1))%Z.
Proof.
  intros. unfold wrap. exists (- ((z - lo) / (hi - lo + 1)))%Z.
  pose proof (Z.div_mod (z - lo) (hi - lo + 1)). lia.
Qed.
Lemma wrap_shift : forall lo hi z k, (lo <= hi)%Z -> wrap lo hi (z + k * (hi - lo + 1)) = wrap lo hi z.
Proof.
  intros. unfold wrap. f_equal. replace (z + k * (hi - lo + 1) - lo)%Z with (z - lo + k * (hi - lo + 1))%Z by lia.
  apply Z.mod_add. lia.
Qed.
Theorem C59_wrapping_sum : forall lo hi t, (lo <= hi)%Z -> Forall (fun s => lo <= sum_val s <= hi)%Z (leaves t) ->
  grouped (sum_combine (wrapping_add lo hi)) t = Ret (mkSum (wrap lo hi (Zsum (map sum_val (leaves t))))).
Proof.
  intros lo hi t L. induction t as [[a]|l IHl r IHr]; cbn [grouped leaves]; intros H.
  - inversion H; subst. cbn in *. now rewrite Z.add_0_r, wrap_id.
  - apply Forall_app in H as [Hl Hr]. rewrite IHl, IHr by auto. cbn [sum_combine wrapping_add sum_val obind].
    unfold sum_combine, wrapping_add. cbn [sum_val obind]. do 2 f_equal.
    rewrite map_app, Zsum_app.
    destruct (wrap_diff lo hi (Zsum (map sum_val (leaves l))) L) as [i ->].
    destruct (wrap_diff lo hi (Zsum (map sum_val (leaves r))) L) as [j ->].
    set (x := Zsum _). set (y := Zsum _). set (n := (hi - lo + 1)%Z).
    replace (x + i * n + (y + j * n))%Z with (x + y + (i + j) * n)%Z by lia.
    now apply wrap_shift.
Qed.
Theorem C59_wrapping_product : forall lo hi t, (lo <= hi)%Z -> Forall (fun s => lo <= product_val s <= hi)%Z (leaves t) ->
  grouped (product_combine (wrapping_mul lo hi)) t
    = Ret (mkProduct (wrap lo hi (Zprod (map product_val (leaves t))))).
Proof.
  intros lo hi t L. induction t as [[a]|l IHl r IHr]; cbn [grouped leaves]; intros H.
  - inversion H; subst. cbn [map product_val Zprod fold_right] in *. now rewrite Z.mul_1_r, wrap_id.
  - apply Forall_app in H as [Hl Hr]. rewrite IHl, IHr by auto.
    unfold product_combine, wrapping_mul. cbn [product_val obind]. do 2 f_equal.
    rewrite map_app, Zprod_app.
    destruct (wrap_diff lo hi (Zprod (map product_val (leaves l))) L) as [i ->].
    destruct (wrap_diff lo hi (Zprod (map product_val (leaves r))) L) as [j ->].
    set (x := Zprod _). set (y := Zprod _). set (n := (hi - lo + 1)%Z).
    replace ((x + i * n) * (y + j * n))%Z with (x * y + (x * j + i * y + i * j * n) * n)%Z by ring.
    now apply wrap_shift.
Qed.
(** IEEE doubles ([SpecFloat], the standard library's executable semantics):
    [Sum<f64>] is not associative, and [empty] only is an identity up to the sign of zero. *)
Definition f64_add (x y : spec_float) : outcome spec_float := Ret (SFadd 53 1024 x y).
Definition f64_of (z : Z) : spec_float := binary_normalize 53 1024 z 0 false.
Theorem C59_float_sum_refuted : exists a b c,
  grouped (sum_combine f64_add) (Node (Node (Leaf a) (Leaf b)) (Leaf c)) <>
  grouped (sum_combine f64_add) (Node (Leaf a) (Node (Leaf b) (Leaf c))).
Proof.
  exists (mkSum (f64_of 9007199254740992)), (mkSum (f64_of 1)), (mkSum (f64_of 1)). vm_compute. discriminate.
Qed.
Theorem C59_float_identity : forall x,
  let zero := S754_zero false in
  (x <> S754_zero true ->
     sum_combine f64_add (sum_empty zero) (mkSum x) = Ret (mkSum x) /\
     sum_combine f64_add (mkSum x) (sum_empty zero) = Ret (mkSum x)) /\
  (x = S754_zero true -> sum_combine f64_add (sum_empty zero) (mkSum x) = Ret (mkSum zero)).
Proof.
  intros x zero. split.
  - intros N. destruct x as [[]|[]| |s m e]; try congruence; split; reflexivity.
  - intros ->. reflexivity.
Qed.
Example C59_case :
  grouped (sum_combine (checked_add 0 255)) (Node (Leaf (mkSum 100%Z)) (Node (Leaf (mkSum 50%Z)) (Leaf (mkSum 60%Z))))
    = Ret (mkSum 210%Z) /\
  grouped (sum_combine (checked_add 0 255)) (Node (Leaf (mkSum 200%Z)) (Leaf (mkSum 60%Z))) = Panic /\
  grouped (sum_combine (wrapping_add (-128) 127)) (Node (Leaf (mkSum 127%Z)) (Leaf (mkSum 2%Z))) = Ret (mkSum (-127)%Z) /\
  grouped (product_combine (checked_mul 0 255)) (Node (Leaf (mkProduct 15%Z)) (Leaf (mkProduct 17%Z))) = Ret (mkProduct 255%Z).
Proof. repeat split. Qed.

(** ** C60 *)
Theorem C60_min_semigroup : forall T (cmp : T -> T -> comparison), total_preorder cmp ->
  (forall a b, (min_combine cmp a b = a \/ min_combine cmp a b = b) /\
     cmp (min_val (min_combine cmp a b)) (min_val a) <> Gt /\ cmp (min_val (min_combine cmp a b)) (min_val b) <> Gt) /\
  associative (min_combine cmp) /\ (forall a, min_combine cmp a a = a) /\
  (forall a b, cmp (min_val (min_combine cmp a b)) (min_val (min_combine cmp b a)) = Eq) /\
  (total_order cmp -> forall a b, min_combine cmp a b = min_combine cmp b a).
Proof.
  intros T cmp (R & S & Tr). unfold min_combine, associative.
  assert (LE : forall x y, cmp x y = Gt -> cmp y x <> Gt) by (intros x y H; rewrite S, H; discriminate).
  assert (K : forall x y, cmp x y = Eq -> cmp y x = Eq) by (intros x y H; rewrite S, H; reflexivity).
  split; [|split; [|split; [|split]]].
  - intros [a] [b]. cbn. destruct (cmp a b) eqn:E; cbn; rewrite ?R, ?E; (split; [auto|split]); try discriminate.
    now apply LE.
  - intros [a] [b] [c]. cbn.
    destruct (cmp a b) eqn:E1, (cmp b c) eqn:E2; cbn; rewrite ?E1, ?E2; auto.
    all: destruct (cmp a c) eqn:E3; auto; exfalso.
    all: try (apply (Tr a b c); congruence).
    all: assert (H : cmp a b <> Gt) by (apply (Tr a c b); [congruence | rewrite S, E2; discriminate]); congruence.
  - intros [a]. cbn. now rewrite R.
  - intros [a] [b]. cbn. rewrite (S a b). destruct (cmp a b) eqn:E; cbn; auto.
  - intros [_ A] [a] [b]. cbn. rewrite (S a b). destruct (cmp a b) eqn:E; cbn; auto.
    now rewrite (A a b).
Qed.
Theorem C60_max_semigroup : forall T (cmp : T -> T -> comparison), total_preorder cmp ->
  (forall a b, (max_combine cmp a b = a \/ max_combine cmp a b = b) /\
     cmp (max_val a) (max_val (max_combine cmp a b)) <> Gt /\ cmp (max_val b) (max_val (max_combine cmp a b)) <> Gt) /\
  associative (max_combine cmp) /\ (forall a, max_combine cmp a a = a) /\
  (forall a b, cmp (max_val (max_combine cmp a b)) (max_val (max_combine cmp b a)) = Eq) /\
  (total_order cmp -> forall a b, max_combine cmp a b = max_combine cmp b a).
Proof.
  intros T cmp (R & S & Tr). unfold max_combine, associative.
  assert (K : forall x y, cmp x y = Eq -> cmp y x = Eq) by (intros x y H; rewrite S, H; reflexivity).
  split; [|split; [|split; [|split]]].
  - intros [a] [b]. cbn. destruct (cmp a b) eqn:E; cbn; rewrite ?R, ?E; (split; [auto|split]); try discriminate.
    all: rewrite S, E; discriminate.
  - intros [a] [b] [c]. cbn.
    destruct (cmp a b) eqn:E1, (cmp b c) eqn:E2; cbn; rewrite ?E1, ?E2; auto.
    all: destruct (cmp a c) eqn:E3; auto; exfalso.
    all: try (apply (Tr c b a); [rewrite S, E2; discriminate | rewrite S, E1; discriminate | rewrite S, E3; reflexivity]).
    all: assert (H : cmp b a <> Gt) by (apply (Tr b c a); [congruence | rewrite S, E3; discriminate]);
         rewrite S, E1 in H; cbn in H; congruence.
  - intros [a]. cbn. now rewrite R.
  - intros [a] [b]. cbn. rewrite (S a b). destruct (cmp a b) eqn:E; cbn; auto.
  - intros [_ A] [a] [b]. cbn. rewrite (S a b). destruct (cmp a b) eqn:E; cbn; auto.
    now rewrite (A a b).
Qed.
(** [empty] is an identity of [Min] exactly when the default is the greatest value... *)
Theorem C60_min_empty_partial : forall T (cmp : T -> T -> comparison) d, total_preorder cmp ->
  (monoid_laws (min_combine cmp) (min_empty d) <-> forall x, cmp x d = Lt \/ x = d).
Proof.
  intros T cmp d O. pose proof (C60_min_semigroup T cmp O) as (_ & A & _). destruct O as (R & S & Tr). split.
  - intros (_ & L & _) x. specialize (L (mkMin x)). unfold min_combine in L. cbn in L.
    rewrite (S d x). destruct (cmp d x) eqn:E; cbn; auto; injection L; auto.
  - intros H. split; [auto|split].
    + intros [x]. unfold min_combine. cbn. rewrite (S x d). destruct (H x) as [-> | ->]; cbn; auto. now rewrite R.
    + intros [x]. unfold min_combine. cbn. destruct (H x) as [-> | ->]; auto. now rewrite R.
Qed.
(** ... and of [Max] exactly when it is the least. *)
Theorem C60_max_empty_partial : forall T (cmp : T -> T -> comparison) d, total_preorder cmp ->
  (monoid_laws (max_combine cmp) (max_empty d) <-> forall x, cmp x d = Gt \/ x = d).
Proof.
  intros T cmp d O. pose proof (C60_max_semigroup T cmp O) as (_ & A & _). destruct O as (R & S & Tr). split.
  - intros (_ & L & _) x. specialize (L (mkMax x)). unfold max_combine in L. cbn in L.
    rewrite (S d x). destruct (cmp d x) eqn:E; cbn; auto; injection L; auto.
  - intros H. split; [auto|split].
    + intros [x]. unfold max_combine. cbn. rewrite (S x d). destruct (H x) as [-> | ->]; cbn; auto. now rewrite R.
    + intros [x]. unfold max_combine. cbn. destruct (H x) as [-> | ->]; auto. now rewrite R.
Qed.
Lemma Nat_order : total_order Nat.compare.
Proof.
  split; [split; [|split]|].
  - apply Nat.compare_refl.
  - apply Nat.compare_antisym.
  - intros x y z. rewrite !Nat.compare_le_iff. lia.
  - apply Nat.compare_eq.
Qed.
Lemma Z_order : total_order Z.compare.
Proof.
  split; [split; [|split]|].
  - apply Z.compare_refl.
  - intros x y. apply Z.compare_antisym.
  - intros x y z. rewrite !Z.compare_le_iff. lia.
  - apply Z.compare_eq.
Qed.
(** For numbers, whose default is zero: [Min] has no identity; [Max] has one for
    unsigned numbers only. *)
Theorem C60_min_numbers_refuted :
  ~ monoid_laws (min_combine Nat.compare) (min_empty 0) /\ ~ monoid_laws (min_combine Z.compare) (min_empty 0%Z).
Proof.
  split; intros (_ & L & _).
  - specialize (L (mkMin 5)). discriminate.
  - specialize (L (mkMin 5%Z)). discriminate.
Qed.
Theorem C60_max_signed_refuted : ~ monoid_laws (max_combine Z.compare) (max_empty 0%Z).
Proof. intros (_ & L & _). specialize (L (mkMax (-5)%Z)). discriminate. Qed.
Theorem C60_max_unsigned : monoid_laws (max_combine Nat.compare) (max_empty 0).
Proof.
  apply C60_max_empty_partial; [apply Nat_order|]. intros [|x]; [now right | now left].
Qed.
Theorem C60_functor :
  functor_laws min (fun _ => eq) (@min_fmap) /\ functor_laws max (fun _ => eq) (@max_fmap) /\
  (forall T (s : min T) d, min_unwrap_or s d = min_unwrap s) /\
  (forall T (s : max T) d, max_unwrap_or s d = max_unwrap s).
Proof. repeat split; intros; try (destruct x; reflexivity). Qed.
Example C60_case : total_order Nat.compare /\ min_combine Nat.compare (mkMin 4) (mkMin 2) = mkMin 2 /\
  max_combine Nat.compare (mkMax 4) (mkMax 2) = mkMax 4 /\
  min_combine Nat.compare (min_empty 0) (mkMin 2) = mkMin 0.
Proof. split; [apply Nat_order|]. repeat split. Qed.

(** ** C61 *)
Theorem C61_first_monoid : forall T, monoid_laws (@first_combine T) first_empty.
Proof. intros T. split; [|split]; intros [[x| ]]; intros; reflexivity. Qed.
Theorem C61_last_monoid : forall T, monoid_laws (@last_combine T) last_empty.
Proof.
  intros T. split; [|split].
  - intros x y [[z| ]]; unfold last_combine; cbn; auto.
  - intros [[x| ]]; reflexivity.
  - intros [[x| ]]; reflexivity.
Qed.
(** Combining a sequence keeps the first (last) value that is present. *)
Theorem C61_first_of_list : forall T (l : list (first T)),
  first_val (fold_left first_combine l first_empty) = hd_error (present (map first_val l)).
Proof.
  intros T l. assert (G : forall a, first_val (fold_left first_combine l a) =
    match first_val a with Some x => Some x | None => hd_error (present (map first_val l)) end).
  { induction l as [|[[y| ]] l IH]; intros [[x| ]]; cbn; auto; rewrite IH; reflexivity. }
  apply (G first_empty).
Qed.
Theorem C61_last_of_list : forall T (l : list (last T)),
  last_val (fold_left last_combine l last_empty) = hd_error (rev (present (map last_val l))).
Proof.
  intros T l. induction l as [|a l IH] using rev_ind; [reflexivity|].
  rewrite fold_left_app, map_app. cbn [fold_left map].
  assert (P : forall (u v : list (option T)), present (u ++ v) = present u ++ present v).
  { induction u as [|[x|] u IHu]; intros v; cbn; auto. now rewrite IHu. }
  rewrite P, rev_app_distr. unfold last_combine at 1. destruct a as [[x| ]]; cbn; auto.
Qed.
Theorem C61_from : forall T (x : T) (a : first T) (b : last T),
  first_unwrap (first_from x) = Ret x /\ last_unwrap (last_from x) = Ret x /\
  first_combine (first_from x) a = first_from x /\ last_combine b (last_from x) = last_from x.
Proof. intros T x [[a| ]] [[b| ]]; repeat split; reflexivity. Qed.
(** Taking the value out panics exactly when there is none. *)
Theorem C61_unwrap : forall T (a : first T) (b : last T) d,
  (forall x, first_unwrap a = Ret x <-> first_val a = Some x) /\
  (forall x, last_unwrap b = Ret x <-> last_val b = Some x) /\
  (first_unwrap a = Panic <-> first_val a = None) /\ (last_unwrap b = Panic <-> last_val b = None) /\
  (forall x, first_unwrap a = Ret x -> first_unwrap_or a d = x) /\
  (first_unwrap a = Panic -> first_unwrap_or a d = d) /\
  (forall x, last_unwrap b = Ret x -> last_unwrap_or b d = x) /\
  (last_unwrap b = Panic -> last_unwrap_or b d = d).
Proof.
  intros T [[x| ]] [[y| ]] d; unfold first_unwrap, last_unwrap, first_unwrap_or, last_unwrap_or; cbn;
    repeat split; intros; try congruence; auto.
Qed.
Theorem C61_functor :
  functor_laws first (fun _ => eq) (@first_fmap) /\ functor_laws last (fun _ => eq) (@last_fmap) /\
  (forall T U (f : T -> U) a b, first_fmap f (first_combine a b) = first_combine (first_fmap f a) (first_fmap f b)) /\
  (forall T U (f : T -> U) a b, last_fmap f (last_combine a b) = last_combine (last_fmap f a) (last_fmap f b)).
Proof.
  split; [|split; [|split]].
  - split; intros; destruct x as [[y| ]]; reflexivity.
  - split; intros; destruct x as [[y| ]]; reflexivity.
  - intros T U f [[x| ]] [[y| ]]; reflexivity.
  - intros T U f [[x| ]] [[y| ]]; reflexivity.
Qed.
Example C61_case :
  fold_left first_combine [mkFirst None; mkFirst (Some 3); mkFirst (Some 4)] first_empty = mkFirst (Some 3) /\
  fold_left last_combine [mkLast (Some 3); mkLast (Some 4); mkLast None] last_empty = mkLast (Some 4).
Proof. split; reflexivity. Qed.

(** ** C62 *)
(** Laws that hold even when the closures panic. *)
Theorem C62_laws_with_panics : forall A (p q r : predicate A) a,
  let U := pd_union in let I := pd_intersection in let N := pd_negate in
  U (U p q) r a = U p (U q r) a /\ I (I p q) r a = I p (I q r) a /\
  U p p a = p a /\ I p p a = p a /\
  U p (I p q) a = p a /\ I p (U p q) a = p a /\
  I p (U q r) a = U (I p q) (I p r) a /\ U p (I q r) a = I (U p q) (U p r) a /\
  N (U p q) a = I (N p) (N q) a /\ N (I p q) a = U (N p) (N q) a /\ N (N p) a = p a /\
  pd_diff p q a = I p (N q) a /\
  U pd_empty p a = p a /\ U p pd_empty a = p a /\ I pd_empty p a = Ret false.
Proof.
  intros. subst U I N. unfold pd_union, pd_intersection, pd_negate, pd_diff, pd_empty, orelse, andalso, onegb, obind.
  destruct (p a) as [[]|], (q a) as [[]|], (r a) as [[]|]; cbn; repeat split.
Qed.
(** The remaining laws of a Boolean algebra, at points where the closures do not panic. *)
Theorem C62_boolean_algebra : forall A (p q : predicate A) a x y, p a = Ret x -> q a = Ret y ->
  let U := pd_union in let I := pd_intersection in let N := pd_negate in
  U p q a = U q p a /\ I p q a = I q p a /\
  U p (N p) a = Ret true /\ I p (N p) a = Ret false /\
  I p (fun _ => Ret true) a = p a /\ U p (fun _ => Ret true) a = Ret true /\ I p pd_empty a = Ret false /\
  pd_contains (U p q) a = Ret (x || y) /\ pd_contains (I p q) a = Ret (x && y) /\
  pd_contains (N p) a = Ret (negb x) /\ pd_contains (pd_diff p q) a = Ret (x && negb y).
Proof.
  intros A p q a x y P Q U I N. subst U I N.
  unfold pd_contains, pd_union, pd_intersection, pd_negate, pd_diff, pd_empty, orelse, andalso, onegb, obind.
  rewrite P, Q. destruct x, y; repeat split.
Qed.
(** [combine] with [empty] is a monoid, panics included. *)
Theorem C62_monoid : forall A (p q r : predicate A) a,
  pd_combine (pd_combine p q) r a = pd_combine p (pd_combine q r) a /\
  pd_combine pd_empty p a = p a /\ pd_combine p pd_empty a = p a.
Proof.
  intros. unfold pd_combine, pd_union, pd_empty, orelse, obind.
  destruct (p a) as [[]|], (q a) as [[]|], (r a) as [[]|]; cbn; repeat split.
Qed.
(** Combining a list of predicates asks whether any of them holds. *)
Theorem C62_combine_list : forall A (ps : list (A -> bool)) a,
  fold_left pd_combine (map (fun (p : A -> bool) x => Ret (p x)) ps) pd_empty a = Ret (existsb (fun p => p a) ps).
Proof.
  intros A ps a. assert (G : forall (q : predicate A) b, q a = Ret b ->
    fold_left pd_combine (map (fun (p : A -> bool) x => Ret (p x)) ps) q a = Ret (b || existsb (fun p => p a) ps)).
  { induction ps as [|p ps IH]; intros q b Q; cbn.
    - now rewrite orb_false_r.
    - rewrite (IH _ (b || p a)); [now rewrite orb_assoc|].
      unfold pd_combine, pd_union, orelse, obind. rewrite Q. now destruct b. }
  now rewrite (G pd_empty false).
Qed.
(** With a panicking closure, [union] is not commutative. *)
Theorem C62_commutative_with_panics_refuted : exists (p q : predicate nat) a, pd_union p q a <> pd_union q p a.
Proof. exists (fun _ => Ret true), (fun _ => Panic), 0. discriminate. Qed.
Example C62_case : let even := fun n => Ret (Nat.even n) in let big := fun n => Ret (Nat.ltb 3 n) in
  map (pd_union even big) [2; 3; 5] = [Ret true; Ret false; Ret true] /\
  map (pd_diff even big) [2; 4] = [Ret true; Ret false].
Proof. split; reflexivity. Qed.

(** ** C81 *)
Section Evaluate.
Context {W : Type}.
(** The helpers run the thunk first, then the other thunk, then the closure,
    each exactly once, and stop at the first panic. *)
Theorem C81_order : forall A C O (t : thunk W A) (o : thunk W C) (f : A -> eff W O) (g : A -> C -> eff W O)
    (k : A -> eff W (thunk W C)) (p : A -> eff W bool) w a w1, t w = (Ret a, w1) ->
  ev_map t f w = f a w1 /\
  (forall c w2, o w1 = (Ret c, w2) -> ev_combine t o g w = g a c w2) /\
  (forall w2, o w1 = (Panic, w2) -> ev_combine t o g w = (Panic, w2)) /\
  (forall u w2, k a w1 = (Ret u, w2) -> ev_bind t k w = u w2) /\
  (forall w2, k a w1 = (Panic, w2) -> ev_bind t k w = (Panic, w2)) /\
  (forall b w2, p a w1 = (Ret b, w2) -> ev_filter t p w = (Ret (if b then Some a else None), w2)) /\
  (forall w2, p a w1 = (Panic, w2) -> ev_filter t p w = (Panic, w2)).
Proof.
  intros. unfold ev_map, ev_combine, ev_bind, ev_filter, th_evaluate, eff_bind, eff_ret.
  rewrite H. repeat split; intros; rewrite ?H0; reflexivity.
Qed.
Theorem C81_panic : forall A C O (t : thunk W A) (o : thunk W C) (f : A -> eff W O) (g : A -> C -> eff W O)
    (k : A -> eff W (thunk W C)) (p : A -> eff W bool) w w1, t w = (Panic, w1) ->
  ev_map t f w = (Panic, w1) /\ ev_combine t o g w = (Panic, w1) /\ ev_bind t k w = (Panic, w1) /\
  ev_filter t p w = (Panic, w1).
Proof.
  intros. unfold ev_map, ev_combine, ev_bind, ev_filter, th_evaluate, eff_bind. rewrite H. repeat split.
Qed.
(** [map_evaluate] and [bind_evaluate] obey the functor and monad laws, with equal effects. *)
Theorem C81_laws : forall A B C (t : thunk W A) (f : A -> eff W B) (g : B -> eff W C)
    (k : A -> eff W (thunk W B)) (a : A) w,
  ev_map t (fun x => eff_ret x) w = t w /\
  ev_map (ev_map t f) g w = ev_map t (fun x => eff_bind (f x) g) w /\
  ev_bind (eff_ret a) k w = eff_bind (k a) (fun u => u) w /\
  ev_bind t (fun x => eff_ret (eff_ret x)) w = t w /\
  ev_map (ev_bind t k) g w = ev_bind t (fun x => eff_bind (k x) (fun u => eff_ret (ev_map u g))) w.
Proof.
  intros. unfold ev_map, ev_bind, th_evaluate, eff_bind, eff_ret.
  destruct (k a w) as [[y| ] w2]; destruct (t w) as [[x| ] w1]; cbn; auto.
  all: destruct (f x w1) as [[z| ] w3]; cbn; auto; destruct (k x w1) as [[u| ] w4]; cbn; auto.
  all: destruct (g z w3); auto.
  all: repeat split; auto.
Qed.
End Evaluate.
(** A thunk is evaluated anew every time: evaluating it [n] times repeats its effect [n] times. *)
Fixpoint evaluate_times {W A} (t : thunk W A) (n : nat) (w : W) : W :=
  match n with 0 => w | S n' => evaluate_times t n' (snd (th_evaluate t w)) end.
Theorem C81_no_caching : forall A (a : A) e n w,
  evaluate_times (fun w : list nat => (Ret a, w ++ [e])) n w = w ++ repeat e n.
Proof.
  intros A a e n. induction n as [|n IH]; intros w; cbn; [now rewrite app_nil_r|].
  rewrite IH, <- app_assoc. reflexivity.
Qed.
Example C81_case :
  let t := fun w : list nat => (Ret 5, w ++ [1]) in let o := fun w : list nat => (Ret 6, w ++ [2]) in
  ev_combine t o (fun a c w => (Ret (a + c), w ++ [3])) [] = (Ret 11, [1; 2; 3]) /\
  ev_filter t (fun a w => (Ret (Nat.even a), w ++ [4])) [] = (Ret None, [1; 4]).
Proof. split; reflexivity. Qed.

Print Assumptions C59_lawful_arithmetic.
Print Assumptions C59_functor.
Print Assumptions C59_groupings_agree.
Print Assumptions C59_product_groupings_agree.
Print Assumptions C59_unsigned_sum_partial.
Print Assumptions C59_positive_product_partial.
Print Assumptions C59_sum_fits.
Print Assumptions C59_product_fits.
Print Assumptions C59_signed_sum_refuted.
Print Assumptions C59_product_with_zero_refuted.
Print Assumptions C59_identity.
Print Assumptions C59_wrapping_sum.
Print Assumptions C59_wrapping_product.
Print Assumptions C59_float_sum_refuted.
Print Assumptions C59_float_identity.
Print Assumptions C60_min_semigroup.
Print Assumptions C60_max_semigroup.
Print Assumptions C60_min_empty_partial.
Print Assumptions C60_max_empty_partial.
Print Assumptions C60_min_numbers_refuted.
Print Assumptions C60_max_signed_refuted.
Print Assumptions C60_max_unsigned.
Print Assumptions C60_functor.
Print Assumptions C61_first_monoid.
Print Assumptions C61_last_monoid.
Print Assumptions C61_first_of_list.
Print Assumptions C61_last_of_list.
Print Assumptions C61_unwrap.
Print Assumptions C61_functor.
Print Assumptions C62_laws_with_panics.
Print Assumptions C62_boolean_algebra.
Print Assumptions C62_monoid.
Print Assumptions C62_combine_list.
Print Assumptions C62_commutative_with_panics_refuted.
Print Assumptions C81_order.
Print Assumptions C81_panic.
Print Assumptions C81_laws.
Print Assumptions C81_no_caching.
Print Assumptions C61_from.

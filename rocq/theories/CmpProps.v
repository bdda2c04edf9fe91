(** C93: comparing and hashing the data types. *)
From Coq Require Import List Arith Bool Lia.
From Verif Require Import Base Types SumModel ValidatedModel ChoiceModel EffModel ErrModel WrapModel
  OrdModel OrdSpec OrdProps CmpModel CmpSpec.
Import ListNotations.

Section Total.
Context {A B : Type} (ca : A -> A -> comparison) (cb : B -> B -> comparison).
Hypothesis HA : total_order ca.
Hypothesis HB : total_order cb.
Let ga := good_of_total ca HA.
Let gb := good_of_total cb HB.
Lemma good_maybe m : good (maybe_cmp ca) m.
Proof.
  destruct m as [x|].
  - destruct (ga x) as (G1 & G2 & G3 & G4). repeat split; intros; repeat match goal with m : maybe A |- _ => destruct m end;
    cbn in *; try discriminate; auto.
    + f_equal. now apply G1.
    + injection H as <-. now apply G1.
    + eapply G3; eauto.
    + eapply G4; eauto.
  - repeat split; intros; repeat match goal with m : maybe A |- _ => destruct m end; cbn in *; auto; discriminate.
Qed.
Lemma good_either m : good (either_cmp ca cb) m.
Proof.
  destruct m as [x|x]; [destruct (ga x) as (G1 & G2 & G3 & G4)|destruct (gb x) as (G1 & G2 & G3 & G4)];
  repeat split; intros; repeat match goal with m : either A B |- _ => destruct m end; cbn in *; try discriminate; auto;
  try (f_equal; now apply G1); try (injection H as <-; now apply G1); try (eapply G3; now eauto); eapply G4; eauto.
Qed.
Lemma good_result m : good (result_cmp ca cb) m.
Proof.
  destruct m as [x|x]; [destruct (ga x) as (G1 & G2 & G3 & G4)|destruct (gb x) as (G1 & G2 & G3 & G4)];
  repeat split; intros; repeat match goal with m : result A B |- _ => destruct m end; cbn in *; try discriminate; auto;
  try (f_equal; now apply G1); try (injection H as <-; now apply G1); try (eapply G3; now eauto); eapply G4; eauto.
Qed.
Lemma good_validated m : good (validated_cmp ca cb) m.
Proof.
  destruct m as [x|x]; [destruct (gb x) as (G1 & G2 & G3 & G4)|destruct (good_list' ca ga x) as (G1 & G2 & G3 & G4)];
  repeat split; intros; repeat match goal with m : validated A B |- _ => destruct m end;
  cbn [validated_cmp CompOpp] in *; try discriminate; auto;
  try (f_equal; now apply G1); try (injection H as <-; now apply G1); try (eapply G3; now eauto); eapply G4; eauto.
Qed.
Lemma good_writer m : good (writer_cmp ca cb) m.
Proof.
  apply (good_via (fun w => (w_log w, w_value w)) _
    (fun p q => then_cmp (ca (fst p) (fst q)) (cb (snd p) (snd q)))).
  - reflexivity.
  - intros [x y] [z t]; cbn; congruence.
  - apply good_then; auto.
Qed.
End Total.

Theorem C93_total_order : forall A B (ca : A -> A -> comparison) (cb : B -> B -> comparison),
  total_order ca -> total_order cb ->
  total_order (maybe_cmp ca) /\ total_order (either_cmp ca cb) /\ total_order (validated_cmp ca cb) /\
  total_order (writer_cmp ca cb) /\ total_order (choice_cmp ca) /\ total_order (id_cmp ca) /\
  total_order (min_cmp ca) /\ total_order (max_cmp ca) /\ total_order (sum_cmp ca) /\
  total_order (product_cmp ca) /\ total_order (first_cmp ca) /\ total_order (last_cmp ca).
Proof.
  intros A B ca cb HA HB. pose proof (good_of_total ca HA) as ga.
  split; [|split; [|split; [|split; [|split; [|split; [|split; [|split; [|split; [|split; [|split]]]]]]]]]];
  apply total_of_good; intros m.
  - now apply good_maybe.
  - now apply good_either.
  - now apply good_validated.
  - now apply good_writer.
  - apply (good_via (@values A) _ (list_cmp ca)); [reflexivity|intros [x] [y]; cbn; congruence|now apply good_list'].
  - apply (good_via (@id_value A) _ ca); [reflexivity|intros [x] [y]; cbn; congruence|auto].
  - apply (good_via (@min_val A) _ ca); [reflexivity|intros [x] [y]; cbn; congruence|auto].
  - apply (good_via (@max_val A) _ ca); [reflexivity|intros [x] [y]; cbn; congruence|auto].
  - apply (good_via (@sum_val A) _ ca); [reflexivity|intros [x] [y]; cbn; congruence|auto].
  - apply (good_via (@product_val A) _ ca); [reflexivity|intros [x] [y]; cbn; congruence|auto].
  - apply (good_via (@first_val A) _ (option_cmp ca)); [reflexivity|intros [x] [y]; cbn; congruence|now apply good_option].
  - apply (good_via (@last_val A) _ (option_cmp ca)); [reflexivity|intros [x] [y]; cbn; congruence|now apply good_option].
Qed.

(** ** Equality *)
Lemma seq_eqb_decides {A} (ea : A -> A -> bool) : decides ea -> decides (seq_eqb ea).
Proof.
  intros H l. induction l as [|x l IH]; intros [|y m]; cbn; try easy.
  rewrite andb_true_iff, (H x y), (IH m). split; [intros (-> & ->); reflexivity|now intros [= -> ->]].
Qed.
Lemma opt_eqb_decides {A} (ea : A -> A -> bool) : decides ea -> decides (opt_eqb ea).
Proof. intros H [x|] [y|]; cbn; try easy. rewrite (H x y). split; congruence. Qed.
Theorem C93_equality : forall A B (ea : A -> A -> bool) (eb : B -> B -> bool),
  decides ea -> decides eb ->
  decides (maybe_eqb ea) /\ decides (either_eqb ea eb) /\ decides (validated_eqb ea eb) /\
  decides (writer_eqb ea eb) /\ decides (choice_eqb ea) /\ decides (id_eqb ea) /\
  decides (min_eqb ea) /\ decides (max_eqb ea) /\ decides (sum_eqb ea) /\
  decides (product_eqb ea) /\ decides (first_eqb ea) /\ decides (last_eqb ea) /\ decides (apperr_eqb ea eb).
Proof.
  intros A B ea eb HA HB. pose proof (seq_eqb_decides ea HA) as HS. pose proof (opt_eqb_decides ea HA) as HO.
  pose proof (opt_eqb_decides eb HB) as HP.
  repeat match goal with |- _ /\ _ => split end.
  - intros [x|] [y|]; cbn; try easy. rewrite (HA x y). split; congruence.
  - intros [x|x] [y|y]; cbn; try easy; [rewrite (HA x y)|rewrite (HB x y)]; split; congruence.
  - intros [x|x] [y|y]; cbn [validated_eqb]; try easy; [rewrite (HB x y)|rewrite (HS x y)]; split; congruence.
  - intros [x y] [z t]; cbn. unfold writer_eqb; cbn. rewrite andb_true_iff, (HA x z), (HB y t).
    split; [intros (-> & ->); reflexivity|now intros [= -> ->]].
  - intros [x] [y]. unfold choice_eqb. cbn [values]. rewrite (HS x y). split; congruence.
  - intros [x] [y]. unfold id_eqb. cbn [id_value]. rewrite (HA x y). split; congruence.
  - intros [x] [y]. unfold min_eqb. cbn [min_val]. rewrite (HA x y). split; congruence.
  - intros [x] [y]. unfold max_eqb. cbn [max_val]. rewrite (HA x y). split; congruence.
  - intros [x] [y]. unfold sum_eqb. cbn [sum_val]. rewrite (HA x y). split; congruence.
  - intros [x] [y]. unfold product_eqb. cbn [product_val]. rewrite (HA x y). split; congruence.
  - intros [x] [y]. unfold first_eqb. cbn [first_val]. rewrite (HO x y). split; congruence.
  - intros [x] [y]. unfold last_eqb. cbn [last_val]. rewrite (HO x y). split; congruence.
  - intros [x y] [z t]. unfold apperr_eqb. cbn [ae_message ae_context].
    rewrite andb_true_iff, (HA x z), (HP y t). split; [intros (-> & ->); reflexivity|now intros [= -> ->]].
Qed.

(** ** Which order it is *)
Theorem C93_which_order : forall A B (ca : A -> A -> comparison) (cb : B -> B -> comparison),
  total_order ca -> total_order cb ->
  let lta := fun x y => ca x y = Lt in
  let ltb := fun x y => cb x y = Lt in
  (forall m n, maybe_cmp ca m n = Lt <-> maybe_before lta m n) /\
  (forall m n, either_cmp ca cb m n = Lt <-> either_before lta ltb m n) /\
  (forall m n, validated_cmp ca cb m n = Lt <-> validated_before ca ltb m n) /\
  (forall m n, writer_cmp ca cb m n = Lt <-> writer_before lta ltb m n) /\
  (forall m n, choice_cmp ca m n = Lt <-> before ca (values m) (values n)) /\
  (forall m n, first_cmp ca (mkFirst m) (mkFirst n) = Lt <-> option_before lta m n) /\
  (forall m n, last_cmp ca (mkLast m) (mkLast n) = Lt <-> option_before lta m n).
Proof.
  intros A B ca cb HA HB lta ltb.
  split; [|split; [|split; [|split; [|split; [|split]]]]].
  - intros [x|] [y|]; cbn; split; intros H; try discriminate; try (constructor; exact H); try constructor;
    inversion H; subst; auto.
  - intros [x|x] [y|y]; cbn; split; intros H; try discriminate; try (constructor; exact H); try constructor;
    inversion H; subst; auto.
  - intros [x|x] [y|y]; cbn [validated_cmp]; split; intros H; try discriminate; try (constructor; exact H); try constructor;
    try (inversion H; subst; now auto).
    + now apply list_cmp_before in H.
    + inversion H; subst. now apply list_cmp_before.
  - intros [k x] [l y]. unfold writer_cmp, then_cmp; cbn. split.
    + destruct (ca k l) eqn:E; intros H; try discriminate.
      * apply HA in E. subst l. now constructor 2.
      * now constructor 1.
    + intros H. inversion H; subst.
      * unfold lta in *. now match goal with H : ca k l = Lt |- _ => rewrite H end.
      * now rewrite (proj2 (proj1 HA l l) eq_refl).
  - intros m n. apply (list_cmp_before ca HA).
  - intros [x|] [y|]; cbn; split; intros H; try discriminate; try (constructor; exact H); try constructor; inversion H; subst; auto.
  - intros [x|] [y|]; cbn; split; intros H; try discriminate; try (constructor; exact H); try constructor; inversion H; subst; auto.
Qed.

(** ** Conversions *)
(** Wrapping and unwrapping loses no comparison; [Maybe] and [Validated] are
    ordered like [Result], [Writer] like its pair, [Choice] like a slice. *)
Theorem C93_conversions_partial : forall A B (ca : A -> A -> comparison) (cb : B -> B -> comparison),
  total_order ca -> total_order cb ->
  same_order (id_cmp ca) ca id_extract /\ same_order ca (id_cmp ca) id_pure /\
  same_order (min_cmp ca) ca min_unwrap /\ same_order (max_cmp ca) ca max_unwrap /\
  same_order (sum_cmp ca) ca sum_unwrap /\ same_order (product_cmp ca) ca product_unwrap /\
  same_order ca (first_cmp ca) first_from /\ same_order ca (last_cmp ca) last_from /\
  same_order ca (maybe_cmp ca) mb_pure /\ same_order cb (either_cmp ca cb) ei_pure /\
  same_order cb (validated_cmp ca cb) va_pure /\
  same_order (choice_cmp ca) (list_cmp ca) ch_to_vec /\ same_order (list_cmp ca) (choice_cmp ca) ch_from_vec /\
  same_order (writer_cmp ca cb) (pair_cmp ca cb) wr_run /\
  same_order (result_cmp cb ca) (validated_cmp ca cb) va_from_result /\
  (forall e, same_order (maybe_cmp cb) (result_cmp cb ca) (fun m => mb_to_result m e)).
Proof.
  intros A B ca cb HA HB.
  repeat match goal with |- _ /\ _ => split end; intros ?; try (intros ?; reflexivity).
  - intros y. unfold choice_cmp. destruct x, y; reflexivity.
  - intros y. destruct x, y; cbn; try reflexivity. now destruct (ca e e0).
  - intros x y. destruct x, y; cbn; try reflexivity. now apply HA.
Qed.
(** Conversions that forget something reverse no comparison. *)
Theorem C93_keeps_order : forall A B (ca : A -> A -> comparison) (cb : B -> B -> comparison),
  total_order ca -> total_order cb ->
  keeps_order (result_cmp ca cb) (maybe_cmp ca) mb_from_result /\
  keeps_order (either_cmp ca cb) (option_cmp cb) ei_right_option /\
  (forall v w r s, va_to_result v = Ret r -> va_to_result w = Ret s ->
     validated_cmp ca cb v w <> Gt -> result_cmp cb ca r s <> Gt) /\
  keeps_order (choice_cmp ca) (option_cmp ca) ch_first.
Proof.
  intros A B ca cb HA HB. split; [|split; [|split]].
  - intros [x|x] [y|y]; cbn; intros H; try discriminate; auto.
  - intros [x|x] [y|y]; cbn; intros H; try discriminate; auto.
  - intros [x|[|x l]] [y|[|y m]] r s; cbn [va_to_result]; intros Hr Hs; try discriminate;
    injection Hr as <-; injection Hs as <-; cbn; auto.
    unfold then_cmp. destruct (ca x y); auto; discriminate.
  - intros [[|x l]] [[|y m]]; cbn; intros H; try discriminate; auto.
    unfold choice_cmp in H; cbn in H. unfold then_cmp in H. destruct (ca x y); auto; discriminate.
Qed.
(** False of the code: an [Either] and its [Result], a [Maybe] and its [Option] or
    [Vec], a [Validated] and its [Option] are ordered the other way round, for all
    contents. *)
Theorem C93_conversions_refuted : forall A B (ca : A -> A -> comparison) (cb : B -> B -> comparison) (a : A) (b : B) (es : list A),
  either_cmp ca cb (Left a) (Right b) = Lt /\ result_cmp cb ca (SumModel.ei_to_result (Left a)) (SumModel.ei_to_result (Right b)) = Gt /\
  result_cmp cb ca (Ok b) (Err a) = Lt /\ either_cmp ca cb (ei_from_result (Ok b)) (ei_from_result (Err a)) = Gt /\
  either_cmp ca cb (result_to_either (Ok b)) (result_to_either (Err a)) = Gt /\
  maybe_cmp ca (Just a) Nothing = Lt /\ option_cmp ca (mb_to_option (Just a)) (mb_to_option Nothing) = Gt /\
  list_cmp ca (mb_to_vec (Just a)) (mb_to_vec Nothing) = Gt /\
  option_cmp ca None (Some a) = Lt /\ maybe_cmp ca (mb_from_option None) (mb_from_option (Some a)) = Gt /\
  validated_cmp ca cb (Valid b) (Invalid es) = Lt /\ option_cmp cb (va_to_option (@Valid A B b)) (va_to_option (Invalid es)) = Gt /\
  option_cmp ca (ei_left_option (@Left A B a)) (ei_left_option (Right b)) = Gt.
Proof. repeat split. Qed.

(** ** Mapping *)
(** A strictly increasing function keeps every comparison in every container. *)
Lemma list_cmp_map {A B} (ca : A -> A -> comparison) (cb : B -> B -> comparison) f :
  same_order ca cb f -> same_order (list_cmp ca) (list_cmp cb) (map f).
Proof.
  intros H l. induction l as [|x l IH]; intros [|y m]; try reflexivity.
  cbn. now rewrite (H x y), (IH m).
Qed.
Theorem C93_map_strict : forall A B C (ca : A -> A -> comparison) (cb : B -> B -> comparison) (cc : C -> C -> comparison) (f : A -> B),
  same_order ca cb f ->
  same_order (maybe_cmp ca) (maybe_cmp cb) (mb_fmap f) /\
  same_order (either_cmp cc ca) (either_cmp cc cb) (ei_fmap f) /\
  same_order (either_cmp ca cc) (either_cmp cb cc) (ei_fmap_left f) /\
  same_order (validated_cmp cc ca) (validated_cmp cc cb) (va_fmap f) /\
  same_order (validated_cmp ca cc) (validated_cmp cb cc) (va_fmap_invalid f) /\
  same_order (writer_cmp cc ca) (writer_cmp cc cb) (wr_fmap f) /\
  same_order (choice_cmp ca) (choice_cmp cb) (ch_fmap f) /\
  same_order (id_cmp ca) (id_cmp cb) (id_fmap f) /\
  same_order (min_cmp ca) (min_cmp cb) (min_fmap f) /\ same_order (max_cmp ca) (max_cmp cb) (max_fmap f) /\
  same_order (sum_cmp ca) (sum_cmp cb) (sum_fmap f) /\ same_order (product_cmp ca) (product_cmp cb) (product_fmap f) /\
  same_order (first_cmp ca) (first_cmp cb) (first_fmap f) /\ same_order (last_cmp ca) (last_cmp cb) (last_fmap f).
Proof.
  intros A B C ca cb cc f H. pose proof (list_cmp_map ca cb f H) as HL.
  repeat match goal with |- _ /\ _ => split end; intros x y.
  1-3,8-12: destruct x, y; cbn; auto; apply H.
  - destruct x, y; cbn [va_fmap validated_cmp]; auto.
  - destruct x, y; cbn [va_fmap_invalid validated_cmp]; auto.
  - unfold writer_cmp; cbn. now rewrite (H (w_value x) (w_value y)).
  - unfold choice_cmp. replace (values (ch_fmap f x)) with (map f (values x)) by now destruct x as [[|]].
    replace (values (ch_fmap f y)) with (map f (values y)) by now destruct y as [[|]]. apply HL.
  - destruct x as [[|]], y as [[|]]; cbn; auto; apply H.
  - destruct x as [[|]], y as [[|]]; cbn; auto; apply H.
Qed.
(** An increasing function that may identify values keeps the order of every
    container with one value ... *)
Theorem C93_map_monotone_partial : forall A B C (ca : A -> A -> comparison) (cb : B -> B -> comparison) (cc : C -> C -> comparison) (f : A -> B),
  keeps_order ca cb f ->
  keeps_order (maybe_cmp ca) (maybe_cmp cb) (mb_fmap f) /\
  keeps_order (either_cmp cc ca) (either_cmp cc cb) (ei_fmap f) /\
  keeps_order (either_cmp ca cc) (either_cmp cb cc) (ei_fmap_left f) /\
  keeps_order (validated_cmp cc ca) (validated_cmp cc cb) (va_fmap f) /\
  keeps_order (writer_cmp cc ca) (writer_cmp cc cb) (wr_fmap f) /\
  keeps_order (id_cmp ca) (id_cmp cb) (id_fmap f) /\
  keeps_order (min_cmp ca) (min_cmp cb) (min_fmap f) /\ keeps_order (max_cmp ca) (max_cmp cb) (max_fmap f) /\
  keeps_order (sum_cmp ca) (sum_cmp cb) (sum_fmap f) /\ keeps_order (product_cmp ca) (product_cmp cb) (product_fmap f) /\
  keeps_order (first_cmp ca) (first_cmp cb) (first_fmap f) /\ keeps_order (last_cmp ca) (last_cmp cb) (last_fmap f).
Proof.
  intros A B C ca cb cc f H.
  repeat match goal with |- _ /\ _ => split end; intros x y.
  5: unfold writer_cmp, then_cmp; cbn; destruct (cc (w_log x) (w_log y)); auto; apply H.
  10-11: destruct x as [[|]], y as [[|]]; cbn; auto; apply H.
  all: destruct x, y; cbn; auto; apply H.
Qed.
(** ... but not of a [Choice] or of the errors of a [Validated], whose first
    difference may be lost. *)
Theorem C93_map_monotone_refuted : exists (f : nat -> nat) (c d : choice nat) (v w : validated nat nat),
  keeps_order Nat.compare Nat.compare f /\
  choice_cmp Nat.compare c d = Lt /\ choice_cmp Nat.compare (ch_fmap f c) (ch_fmap f d) = Gt /\
  validated_cmp Nat.compare Nat.compare v w = Lt /\
  validated_cmp Nat.compare Nat.compare (va_fmap_invalid f v) (va_fmap_invalid f w) = Gt.
Proof.
  exists (fun n => Nat.div n 10), (mkChoice [1; 90]), (mkChoice [2; 0]), (Invalid [1; 90]), (Invalid [2; 0]).
  split; [|repeat split].
  intros x y H. rewrite Nat.compare_gt_iff in *.
  assert (x <= y) by lia. pose proof (Nat.div_le_mono x y 10 ltac:(lia) H0). lia.
Qed.

(** ** [Min] and [Max] combine by this order *)
Theorem C93_least_greatest : forall A (ca : A -> A -> comparison), total_order ca ->
  (forall a b, least_of (min_cmp ca) a b (min_combine ca a b)) /\
  (forall a b, greatest_of (max_cmp ca) a b (max_combine ca a b)) /\
  (forall a b c, min_cmp ca c a <> Gt -> min_cmp ca c b <> Gt -> min_cmp ca c (min_combine ca a b) <> Gt) /\
  (forall a b c, max_cmp ca a c <> Gt -> max_cmp ca b c <> Gt -> max_cmp ca (max_combine ca a b) c <> Gt) /\
  (forall a b, min_combine ca a b = min_combine ca b a) /\
  (forall a b, max_combine ca a b = max_combine ca b a).
Proof.
  intros A ca (H1 & H2 & H3).
  assert (R : forall x, ca x x = Eq) by (intros x; now apply H1).
  split; [|split; [|split; [|split; [|split]]]].
  - intros [a] [b]. unfold min_combine, min_cmp, least_of; cbn.
    destruct (ca a b) eqn:E; cbn; rewrite ?R, ?E; repeat split; auto; try discriminate.
    rewrite H2, E. discriminate.
  - intros [a] [b]. unfold max_combine, max_cmp, greatest_of; cbn.
    destruct (ca a b) eqn:E; cbn; rewrite ?R, ?E; repeat split; auto; try discriminate;
    rewrite H2, E; discriminate.
  - intros a b c. unfold min_combine, min_cmp. destruct (ca (min_val a) (min_val b)); auto.
  - intros a b c. unfold max_combine, max_cmp. destruct (ca (max_val a) (max_val b)); auto.
  - intros [a] [b]. unfold min_combine; cbn. rewrite (H2 a b). destruct (ca a b) eqn:E; cbn; auto.
    apply H1 in E. now subst.
  - intros [a] [b]. unfold max_combine; cbn. rewrite (H2 a b). destruct (ca a b) eqn:E; cbn; auto.
    apply H1 in E. now subst.
Qed.

(** ** Hashing *)
Theorem C93_hash : forall A B (ha : A -> list nat) (hb : B -> list nat),
  self_delimiting ha -> self_delimiting hb ->
  self_delimiting (maybe_hash ha) /\ self_delimiting (either_hash ha hb) /\
  self_delimiting (validated_hash ha hb) /\ self_delimiting (writer_hash ha hb) /\
  self_delimiting (choice_hash ha) /\ self_delimiting (id_hash ha) /\
  self_delimiting (min_hash ha) /\ self_delimiting (max_hash ha) /\ self_delimiting (sum_hash ha) /\
  self_delimiting (product_hash ha) /\ self_delimiting (first_hash ha) /\ self_delimiting (last_hash ha).
Proof.
  intros A B ha hb HA HB. pose proof (delimit_list' ha HA) as HL.
  assert (HO : self_delimiting (option_hash ha)).
  { intros [x|] [y|] r s; cbn; intros E; try discriminate; injection E as E; auto.
    apply HA in E. destruct E. now subst. }
  repeat match goal with |- _ /\ _ => split end.
  - intros [x|] [y|] r s; cbn; intros E; try discriminate; injection E as E; auto.
    apply HA in E. destruct E. now subst.
  - intros [x|x] [y|y] r s; cbn; intros E; try discriminate; injection E as E; [apply HA in E|apply HB in E];
    destruct E; now subst.
  - intros [x|x] [y|y] r s; cbn [validated_hash app]; intros E; try discriminate.
    + injection E as E. apply HB in E. destruct E. now subst.
    + assert (list_hash ha x ++ r = list_hash ha y ++ s) as E' by (unfold list_hash in *; injection E; cbn; congruence).
      apply HL in E'. destruct E'. now subst.
  - intros [x y] [z t] r s. unfold writer_hash; cbn. rewrite <- !app_assoc. intros E.
    apply HA in E as [-> E]. apply HB in E as [-> E]. auto.
  - intros [x] [y] r s E. apply HL in E as [E1 E2]. cbn in E1. now subst.
  - intros [x] [y] r s E. apply HA in E as [E1 E2]. cbn in E1. now subst.
  - intros [x] [y] r s E. apply HA in E as [E1 E2]. cbn in E1. now subst.
  - intros [x] [y] r s E. apply HA in E as [E1 E2]. cbn in E1. now subst.
  - intros [x] [y] r s E. apply HA in E as [E1 E2]. cbn in E1. now subst.
  - intros [x] [y] r s E. apply HA in E as [E1 E2]. cbn in E1. now subst.
  - intros [x] [y] r s E. apply HO in E as [E1 E2]. cbn in E1. now subst.
  - intros [x] [y] r s E. apply HO in E as [E1 E2]. cbn in E1. now subst.
Qed.

(** Equality of the elements need not be identity: equal containers hash alike and
    compare as equal as soon as this holds for the elements. *)
Lemma seq_eqb_hash {A} (ea : A -> A -> bool) (ha : A -> list nat) :
  (forall x y, ea x y = true -> ha x = ha y) -> forall l m, seq_eqb ea l m = true -> list_hash ha l = list_hash ha m.
Proof.
  intros H l m E.
  assert (F : forall k, list_hash ha k = length k :: flat_map ha k).
  { reflexivity. }
  rewrite !F. clear F.
  assert (length l = length m /\ flat_map ha l = flat_map ha m) as [-> ->]; [|reflexivity].
  revert m E. induction l as [|x l IH]; intros [|y m] E; try discriminate; auto.
  cbn in E. apply andb_prop in E as [E1 E2]. cbn. destruct (IH m E2) as [-> ->].
  split; [reflexivity|]. f_equal. now apply H.
Qed.
Theorem C93_hash_respects : forall A B (ea : A -> A -> bool) (eb : B -> B -> bool) (ha : A -> list nat) (hb : B -> list nat),
  (forall x y, ea x y = true -> ha x = ha y) -> (forall x y, eb x y = true -> hb x = hb y) ->
  (forall m n, maybe_eqb ea m n = true -> maybe_hash ha m = maybe_hash ha n) /\
  (forall m n, either_eqb ea eb m n = true -> either_hash ha hb m = either_hash ha hb n) /\
  (forall m n, validated_eqb ea eb m n = true -> validated_hash ha hb m = validated_hash ha hb n) /\
  (forall m n, writer_eqb ea eb m n = true -> writer_hash ha hb m = writer_hash ha hb n) /\
  (forall m n, choice_eqb ea m n = true -> choice_hash ha m = choice_hash ha n) /\
  (forall m n, id_eqb ea m n = true -> id_hash ha m = id_hash ha n) /\
  (forall m n, min_eqb ea m n = true -> min_hash ha m = min_hash ha n) /\
  (forall m n, max_eqb ea m n = true -> max_hash ha m = max_hash ha n) /\
  (forall m n, sum_eqb ea m n = true -> sum_hash ha m = sum_hash ha n) /\
  (forall m n, product_eqb ea m n = true -> product_hash ha m = product_hash ha n) /\
  (forall m n, first_eqb ea m n = true -> first_hash ha m = first_hash ha n) /\
  (forall m n, last_eqb ea m n = true -> last_hash ha m = last_hash ha n).
Proof.
  intros A B ea eb ha hb HA HB. pose proof (seq_eqb_hash ea ha HA) as HL.
  repeat match goal with |- _ /\ _ => split end; intros m n.
  4: unfold writer_eqb, writer_hash; intros E; apply andb_prop in E as [E1 E2]; now rewrite (HA _ _ E1), (HB _ _ E2).
  4: apply HL.
  4-8: apply HA.
  4-5: destruct m as [[|]], n as [[|]]; cbn; intros E; try discriminate; auto; f_equal; now apply HA.
  - destruct m, n; cbn; intros E; try discriminate; auto; f_equal; now apply HA.
  - destruct m, n; cbn; intros E; try discriminate; auto; f_equal; auto.
  - destruct m, n; cbn [validated_eqb validated_hash]; intros E; try discriminate; auto; f_equal; auto.
Qed.
Lemma seq_eqb_cmp {A} (ea : A -> A -> bool) (ca : A -> A -> comparison) :
  (forall x y, ea x y = true <-> ca x y = Eq) -> forall l m, seq_eqb ea l m = true <-> list_cmp ca l m = Eq.
Proof.
  intros H l. induction l as [|x l IH]; intros [|y m]; cbn; try easy.
  rewrite andb_true_iff, H, IH. unfold then_cmp. destruct (ca x y); easy.
Qed.
Theorem C93_equality_is_order : forall A B (ea : A -> A -> bool) (eb : B -> B -> bool) ca cb,
  (forall x y, ea x y = true <-> ca x y = Eq) -> (forall x y, eb x y = true <-> cb x y = Eq) ->
  (forall m n, maybe_eqb ea m n = true <-> maybe_cmp ca m n = Eq) /\
  (forall m n, either_eqb ea eb m n = true <-> either_cmp ca cb m n = Eq) /\
  (forall m n, validated_eqb ea eb m n = true <-> validated_cmp ca cb m n = Eq) /\
  (forall m n, writer_eqb ea eb m n = true <-> writer_cmp ca cb m n = Eq) /\
  (forall m n, choice_eqb ea m n = true <-> choice_cmp ca m n = Eq) /\
  (forall m n, id_eqb ea m n = true <-> id_cmp ca m n = Eq) /\
  (forall m n, min_eqb ea m n = true <-> min_cmp ca m n = Eq) /\
  (forall m n, max_eqb ea m n = true <-> max_cmp ca m n = Eq) /\
  (forall m n, sum_eqb ea m n = true <-> sum_cmp ca m n = Eq) /\
  (forall m n, product_eqb ea m n = true <-> product_cmp ca m n = Eq) /\
  (forall m n, first_eqb ea m n = true <-> first_cmp ca m n = Eq) /\
  (forall m n, last_eqb ea m n = true <-> last_cmp ca m n = Eq).
Proof.
  intros A B ea eb ca cb HA HB. pose proof (seq_eqb_cmp ea ca HA) as HL.
  repeat match goal with |- _ /\ _ => split end; intros m n.
  4: unfold writer_eqb, writer_cmp; rewrite andb_true_iff, HA, HB; unfold then_cmp; destruct (ca _ _); easy.
  4: apply HL.
  4-8: apply HA.
  4-5: destruct m as [[|]], n as [[|]]; cbn; try easy; apply HA.
  - destruct m, n; cbn; try easy; apply HA.
  - destruct m, n; cbn; try easy; first [apply HA|apply HB].
  - destruct m, n; cbn [validated_eqb validated_cmp]; try easy; first [apply HB|apply HL].
Qed.

(** ** Elements that may be incomparable *)
(** When all elements are comparable, [partial_cmp] is [cmp]. *)
Lemma list_pcmp_cmp {A} (pa : A -> A -> option comparison) ca :
  (forall x y, pa x y = Some (ca x y)) -> forall l m, list_pcmp pa l m = Some (list_cmp ca l m).
Proof.
  intros H l. induction l as [|x l IH]; intros [|y m]; try reflexivity.
  cbn. rewrite H, IH. unfold then_cmp. now destruct (ca x y).
Qed.
Theorem C93_partial_cmp : forall A B (pa : A -> A -> option comparison) (pb : B -> B -> option comparison) ca cb,
  (forall x y, pa x y = Some (ca x y)) -> (forall x y, pb x y = Some (cb x y)) ->
  (forall m n, maybe_pcmp pa m n = Some (maybe_cmp ca m n)) /\
  (forall m n, either_pcmp pa pb m n = Some (either_cmp ca cb m n)) /\
  (forall m n, validated_pcmp pa pb m n = Some (validated_cmp ca cb m n)) /\
  (forall m n, writer_pcmp pa pb m n = Some (writer_cmp ca cb m n)) /\
  (forall m n, choice_pcmp pa m n = Some (choice_cmp ca m n)) /\
  (forall m n, id_pcmp pa m n = Some (id_cmp ca m n)) /\
  (forall m n, min_pcmp pa m n = Some (min_cmp ca m n)) /\
  (forall m n, max_pcmp pa m n = Some (max_cmp ca m n)) /\
  (forall m n, sum_pcmp pa m n = Some (sum_cmp ca m n)) /\
  (forall m n, product_pcmp pa m n = Some (product_cmp ca m n)) /\
  (forall m n, first_pcmp pa m n = Some (first_cmp ca m n)) /\
  (forall m n, last_pcmp pa m n = Some (last_cmp ca m n)).
Proof.
  intros A B pa pb ca cb HA HB. pose proof (list_pcmp_cmp pa ca HA) as HL.
  repeat match goal with |- _ /\ _ => split end; intros m n.
  4: unfold writer_pcmp, writer_cmp; rewrite HA, HB; unfold then_cmp; now destruct (ca _ _).
  4: apply HL.
  4-8: apply HA.
  4-5: destruct m as [[|]], n as [[|]]; cbn; auto.
  - destruct m, n; cbn; auto.
  - destruct m, n; cbn; auto.
  - destruct m, n; cbn [validated_pcmp validated_cmp]; auto.
Qed.
(** An incomparable element makes its containers incomparable, unless something
    before it decides. *)
Theorem C93_incomparable : forall A B (pa : A -> A -> option comparison) (pb : B -> B -> option comparison)
    (x y : A) (p r s : list A) (v w : B),
  pa x y = None -> Forall (fun e => pa e e = Some Eq) p ->
  maybe_pcmp pa (Just x) (Just y) = None /\ first_pcmp pa (mkFirst (Some x)) (mkFirst (Some y)) = None /\
  last_pcmp pa (mkLast (Some x)) (mkLast (Some y)) = None /\
  either_pcmp pa pb (Left x) (Left y) = None /\ either_pcmp pb pa (Right x) (Right y) = None /\
  validated_pcmp pb pa (Valid x) (Valid y) = None /\ writer_pcmp pa pb (mkWriter x v) (mkWriter y w) = None /\
  choice_pcmp pa (mkChoice (p ++ x :: r)) (mkChoice (p ++ y :: s)) = None /\
  validated_pcmp pa pb (Invalid (p ++ x :: r)) (Invalid (p ++ y :: s)) = None /\
  maybe_pcmp pa (Just x) Nothing = Some Lt /\ either_pcmp pa pb (Left x) (Right v) = Some Lt /\
  (forall c, pb v w = Some c -> c <> Eq -> writer_pcmp pb pa (mkWriter v x) (mkWriter w y) = Some c) /\
  (forall (a b : A) c, pa a b = Some c -> c <> Eq ->
     choice_pcmp pa (mkChoice (p ++ a :: x :: r)) (mkChoice (p ++ b :: y :: s)) = Some c).
Proof.
  intros A B pa pb x y p r s v w H Hp.
  assert (HL : list_pcmp pa (p ++ x :: r) (p ++ y :: s) = None).
  { induction Hp as [|e p He Hp IH]; cbn; [now rewrite H|now rewrite He]. }
  repeat match goal with |- _ /\ _ => split end; auto.
  - unfold writer_pcmp; cbn. now rewrite H.
  - intros c Hc Hn. unfold writer_pcmp; cbn. rewrite Hc. now destruct c.
  - intros a b c Hc Hn. unfold choice_pcmp; cbn [values]. clear HL.
    induction Hp as [|e p He Hp IH]; cbn; [rewrite Hc; now destruct c|now rewrite He].
Qed.

(** ** Cases *)
Example C93_total_order_case :
  validated_cmp Nat.compare Nat.compare (Invalid [3; 1]) (Invalid [3; 2]) = Lt /\
  writer_cmp Nat.compare Nat.compare (mkWriter 2 1) (mkWriter 1 9) = Gt /\
  total_order (choice_cmp (maybe_cmp Nat.compare)).
Proof.
  split; [reflexivity|split; [reflexivity|]].
  apply (C93_total_order _ nat _ Nat.compare); [|apply nat_total].
  apply (C93_total_order _ nat _ Nat.compare); apply nat_total.
Qed.
Example C93_map_strict_case : same_order Nat.compare Nat.compare S /\
  choice_cmp Nat.compare (ch_fmap S (mkChoice [4; 1])) (ch_fmap S (mkChoice [4; 7])) = Lt.
Proof. split; [intros x y; reflexivity|reflexivity]. Qed.
Example C93_hash_case : self_delimiting (fun k : nat => [k]) /\
  validated_hash (fun k => [k]) (fun k : nat => [k]) (Invalid [5; 6]) = [1; 2; 5; 6].
Proof. split; [apply delimit_nat|reflexivity]. Qed.
(** texts compared by length only *)
Example C93_hash_respects_case :
  let ea := fun l m : list nat => length l =? length m in
  choice_eqb ea (mkChoice [[1]; [2; 3]]) (mkChoice [[7]; [8; 9]]) = true /\
  choice_hash (fun l => [length l]) (mkChoice [[1]; [2; 3]]) = [2; 1; 2] /\
  choice_cmp (fun l m => Nat.compare (length l) (length m)) (mkChoice [[1]; [2; 3]]) (mkChoice [[7]; [8; 9]]) = Eq.
Proof. repeat split. Qed.
(** numbers with one value comparable to nothing, as NaN is *)
Example C93_incomparable_case :
  let pa := fun x y => if (x =? 9) || (y =? 9) then None else Some (Nat.compare x y) in
  pa 9 9 = None /\ choice_pcmp pa (mkChoice [1; 9]) (mkChoice [1; 9]) = None /\
  choice_pcmp pa (mkChoice [1; 9]) (mkChoice [2; 9]) = Some Lt.
Proof. repeat split. Qed.
Example C93_least_case : min_combine Nat.compare (mkMin 3) (mkMin 2) = mkMin 2 /\ max_combine Nat.compare (mkMax 3) (mkMax 2) = mkMax 3.
Proof. split; reflexivity. Qed.

Print Assumptions C93_total_order.
Print Assumptions C93_equality.
Print Assumptions C93_which_order.
Print Assumptions C93_conversions_partial.
Print Assumptions C93_keeps_order.
Print Assumptions C93_conversions_refuted.
Print Assumptions C93_map_strict.
Print Assumptions C93_map_monotone_partial.
Print Assumptions C93_map_monotone_refuted.
Print Assumptions C93_least_greatest.
Print Assumptions C93_hash.
Print Assumptions C93_hash_respects.
Print Assumptions C93_equality_is_order.
Print Assumptions C93_partial_cmp.
Print Assumptions C93_incomparable.

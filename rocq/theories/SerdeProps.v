(** C99: writing to JSON and reading back. *)
From Coq Require Import String List ZArith Bool SpecFloat.
From Verif Require Import Base Types SumModel WrapModel ChoiceModel EffModel SerdeModel SerdeSpec.
Import ListNotations.
Open Scope string_scope.

Lemma option_map_iff {A B} (f : A -> B) (o : option A) (a : A) :
  (forall x y, f x = f y -> x = y) -> option_map f o = Some (f a) <-> o = Some a.
Proof.
  intros Hf. destruct o as [x|]; cbn; split; intros H; try discriminate H.
  - injection H as H. apply Hf in H. congruence.
  - congruence.
Qed.

Section Rules.
Context {A B C : Type} (c : codec A) (d : codec B).

Lemma newtype_iff (wrap : A -> C) inner b :
  (forall b, wrap (inner b) = b) -> (forall x y, wrap x = wrap y -> x = y) ->
  round_trips (newtype_codec wrap inner c) b <-> round_trips c (inner b).
Proof.
  intros H1 H2. unfold round_trips. cbn. rewrite <- (H1 b) at 2. now apply option_map_iff.
Qed.

Lemma struct1_iff key (wrap : A -> C) inner b :
  (forall b, wrap (inner b) = b) -> (forall x y, wrap x = wrap y -> x = y) ->
  round_trips (struct1_codec key wrap inner c) b <-> round_trips c (inner b).
Proof.
  intros H1 H2. unfold round_trips. cbn. unfold read_field. cbn [lookup]. rewrite String.eqb_refl.
  rewrite <- (H1 b) at 2. now apply option_map_iff.
Qed.

Lemma struct2_iff k1 k2 (wrap : A -> B -> C) get1 get2 b :
  k1 <> k2 -> (forall b, wrap (get1 b) (get2 b) = b) ->
  (forall x y x' y', wrap x y = wrap x' y' -> x = x' /\ y = y') ->
  round_trips (struct2_codec k1 k2 wrap get1 get2 c d) b
  <-> round_trips c (get1 b) /\ round_trips d (get2 b).
Proof.
  intros Hk H1 H2. unfold round_trips. cbn. unfold read_field. cbn [lookup].
  rewrite !String.eqb_refl. rewrite (proj2 (String.eqb_neq k1 k2) Hk).
  destruct (de c (ser c (get1 b))) as [x|]; cbn [obind_opt];
    [|split; [discriminate|intros [H _]; discriminate H]].
  destruct (de d (ser d (get2 b))) as [y|]; cbn [obind_opt];
    [|split; [discriminate|intros [_ H]; discriminate H]].
  split.
  - intros H. injection H as H. rewrite <- (H1 b) in H. apply H2 in H. destruct H as [-> ->].
    now split.
  - intros [E1 E2]. injection E1 as ->. injection E2 as ->. now rewrite H1.
Qed.

Lemma option_iff o :
  round_trips (option_codec c) o <->
  match o with None => True | Some a => ser c a <> JNull /\ round_trips c a end.
Proof.
  unfold round_trips. cbn. destruct o as [a|]; [|easy].
  assert (H : (match ser c a with JNull => Some None | _ => option_map Some (de c (ser c a)) end)
              = Some (Some a) <-> ser c a <> JNull /\ option_map Some (de c (ser c a)) = Some (Some a)).
  { destruct (ser c a); split; intros H; try discriminate H; try (split; [discriminate|exact H]);
    try (exact (proj2 H)). destruct H as [H _]. now contradiction H. }
  rewrite H. clear H. rewrite (option_map_iff (@Some A)); [reflexivity|congruence].
Qed.

Lemma list_iff l : round_trips (list_codec c) l <-> Forall (round_trips c) l.
Proof.
  unfold round_trips. cbn. induction l as [|a l IH]; cbn; [easy|].
  rewrite Forall_cons_iff, <- IH. clear IH.
  destruct (de c (ser c a)) as [x|]; cbn; [|split; [discriminate|intros [H _]; discriminate H]].
  destruct (read_all c (map (ser c) l)) as [y|]; cbn; [|split; [discriminate|intros [_ H]; discriminate H]].
  split.
  - intros H. injection H as -> ->. now split.
  - intros [E1 E2]. injection E1 as ->. injection E2 as ->. reflexivity.
Qed.

Lemma maybe_iff m :
  round_trips (maybe_codec c) m <-> match m with Just a => round_trips c a | Nothing => True end.
Proof.
  unfold round_trips. destruct m as [a|]; cbn; [|easy].
  apply option_map_iff. congruence.
Qed.

Lemma either_iff e :
  round_trips (either_codec c d) e <->
  match e with Left a => round_trips c a | Right b => round_trips d b end.
Proof. unfold round_trips. destruct e; cbn; apply option_map_iff; congruence. Qed.

Lemma validated_iff v :
  round_trips (validated_codec c d) v <->
  match v with Valid a => round_trips d a | Invalid es => Forall (round_trips c) es end.
Proof.
  destruct v as [a|es].
  - unfold round_trips. cbn. apply option_map_iff. congruence.
  - transitivity (round_trips (list_codec c) es); [|apply list_iff].
    unfold round_trips. cbn. apply option_map_iff. congruence.
Qed.
End Rules.

Lemma id_iff {A} (c : codec A) x : round_trips (id_codec c) x <-> round_trips c (id_value x).
Proof. apply struct1_iff; [now intros []|congruence]. Qed.
Lemma min_iff {A} (c : codec A) x : round_trips (min_codec c) x <-> round_trips c (min_val x).
Proof. apply newtype_iff; [now intros []|congruence]. Qed.
Lemma max_iff {A} (c : codec A) x : round_trips (max_codec c) x <-> round_trips c (max_val x).
Proof. apply newtype_iff; [now intros []|congruence]. Qed.
Lemma sum_iff {A} (c : codec A) x : round_trips (sum_codec c) x <-> round_trips c (sum_val x).
Proof. apply newtype_iff; [now intros []|congruence]. Qed.
Lemma product_iff {A} (c : codec A) x : round_trips (product_codec c) x <-> round_trips c (product_val x).
Proof. apply newtype_iff; [now intros []|congruence]. Qed.
Lemma first_iff {A} (c : codec A) x :
  round_trips (first_codec c) x <-> round_trips (option_codec c) (first_val x).
Proof. apply newtype_iff; [now intros []|congruence]. Qed.
Lemma last_iff {A} (c : codec A) x :
  round_trips (last_codec c) x <-> round_trips (option_codec c) (last_val x).
Proof. apply newtype_iff; [now intros []|congruence]. Qed.
Lemma choice_iff {A} (c : codec A) x :
  round_trips (choice_codec c) x <-> Forall (round_trips c) (values x).
Proof. rewrite <- list_iff. apply struct1_iff; [now intros []|congruence]. Qed.
Lemma writer_iff {W A} (c : codec W) (d : codec A) x :
  round_trips (writer_codec c d) x <-> round_trips c (w_log x) /\ round_trips d (w_value x).
Proof.
  apply struct2_iff; [discriminate|now intros []|]. intros x1 y1 x2 y2 H. now injection H as -> ->.
Qed.

Fixpoint inhabitant (t : ty) : sem t :=
  match t return sem t with
  | TInt => 0%Z | TFloat => S754_zero false | TBool => true | TStr => "" | TUnit => tt
  | TOption t => None | TVec t => []
  | TId t => mkId (inhabitant t) | TMin t => mkMin (inhabitant t) | TMax t => mkMax (inhabitant t)
  | TSum t => mkSum (inhabitant t) | TProduct t => mkProduct (inhabitant t)
  | TFirst t => mkFirst None | TLast t => mkLast None
  | TMaybe t => Nothing | TChoice t => mkChoice []
  | TEither l r => Left (inhabitant l)
  | TValidated e a => Valid (inhabitant a)
  | TWriter w a => mkWriter (inhabitant w) (inhabitant a)
  end.

Lemma nullable_true t : nullable t = true -> exists a, ser (codec_of t) a = JNull.
Proof.
  induction t; cbn [nullable sem codec_of]; intros H; try discriminate H.
  - exists S754_nan. reflexivity.
  - exists tt. reflexivity.
  - exists None. reflexivity.
  - destruct (IHt H) as [a Ha]. now exists (mkMin a).
  - destruct (IHt H) as [a Ha]. now exists (mkMax a).
  - destruct (IHt H) as [a Ha]. now exists (mkSum a).
  - destruct (IHt H) as [a Ha]. now exists (mkProduct a).
  - exists (mkFirst None). reflexivity.
  - exists (mkLast None). reflexivity.
Qed.
Lemma nullable_false t : nullable t = false -> forall a, ser (codec_of t) a <> JNull.
Proof.
  induction t; cbn [nullable sem codec_of]; intros H a; try discriminate H; try discriminate;
    try (apply (IHt H)); destruct a; discriminate.
Qed.

Lemma good_type t : unambiguous t = true -> forall a, round_trips (codec_of t) a.
Proof.
  induction t; cbn [unambiguous sem codec_of]; intros H x.
  - reflexivity.
  - discriminate H.
  - reflexivity.
  - reflexivity.
  - destruct x. reflexivity.
  - apply andb_prop in H. destruct H as [H1 H2]. apply negb_true_iff in H1.
    apply option_iff. destruct x as [a|]; [|exact I]. split; [now apply nullable_false|auto].
  - apply list_iff, Forall_forall. auto.
  - apply id_iff. auto.
  - apply min_iff. auto.
  - apply max_iff. auto.
  - apply sum_iff. auto.
  - apply product_iff. auto.
  - apply andb_prop in H. destruct H as [H1 H2]. apply negb_true_iff in H1.
    apply first_iff, option_iff. destruct (first_val x) as [a|]; [|exact I].
    split; [now apply nullable_false|auto].
  - apply andb_prop in H. destruct H as [H1 H2]. apply negb_true_iff in H1.
    apply last_iff, option_iff. destruct (last_val x) as [a|]; [|exact I].
    split; [now apply nullable_false|auto].
  - apply maybe_iff. destruct x; auto.
  - apply choice_iff, Forall_forall. auto.
  - apply andb_prop in H. destruct H. apply either_iff. destruct x; auto.
  - apply andb_prop in H. destruct H. apply validated_iff. destruct x; auto.
    apply Forall_forall. auto.
  - apply andb_prop in H. destruct H. apply writer_iff. auto.
Qed.

Lemma bad_option t : (nullable t = true \/ exists a, ~ round_trips (codec_of t) a) ->
  exists a, ~ round_trips (option_codec (codec_of t)) (Some a).
Proof.
  intros [H|[a H]].
  - destruct (nullable_true t H) as [a Ha]. exists a. rewrite option_iff. tauto.
  - exists a. rewrite option_iff. tauto.
Qed.

Lemma bad_type t : unambiguous t = false -> exists a, ~ round_trips (codec_of t) a.
Proof.
  induction t; cbn [unambiguous sem codec_of]; intros H; try discriminate H;
    try (destruct (IHt H) as [a Ha]).
  - exists S754_nan. discriminate.
  - destruct (bad_option t) as [a Ha].
    { apply andb_false_iff in H. destruct H as [H|H]; [left; now apply negb_false_iff in H|auto]. }
    now exists (Some a).
  - exists [a]. rewrite list_iff, Forall_cons_iff. tauto.
  - exists (mkId a). now rewrite id_iff.
  - exists (mkMin a). now rewrite min_iff.
  - exists (mkMax a). now rewrite max_iff.
  - exists (mkSum a). now rewrite sum_iff.
  - exists (mkProduct a). now rewrite product_iff.
  - destruct (bad_option t) as [a Ha].
    { apply andb_false_iff in H. destruct H as [H|H]; [left; now apply negb_false_iff in H|auto]. }
    exists (mkFirst (Some a)). now rewrite first_iff.
  - destruct (bad_option t) as [a Ha].
    { apply andb_false_iff in H. destruct H as [H|H]; [left; now apply negb_false_iff in H|auto]. }
    exists (mkLast (Some a)). now rewrite last_iff.
  - exists (Just a). now rewrite maybe_iff.
  - exists (mkChoice [a]). rewrite choice_iff. cbn [values]. rewrite Forall_cons_iff. tauto.
  - apply andb_false_iff in H. destruct H as [H|H].
    + destruct (IHt1 H) as [a Ha]. exists (Left a). now rewrite either_iff.
    + destruct (IHt2 H) as [a Ha]. exists (Right a). now rewrite either_iff.
  - apply andb_false_iff in H. destruct H as [H|H].
    + destruct (IHt1 H) as [a Ha]. exists (Invalid [a]). rewrite validated_iff, Forall_cons_iff. tauto.
    + destruct (IHt2 H) as [a Ha]. exists (Valid a). now rewrite validated_iff.
  - apply andb_false_iff in H. destruct H as [H|H].
    + destruct (IHt1 H) as [a Ha]. exists (mkWriter a (inhabitant t2)). rewrite writer_iff. tauto.
    + destruct (IHt2 H) as [a Ha]. exists (mkWriter (inhabitant t1) a). rewrite writer_iff. tauto.
Qed.

(** Every value of a type is read back as it was written exactly when it has no
    floats and no optional value ([Option], [First], [Last]) is directly around a type that can itself
    be written as null. *)
Theorem C99_round_trip_partial : forall t,
  (forall a, round_trips (codec_of t) a) <-> unambiguous t = true.
Proof.
  intros t. split; [|apply good_type]. intros H.
  destruct (unambiguous t) eqn:E; [reflexivity|].
  destruct (bad_type t E) as [a Ha]. contradiction (Ha (H a)).
Qed.

(** The same for every single value. *)
Lemma finite_iff x : is_finite x = true <-> ~ not_finite x.
Proof.
  unfold not_finite. destruct x as [s|s| |s m e]; cbn; split; intros H; try reflexivity; try discriminate H;
    try (intros [E|[? E]]; discriminate E).
  - contradiction H. right. now exists s.
  - contradiction H. now left.
Qed.
Lemma null_value_iff t : forall a, ser (codec_of t) a = JNull <-> null_value t a.
Proof.
  assert (O : forall t, (forall a, ser (codec_of t) a = JNull <-> null_value t a) ->
    forall o, ser (option_codec (codec_of t)) o = JNull <-> match o with Some a => null_value t a | None => True end).
  { intros u H [a|]; [apply H|]. cbn. tauto. }
  induction t; intros a;
    try (cbn [null_value sem codec_of] in *; split; [discriminate || (destruct a; discriminate)|contradiction]).
  - cbn. pose proof (finite_iff a) as F. unfold not_finite in *. destruct a as [s|s| |s m e]; cbn in *; split;
      intros H; try discriminate H; try reflexivity; try (destruct H as [H|[? H]]; discriminate H); eauto.
  - cbn. tauto.
  - apply (O t IHt).
  - apply (IHt (min_val a)).
  - apply (IHt (max_val a)).
  - apply (IHt (sum_val a)).
  - apply (IHt (product_val a)).
  - apply (O t IHt).
  - apply (O t IHt).
Qed.
Lemma survives_option t (IH : forall a, round_trips (codec_of t) a <-> survives t a) o :
  round_trips (option_codec (codec_of t)) o <-> (forall a, o = Some a -> ~ null_value t a /\ survives t a).
Proof.
  rewrite option_iff. destruct o as [a|].
  - rewrite null_value_iff, IH. split; [intros H b [= <-]; exact H|auto].
  - split; [discriminate|auto].
Qed.
Theorem C99_values : forall t a, round_trips (codec_of t) a <-> survives t a.
Proof.
  induction t; intros x; cbn [survives sem codec_of].
  - now split.
  - rewrite <- finite_iff. unfold round_trips. destruct x; cbn; split; congruence.
  - now split.
  - now split.
  - destruct x. now split.
  - now apply survives_option.
  - rewrite list_iff, Forall_forall. split; intros H a Ha; apply IHt, H, Ha.
  - rewrite id_iff. apply IHt.
  - rewrite min_iff. apply IHt.
  - rewrite max_iff. apply IHt.
  - rewrite sum_iff. apply IHt.
  - rewrite product_iff. apply IHt.
  - rewrite first_iff. now apply survives_option.
  - rewrite last_iff. now apply survives_option.
  - rewrite maybe_iff. destruct x as [a|].
    + rewrite IHt. split; [intros H b [= <-]; exact H|auto].
    + split; [discriminate|auto].
  - rewrite choice_iff, Forall_forall. split; intros H a Ha; apply IHt, H, Ha.
  - rewrite either_iff. destruct x as [a|a]; [rewrite IHt1|rewrite IHt2]; split;
      try (intros H; split; intros b [= <-]; exact H); intros [H1 H2]; auto.
  - rewrite validated_iff. destruct x as [a|es].
    + rewrite IHt2. split; [intros H; split; [intros b [= <-]; exact H|discriminate]|intros [H _]; auto].
    + rewrite Forall_forall. split.
      * intros H. split; [discriminate|]. intros es' y [= <-] Hy. apply IHt1, H, Hy.
      * intros [_ H] y Hy. apply IHt1. exact (H es y eq_refl Hy).
  - rewrite writer_iff, IHt1, IHt2. reflexivity.
Qed.
Example C99_values_case :
  survives (TFirst (TVec TFloat)) (mkFirst (Some [S754_zero true; S754_finite false 3 (-1)])) /\
  ~ survives (TFirst (TVec TFloat)) (mkFirst (Some [S754_nan])) /\
  survives (TOption (TOption TInt)) (Some (Some 1%Z)) /\ unambiguous (TOption (TOption TInt)) = false.
Proof.
  split; [|split; [|split; [|reflexivity]]].
  - apply C99_values. reflexivity.
  - intros H. apply C99_values in H. discriminate H.
  - apply C99_values. reflexivity.
Qed.

(** What becomes of the others: a present value that is written as null is read back as absent, without an error,
    while a float that is not finite is an error wherever a number is expected. *)
Theorem C99_null_inside : forall t a, null_value t a ->
  de (codec_of (TOption t)) (ser (codec_of (TOption t)) (Some a)) = Some None /\
  de (codec_of (TFirst t)) (ser (codec_of (TFirst t)) (mkFirst (Some a))) = Some (mkFirst None) /\
  de (codec_of (TLast t)) (ser (codec_of (TLast t)) (mkLast (Some a))) = Some (mkLast None).
Proof.
  intros t a H. apply null_value_iff in H. cbn. rewrite H. auto.
Qed.
Theorem C99_not_finite_refuted : exists x : spec_float,
  null_value TFloat x /\
  de (codec_of (TMin TFloat)) (ser (codec_of (TMin TFloat)) (mkMin x)) = None /\
  de (codec_of (TFirst TFloat)) (ser (codec_of (TFirst TFloat)) (mkFirst (Some x))) = Some (mkFirst None).
Proof. exists (S754_infinity true). split; [right; now exists true|]. split; reflexivity. Qed.

(** Whatever the contents: the project's other containers read back exactly when
    their contents do. *)
Theorem C99_containers : forall A B (c : codec A) (d : codec B),
  (forall x, round_trips (id_codec c) x <-> round_trips c (id_value x)) /\
  (forall x, round_trips (min_codec c) x <-> round_trips c (min_val x)) /\
  (forall x, round_trips (max_codec c) x <-> round_trips c (max_val x)) /\
  (forall x, round_trips (sum_codec c) x <-> round_trips c (sum_val x)) /\
  (forall x, round_trips (product_codec c) x <-> round_trips c (product_val x)) /\
  (forall x, round_trips (choice_codec c) x <-> Forall (round_trips c) (values x)) /\
  (forall m, round_trips (maybe_codec c) m <->
     match m with Just a => round_trips c a | Nothing => True end) /\
  (forall e, round_trips (either_codec c d) e <->
     match e with Left a => round_trips c a | Right b => round_trips d b end) /\
  (forall v, round_trips (validated_codec c d) v <->
     match v with Valid a => round_trips d a | Invalid es => Forall (round_trips c) es end) /\
  (forall w, round_trips (writer_codec c d) w <->
     round_trips c (w_log w) /\ round_trips d (w_value w)).
Proof.
  intros A B c d.
  exact (conj (id_iff c) (conj (min_iff c) (conj (max_iff c) (conj (sum_iff c) (conj (product_iff c)
    (conj (choice_iff c) (conj (maybe_iff c) (conj (either_iff c d) (conj (validated_iff c d)
    (writer_iff c d)))))))))).
Qed.

(** Different values of such a type are written differently. *)
Theorem C99_injective : forall t, unambiguous t = true ->
  forall a b, ser (codec_of t) a = ser (codec_of t) b -> a = b.
Proof.
  intros t H a b E. pose proof (good_type t H a) as Ha. pose proof (good_type t H b) as Hb.
  unfold round_trips in *. rewrite E in Ha. congruence.
Qed.

(** A present value of [First] or [Last] that is written as null is read back as
    absent. *)
Theorem C99_first_last_refuted :
  exists a : first (option Z), de (first_codec (option_codec int_codec))
                                  (ser (first_codec (option_codec int_codec)) a)
                               = Some (mkFirst None) /\ a <> mkFirst None.
Proof. exists (mkFirst (Some None)). split; [reflexivity|discriminate]. Qed.

(** Fields are found by name: order and further keys do not matter, and the array
    form is read too. *)
Theorem C99_other_forms : forall W A (cw : codec W) (ca : codec A) w l v,
  round_trips cw l -> round_trips ca v -> w = mkWriter l v ->
  de (writer_codec cw ca) (JObj [("value", ser ca v); ("log", ser cw l)]) = Some w /\
  (forall k j, k <> "value" -> k <> "log" ->
     de (writer_codec cw ca) (JObj [(k, j); ("log", ser cw l); ("value", ser ca v)]) = Some w) /\
  de (writer_codec cw ca) (JArr [ser cw l; ser ca v]) = Some w.
Proof.
  intros W A cw ca w l v Hl Hv ->. unfold round_trips in *. split; [|split].
  - cbn. now rewrite Hl, Hv.
  - intros k j H1 H2. cbn. unfold read_field. cbn [lookup].
    rewrite (proj2 (String.eqb_neq k "log") H2), (proj2 (String.eqb_neq k "value") H1).
    cbn. now rewrite Hl, Hv.
  - cbn. now rewrite Hl, Hv.
Qed.

(** ** What is accepted *)

Lemma option_map_some {A B} (f : A -> B) (o : option A) b :
  option_map f o = Some b <-> exists a, o = Some a /\ b = f a.
Proof.
  destruct o as [x|]; cbn; split.
  - intros [= <-]. eauto.
  - intros (a & [= <-] & ->). reflexivity.
  - discriminate.
  - intros (a & H & _). discriminate.
Qed.
Lemma bind_some {A B} (o : option A) (f : A -> option B) b :
  obind_opt o f = Some b <-> exists a, o = Some a /\ f a = Some b.
Proof.
  destruct o as [x|]; cbn; split; [eauto|intros (a & [= <-] & H); exact H|discriminate|].
  intros (a & H & _). discriminate.
Qed.

Lemma lookup_some key fields j :
  lookup key fields = Some j <->
  (exists before after, fields = before ++ (key, j) :: after /\ ~ In key (map fst before))%list.
Proof.
  induction fields as [|[k j'] rest IH]; cbn [lookup].
  - split; [discriminate|]. intros (b & a & E & _). now destruct b.
  - destruct (String.eqb_spec k key) as [->|Hk].
    + split.
      * intros [= ->]. exists [], rest. auto.
      * intros (b & a & E & Hn). destruct b as [|[k2 j2] b]; cbn in E; injection E as E1 E2; [congruence|].
        subst k2. contradiction Hn. now left.
    + rewrite IH. split.
      * intros (b & a & -> & Hn). exists ((k, j') :: b), a. split; [reflexivity|].
        intros [Hx|Hx]; cbn in *; auto.
      * intros (b & a & E & Hn). destruct b as [|[k2 j2] b]; cbn in E; injection E as E1 E2; [congruence|].
        exists b, a. split; [assumption|]. intros Hx. apply Hn. now right.
Qed.
Lemma lookup_none key fields : lookup key fields = None <-> ~ In key (map fst fields).
Proof.
  induction fields as [|[k j'] rest IH]; cbn [lookup map fst In].
  - tauto.
  - destruct (String.eqb_spec k key) as [->|Hk].
    + split; [discriminate|]. intros Hx. contradiction Hx. now left.
    + rewrite IH. tauto.
Qed.

Section Reads.
Context {A : Type} (c : codec A) (P : json -> A -> Prop).
Hypothesis HP : forall j a, de c j = Some a <-> P j a.

Lemma read_field_iff (ab : A -> Prop) key fields a :
  (forall a, missing c = Some a <-> ab a) ->
  read_field c key fields = Some a <-> field P ab key fields a.
Proof.
  intros Hm. unfold read_field, field. destruct (lookup key fields) as [j|] eqn:E.
  - pose proof (proj1 (lookup_some _ _ _) E) as (b & r & E1 & E2). rewrite HP. split.
    + intros H. left. exists b, j, r. auto.
    + intros [(b' & j' & r' & E1' & E2' & H)|[H _]].
      * assert (lookup key fields = Some j') by (apply lookup_some; eauto). congruence.
      * apply lookup_none in H. congruence.
  - pose proof (proj1 (lookup_none _ _) E) as E1. rewrite Hm. split.
    + intros H. right. auto.
    + intros [(b' & j' & r' & E1' & E2' & H)|[_ H]]; [|exact H].
      assert (lookup key fields = Some j') by (apply lookup_some; eauto). congruence.
Qed.

Lemma read_all_iff l x : read_all c l = Some x <-> Forall2 P l x.
Proof.
  revert x. induction l as [|j l IH]; intros x; cbn [read_all].
  - split; [intros [= <-]; constructor|inversion 1; reflexivity].
  - rewrite bind_some. split.
    + intros (a & Ha & H). apply option_map_some in H. destruct H as (x' & Hx & ->).
      constructor; [now apply HP|now apply IH].
    + inversion 1 as [|? a ? x' Ha Hx]; subst. exists a. split; [now apply HP|].
      apply option_map_some. exists x'. split; [now apply IH|reflexivity].
Qed.
Lemma reads_vec_iff j x : de (list_codec c) j = Some x <-> reads_vec P j x.
Proof.
  unfold reads_vec. destruct j; cbn; try (split; [discriminate|intros (? & E & _); discriminate E]).
  rewrite read_all_iff. split; [eauto|]. intros (l' & [= <-] & H). exact H.
Qed.
Lemma reads_option_iff j x : de (option_codec c) j = Some x <-> reads_option P j x.
Proof.
  assert (Hm : option_map Some (de c j) = Some x <->
               match x with None => False | Some b => P j b end).
  { rewrite option_map_some. destruct x as [b|].
    - rewrite <- HP. split; [intros (a & H & [= <-]); exact H|eauto].
    - split; [intros (a & _ & E); discriminate E|contradiction]. }
  unfold reads_option.
  change (de (option_codec c) j)
    with (match j with JNull => Some None | _ => option_map Some (de c j) end).
  assert (Hj : j = JNull \/ j <> JNull) by (destruct j; auto; right; discriminate).
  destruct Hj as [->|Hj].
  - destruct x; split; try discriminate; try reflexivity. intros [H _]. now contradiction H.
  - transitivity (option_map Some (de c j) = Some x); [destruct j; try reflexivity; now contradiction Hj|].
    rewrite Hm. destruct x; tauto.
Qed.
Lemma reads_struct1_iff {C} (ab : A -> Prop) key (wrap : A -> C) inner j x :
  (forall b, wrap (inner b) = b) -> (forall a, inner (wrap a) = a) ->
  (forall a, missing c = Some a <-> ab a) ->
  de (struct1_codec key wrap inner c) j = Some x <-> reads_struct1 P ab key j (inner x).
Proof.
  intros H1 H2 Hm. unfold reads_struct1.
  assert (Hw : forall o : option A, option_map wrap o = Some x <-> o = Some (inner x)).
  { intros o. rewrite option_map_some. split.
    - intros (a & -> & ->). now rewrite H2.
    - intros ->. exists (inner x). now rewrite H1. }
  destruct j as [|b|n|f|s|l|fields]; cbn [de struct1_codec];
    try (split; [discriminate|intros [(? & E & _)|(? & E & _)]; discriminate E]).
  - destruct l as [|j1 [|j2 l]];
      try (split; [discriminate|intros [(? & E & _)|(? & E & _)]; discriminate E]).
    rewrite Hw, HP. split; [eauto|]. intros [(? & E & _)|(? & [= <-] & H)]; [discriminate E|exact H].
  - rewrite Hw, read_field_iff by exact Hm. split; [eauto|].
    intros [(? & [= <-] & H)|(? & E & _)]; [exact H|discriminate E].
Qed.
Lemma reads_newtype_iff {C} (wrap : A -> C) inner j x :
  (forall b, wrap (inner b) = b) -> (forall a, inner (wrap a) = a) ->
  de (newtype_codec wrap inner c) j = Some x <-> P j (inner x).
Proof.
  intros H1 H2. cbn. rewrite option_map_some, <- HP. split.
  - intros (a & H & ->). now rewrite H2.
  - intros H. exists (inner x). now rewrite H1.
Qed.
End Reads.

Lemma variant_iff {B} (j : json) (f : string * option json -> option B) b :
  obind_opt (read_variant j) f = Some b <->
  (exists s, j = JStr s /\ f (s, None) = Some b) \/
  (exists s d, j = JObj [(s, d)] /\ f (s, Some d) = Some b).
Proof.
  split.
  - destruct j as [| | | | | |fields]; cbn; try discriminate.
    + intros H. left. eauto.
    + destruct fields as [|[s d] [|? ?]]; try discriminate. cbn. intros H. right. eauto.
  - intros [(s & -> & H)|(s & d & -> & H)]; exact H.
Qed.

Lemma missing_iff t a : missing (codec_of t) = Some a <-> absent t a.
Proof.
  destruct t; cbn; try (split; [discriminate|contradiction]).
  split; [intros [= <-]; reflexivity|intros ->; reflexivity].
Qed.

(** Exactly which JSON values are read as which values, for every type. *)
Theorem C99_reads : forall t j a, de (codec_of t) j = Some a <-> reads t j a.
Proof.
  induction t as [ | | | | |t IH|t IH|t IH|t IH|t IH|t IH|t IH|t IH|t IH|t IH|t IH
                 |l IHl r IHr|e IHe a0 IHa|w IHw a0 IHa]; intros j a.
  - cbn. destruct j; split; try discriminate; intros [= <-]; reflexivity.
  - cbn. destruct j as [|b|n|x|s|l|fields]; split; try discriminate;
      try (intros [[E _]|(? & E & _)]; discriminate E).
    + intros [= <-]. eauto.
    + intros [[E _]|(? & [= <-] & ->)]; [discriminate E|reflexivity].
    + destruct (is_finite x) eqn:E; intros [= <-]. left. now rewrite <- finite_iff.
    + intros [[[= <-] E]|(? & E & _)]; [now rewrite (proj2 (finite_iff x) E)|discriminate E].
  - cbn. destruct j; split; try discriminate; intros [= <-]; reflexivity.
  - cbn. destruct j; split; try discriminate; intros [= <-]; reflexivity.
  - cbn. destruct a. destruct j; split; try discriminate; reflexivity.
  - exact (reads_option_iff _ _ IH j a).
  - exact (reads_vec_iff _ _ IH j a).
  - refine (reads_struct1_iff _ _ IH _ "value" _ _ j a _ _ (missing_iff t)); [now intros []|auto].
  - refine (reads_newtype_iff _ _ IH _ _ j a _ _); [now intros []|auto].
  - refine (reads_newtype_iff _ _ IH _ _ j a _ _); [now intros []|auto].
  - refine (reads_newtype_iff _ _ IH _ _ j a _ _); [now intros []|auto].
  - refine (reads_newtype_iff _ _ IH _ _ j a _ _); [now intros []|auto].
  - refine (reads_newtype_iff _ _ (reads_option_iff _ _ IH) _ _ j a _ _); [now intros []|auto].
  - refine (reads_newtype_iff _ _ (reads_option_iff _ _ IH) _ _ j a _ _); [now intros []|auto].
  - cbn [codec_of maybe_codec de reads]. rewrite variant_iff. split.
    + intros [(s & -> & H)|(s & d & -> & H)]; cbn beta iota in H; revert H;
        destruct (String.eqb_spec s "Just") as [->|_]; intros H; try discriminate.
      * revert H. destruct (String.eqb_spec s "Nothing") as [->|_]; intros H; [|discriminate].
        injection H as <-. auto.
      * apply option_map_some in H. destruct H as (x & H & ->). exists d. split; [reflexivity|now apply IH].
      * revert H. destruct (String.eqb_spec s "Nothing") as [->|_]; intros H; [|discriminate].
        destruct d; try discriminate. injection H as <-. auto.
    + destruct a as [x|].
      * intros (d & -> & H). right. exists "Just", d. split; [reflexivity|]. cbn.
        apply IH in H. now rewrite H.
      * intros [-> | ->]; [left|right]; [exists "Nothing"|exists "Nothing", JNull]; auto.
  - refine (reads_struct1_iff _ _ (reads_vec_iff _ _ IH) _ "values" _ _ j a _ _ _);
      [now intros []|auto|]. intros x. cbn. split; [discriminate|contradiction].
  - cbn [codec_of either_codec de reads]. rewrite variant_iff. split.
    + intros [(s & -> & H)|(s & d & -> & H)]; cbn beta iota in H; revert H;
        (destruct (String.eqb_spec s "Left") as [->|_];
         [|destruct (String.eqb_spec s "Right") as [->|_]; [|discriminate]]); intros H; try discriminate;
        apply option_map_some in H; destruct H as (x & H & ->); exists d;
        (split; [reflexivity|]); [now apply IHl|now apply IHr].
    + destruct a as [x|x]; intros (d & -> & H); right;
        [exists "Left", d|exists "Right", d]; (split; [reflexivity|]); cbn;
        [apply IHl in H|apply IHr in H]; now rewrite H.
  - cbn [codec_of validated_codec de reads]. rewrite variant_iff. split.
    + intros [(s & -> & H)|(s & d & -> & H)]; cbn beta iota in H; revert H;
        (destruct (String.eqb_spec s "Valid") as [->|_];
         [|destruct (String.eqb_spec s "Invalid") as [->|_]; [|discriminate]]); intros H; try discriminate;
        apply option_map_some in H; destruct H as (x & H & ->); exists d;
        (split; [reflexivity|]); [now apply IHa|now apply (reads_vec_iff _ _ IHe)].
    + destruct a as [x|x]; intros (d & -> & H); right;
        [exists "Valid", d|exists "Invalid", d]; (split; [reflexivity|]); cbn [String.eqb Ascii.eqb Bool.eqb newtype_variant obind_opt];
        [apply IHa in H|apply (reads_vec_iff _ _ IHe) in H]; rewrite H; reflexivity.
  - cbn [reads]. destruct a as [lg v]. cbn [w_log w_value].
    destruct j as [|b|n|f|s|l|fields];
      try (split; [discriminate|intros [(? & E & _)|(? & ? & E & _)]; discriminate E]).
    + destruct l as [|j1 [|j2 [|j3 l]]];
        try (split; [discriminate|intros [(? & E & _)|(? & ? & E & _)]; discriminate E]).
      cbn [codec_of writer_codec struct2_codec de]. rewrite bind_some. split.
      * intros (x & Hx & H). apply bind_some in H. destruct H as (y & Hy & [= <- <-]).
        right. exists j1, j2. rewrite <- IHw, <- IHa. auto.
      * intros [(? & E & _)|(? & ? & [= <- <-] & H1 & H2)]; [discriminate E|].
        apply IHw in H1. apply IHa in H2. exists lg. split; [exact H1|]. now rewrite H2.
    + cbn [codec_of writer_codec struct2_codec de]. rewrite bind_some. split.
      * intros (x & Hx & H). apply bind_some in H. destruct H as (y & Hy & [= <- <-]).
        left. exists fields. split; [reflexivity|].
        apply (read_field_iff _ _ IHw _ _ _ _ (missing_iff w)) in Hx.
        apply (read_field_iff _ _ IHa _ _ _ _ (missing_iff a0)) in Hy. auto.
      * intros [(? & [= <-] & H1 & H2)|(? & ? & E & _)]; [|discriminate E].
        apply (read_field_iff _ _ IHw _ _ _ _ (missing_iff w)) in H1.
        apply (read_field_iff _ _ IHa _ _ _ _ (missing_iff a0)) in H2.
        exists lg. split; [exact H1|]. now rewrite H2.
Qed.

Example C99_reads_case :
  reads (TWriter (TOption TInt) TStr) (JObj [("value", JStr "v")]) (mkWriter None "v") /\
  ~ reads (TWriter TInt TStr) (JObj [("value", JStr "v")]) (mkWriter 0%Z "v") /\
  reads (TValidated TStr TInt) (JObj [("Invalid", JArr [])]) (Invalid []) /\
  reads (TChoice TInt) (JArr [JArr []]) (mkChoice []) /\
  ~ reads (TFirst TInt) (JStr "x") (mkFirst None).
Proof.
  split; [|split; [|split; [|split]]]; try (apply C99_reads; reflexivity);
    intros H; apply C99_reads in H; discriminate H.
Qed.

(** An integer beyond 2^53 is read as a neighbouring float. *)
Example C99_integer_as_float_case :
  reads TFloat (JNum (2 ^ 53 + 1)) (S754_finite false (2 ^ 52) 1) /\
  reads TFloat (JNum (-3)) (S754_finite true (3 * 2 ^ 51) (-51)) /\
  ~ reads TFloat JNull S754_nan.
Proof.
  split; [|split]; try (apply C99_reads; reflexivity). intros H. apply C99_reads in H. discriminate H.
Qed.

(** tests/datatypes/test_validated.rs 2045-2061 and some more *)
Example C99_case :
  ser (validated_codec string_codec int_codec) (Invalid ["error1"; "error2"])
    = JObj [("Invalid", JArr [JStr "error1"; JStr "error2"])] /\
  round_trips (validated_codec string_codec int_codec) (Valid 42%Z) /\
  round_trips (writer_codec (list_codec string_codec) (maybe_codec (option_codec int_codec)))
    (mkWriter ["a"] (Just None)) /\
  unambiguous (TWriter (TVec TStr) (TMaybe (TOption TInt))) = true /\
  unambiguous (TFirst (TMin (TLast TInt))) = false /\
  de (maybe_codec int_codec) (JObj [("Nothing", JNull)]) = Some Nothing /\
  de (maybe_codec int_codec) (JStr "Just") = None.
Proof. repeat split. Qed.

Print Assumptions C99_round_trip_partial.
Print Assumptions C99_values.
Print Assumptions C99_null_inside.
Print Assumptions C99_not_finite_refuted.
Print Assumptions C99_containers.
Print Assumptions C99_injective.
Print Assumptions C99_first_last_refuted.
Print Assumptions C99_other_forms.
Print Assumptions C99_reads.

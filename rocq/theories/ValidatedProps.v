(** Properties C24-C29: [Validated]. *)
From Coq Require Import List Arith Lia Bool.
From Verif Require Import Base Types ValidatedModel ValidatedSpec.
Import ListNotations.
Open Scope outcome_scope.

(** ** Lemmas *)
Lemma filter_valid_map {E A} (xs : list A) : filter_valid (map (@Valid E A) xs) = xs.
Proof. induction xs; cbn; congruence. Qed.

Lemma forallb_valid {E A} (vs : list (validated E A)) :
  forallb va_is_valid vs = true <-> exists xs, vs = map Valid xs.
Proof.
  induction vs as [|[a|es] vs IH]; cbn.
  - split; auto. exists []; reflexivity.
  - rewrite IH. split.
    + intros [xs ->]. exists (a :: xs). reflexivity.
    + intros [[|x xs] H]; [discriminate|]. exists xs. now injection H.
  - split; [discriminate|]. intros [[|x xs] H]; discriminate.
Qed.

Lemma forallb_invalid {E A} (vs : list (validated E A)) :
  forallb va_is_valid vs = false <-> exists es, In (Invalid es) vs.
Proof.
  induction vs as [|[a|es] vs IH]; cbn.
  - split; [discriminate|]. now intros [es []].
  - rewrite IH. split; intros [es H]; exists es; auto. destruct H; [discriminate|auto].
  - split; eauto.
Qed.

Lemma valid_not_invalid {E A} (xs : list A) (es : list E) : ~ In (Invalid es) (map Valid xs).
Proof. rewrite in_map_iff. intros (x & H & _). discriminate. Qed.

Lemma fold_errors_cloned {E A} (vs : list (validated E A)) : forall acc,
  fold_left (fun acc v => match v with Invalid es => acc_extend_cloned acc es | Valid _ => acc end) vs acc
  = acc ++ concat (map errors_of vs).
Proof.
  induction vs as [|[a|es] vs IH]; intros acc; cbn [fold_left map concat errors_of];
    [now rewrite app_nil_r|apply IH|].
  rewrite IH. rewrite app_assoc. f_equal. unfold acc_extend_cloned. destruct es; auto.
  now rewrite app_nil_r.
Qed.

Lemma fold_errors_owned {E A} (vs : list (validated E A)) : forall acc,
  fold_left (fun acc v => match v with Invalid es => acc_extend_owned acc es | Valid _ => acc end) vs acc
  = acc ++ concat (map errors_of vs).
Proof.
  induction vs as [|[a|es] vs IH]; intros acc; cbn [fold_left map concat errors_of];
    [now rewrite app_nil_r|apply IH|].
  rewrite IH. now rewrite app_assoc.
Qed.

Lemma collect_fold {E A} (vs : list (validated E A)) : forall s,
  fold_left collect_step vs s = (fst s ++ filter_valid vs, snd s ++ concat (map errors_of vs)).
Proof.
  induction vs as [|[a|es] vs IH]; intros [xs ys]; cbn [fold_left map concat errors_of filter_valid];
    rewrite ?IH; cbn [fst snd collect_step]; rewrite ?app_nil_r, <- ?app_assoc; reflexivity.
Qed.

Lemma collect_owned_fold {E A} (vs : list (validated E A)) : forall acc xs,
  collect_owned_loop acc xs vs = (xs ++ filter_valid vs, acc ++ concat (map errors_of vs)).
Proof.
  induction vs as [|[a|es] vs IH]; intros acc xs; cbn [collect_owned_loop map concat errors_of filter_valid];
    rewrite ?IH; unfold acc_extend_owned; rewrite ?app_nil_r, <- ?app_assoc; reflexivity.
Qed.

Lemma va_collect_eq {E A C} (k : list A -> C) (vs : list (validated E A)) :
  va_collect k vs = match concat (map errors_of vs) with
                    | [] => Valid (k (filter_valid vs))
                    | es => Invalid es end.
Proof.
  unfold va_collect. rewrite collect_fold. cbn [fst snd app].
  destruct (concat (map errors_of vs)); reflexivity.
Qed.

Lemma va_collect_owned_eq {E A C} (k : list A -> C) (vs : list (validated E A)) :
  va_collect_owned k vs = va_collect k vs.
Proof.
  rewrite va_collect_eq. unfold va_collect_owned. rewrite collect_owned_fold. cbn [fst snd app].
  destruct (concat (map errors_of vs)); reflexivity.
Qed.

Lemma va_sequence_owned_eq {E A B} (vs : list (validated E A)) (f : list A -> B) :
  va_sequence_owned vs f = va_sequence vs f.
Proof.
  unfold va_sequence_owned, va_sequence. destruct vs; [reflexivity|].
  now rewrite fold_errors_cloned, fold_errors_owned.
Qed.

Lemma va_sequence_accumulates {E A B} (vs : list (validated E A)) (f : list A -> B) :
  accumulates vs f (va_sequence vs f).
Proof.
  split.
  - intros xs ->. unfold va_sequence. destruct (map Valid xs) eqn:Em.
    + destruct xs; [reflexivity|discriminate].
    + rewrite <- Em. rewrite (proj2 (forallb_valid _)) by eauto. now rewrite filter_valid_map.
  - intros H. unfold va_sequence. destruct vs as [|v vs]; [destruct H as [es []]|].
    apply forallb_invalid in H. rewrite H. now rewrite fold_errors_cloned.
Qed.

Lemma errors_none_valid {E A} (vs : list (validated E A)) :
  (forall v, In v vs -> proper v) -> concat (map errors_of vs) = [] -> forallb va_is_valid vs = true.
Proof.
  induction vs as [|[a|[|e es]] vs IH]; cbn; intros Hp H; auto.
  - exfalso. now apply (Hp (Invalid [])); auto.
  - discriminate.
Qed.

(** ** C24: accumulation *)
Theorem C24_apply_lift : forall (E A B C D : Type) (vf : validated E (A -> B))
    (f2 : A -> B -> C) (f3 : A -> B -> C -> D)
    (a : validated E A) (b : validated E B) (c : validated E C),
  (forall f x, vf = Valid f -> a = Valid x -> va_apply vf a = Valid (f x)) /\
  (va_is_valid vf && va_is_valid a = false -> va_apply vf a = Invalid (errors_of vf ++ errors_of a)) /\
  (forall x y, a = Valid x -> b = Valid y -> va_lift2 f2 a b = Valid (f2 x y)) /\
  (va_is_valid a && va_is_valid b = false -> va_lift2 f2 a b = Invalid (errors_of a ++ errors_of b)) /\
  (forall x y z, a = Valid x -> b = Valid y -> c = Valid z -> va_lift3 f3 a b c = Valid (f3 x y z)) /\
  (va_is_valid a && va_is_valid b && va_is_valid c = false ->
     va_lift3 f3 a b c = Invalid (errors_of a ++ errors_of b ++ errors_of c)) /\
  va_apply_owned vf a = va_apply vf a /\
  va_lift3_owned f3 a b c = va_lift3 f3 a b c.
Proof.
  intros. destruct vf, a, b, c; cbn; repeat split; intros;
    rewrite ?app_nil_r, <- ?app_assoc; try discriminate; try congruence.
Qed.
(** Any number of validations, accumulated one at a time. *)
Theorem C24_sequence : forall (E A B : Type) (vs : list (validated E A)) (f : list A -> B),
  accumulates vs f (va_sequence vs f) /\
  va_sequence_owned vs f = va_sequence vs f /\
  va_fmap f (fold_left (va_lift2 (fun l a => l ++ [a])) vs (Valid [])) = va_sequence vs f.
Proof.
  intros. split; [apply va_sequence_accumulates|]. split; [apply va_sequence_owned_eq|].
  pose proof (va_sequence_accumulates vs f) as [HV HI].
  assert (G : forall acc, fold_left (va_lift2 (fun l a => l ++ [a])) vs acc =
    match acc with
    | Valid l => if forallb va_is_valid vs then Valid (l ++ filter_valid vs)
                 else Invalid (concat (map errors_of vs))
    | Invalid es => Invalid (es ++ concat (map errors_of vs))
    end).
  { clear. induction vs as [|[a|es'] vs IH]; intros [l|es]; cbn [fold_left map concat errors_of forallb
      filter_valid va_is_valid andb app]; rewrite ?app_nil_r; try reflexivity; rewrite IH; cbn.
    - rewrite <- app_assoc. reflexivity.
    - reflexivity.
    - reflexivity.
    - now rewrite <- app_assoc. }
  rewrite G. destruct (forallb va_is_valid vs) eqn:Ev.
  - apply forallb_valid in Ev as [xs ->]. rewrite filter_valid_map. symmetry. now apply HV.
  - apply forallb_invalid in Ev. symmetry. now apply HI.
Qed.
(** [collect] accumulates provided no input is [Invalid] with no errors
    (see C26 for what happens otherwise). *)
Theorem C24_collect_partial : forall (E A C : Type) (k : list A -> C) (vs : list (validated E A)),
  (forall v, In v vs -> proper v) ->
  accumulates vs k (va_collect k vs) /\ accumulates vs k (va_collect_owned k vs).
Proof.
  intros E A C k vs Hp. rewrite va_collect_owned_eq.
  assert (G : accumulates vs k (va_collect k vs)); [|auto].
  rewrite va_collect_eq. split.
  - intros xs ->. rewrite filter_valid_map.
    replace (concat (map errors_of (map (@Valid E A) xs))) with (@nil E); [reflexivity|].
    clear. induction xs; auto.
  - intros H. apply forallb_invalid in H.
    destruct (concat (map errors_of vs)) eqn:Ec; [|reflexivity].
    apply errors_none_valid in Ec; auto. congruence.
Qed.
Theorem C24_traverse : forall (A B E : Type) (f : A -> result B E) (items : list A),
  accumulates (map (fun x => va_from_result (f x)) items) (fun l => l) (traverse_validated f items).
Proof.
  intros. unfold traverse_validated.
  assert (G : forall items vs es h, traverse_validated_loop f vs es h items =
    (vs ++ filter_valid (map (fun x => va_from_result (f x)) items),
     es ++ concat (map errors_of (map (fun x => va_from_result (f x)) items)),
     h || negb (forallb va_is_valid (map (fun x => va_from_result (f x)) items)))).
  { clear. induction items as [|x items IH]; intros vs es h;
      cbn [traverse_validated_loop map filter_valid concat forallb].
    - now rewrite !app_nil_r, orb_false_r.
    - destruct (f x) as [v|e]; rewrite IH; cbn; rewrite <- ?app_assoc, ?orb_true_r; reflexivity. }
  rewrite G. cbn [app orb]. split.
  - intros xs ->. rewrite (proj2 (forallb_valid _)) by eauto. now rewrite filter_valid_map.
  - intros H. apply forallb_invalid in H. now rewrite H.
Qed.
Example C24_case :
  va_lift3 (fun x y z => x + y + z) (Invalid [1; 2]) (Valid 5) (Invalid [3]) = Invalid [1; 2; 3] /\
  va_sequence [Valid 1; Invalid [7; 8]; Valid 2; Invalid [9]] (@sum_list) = Invalid [7; 8; 9] /\
  va_sequence (E := nat) [Valid 1; Valid 2] sum_list = Valid 3 /\
  (forall v, In v [Valid 1; Invalid [7; 8]] -> proper v).
Proof.
  split; [reflexivity|]. split; [reflexivity|]. split; [reflexivity|].
  intros v [<-|[<-|[]]]; discriminate.
Qed.

(** ** C25: functor, applicative, monad, bifunctor *)
Theorem C25_functor : forall (E A B C : Type) (f : A -> B) (g : B -> C) (v : validated E A),
  va_fmap (fun x => x) v = v /\ va_fmap (fun x => g (f x)) v = va_fmap g (va_fmap f v).
Proof. intros E A B C f g [a|es]; split; reflexivity. Qed.
Theorem C25_applicative : forall (E A B C : Type) (x : A) (h : A -> B) (v : validated E A)
    (u : validated E (A -> B)) (w : validated E (B -> C)),
  va_apply (va_pure (fun x => x)) v = v /\
  va_apply (va_pure h) (va_pure (E := E) x) = va_pure (h x) /\
  va_apply u (va_pure x) = va_apply (va_pure (fun f => f x)) u /\
  va_apply w (va_apply u v) =
    va_apply (va_apply (va_apply (va_pure (fun (g : B -> C) (f : A -> B) (x : A) => g (f x))) w) u) v /\
  va_fmap h v = va_apply (va_pure h) v.
Proof.
  intros. destruct v, u, w; cbn; repeat split; rewrite ?app_assoc; reflexivity.
Qed.
Theorem C25_monad : forall (E A B C : Type) (x : A) (f : A -> validated E B) (g : B -> validated E C)
    (v : validated E A),
  va_bind (va_pure x) f = f x /\
  va_bind v va_pure = v /\
  va_bind (va_bind v f) g = va_bind v (fun y => va_bind (f y) g) /\
  va_join f v = va_bind v f /\
  (forall h : A -> B, va_bind v (fun y => va_pure (h y)) = va_fmap h v).
Proof. intros. destruct v; repeat split; reflexivity. Qed.
(** [bind] stops at the first invalid validation, so it does not agree with the
    accumulating [apply]. *)
Theorem C25_bind_short_circuits : forall (E A B : Type) (es : list E) (f : A -> validated E B),
  va_bind (Invalid es) f = Invalid es.
Proof. reflexivity. Qed.
Theorem C25_apply_is_not_bind_refuted : exists (u : validated nat (nat -> nat)) (v : validated nat nat),
  va_apply u v <> va_bind u (fun f => va_bind v (fun x => va_pure (f x))).
Proof. exists (Invalid [1]), (Invalid [2]). vm_compute. discriminate. Qed.
Theorem C25_bifunctor : forall (E E1 E2 A A1 A2 : Type) (f : A -> A1) (f' : A1 -> A2)
    (g : E -> E1) (g' : E1 -> E2) (v : validated E A),
  va_bimap (fun x => x) (fun e => e) v = v /\
  va_bimap f' g' (va_bimap f g v) = va_bimap (fun x => f' (f x)) (fun e => g' (g e)) v /\
  va_bimap f g v = va_fmap f (va_second g v) /\
  va_second g v = va_fmap_invalid g v.
Proof. intros. destruct v; cbn; rewrite ?map_id, ?map_map; repeat split; reflexivity. Qed.
Theorem C25_foldable : forall (E A U : Type) (u : U) (f : U -> A -> U) (g : A -> U -> U) (v : validated E A),
  va_fold_left u f v = fold_left f (va_iter v) u /\ va_fold_right u g v = fold_right g u (va_iter v).
Proof. intros. destruct v; split; reflexivity. Qed.
Example C25_case :
  va_apply (va_apply (Valid Nat.add) (Invalid [1])) (Invalid [2; 3]) = Invalid [1; 2; 3] /\
  va_bind (Valid 4) (fun x => if Nat.even x then Invalid [x] else Valid x) = Invalid [4].
Proof. split; reflexivity. Qed.

(** ** C26: collect against sequence *)
Theorem C26_collect_iff_partial : forall (E A C : Type) (k : list A -> C) (vs : list (validated E A)),
  (forall v, In v vs -> proper v) ->
  va_collect k vs = va_sequence vs k /\
  (va_is_valid (va_collect k vs) = true <-> forall v, In v vs -> va_is_valid v = true).
Proof.
  intros E A C k vs Hp. destruct (C24_collect_partial E A C k vs Hp) as [[H1 H2] _].
  destruct (va_sequence_accumulates vs k) as [S1 S2].
  destruct (forallb va_is_valid vs) eqn:Ev.
  - pose proof Ev as Ev'. apply forallb_valid in Ev as [xs Ex]. rewrite (H1 xs), (S1 xs) by auto.
    split; [reflexivity|]. split; [|reflexivity]. intros _. now apply forallb_forall.
  - pose proof Ev as Ev'. apply forallb_invalid in Ev. rewrite H2, S2 by auto.
    split; [reflexivity|]. split; [discriminate|]. intros H.
    rewrite (proj2 (forallb_forall _ _) H) in Ev'. discriminate.
Qed.
(** In general [collect] is valid exactly when the inputs carry no error at all. *)
Theorem C26_collect_exact : forall (E A C : Type) (k : list A -> C) (vs : list (validated E A)),
  va_is_valid (va_collect k vs) = true <-> forall v, In v vs -> errors_of v = [].
Proof.
  intros. rewrite va_collect_eq. split.
  - destruct (concat (map errors_of vs)) eqn:Ec; [|discriminate]. intros _ v Hv.
    clear - Ec Hv. induction vs as [|w vs IH]; [easy|]. cbn in Ec. apply app_eq_nil in Ec as [E1 E2].
    destruct Hv as [<-|Hv]; auto.
  - intros H. replace (concat (map errors_of vs)) with (@nil E); [reflexivity|].
    induction vs as [|w vs IH]; [reflexivity|]. cbn. rewrite H by now left. apply IH.
    intros v Hv. apply H. now right.
Qed.
(** [Invalid] with no errors is the monoid's [empty]; [collect] turns it into
    a valid collection from which the failed element is missing. *)
Theorem C26_collect_refuted : exists vs : list (validated nat nat),
  In va_empty vs /\
  va_collect (fun l => l) vs = Valid [1; 3] /\
  va_collect_owned (fun l => l) vs = Valid [1; 3] /\
  va_sequence vs (fun l => l) = Invalid [].
Proof. exists [Valid 1; va_empty; Valid 3]. repeat split. right; now left. Qed.
Example C26_case :
  va_collect (fun l => l) [Valid 1; Invalid [5]; Invalid [6; 7]] = Invalid [5; 6; 7].
Proof. reflexivity. Qed.

(** ** C27: semigroup, monoid *)
Theorem C27_laws : forall (E A : Type) (a b c : validated E A),
  va_combine (va_combine a b) c = va_combine a (va_combine b c) /\
  va_combine va_empty a = a /\ va_combine a va_empty = a /\
  va_mplus a b = va_combine a b.
Proof.
  intros. destruct a, b, c; cbn; rewrite ?app_nil_r, ?app_assoc; repeat split; reflexivity.
Qed.
Theorem C27_exact : forall (E A : Type) (a b : validated E A),
  (forall x, a = Valid x -> va_combine a b = Valid x) /\
  (forall x, va_is_valid a = false -> b = Valid x -> va_combine a b = Valid x) /\
  (va_is_valid a = false -> va_is_valid b = false ->
     va_combine a b = Invalid (errors_of a ++ errors_of b)).
Proof. intros. destruct a, b; cbn; repeat split; intros; congruence. Qed.
(** [combine_errors] concatenates errors, keeps the errors of the only invalid
    one, and panics on two valid values. *)
Theorem C27_combine_errors : forall (E A : Type) (a b : validated E A),
  (va_combine_errors a b = Panic <-> va_is_valid a = true /\ va_is_valid b = true) /\
  (forall r, va_combine_errors a b = Ret r -> r = Invalid (errors_of a ++ errors_of b)).
Proof.
  intros. destruct a, b; cbn; split; intros; try (split; intuition congruence);
    try discriminate; match goal with H : Ret _ = Ret _ |- _ => injection H as <- end;
    rewrite ?app_nil_r; reflexivity.
Qed.
Example C27_case : va_combine (Invalid [1]) (va_combine (Invalid [2]) (Valid 9)) = Valid 9.
Proof. reflexivity. Qed.

(** ** C28: identities and zeros *)
(** What holds: left identity of [alt], two-sided identity of [mplus], left
    zero of [bind], and right zero on valid values. *)
Theorem C28_identities_partial : forall (E A B : Type) (d : E) (v : validated E A) (f : A -> validated E B),
  va_alt (va_empty_alt d) v = v /\
  (forall x : A, va_alt (Valid x) (va_empty_alt (E := E) d) = Valid x) /\
  va_mplus va_empty v = v /\ va_mplus v va_empty = v /\
  va_bind va_empty f = va_empty /\
  (va_bind v (fun _ => @va_empty E B) = va_empty <-> (va_is_valid v = true \/ v = va_empty)).
Proof.
  intros. destruct v as [a|es]; cbn; rewrite ?app_nil_r; repeat split; auto.
  - unfold va_empty. intros H. injection H as ->. now right.
  - intros [H|H]; [discriminate|]. unfold va_empty in *. congruence.
Qed.
Theorem C28_alt_right_identity_refuted : exists v : validated nat nat, va_alt v (va_empty_alt 0) <> v.
Proof. exists (Invalid [1]). vm_compute. discriminate. Qed.
Theorem C28_right_zero_refuted : exists v : validated nat nat,
  va_bind v (fun _ => @va_empty nat nat) <> va_empty.
Proof. exists (Invalid [1]). vm_compute. discriminate. Qed.
Theorem C28_alt_assoc : forall (E A : Type) (a b c : validated E A),
  va_alt (va_alt a b) c = va_alt a (va_alt b c) /\
  (forall x, a = Valid x -> va_alt a b = a) /\ (va_is_valid a = false -> va_alt a b = b).
Proof. intros. destruct a; cbn; repeat split; auto; discriminate. Qed.
Theorem C28_guard_many : forall (E A : Type) (d : E) (c : bool) (v : validated E A),
  (va_guard d c = if c then va_pure tt else va_empty_alt d) /\
  (forall x, va_bind (va_guard d c) (fun _ => x) = if c then x else @va_empty_alt E A d) /\
  (forall a, va_many d v = Valid a <-> exists x, v = Valid x /\ a = [x]) /\
  (forall es, va_many d v = Invalid es <-> va_is_valid v = false /\ es = [d]).
Proof.
  intros E A d c v. split; [destruct c; reflexivity|]. split; [intros x; destruct c; reflexivity|].
  destruct v as [x|es']; cbn; split; intros z; split.
  - intros H. injection H as <-. eauto.
  - intros (y & H & ->). injection H as ->. reflexivity.
  - discriminate.
  - intros [H _]. discriminate.
  - discriminate.
  - intros (y & H & _). discriminate.
  - intros H. injection H as <-. auto.
  - intros [_ ->]. reflexivity.
Qed.
Example C28_case : va_alt (Invalid [1]) (Valid 2) = Valid 2 /\ va_mplus (Invalid [1]) (Invalid [2]) = Invalid (A := nat) [1; 2].
Proof. split; reflexivity. Qed.

(** ** C29: conversions *)
Theorem C29_round_trips : forall (E A : Type) (r : result A E) (o : option A) (e : E) (x : either E A),
  va_to_result (va_from_result r) = Ret r /\
  validated_to_result (va_from_result r) = Ret r /\
  va_to_option (va_from_option o e) = o /\
  va_to_option (va_from_option_with o (fun _ => e)) = o /\
  validated_to_either (either_to_validated x) = Ret x /\
  result_to_either (either_to_result x) = x /\
  either_to_result (result_to_either r) = r.
Proof. intros. destruct r, o, x; repeat split; reflexivity. Qed.
(** The conversion to [Result] panics exactly on an empty error list, and
    otherwise keeps the value or the first error. *)
Theorem C29_to_result_partial : forall (E A : Type) (v : validated E A),
  validated_to_result v = va_to_result v /\
  (va_to_result v = Panic <-> v = Invalid []) /\
  (forall a, va_to_result v = Ret (Ok a) <-> v = Valid a) /\
  (forall e, va_to_result v = Ret (Err e) <-> exists es, v = Invalid (e :: es)) /\
  (validated_to_either v = Panic <-> v = Invalid []).
Proof.
  intros. destruct v as [a|[|e es]]; cbn; repeat split; intros; try congruence;
    try (match goal with H : exists _, _ |- _ => destruct H; congruence end).
  exists es. congruence.
Qed.
Theorem C29_to_result_panics_refuted : exists v : validated nat nat,
  v = va_empty /\ va_to_result v = Panic /\ validated_to_result v = Panic /\ validated_to_either v = Panic.
Proof. exists va_empty. repeat split; reflexivity. Qed.
(** [ResultValidatedIso]: one law holds; the other holds exactly for valid
    values and single errors. *)
Theorem C29_iso_partial : forall (E A : Type) (r : result A E) (v : validated E A),
  result_validated_backward (result_validated_forward r) = Ret r /\
  (omap result_validated_forward (result_validated_backward v) = Ret v <->
   (exists a, v = Valid a) \/ (exists e, v = Invalid [e])).
Proof.
  intros. split; [destruct r; reflexivity|]. destruct v as [a|[|e [|e' es]]]; cbn; split; intros H; eauto.
  - discriminate.
  - destruct H as [[? H]|[? H]]; discriminate.
  - discriminate.
  - destruct H as [[? H]|[? H]]; discriminate.
Qed.
Theorem C29_iso_refuted : exists v : validated nat nat,
  omap result_validated_forward (result_validated_backward v) = Ret (Invalid [1]) /\ v = Invalid [1; 2].
Proof. exists (Invalid [1; 2]). split; reflexivity. Qed.
Theorem C29_invalid_constructors : forall (E A : Type) (es : list E),
  va_errors (@va_invalid_many E A es) = es /\
  (es <> [] -> va_invalid_vec es = Ret (@Invalid E A es)) /\
  (es = [] -> @va_invalid_vec E A es = Panic).
Proof. intros. destruct es; repeat split; intros; congruence. Qed.
(** Recovery: a valid value is kept; [recover_all] stops at the first error that
    recovers and otherwise concatenates the new errors. *)
Theorem C29_recover : forall (E A : Type) (v : validated E A) (rec : E -> validated E A) (x : A),
  (forall a, v = Valid a -> va_recover_all v rec = Valid a /\ va_recover_with v x = Valid a) /\
  (forall es e1 e es', v = Invalid es -> es = e1 ++ e :: es' ->
     (forall e', In e' e1 -> va_is_valid (rec e') = false) ->
     rec e = Valid x -> va_recover_all v rec = Valid x) /\
  (forall es, v = Invalid es -> (forall e', In e' es -> va_is_valid (rec e') = false) ->
     va_recover_all v rec = Invalid (concat (map (fun e => errors_of (rec e)) es))) /\
  (forall es, v = Invalid es -> va_recover_with v x = Valid x).
Proof.
  intros E A v rec x.
  assert (G : forall e1 acc rest, (forall e', In e' e1 -> va_is_valid (rec e') = false) ->
    recover_loop rec (e1 ++ rest) acc =
    recover_loop rec rest (acc ++ concat (map (fun e => errors_of (rec e)) e1))).
  { induction e1 as [|e1 l IH]; intros acc rest H; cbn; [now rewrite app_nil_r|].
    pose proof (H e1 (or_introl eq_refl)) as H1. destruct (rec e1) as [a|more]; [discriminate|].
    rewrite IH by (intros; apply H; now right). now rewrite app_assoc. }
  split; [intros a ->; split; reflexivity|]. split; [|split; [|intros es ->; reflexivity]].
  - intros es e1 e es' -> -> H He. cbn. rewrite G by auto. cbn. now rewrite He.
  - intros es -> H. cbn. rewrite <- (app_nil_r es) at 1. rewrite G by auto. reflexivity.
Qed.
Example C29_case :
  validated_to_result (Invalid [3; 4]) = Ret (Err (T := nat) 3) /\
  va_recover_all (Invalid [3; 4; 5]) (fun e => if e =? 4 then Valid 40 else Invalid [e; e]) = Valid 40 /\
  va_recover_all (Invalid [3; 5]) (fun e => if e =? 4 then Valid 40 else Invalid [e; e]) = Invalid [3; 3; 5; 5].
Proof. repeat split; reflexivity. Qed.

(** ** C82: accessors *)
Theorem C82_accessors : forall (E A : Type) (v : validated E A) (d : A),
  va_is_invalid v = negb (va_is_valid v) /\
  (va_is_valid v = true <-> exists a, v = Valid a) /\
  (forall a, va_unwrap v = Ret a <-> v = Valid a) /\ (va_unwrap v = Panic <-> va_is_invalid v = true) /\
  (forall es, va_unwrap_invalid v = Ret es <-> v = Invalid es) /\ (va_unwrap_invalid v = Panic <-> va_is_valid v = true) /\
  (forall a, va_into_value v = Ok a <-> v = Valid a) /\ (forall es, va_into_value v = Err es <-> v = Invalid es) /\
  (forall a, va_into_error_payload v = Err a <-> v = Valid a) /\
  (forall es, va_into_error_payload v = Ok es <-> v = Invalid es) /\
  (forall es, va_error_payload v = Some es <-> v = Invalid es) /\
  (forall a, va_to_option v = Some a <-> v = Valid a) /\
  va_errors v = errors_of v /\ va_error_slice v = errors_of v /\
  va_value v = va_unwrap v /\
  (forall a, v = Valid a -> va_unwrap_or v d = a) /\ (va_is_invalid v = true -> va_unwrap_or v d = d).
Proof.
  intros E A v d. unfold va_is_invalid. repeat split; destruct v as [x|es']; cbn; intros; eauto; try congruence;
    match goal with H : exists _, _ |- _ => destruct H end; congruence.
Qed.
Theorem C82_recover_all_at_once : forall (E A : Type) (v : validated E A) (r : list E -> validated E A),
  (forall a, v = Valid a -> va_recover_all_at_once v r = Valid a) /\
  (forall es, v = Invalid es -> va_recover_all_at_once v r = r es) /\
  va_recover_all_at_once v Invalid = v /\
  va_recover_all_at_once (va_recover_all_at_once v r) r = va_recover_all_at_once v (fun es => va_recover_all_at_once (r es) r).
Proof.
  intros E A v r. repeat apply conj; try (destruct v; reflexivity); now intros ? ->.
Qed.
Example C82_case : va_unwrap_invalid (Invalid (A := nat) [1; 2]) = Ret [1; 2] /\
  va_recover_all_at_once (Invalid [1; 2]) (fun es => Valid (length es)) = Valid 2.
Proof. split; reflexivity. Qed.
Print Assumptions C24_apply_lift.
Print Assumptions C24_sequence.
Print Assumptions C24_collect_partial.
Print Assumptions C24_traverse.
Print Assumptions C25_functor.
Print Assumptions C25_applicative.
Print Assumptions C25_monad.
Print Assumptions C25_bind_short_circuits.
Print Assumptions C25_apply_is_not_bind_refuted.
Print Assumptions C25_bifunctor.
Print Assumptions C25_foldable.
Print Assumptions C26_collect_iff_partial.
Print Assumptions C26_collect_exact.
Print Assumptions C26_collect_refuted.
Print Assumptions C27_laws.
Print Assumptions C27_exact.
Print Assumptions C27_combine_errors.
Print Assumptions C28_identities_partial.
Print Assumptions C28_alt_right_identity_refuted.
Print Assumptions C28_right_zero_refuted.
Print Assumptions C28_alt_assoc.
Print Assumptions C29_round_trips.
Print Assumptions C29_to_result_partial.
Print Assumptions C29_to_result_panics_refuted.
Print Assumptions C29_iso_partial.
Print Assumptions C29_iso_refuted.
Print Assumptions C29_invalid_constructors.
Print Assumptions C29_recover.
Print Assumptions C28_guard_many.
Print Assumptions C82_accessors.
Print Assumptions C82_recover_all_at_once.

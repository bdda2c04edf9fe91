(** C86 lifting helpers, C87 contravariant helpers, C88 [Maybe] with closures,
    iterators and shrinking. *)
From Coq Require Import String List Arith Lia.
From Verif Require Import Base Types LawSpec SumModel SumProps ErrModel WrapModel MiscModel MiscSpec.
Import ListNotations.
Open Scope outcome_scope.

(** ** C86 *)
(** In every lawful applicative the helpers are the applicative's own way of
    combining two lifted values; nothing is dropped, swapped or duplicated. *)
Theorem C86_helpers_are_applicative :
  forall (F : Type -> Type) (pure : forall A, A -> F A) (apply : forall A B, F (A -> B) -> F A -> F B),
  applicative_laws F (fun A x y => x = y) pure apply ->
  forall T U V (x : T) (y : U) (f : T -> U -> V),
  px_combine_with pure x y f = apply _ _ (apply _ _ (pure _ f) (pure _ x)) (pure _ y) /\
  px_pair_with pure x y = apply _ _ (apply _ _ (pure _ pair) (px_to_pure pure x)) (px_to_pure pure y) /\
  px_lift_other pure x y = apply _ _ (apply _ _ (pure _ (fun _ b => b)) (pure _ x)) (pure _ y) /\
  px_combine_with pure x y f = apply _ _ (pure _ (fun p => f (fst p) (snd p))) (px_pair_with pure x y).
Proof.
  intros F pure apply (_ & Hom & _ & _) T U V x y f.
  unfold px_combine_with, px_pair_with, px_lift_other, px_to_pure.
  repeat split; now rewrite !Hom.
Qed.
(** Every instance of the crate with an equality of its own. *)
Theorem C86_instances : forall T U V (x : T) (y : U) (f : T -> U -> V) E,
  px_combine_with (@op_pure) x y f = op_lift2 f (Some x) (Some y) /\
  px_combine_with (fun A => @re_pure A E) x y f = re_lift2 f (Ok x) (Ok y) /\
  px_combine_with (@vec_pure) x y f = vec_lift2 f [x] [y] /\
  px_combine_with (@mb_pure) x y f = mb_lift2 f (Just x) (Just y) /\
  px_combine_with (@ei_pure E) x y f = ei_lift2 f (Right x) (Right y) /\
  px_combine_with (@id_pure) x y f = id_lift2 f (mkId x) (mkId y).
Proof. repeat split. Qed.
Example C86_case :
  px_combine_with (@vec_pure) 7 5 Nat.sub = vec_apply (vec_apply (vec_pure Nat.sub) [7]) [5] /\
  px_combine_with (@vec_pure) 7 5 Nat.sub = [2] /\
  px_lift_other (@mb_pure) true 5 = Just 5.
Proof. repeat split. Qed.

(** ** C87 *)
Theorem C87_helpers : forall (F : Type -> Type) (eqv : forall A, F A -> F A -> Prop)
    (contramap : forall A U, (U -> A) -> F A -> F U),
  contravariant_laws F eqv contramap ->
  (* a constant input stays constant under any further change of input *)
  (forall A U V (x : F A) (v : A) (g : V -> U),
     eqv V (cf_contramap_const contramap x v) (contramap U V g (cf_contramap_const contramap x v))) /\
  (* composing through a conversion is the conversion of the input *)
  (forall A B C (x : F A) (y : F B) (from : B -> A) (g : C -> B),
     eqv C (cf_contramap_with contramap x (fun c => from (g c)))
           (cf_contramap_with contramap (cf_contra_compose contramap from x y) g)) /\
  (* the identity conversion changes nothing *)
  (forall A (x y : F A), eqv A (cf_contra_compose contramap (fun a => a) x y) x).
Proof.
  intros F eqv contramap (Hid & Hcomp). repeat split; intros.
  - apply (Hcomp A U V (fun _ => v) g x).
  - apply (Hcomp A B C from g x).
  - apply Hid.
Qed.
(** [Predicate] is such a functor. *)
Definition pr_eqv (A : Type) (p q : A -> bool) : Prop := forall a, p a = q a.
Example C87_case :
  contravariant_laws (fun A => A -> bool) pr_eqv (fun A U (f : U -> A) p u => p (f u)) /\
  cf_contramap_const (F := fun A => A -> bool) (fun A U (f : U -> A) p u => p (f u)) Nat.even 3 true = false.
Proof. repeat split. Qed.

(** The identity transformation commutes with every map. *)
Theorem C87_identity_natural : forall (F : Type -> Type) (fmap : forall A B, (A -> B) -> F A -> F B) A B
    (f : A -> B) (x : F A),
  nt_identity (fmap A B f x) = fmap A B f (nt_identity x).
Proof. reflexivity. Qed.

(** ** C88 *)
(** The fallback runs exactly when there is no value; with a value the world
    is left alone. *)
Theorem C88_unwrap_or_else : forall W T (m : maybe T) (f : eff W T) w,
  (forall x, mb_to_option m = Some x -> mb_unwrap_or_else m f w = (Ret x, w)) /\
  (mb_to_option m = None -> mb_unwrap_or_else m f w = f w) /\
  (forall d w', f w = (Ret d, w') -> fst (mb_unwrap_or_else m f w) = Ret (mb_unwrap_or m d)).
Proof.
  intros W T [x|] f w; (split; [|split]); unfold mb_unwrap_or_else, eff_ret; simpl; try congruence.
  intros d w' ->. reflexivity.
Qed.
(** [tap] shows the value to the closure once, and gives back the same
    [Maybe] unless the closure panics. *)
Theorem C88_tap : forall W T (m : maybe T) (f : T -> eff W unit) w,
  (forall x, mb_to_option m = Some x ->
     snd (mb_tap m f w) = snd (f x w) /\
     fst (mb_tap m f w) = omap (fun _ => m) (fst (f x w))) /\
  (mb_to_option m = None -> mb_tap m f w = (Ret m, w)).
Proof.
  intros W T [x|] f w; split; simpl; try congruence; [|reflexivity].
  intros y [= <-]. unfold eff_bind. destruct (f x w) as [[u|] w']; auto.
Qed.
(** Collecting pulls one element and no more: whatever the iterator would do
    later, the result and the effects are those of its first answer. *)
Theorem C88_from_iterator : forall W T (next : eff W (option T)) w,
  snd (mb_from_iterator next w) = snd (next w) /\
  fst (mb_from_iterator next w) = omap (fun o => mb_from_option o) (fst (next w)).
Proof.
  intros W T next w. unfold mb_from_iterator, eff_bind. destruct (next w) as [[[x|]|] w']; auto.
Qed.
Example C88_case :
  mb_unwrap_or_else (Just 3) (fun w => (Ret 0, S w)) 5 = (Ret 3, 5) /\
  mb_unwrap_or_else Nothing (fun w => (Ret 0, S w)) 5 = (Ret 0, 6) /\
  mb_tap (Just 3) (fun x w => (Ret tt, x + w)) 5 = (Ret (Just 3), 8) /\
  mb_from_iterator (fun w => (Ret (hd_error w), tl w)) [7; 8; 9] = (Ret (Just 7), [8; 9]).
Proof. repeat split. Qed.

(** [try_unwrap] fails exactly where [unwrap] panics, [to_standard_result]
    agrees with it, and the error carries the documented message and context. *)
Theorem C88_try_unwrap : forall T (m : maybe T),
  (forall x, mb_try_unwrap m = Ok x <-> mb_unwrap m = Ret x) /\
  (forall x, mb_to_standard_result m = Ok x <-> mb_unwrap m = Ret x) /\
  (forall e, mb_try_unwrap m = Err e ->
     mb_unwrap m = Panic /\ mb_to_standard_result m = Err ValueNotPresent /\
     ce_core e = "Cannot unwrap Nothing value"%string /\
     ce_context e = ["Called `try_unwrap()` on a `Nothing` value"%string] /\ ce_code e = None).
Proof.
  intros T [x|]; repeat split; try (intros; simpl in *; congruence).
  all: intros; simpl in *; try discriminate; injection H as <-; reflexivity.
Qed.

(** If shrinking elements terminates then so does shrinking a [Maybe]; a value
    is never offered as simpler than itself; every [Just] can be shrunk to
    [Nothing], which is offered last, and [Nothing] cannot be shrunk. *)
Theorem C88_shrink : forall T (sh : T -> list T),
  (terminating sh -> terminating (mb_shrink sh)) /\
  (terminating sh -> forall m, ~ offers (mb_shrink sh) m m) /\
  (forall x y, offers (mb_shrink sh) (Just y) (Just x) <-> offers sh y x) /\
  (forall x, nth_error (mb_shrink sh (Just x)) (List.length (sh x)) = Some Nothing /\
             List.length (mb_shrink sh (Just x)) = S (List.length (sh x))) /\
  mb_shrink sh Nothing = [].
Proof.
  intros T sh.
  assert (Hin : forall x y, offers (mb_shrink sh) (Just y) (Just x) <-> offers sh y x).
  { unfold offers. intros x y. simpl. rewrite in_app_iff, in_map_iff. split.
    - intros [(z & [= ->] & H)|[H|[]]]; [exact H|discriminate].
    - intros H. left. now exists y. }
  assert (HN : Acc (offers (mb_shrink sh)) Nothing).
  { constructor. intros y H. destruct H. }
  assert (Hwf : terminating sh -> terminating (mb_shrink sh)).
  { intros Hwf [x|]; [|exact HN].
    induction (Hwf x) as [x _ IH]. constructor. intros [y|] H; [|exact HN].
    apply IH, Hin, H. }
  split; [exact Hwf|]. split; [|split; [exact Hin|split]].
  - intros H m. specialize (Hwf H m). induction Hwf as [m _ IH]. intros Hm. exact (IH m Hm Hm).
  - intros x. simpl. split.
    + rewrite nth_error_app2; rewrite map_length; [|apply Nat.le_refl]. now rewrite Nat.sub_diag.
    + rewrite app_length, map_length. simpl. apply Nat.add_1_r.
  - reflexivity.
Qed.
Example C88_shrink_case :
  let sh := fun n => match n with 0 => [] | S k => [0; k] end in
  terminating sh /\ mb_shrink sh (Just 3) = [Just 0; Just 2; Nothing].
Proof.
  split; [|reflexivity]. intros n. induction n as [n IH] using lt_wf_ind.
  constructor. intros y H. apply IH. unfold offers in H. destruct n; simpl in H; [contradiction|].
  destruct H as [<-|[<-|[]]]; lia.
Qed.

Print Assumptions C86_helpers_are_applicative.
Print Assumptions C86_instances.
Print Assumptions C87_helpers.
Print Assumptions C87_identity_natural.
Print Assumptions C88_unwrap_or_else.
Print Assumptions C88_tap.
Print Assumptions C88_from_iterator.
Print Assumptions C88_try_unwrap.
Print Assumptions C88_shrink.

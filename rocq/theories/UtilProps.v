(** Theorems about the utility functions and the function category: C72 to C74. *)
From Coq Require Import List Arith.
From Verif Require Import Base Types UtilModel LawSpec.
Import ListNotations.

(** Specification: running functions one after the other, and stopping at the
    first failure, as relations. *)
Inductive steps {B} : list (B -> B) -> B -> B -> Prop :=
| steps_nil b : steps [] b b
| steps_cons f fs b c : steps fs (f b) c -> steps (f :: fs) b c.
Inductive steps_opt {B} : list (B -> option B) -> B -> option B -> Prop :=
| so_nil b : steps_opt [] b (Some b)
| so_stop f fs b : f b = None -> steps_opt (f :: fs) b None
| so_go f fs b b' r : f b = Some b' -> steps_opt fs b' r -> steps_opt (f :: fs) b r.
Inductive steps_res {B E} : list (B -> result B E) -> B -> result B E -> Prop :=
| sr_nil b : steps_res [] b (Ok b)
| sr_stop f fs b e : f b = Err e -> steps_res (f :: fs) b (Err e)
| sr_go f fs b b' r : f b = Ok b' -> steps_res fs b' r -> steps_res (f :: fs) b r.

(** ** C72 *)
Lemma fold_steps : forall B (fs : list (B -> B)) b c, fold_left (fun acc f => f acc) fs b = c <-> steps fs b c.
Proof.
  induction fs as [|f fs IH]; intros b c; cbn; split; intros H.
  - subst. constructor.
  - now inversion H.
  - constructor. now apply IH.
  - inversion H; subst. now apply IH.
Qed.
Theorem C72_compose_all : forall A B (from : A -> B) fs x y,
  (hu_compose_all from fs x = y <-> exists a, steps fs x a /\ y = from a) /\
  (forall z : A, fc_sequence fs x = z <-> steps fs x z).
Proof.
  intros. split; [|intros; apply fold_steps]. unfold hu_compose_all. split.
  - intros <-. eexists. split; [apply fold_steps|]; reflexivity.
  - intros (a & H & ->). f_equal. now apply fold_steps.
Qed.
Theorem C72_pipeline_option : forall A B (into : A -> B) x fs r,
  hu_pipeline_option into x fs = r <-> steps_opt fs (into x) r.
Proof.
  intros. unfold hu_pipeline_option. generalize (into x). clear x.
  induction fs as [|f fs IH]; intros b; cbn; split; intros H.
  - subst. constructor.
  - now inversion H.
  - destruct (f b) as [b'|] eqn:Hf.
    + eapply so_go; [eassumption|]. now apply IH.
    + subst. now constructor.
  - inversion H; subst.
    + match goal with K : f b = _ |- _ => now rewrite K end.
    + match goal with K : f b = _ |- _ => rewrite K end. now apply IH.
Qed.
Lemma fold_res_err : forall B E (fs : list (B -> result B E)) e,
  fold_left (fun acc op => match acc with Ok value => op value | Err e => Err e end) fs (Err e) = Err e.
Proof. induction fs; intros; cbn; auto. Qed.
Theorem C72_pipeline_result : forall A B E (into : A -> B) x (fs : list (B -> result B E)) r,
  hu_pipeline_result into x fs = r <-> steps_res fs (into x) r.
Proof.
  intros. assert (G : forall fs b,
    fold_left (fun acc op => match acc with Ok value => op value | Err e => Err e end) fs (Ok b) = r
    <-> steps_res fs b r).
  { clear. induction fs as [|f fs IH]; intros b; cbn; split; intros H.
    - subst. constructor.
    - now inversion H.
    - destruct (f b) as [b'|e] eqn:Hf.
      + eapply sr_go; [eassumption|]. now apply IH.
      + rewrite fold_res_err in H. subst. now constructor.
    - inversion H; subst.
      + match goal with K : f b = _ |- _ => rewrite K end. apply fold_res_err.
      + match goal with K : f b = _ |- _ => rewrite K end. now apply IH. }
  rewrite <- G. unfold hu_pipeline_result. destruct fs; reflexivity.
Qed.
(** The first failure wins and nothing after it is consulted. *)
Theorem C72_short_circuit : forall A B E (into : A -> B) x,
  (forall pre f b post post', steps_opt pre (into x) (Some b) -> f b = None ->
     hu_pipeline_option into x (pre ++ f :: post) = None /\
     hu_pipeline_option into x (pre ++ f :: post') = None) /\
  (forall pre (f : B -> result B E) b e post, steps_res pre (into x) (Ok b) -> f b = Err e ->
     hu_pipeline_result into x (pre ++ f :: post) = Err e).
Proof.
  intros. split; intros.
  - split; apply C72_pipeline_option.
    + revert H. generalize (into x). induction pre; intros a0 H; inversion H; subst; cbn.
      * now apply so_stop.
      * eapply so_go; eauto.
    + revert H. generalize (into x). induction pre; intros a0 H; inversion H; subst; cbn.
      * now apply so_stop.
      * eapply so_go; eauto.
  - apply C72_pipeline_result. revert H. generalize (into x). induction pre; intros a0 H; inversion H; subst; cbn.
    + now apply sr_stop.
    + eapply sr_go; eauto.
Qed.
(** Composition helpers. *)
Fixpoint compose_meaning {A B} (args : compose_args A B) : A -> B :=
  match args with CaOne f => f | CaMore first rest => fun x => first (compose_meaning rest x) end.
Fixpoint pipe_meaning {A B} (args : pipe_args A B) : A -> B :=
  match args with PaOne f => f | PaMore first rest => fun x => pipe_meaning rest (first x) end.
Theorem C72_compose_pipe : forall A B C (f : A -> B) (g : B -> C) (h : A -> B -> C) x y,
  cu_compose g f x = g (f x) /\ cu_pipe f g x = g (f x) /\ cu_flip h y x = h x y /\
  cu_flip (cu_flip h) x y = h x y /\ fn_id x = x /\ fn_const (B := B) x y = x.
Proof. now intros. Qed.
Theorem C72_macros : forall A B,
  (forall (args : compose_args A B) x, compose_macro args x = compose_meaning args x) /\
  (forall (args : pipe_args A B) x, pipe_macro args x = pipe_meaning args x).
Proof.
  intros. split; induction args; intros; cbn; auto.
  all: unfold fc_compose, fc_arrow; now rewrite IHargs.
Qed.
Lemma fmc_loop_eq : forall T U (f : T -> option U) items acc,
  fmc_loop f acc items = acc ++ flat_map (fun x => match f x with Some v => [v] | None => [] end) items.
Proof.
  induction items as [|x items IH]; intros acc; cbn.
  - now rewrite app_nil_r.
  - rewrite IH. destruct (f x); cbn; [now rewrite <- app_assoc | auto].
Qed.
Lemma fm_loop_eq : forall T U (p : T -> bool) (f : T -> U) items acc,
  fm_loop p f acc items = acc ++ map f (filter p items).
Proof.
  induction items as [|x items IH]; intros acc; cbn.
  - now rewrite app_nil_r.
  - rewrite IH. destruct (p x); cbn; [now rewrite <- app_assoc | auto].
Qed.
Theorem C72_filter_map : forall A B (p : A -> bool) (f : A -> B) (g : A -> option B) l,
  hu_filter_map l p f = map f (filter p l) /\
  map (@Some B) (cu_filter_map_collect l g) = filter (fun o => match o with Some _ => true | None => false end) (map g l).
Proof.
  intros. split; [apply fm_loop_eq|]. unfold cu_filter_map_collect. rewrite fmc_loop_eq. cbn.
  induction l as [|x l IH]; cbn; auto. destruct (g x); cbn; rewrite <- IH; reflexivity.
Qed.
Theorem C72_zip_with : forall A B C (f : A -> B -> C) xs ys,
  length (hu_zip_with xs ys f) = Nat.min (length xs) (length ys) /\
  (forall i, nth_error (hu_zip_with xs ys f) i =
     match nth_error xs i, nth_error ys i with Some x, Some y => Some (f x y) | _, _ => None end).
Proof.
  intros. unfold hu_zip_with. split.
  - now rewrite map_length, combine_length.
  - revert ys. induction xs as [|x xs IH]; intros ys i.
    + cbn. now destruct i.
    + destruct ys as [|y ys]; cbn.
      * destruct i; cbn; auto. now destruct (nth_error xs i).
      * destruct i; cbn; auto.
Qed.
Theorem C72_fan_out : forall A B (x : A) (fs : list (A -> B)) i,
  nth_error (hu_fan_out x fs) i = match nth_error fs i with Some f => Some (f x) | None => None end /\
  length (hu_fan_out x fs) = length fs.
Proof.
  intros. unfold hu_fan_out. rewrite map_length. split; auto.
  rewrite nth_error_map. now destruct (nth_error fs i).
Qed.
Theorem C72_sequence_options : forall T (l : list (option T)),
  (forall vs, cu_sequence_options l = Some vs <-> l = map Some vs) /\
  (cu_sequence_options l = None <-> In None l).
Proof.
  intros T l. split.
  - induction l as [|[x|] l IH]; intros [|v vs]; cbn; split; intros H; try discriminate; auto.
    + destruct (cu_sequence_options l); discriminate.
    + destruct (cu_sequence_options l) as [ws|] eqn:K; [|discriminate].
      cbn in H. injection H; intros; subst. f_equal. now apply IH.
    + injection H; intros H1 ->. apply IH in H1. now rewrite H1.
  - induction l as [|[x|] l IH]; cbn; split; intros H; try discriminate; try contradiction; auto.
    + right. apply IH. now destruct (cu_sequence_options l).
    + destruct H as [H|H]; [discriminate|]. apply IH in H. now rewrite H.
Qed.
Theorem C72_sequence_results : forall T E (l : list (result T E)),
  (forall vs, cu_sequence_results l = Ok vs <-> l = map Ok vs) /\
  (forall e, cu_sequence_results l = Err e <-> exists vs rest, l = map Ok vs ++ Err e :: rest).
Proof.
  intros T E l. split.
  - induction l as [|[x|x] l IH]; intros [|v vs]; cbn; split; intros H; try discriminate; auto.
    + destruct (cu_sequence_results l); discriminate.
    + destruct (cu_sequence_results l) as [ws|] eqn:K; [|discriminate].
      injection H; intros; subst. f_equal. now apply IH.
    + injection H; intros H1 ->. apply IH in H1. now rewrite H1.
  - intros e. induction l as [|[x|x] l IH]; cbn; split; intros H; try discriminate.
    + destruct H as ([|] & rest & H); discriminate.
    + destruct (cu_sequence_results l); [discriminate|]. apply IH in H as (vs & rest & ->).
      now exists (x :: vs), rest.
    + destruct H as ([|v vs] & rest & H); [discriminate|]. cbn in H. injection H; intros H1 ->.
      assert (K : cu_sequence_results l = Err e) by (apply IH; eauto). now rewrite K.
    + injection H; intros; subst. now exists [], l.
    + destruct H as ([|v vs] & rest & H); [|discriminate]. injection H; intros _ ->. reflexivity.
Qed.
(** [fold_with] is the monoid sum of the converted elements, in order. *)
Theorem C72_fold_with : forall T W (combine : W -> W -> W) empty (from : T -> W) l,
  monoid_laws combine empty ->
  cu_fold_with combine empty from l = fold_right combine empty (map from l).
Proof.
  intros T W combine empty from l (Ha & Hl & Hr). destruct l as [|x l]; cbn; auto.
  generalize (from x). induction l as [|y l IH]; intros w; cbn.
  - now rewrite Hr.
  - rewrite IH. apply Ha.
Qed.
Theorem C72_option_result_helpers : forall T U E F (f : T -> U) (g : E -> F) (k : T -> option U) (m : T -> result U E) t e,
  cu_map_option (Some t) f = Some (f t) /\ cu_map_option None f = None /\
  hu_lift_option f (Some t) = Some (f t) /\ hu_lift_option f None = None /\
  cu_map_result (Ok (E := E) t) f = Ok (f t) /\ cu_map_result (Err e) f = Err e /\
  cu_bimap_result (Ok t) f g = Ok (f t) /\ cu_bimap_result (Err e) f g = Err (g e) /\
  cu_flat_map_option (Some t) k = k t /\ cu_flat_map_option None k = None /\
  cu_flat_map_result (Ok t) m = m t /\ cu_flat_map_result (Err e) m = Err e.
Proof. now intros. Qed.
(** [Pipeline], [transform_all] and [transform_chain] apply the functor's map
    once per stage / element, in order. *)
Theorem C72_transform : forall FA FB FC (m : FA -> FB) (n : FB -> FC) v l i,
  pl_extract (pl_map n (pl_map m (pl_new v))) = n (m v) /\
  nth_error (tu_transform_all m l) i = option_map m (nth_error l i) /\
  length (tu_transform_all m l) = length l /\
  tu_transform_chain m (Some v) = Some (m v) /\ tu_transform_chain m None = None.
Proof.
  intros. unfold tu_transform_all. rewrite nth_error_map, map_length. now repeat split.
Qed.
Example C72_case :
  hu_pipeline_result S 0 [fun x => Ok (x + 1); fun x => Err (x * 10); fun x => Ok x] = Err 20 /\
  hu_pipeline_option S 0 [fun x => Some (x + 1); fun x => Some (x * 10)] = Some 20 /\
  hu_compose_all S [fun x => x + 1; fun x => x * 10] 1 = 21 /\
  compose_macro (CaMore (fun x => x * 10) (CaOne S)) 1 = 20 /\
  pipe_macro (PaMore (fun x => x * 10) (PaOne S)) 1 = 11 /\
  cu_fold_with Nat.add 0 (fun x => x * x) [1; 2; 3] = 14.
Proof. now cbn. Qed.

(** ** C73 *)
Theorem C73_category : forall A B C D (f : A -> B) (g : B -> C) (h : C -> D) x,
  fc_compose h (fc_compose g f) x = fc_compose (fc_compose h g) f x /\
  fc_compose fc_identity f x = f x /\
  fc_compose f fc_identity x = f x /\
  fc_compose g f x = g (f x) /\ fc_identity x = x.
Proof. now intros. Qed.
(** Composition respects pointwise equality of morphisms. *)
Theorem C73_extensional : forall A B C (f f' : A -> B) (g g' : B -> C),
  (forall x, f x = f' x) -> (forall y, g y = g' y) ->
  forall x, fc_compose g f x = fc_compose g' f' x.
Proof. intros. unfold fc_compose. now rewrite H, H0. Qed.
Theorem C73_conditional : forall A (f g : A -> A) p x,
  (p x = true -> fc_when p f x = f x) /\ (p x = false -> fc_when p f x = x) /\
  fc_then_if f g p x = fc_compose (fc_when p g) f x.
Proof. intros. unfold fc_when, fc_then_if, fc_compose. repeat split; intros H; try reflexivity; now rewrite H. Qed.
Theorem C73_sequence_app : forall A (fs gs : list (A -> A)) x,
  fc_sequence (fs ++ gs) x = fc_compose (fc_sequence gs) (fc_sequence fs) x /\ fc_sequence [] x = x.
Proof. intros. unfold fc_sequence, fc_compose. now rewrite fold_left_app. Qed.
Example C73_case : fc_compose (fun x => x * 2) S 3 = 8 /\ fc_then_if S (Nat.mul 2) (Nat.ltb 3) 3 = 8.
Proof. now cbn. Qed.

(** ** C74 *)
(** The standard arrow laws. *)
Theorem C74_arrow_laws : forall A B C D (f : A -> B) (g : B -> C) (h : D -> D) (p : A * D) (q : (A * C) * D) x,
  fc_arrow (fun a : A => a) x = fc_identity x /\
  fc_arrow (fun a => g (f a)) x = fc_compose (fc_arrow g) (fc_arrow f) x /\
  fc_first (fc_arrow f) p = fc_arrow (fun '(a, d) => (f a, d)) p /\
  fc_first (fc_compose g f) p = fc_compose (fc_first g) (fc_first f) p /\
  fc_first fc_identity p = p /\
  fc_compose (fc_arrow (fun y : B * D => (fst y, h (snd y)))) (fc_first f) p =
    fc_compose (fc_first f) (fc_arrow (fun y : A * D => (fst y, h (snd y)))) p /\
  fc_compose (fc_arrow fst) (fc_first (D := D) f) p = fc_compose f (fc_arrow fst) p /\
  fc_compose (fc_arrow (fun '((a, b), c) => (a, (b, c)))) (fc_first (fc_first f)) q =
    fc_compose (fc_first f) (fc_arrow (fun '((a, b), c) => (a, (b, c)))) q.
Proof. intros. destruct p, q as [[? ?] ?]. now cbn. Qed.
Definition swap {X Y} (p : X * Y) : Y * X := (snd p, fst p).
Theorem C74_derived : forall A B C D (f : A -> B) (g : C -> D) (k : A -> D) (p : A * C) (q : C * A) x,
  fc_second f q = fc_compose (fc_arrow swap) (fc_compose (fc_first f) (fc_arrow swap)) q /\
  fc_combine f g p = fc_compose (fc_second g) (fc_first f) p /\
  fc_combine f g p = fc_compose (fc_first f) (fc_second g) p /\
  fc_split f k x = fc_compose (fc_combine f k) (fc_arrow (fun a => (a, a))) x /\
  fc_split f k x = ar_split_default f k x /\
  fc_compose (fc_arrow fst) (fc_split f k) x = f x /\
  fc_compose (fc_arrow snd) (fc_split f k) x = k x /\
  fc_both f (x, x) = fc_combine f f (x, x) /\
  fc_lift f x = fc_arrow f x.
Proof. intros. destruct p, q. now cbn. Qed.
Theorem C74_combine_functorial : forall A B C A' B' C' (f : A -> B) (g : B -> C) (f' : A' -> B') (g' : B' -> C') p,
  fc_combine (fc_compose g f) (fc_compose g' f') p = fc_compose (fc_combine g g') (fc_combine f f') p /\
  fc_combine fc_identity fc_identity p = p.
Proof. intros. destruct p. now cbn. Qed.
Theorem C74_both : forall A B (f : A -> B) p, fc_both f p = fc_combine f f p.
Proof. intros. now destruct p. Qed.
Example C74_case : fc_first S (1, 5) = (2, 5) /\ fc_second S (1, 5) = (1, 6) /\ fc_split S pred 3 = (4, 2).
Proof. now cbn. Qed.

Print Assumptions C72_compose_all.
Print Assumptions C72_pipeline_option.
Print Assumptions C72_pipeline_result.
Print Assumptions C72_short_circuit.
Print Assumptions C72_compose_pipe.
Print Assumptions C72_macros.
Print Assumptions C72_filter_map.
Print Assumptions C72_zip_with.
Print Assumptions C72_fan_out.
Print Assumptions C72_sequence_options.
Print Assumptions C72_sequence_results.
Print Assumptions C72_fold_with.
Print Assumptions C72_option_result_helpers.
Print Assumptions C72_transform.
Print Assumptions C73_category.
Print Assumptions C73_extensional.
Print Assumptions C73_conditional.
Print Assumptions C73_sequence_app.
Print Assumptions C74_arrow_laws.
Print Assumptions C74_derived.
Print Assumptions C74_combine_functorial.
Print Assumptions C74_both.

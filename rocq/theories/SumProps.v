(** Properties C30-C36 ([Maybe], [Either], [Id]) and C75-C79 (the instances for
    [Option], [Result], [Vec] and the trait defaults). *)
From Coq Require Import List Arith Lia Bool Permutation.
From Verif Require Import Base Types LawSpec SumModel ChoiceModel ChoiceFacts ValidatedModel.
Import ListNotations.
Open Scope outcome_scope.

Local Notation eq1 F := (fun A (x y : F A) => x = y) (only parsing).

(** ** C30: Maybe laws *)
Theorem C30_laws :
  functor_laws maybe (eq1 maybe) (@mb_fmap) /\
  applicative_laws maybe (eq1 maybe) (@mb_pure) (@mb_apply) /\
  monad_laws maybe (eq1 maybe) (@mb_pure) (@mb_bind) /\
  fmap_is_apply maybe (eq1 maybe) (@mb_fmap) (@mb_pure) (@mb_apply) /\
  fmap_is_bind maybe (eq1 maybe) (@mb_fmap) (@mb_pure) (@mb_bind) /\
  apply_is_bind maybe (eq1 maybe) (@mb_pure) (@mb_apply) (@mb_bind) /\
  lifts_are_apply maybe (eq1 maybe) (@mb_pure) (@mb_apply) (@mb_lift2) (@mb_lift3).
Proof.
  unfold functor_laws, applicative_laws, monad_laws, fmap_is_apply, fmap_is_bind, apply_is_bind,
    lifts_are_apply.
  repeat split; intros; repeat match goal with x : maybe _ |- _ => destruct x end; reflexivity.
Qed.
Theorem C30_nothing_absorbs : forall (A B C D : Type) (f : A -> B) (g : A -> maybe B)
    (h : A -> B -> C) (k : A -> B -> C -> D) (mf : maybe (A -> B)) (a : maybe A) (b : maybe B) (c : maybe C),
  mb_fmap f Nothing = Nothing /\ mb_bind Nothing g = Nothing /\ mb_join g Nothing = Nothing /\
  mb_apply Nothing a = @Nothing B /\ mb_apply mf Nothing = Nothing /\
  mb_lift2 h Nothing b = Nothing /\ mb_lift2 h a Nothing = Nothing /\
  mb_lift3 k Nothing b c = Nothing /\ mb_lift3 k a Nothing c = Nothing /\ mb_lift3 k a b Nothing = Nothing /\
  mb_join g a = mb_bind a g.
Proof. intros. destruct mf, a, b, c; repeat split; reflexivity. Qed.
Example C30_case :
  mb_bind (Just 3) (fun x => if x =? 3 then Just (x + 1) else Nothing) = Just 4 /\
  mb_lift3 (fun x y z => x + y * z) (Just 1) (Just 2) (Just 3) = Just 7.
Proof. split; reflexivity. Qed.

(** ** C31: Maybe and Option *)
Theorem C31_iso : forall (T : Type) (m : maybe T) (o : option T),
  mb_from_option (mb_to_option m) = m /\ mb_to_option (mb_from_option o) = o.
Proof. intros T [x|] [y|]; split; reflexivity. Qed.
(** Every operation of [Maybe] is the [Option] operation seen through the iso. *)
Theorem C31_operations : forall (A B C : Type) (m n : maybe A) (f : A -> B) (g : A -> maybe B)
    (mf : maybe (A -> B)) (h : A -> B -> C) (mb : maybe B) (p : A -> bool) (d : A) (b0 : B) (c : bool) (l : list A),
  mb_to_option (mb_fmap f m) = option_map f (mb_to_option m) /\
  mb_to_option (mb_bind m g) = op_bind (mb_to_option m) (fun x => mb_to_option (g x)) /\
  mb_to_option (mb_apply mf m) = op_apply (mb_to_option mf) (mb_to_option m) /\
  mb_to_option (mb_lift2 h m mb) = op_lift2 h (mb_to_option m) (mb_to_option mb) /\
  mb_to_option (mb_mplus m n) = op_mplus (mb_to_option m) (mb_to_option n) /\
  mb_to_option (mb_alt m n) = op_alt (mb_to_option m) (mb_to_option n) /\
  mb_to_option (mb_many m) = op_many (mb_to_option m) /\
  mb_to_option (mb_guard c) = op_guard c /\
  mb_to_option (mb_filter p m) = (match mb_to_option m with Some x => if p x then Some x else None | None => None end) /\
  mb_unwrap m = op_value (mb_to_option m) /\
  mb_unwrap_or m d = (match mb_to_option m with Some x => x | None => d end) /\
  mb_fmap_or m b0 f = (match mb_to_option m with Some x => f x | None => b0 end) /\
  mb_to_vec m = (match mb_to_option m with Some x => [x] | None => [] end) /\
  mb_to_option (mb_from_iter l) = nth_error l 0 /\
  (mb_is_just m = true <-> mb_to_option m <> None) /\
  mb_is_nothing m = negb (mb_is_just m).
Proof.
  intros. destruct m, n, mf, mb, c, l; cbn; try (destruct (p x)); repeat split; intros; congruence.
Qed.
Theorem C31_alternative : forall T : Type,
  monoid_laws (@mb_alt T) Nothing /\ monoid_laws (@mb_mplus T) Nothing /\
  (forall a b : maybe T, mb_mplus a b = mb_alt a b /\ mb_mplus_owned a b = mb_alt a b) /\
  (forall (U : Type) (f : T -> maybe U), mb_bind Nothing f = Nothing) /\
  (forall (U : Type) (m : maybe T), mb_bind m (fun _ => @Nothing U) = Nothing).
Proof.
  intros T. unfold monoid_laws, associative, left_identity, right_identity.
  repeat split; intros; repeat match goal with x : maybe _ |- _ => destruct x end; reflexivity.
Qed.
Theorem C31_results : forall (T E : Type) (m : maybe T) (e : E) (r : result T E),
  mb_from_result (mb_to_result m e) = m /\
  (mb_to_result (mb_from_result r) e = r <-> (exists t, r = Ok t) \/ r = Err e).
Proof.
  intros T E [x|] e [t|e']; cbn; repeat split; intros; eauto.
  all: repeat match goal with
       | H : _ \/ _ |- _ => destruct H
       | H : exists _, _ |- _ => destruct H
       end; try congruence; right; congruence.
Qed.
(** Comparison is not preserved: the derived order puts [Just] below
    [Nothing], while [Option] puts [None] below [Some]. *)
Theorem C31_order_refuted : exists a b : maybe nat,
  mb_lt Nat.ltb a b = true /\ option_lt Nat.ltb (mb_to_option a) (mb_to_option b) = false /\
  option_lt Nat.ltb (mb_to_option b) (mb_to_option a) = true.
Proof. exists (Just 0), Nothing. repeat split; reflexivity. Qed.
(** It is preserved exactly when both or neither is present. *)
Theorem C31_order_partial : forall (T : Type) (ltb : T -> T -> bool) (a b : maybe T),
  mb_lt ltb a b = option_lt ltb (mb_to_option a) (mb_to_option b) <-> mb_is_just a = mb_is_just b.
Proof. intros T ltb [x|] [y|]; cbn; split; congruence. Qed.
Example C31_case : mb_from_iter [7; 8] = Just 7 /\ mb_filter Nat.even (Just 7) = Nothing.
Proof. split; reflexivity. Qed.

(** ** C32: mapping the error of a [Maybe] *)
(** False of the code: a present value is replaced by the mapped error. *)
Theorem C32_fmap_error_refuted : exists (m : maybe nat) (f : maybe_error -> nat),
  m = Just 5 /\ mb_fmap_error m f = Just 0.
Proof. exists (Just 5), (fun _ => 0). split; reflexivity. Qed.
(** What the code does instead, for every input: absence is kept, and the
    result never depends on the present value. *)
Theorem C32_fmap_error_partial : forall (T G : Type) (m : maybe T) (f : maybe_error -> G) (x y : T),
  (mb_is_just (mb_fmap_error m f) = mb_is_just m) /\
  mb_fmap_error (@Nothing T) f = Nothing /\
  mb_fmap_error (Just x) f = mb_fmap_error (Just y) f.
Proof. intros T G [z|] f x y; repeat split; reflexivity. Qed.
(** The other error-typed containers do satisfy the claim. *)
Theorem C32_others : forall (T E G : Type) (x : T) (f : E -> G),
  ei_fmap_left f (@Right E T x) = Right x /\
  re_map_error_to (@Ok T E x) f = Ok x /\
  va_fmap_invalid f (@Valid E T x) = Valid x.
Proof. repeat split; reflexivity. Qed.
Example C32_case : mb_fmap_error (Just 5) (fun _ => true) = Just true.
Proof. reflexivity. Qed.

(** ** C33: Either laws *)
Theorem C33_laws : forall L : Type,
  functor_laws (either L) (eq1 (either L)) (@ei_fmap L) /\
  applicative_laws (either L) (eq1 (either L)) (@ei_pure L) (@ei_apply L) /\
  monad_laws (either L) (eq1 (either L)) (@ei_pure L) (@ei_bind L) /\
  fmap_is_apply (either L) (eq1 (either L)) (@ei_fmap L) (@ei_pure L) (@ei_apply L) /\
  fmap_is_bind (either L) (eq1 (either L)) (@ei_fmap L) (@ei_pure L) (@ei_bind L) /\
  apply_is_bind (either L) (eq1 (either L)) (@ei_pure L) (@ei_apply L) (@ei_bind L) /\
  lifts_are_apply (either L) (eq1 (either L)) (@ei_pure L) (@ei_apply L) (@ei_lift2 L) (@ei_lift3 L).
Proof.
  intros L.
  unfold functor_laws, applicative_laws, monad_laws, fmap_is_apply, fmap_is_bind, apply_is_bind,
    lifts_are_apply.
  repeat split; intros; repeat match goal with x : either _ _ |- _ => destruct x end; reflexivity.
Qed.
Theorem C33_bifunctor : forall (L L1 L2 R R1 R2 : Type) (f : R -> R1) (f' : R1 -> R2)
    (g : L -> L1) (g' : L1 -> L2) (e : either L R),
  ei_bimap (fun x => x) (fun x => x) e = e /\
  ei_bimap (fun x => f' (f x)) (fun x => g' (g x)) e = ei_bimap f' g' (ei_bimap f g e) /\
  ei_bimap f g e = ei_fmap f (ei_fmap_left g e) /\
  ei_bimap f g e = ei_fmap_left g (ei_fmap f e).
Proof. intros. destruct e; repeat split; reflexivity. Qed.
Theorem C33_first_left_wins : forall (L A B C D : Type) (l : L) (f : A -> B -> C) (k : A -> B -> C -> D)
    (a : either L A) (b : either L B) (c : either L C) (x : A) (y : B) (ff : A -> B) (ef : either L (A -> B))
    (g : A -> either L B),
  ei_apply (Left l) a = @Left L B l /\ ei_apply (Right ff) (Left l) = @Left L B l /\
  ei_lift2 f (Left l) b = Left l /\ ei_lift2 f (Right x) (Left l) = Left l /\
  ei_lift3 k (Left l) b c = Left l /\ ei_lift3 k (Right x) (Left l) c = Left l /\
  ei_lift3 k (Right x) (Right y) (Left l) = Left l /\
  ei_bind (Left l) g = Left l /\ ei_join g a = ei_bind a g.
Proof. intros. destruct a, b, c; repeat split; reflexivity. Qed.
Example C33_case :
  ei_lift3 (fun x y z => x + y + z) (Right 1) (Left 7) (Left 8) = Left 7 /\
  ei_bimap S (fun l => l * 2) (Left 4) = @Left nat nat 8.
Proof. split; reflexivity. Qed.

(** ** C34: Either Alternative / MonadPlus *)
Theorem C34_alt_mplus_partial : forall (L R : Type) (d : L),
  associative (@ei_alt L R) /\ associative (@ei_mplus L R) /\
  left_identity (@ei_alt L R) (ei_empty_alt d) /\
  right_identity (@ei_mplus L R) (ei_mzero d) /\
  (forall e : either L R, ei_alt e (ei_empty_alt d) = e <-> (ei_is_right e = true \/ e = ei_empty_alt d)) /\
  (forall e : either L R, ei_mplus (ei_mzero d) e = e <-> (ei_is_right e = true \/ e = ei_mzero d)) /\
  (forall a b : either L R, ei_alt a b = ei_mplus a b <-> (ei_is_right a || ei_is_right b = true \/ a = b)).
Proof.
  intros L R d. unfold associative, left_identity, right_identity, ei_empty_alt, ei_mzero.
  split; [intros [a|a] [b|b] [c|c]; reflexivity|].
  split; [intros [a|a] [b|b] [c|c]; reflexivity|].
  split; [intros [a|a]; reflexivity|].
  split; [intros [a|a]; reflexivity|].
  split; [|split].
  - intros [a|a]; cbn; split; intros H; auto. destruct H as [H|H]; congruence.
  - intros [a|a]; cbn; split; intros H; auto. destruct H as [H|H]; congruence.
  - intros [a|a] [b|b]; cbn; split; intros H; auto. destruct H as [H|H]; congruence.
Qed.
Theorem C34_refuted :
  (exists e : either nat nat, ei_alt e (ei_empty_alt 0) <> e) /\
  (exists e : either nat nat, ei_mplus (ei_mzero 0) e <> e) /\
  (exists a b : either nat nat, ei_alt a b <> ei_mplus a b).
Proof.
  split; [exists (Left 1)|split; [exists (Left 1)|exists (Left 1), (Left 2)]]; vm_compute; discriminate.
Qed.
Theorem C34_guard_many : forall (L R : Type) (d : L) (c : bool) (e : either L R),
  (forall x : either L R, ei_bind (ei_guard d c) (fun _ => x) = if c then x else ei_empty_alt d) /\
  (forall l, ei_many d e = Right l <-> exists r, e = Right r /\ l = [r]) /\
  (forall l, ei_many d e = Left l <-> ei_is_left e = true /\ l = d).
Proof.
  intros L R d c e. split; [intros x; destruct c; reflexivity|]. destruct e as [l'|r]; cbn; split; intros z; split.
  - discriminate.
  - intros (r & H & _). discriminate.
  - intros H. injection H as <-. auto.
  - intros [_ ->]. reflexivity.
  - intros H. injection H as <-. eauto.
  - intros (r' & H & ->). injection H as <-. reflexivity.
  - discriminate.
  - intros [H _]. discriminate.
Qed.
Example C34_case : ei_mplus (Left 1) (Left 2) = @Left nat nat 1 /\ ei_alt (Left 1) (Left 2) = @Left nat nat 2.
Proof. split; reflexivity. Qed.

(** ** C35: Id *)
Theorem C35_laws :
  functor_laws id_ (eq1 id_) (@id_fmap) /\
  applicative_laws id_ (eq1 id_) (@id_pure) (@id_apply) /\
  monad_laws id_ (eq1 id_) (@id_pure) (@id_bind) /\
  fmap_is_apply id_ (eq1 id_) (@id_fmap) (@id_pure) (@id_apply) /\
  fmap_is_bind id_ (eq1 id_) (@id_fmap) (@id_pure) (@id_bind) /\
  apply_is_bind id_ (eq1 id_) (@id_pure) (@id_apply) (@id_bind) /\
  lifts_are_apply id_ (eq1 id_) (@id_pure) (@id_apply) (@id_lift2) (@id_lift3).
Proof.
  unfold functor_laws, applicative_laws, monad_laws, fmap_is_apply, fmap_is_bind, apply_is_bind,
    lifts_are_apply.
  repeat split; intros; repeat match goal with x : id_ _ |- _ => destruct x end; reflexivity.
Qed.
Theorem C35_join_then : forall (A B : Type) (i : id_ A) (k : A -> id_ B) (next : id_ B),
  id_join k i = id_bind i k /\ id_then i next = id_bind i (fun _ => next) /\ id_then i next = next.
Proof. intros A B [x] k [y]. repeat split; reflexivity. Qed.
(** Comonad laws; [duplicate] returns a single layer, so its laws are read
    through [extract]. *)
Theorem C35_comonad : forall (A B C : Type) (w : id_ A) (f : id_ A -> B) (g : id_ B -> C),
  id_extend w id_extract = w /\
  id_extract (id_extend w f) = f w /\
  id_extend (id_extend w f) g = id_extend w (fun x => g (id_extend x f)) /\
  id_extract (id_duplicate w) = id_extract w /\ id_duplicate w = w /\
  id_extend w f = mkId (f (id_duplicate w)).
Proof. intros A B C [x] f g. repeat split; reflexivity. Qed.
Theorem C35_monoid_fold : forall (A U : Type) (op : A -> A -> A) (e : A) (u : U) (f : U -> A -> U) (g : A -> U -> U)
    (i : id_ A),
  (monoid_laws op e -> monoid_laws (id_combine op) (id_empty e)) /\
  id_fold_left u f i = fold_left f [id_value i] u /\ id_fold_right u g i = fold_right g u [id_value i].
Proof.
  intros. split; [|split; reflexivity]. intros (Ha & Hl & Hr). split; [|split].
  - intros [x] [y] [z]. unfold id_combine. cbn. now rewrite Ha.
  - intros [x]. unfold id_combine. cbn. now rewrite Hl.
  - intros [x]. unfold id_combine. cbn. now rewrite Hr.
Qed.
Example C35_case : id_extend (id_extend (mkId 42) (fun w => id_extract w * 3)) (fun w => id_extract w + 10) = mkId 136.
Proof. reflexivity. Qed.

(** ** C36: Either conversions *)
Theorem C36_result_iso : forall (L R : Type) (e : either L R) (r : result R L),
  ei_from_result (ei_to_result e) = e /\ ei_to_result (ei_from_result r) = r.
Proof. intros L R [l|x] [y|l']; split; reflexivity. Qed.
Theorem C36_options : forall (L R : Type) (e : either L R) (l : L) (r : R),
  (ei_right_option e = Some r <-> e = Right r) /\
  (ei_left_option e = Some l <-> e = Left l) /\
  (ei_right_option e = None <-> ei_is_left e = true) /\
  (ei_left_option e = None <-> ei_is_right e = true) /\
  ei_right_or e r = ei_unwrap_or e r /\
  ei_unwrap_or e r = (match ei_right_option e with Some x => x | None => r end) /\
  ei_left_or e l = (match ei_left_option e with Some x => x | None => l end) /\
  (ei_unwrap e = Ret r <-> e = Right r) /\ (ei_unwrap e = Panic <-> ei_is_left e = true) /\
  (ei_unwrap_left e = Ret l <-> e = Left l) /\ (ei_unwrap_left e = Panic <-> ei_is_right e = true) /\
  ei_right_ref e = ei_unwrap e /\ ei_is_left e = negb (ei_is_right e).
Proof. intros L R [x|x] l r; cbn; repeat split; intros; congruence. Qed.
Example C36_case : ei_to_result (@Right nat nat 3) = Ok 3 /\ ei_left_option (@Left nat nat 3) = Some 3.
Proof. split; reflexivity. Qed.

(** ** C75: [try_value] *)
(** [Option] and [Result]: total, and [Some] exactly for a present value. *)
Theorem C75_std : forall (A E : Type) (o : option A) (r : result A E) (x : A),
  (exists v, op_try_value o = Ret v /\ (v = Some x <-> op_value o = Ret x)) /\
  (exists v, re_try_value r = Ret v /\ (v = Some x <-> re_value r = Ret x)).
Proof.
  intros A E o r x. split; eexists; (split; [reflexivity|]); [destruct o|destruct r]; cbn;
    split; congruence.
Qed.
(** [Maybe], [Either], [Choice] inherit the default, which panics exactly when
    there is no value. *)
Theorem C75_defaults_partial : forall (A L : Type) (m : maybe A) (e : either L A) (c : choice A)
    (v : validated L A) (x : A),
  (mb_try_value m = Ret (Some x) <-> m = Just x) /\ (mb_try_value m = Panic <-> m = Nothing) /\
  (ei_try_value e = Ret (Some x) <-> e = Right x) /\ (ei_try_value e = Panic <-> exists l, e = Left l) /\
  (ch_try_value c = Ret (Some x) <-> nth_error (values c) 0 = Some x) /\
  (ch_try_value c = Panic <-> values c = []) /\
  (va_try_value v = Ret (Some x) <-> v = Valid x) /\ (va_try_value v = Panic <-> exists l, v = Invalid l).
Proof.
  intros A L [m|] [e|e] [[|c l]] [v|v] x; cbn; unfold ch_try_value, ch_value; cbn; repeat split; intros;
    try congruence; eauto; match goal with H : exists _, _ |- _ => destruct H; congruence end.
Qed.
Theorem C75_refuted :
  mb_try_value (@Nothing nat) = Panic /\ ei_try_value (@Left nat nat 0) = Panic /\
  ch_try_value (@ch_empty nat) = Panic /\ va_try_value (@Invalid nat nat [0]) = Panic.
Proof. repeat split; reflexivity. Qed.
Example C75_case : mb_try_value (Just 3) = Ret (Some 3).
Proof. reflexivity. Qed.

(** ** C76: functor and applicative instances of Option, Result, Vec *)
Lemma vec_push_loop {A B} (g : A -> B) l : forall acc,
  fold_left (fun acc v => acc ++ [g v]) l acc = acc ++ map g l.
Proof.
  induction l as [|x l IH]; intros acc; cbn; [now rewrite app_nil_r|]. rewrite IH, <- app_assoc. reflexivity.
Qed.
Lemma fold_left_ext {A B} (f g : A -> B -> A) l : (forall a b, f a b = g a b) ->
  forall a, fold_left f l a = fold_left g l a.
Proof. intros H. induction l as [|x l IH]; intros a; cbn; [reflexivity|]. now rewrite H, IH. Qed.
Lemma vec_lift2_eq {A B C} (f : A -> B -> C) fa fb :
  vec_lift2 f fa fb = flat_map (fun a => map (f a) fb) fa.
Proof.
  unfold vec_lift2. rewrite (fold_left_ext _ (fun acc a => acc ++ map (f a) fb)).
  - apply (fold_append (fun a => map (f a) fb)).
  - intros acc a. apply vec_push_loop.
Qed.
Lemma vec_apply_eq {A B} (fs : list (A -> B)) vs : vec_apply fs vs = flat_map (fun f => map f vs) fs.
Proof. exact (vec_lift2_eq (fun f v => f v) fs vs). Qed.
Lemma vec_lift3_owned_eq {A B C D} (f : A -> B -> C -> D) fa fb fc :
  vec_lift3_owned f fa fb fc = flat_map (fun a => flat_map (fun b => map (f a b) fc) fb) fa.
Proof.
  unfold vec_lift3_owned.
  rewrite (fold_left_ext _ (fun acc a => acc ++ flat_map (fun b => map (f a b) fc) fb)).
  - apply (fold_append (fun a => flat_map (fun b => map (f a b) fc) fb)).
  - intros acc a. rewrite (fold_left_ext _ (fun acc b => acc ++ map (f a b) fc)).
    + apply (fold_append (fun b => map (f a b) fc)).
    + intros acc' b. apply vec_push_loop.
Qed.
Lemma vec_lift3_eq {A B C D} (f : A -> B -> C -> D) fa fb fc :
  vec_lift3 f fa fb fc = flat_map (fun a => flat_map (fun b => map (f a b) fc) fb) fa.
Proof.
  unfold vec_lift3.
  rewrite (vec_push_loop (fun t : A * B * C => f (fst (fst t)) (snd (fst t)) (snd t))). cbn [app].
  rewrite flat_map_flat_map, map_flat_map. apply flat_map_ext'. intros a.
  rewrite flat_map_map', map_flat_map. apply flat_map_ext'. intros b. now rewrite map_map.
Qed.
Theorem C76_option :
  functor_laws option (eq1 option) (@op_fmap) /\
  applicative_laws option (eq1 option) (@op_pure) (@op_apply) /\
  fmap_is_apply option (eq1 option) (@op_fmap) (@op_pure) (@op_apply) /\
  lifts_are_apply option (eq1 option) (@op_pure) (@op_apply) (@op_lift2) (@op_lift3).
Proof.
  unfold functor_laws, applicative_laws, fmap_is_apply, lifts_are_apply.
  repeat split; intros; repeat match goal with x : option _ |- _ => destruct x end; reflexivity.
Qed.
Local Notation res E := (fun A => result A E) (only parsing).
Theorem C76_result : forall E : Type,
  functor_laws (res E) (fun A x y => x = y) (fun A B => @re_fmap A B E) /\
  applicative_laws (res E) (fun A x y => x = y) (fun A => @re_pure A E) (fun A B => @re_apply A B E) /\
  fmap_is_apply (res E) (fun A x y => x = y) (fun A B => @re_fmap A B E) (fun A => @re_pure A E)
    (fun A B => @re_apply A B E) /\
  lifts_are_apply (res E) (fun A x y => x = y) (fun A => @re_pure A E) (fun A B => @re_apply A B E)
    (fun A B C => @re_lift2 A B C E) (fun A B C D => @re_lift3 A B C D E).
Proof.
  intros E. unfold functor_laws, applicative_laws, fmap_is_apply, lifts_are_apply.
  repeat split; intros; repeat match goal with x : result _ _ |- _ => destruct x end; reflexivity.
Qed.
Theorem C76_vec :
  functor_laws list (eq1 list) (@vec_fmap) /\
  applicative_laws list (eq1 list) (@vec_pure) (@vec_apply) /\
  fmap_is_apply list (eq1 list) (@vec_fmap) (@vec_pure) (@vec_apply) /\
  lifts_are_apply list (eq1 list) (@vec_pure) (@vec_apply) (@vec_lift2) (@vec_lift3) /\
  (forall A B C D (f : A -> B -> C -> D) a b c, vec_lift3_owned f a b c = vec_lift3 f a b c).
Proof.
  unfold functor_laws, applicative_laws, fmap_is_apply, lifts_are_apply, vec_fmap, vec_pure.
  repeat split; intros;
    rewrite ?vec_lift3_owned_eq, ?vec_lift3_eq, ?vec_lift2_eq, ?vec_apply_eq; cbn [flat_map];
    rewrite ?app_nil_r; rewrite ?map_id, ?map_map; try reflexivity.
  - rewrite flat_map_map', flat_map_flat_map. apply flat_map_ext'. intros g.
    rewrite flat_map_map', map_flat_map. apply flat_map_ext'. intros f. now rewrite map_map.
  - rewrite flat_map_map'. reflexivity.
  - rewrite flat_map_map', flat_map_flat_map. apply flat_map_ext'. intros x.
    rewrite flat_map_map'. reflexivity.
Qed.
Theorem C76_vec_exact : forall (A B C : Type) (f : A -> B -> C) (la : list A) (lb : list B) (fs : list (A -> B)),
  vec_lift2 f la lb = concat (map (fun a => map (fun b => f a b) lb) la) /\
  vec_apply fs la = concat (map (fun g => map (fun a => g a) la) fs).
Proof. intros. rewrite vec_lift2_eq, vec_apply_eq, !flat_map_concat_map. split; reflexivity. Qed.
(** So [Vec]'s [apply] is function-major while [Choice]'s is value-major (C19). *)
Theorem C76_vec_choice_order_refuted : exists (fs : list (nat -> nat)) (vs : list nat),
  vec_apply fs vs <> values (ch_apply (mkChoice fs) (mkChoice vs)).
Proof. exists [S; fun x => 10 * x], [1; 2]. vm_compute. discriminate. Qed.
Example C76_case :
  vec_apply [S; fun x => 10 * x] [1; 2] = [2; 3; 10; 20] /\
  vec_lift3 (fun x y z => 100 * x + 10 * y + z) [1; 2] [3; 4] [5] = [135; 145; 235; 245] /\
  re_lift3 (fun x y z => x + y + z) (Ok 1) (Err 5) (Err 6) = Err 5.
Proof. repeat split; reflexivity. Qed.

(** ** C77: monad instances of Option and Result, and the monad defaults *)
Theorem C77_monads : forall E : Type,
  monad_laws option (eq1 option) (@op_pure) (@op_bind) /\
  fmap_is_bind option (eq1 option) (@op_fmap) (@op_pure) (@op_bind) /\
  apply_is_bind option (eq1 option) (@op_pure) (@op_apply) (@op_bind) /\
  monad_laws (res E) (fun A x y => x = y) (fun A => @re_pure A E) (fun A B => @re_bind A B E) /\
  fmap_is_bind (res E) (fun A x y => x = y) (fun A B => @re_fmap A B E) (fun A => @re_pure A E)
    (fun A B => @re_bind A B E) /\
  apply_is_bind (res E) (fun A x y => x = y) (fun A => @re_pure A E) (fun A B => @re_apply A B E)
    (fun A B => @re_bind A B E).
Proof.
  intros E. unfold monad_laws, fmap_is_bind, apply_is_bind.
  repeat split; intros;
    repeat match goal with x : option _ |- _ => destruct x | x : result _ _ |- _ => destruct x end; reflexivity.
Qed.
Theorem C77_join : forall (A B E : Type) (f : A -> option B) (o : option A) (g : A -> result B E) (r : result A E),
  op_join f o = op_bind o f /\ re_join g r = re_bind r g.
Proof. intros. destruct o, r; split; reflexivity. Qed.
(** [map_and_pure] is [fmap]; [try_bind] uses the default exactly on an error of
    the function, never for an absent value. *)
Theorem C77_defaults : forall (A B E E2 : Type) (f : A -> B) (d : B)
    (o : option A) (h : A -> result (option B) E) (r : result A E2) (k : A -> result (result B E2) E),
  default_map_and_pure (op_bind o) op_pure f = op_fmap f o /\
  default_map_and_pure (re_bind r) re_pure f = re_fmap f r /\
  (forall x, o = Some x -> forall m, h x = Ok m -> default_try_bind (op_bind o) op_pure d h = m) /\
  (forall x, o = Some x -> forall e, h x = Err e -> default_try_bind (op_bind o) op_pure d h = Some d) /\
  (o = None -> default_try_bind (op_bind o) op_pure d h = None) /\
  (forall x, r = Ok x -> forall m, k x = Ok m -> default_try_bind (re_bind r) re_pure d k = m) /\
  (forall x, r = Ok x -> forall e, k x = Err e -> default_try_bind (re_bind r) re_pure d k = Ok d) /\
  (forall e, r = Err e -> default_try_bind (re_bind r) re_pure d k = Err e).
Proof.
  intros. unfold default_try_bind, default_map_and_pure.
  split; [destruct o; reflexivity|]. split; [destruct r; reflexivity|].
  repeat split.
  - intros x -> m H. cbn. now rewrite H.
  - intros x -> e H. cbn. now rewrite H.
  - intros ->. reflexivity.
  - intros x -> m H. cbn. now rewrite H.
  - intros x -> e H. cbn. now rewrite H.
  - intros e ->. reflexivity.
Qed.
Example C77_case :
  default_try_bind (op_bind (Some 3)) op_pure 9 (fun x => if x =? 3 then Err tt else Ok (Some x)) = Some 9.
Proof. reflexivity. Qed.

(** ** C67: Alternative / MonadPlus of Option, Result, Vec *)
Theorem C67_option_vec : forall A : Type,
  monoid_laws (@op_alt A) None /\ monoid_laws (@op_mplus A) None /\ monoid_laws (@vec_alt A) [] /\
  (forall a b : option A, op_alt a b = op_mplus a b) /\
  (forall (B : Type) (f : A -> option B), op_bind None f = None) /\
  (forall (B : Type) (o : option A), op_bind o (fun _ => @None B) = None) /\
  (forall a b : list A, (a <> [] -> vec_alt a b = a) /\ (a = [] -> vec_alt a b = b)) /\
  (forall l : list A, l <> [] -> vec_many l = [l]) /\ vec_many (@nil A) = [].
Proof.
  intros A. unfold monoid_laws, associative, left_identity, right_identity.
  repeat split; intros; repeat match goal with x : option _ |- _ => destruct x end; try reflexivity.
  - destruct x; reflexivity.
  - destruct x; reflexivity.
  - destruct a; [congruence|reflexivity].
  - subst. reflexivity.
  - destruct l; [congruence|reflexivity].
Qed.
Theorem C67_result_partial : forall (A E : Type) (d : E),
  associative (@re_mplus A E) /\ left_identity (@re_mplus A E) (re_mzero d) /\
  (forall r : result A E, re_mplus r (re_mzero d) = r <-> ((exists a, r = Ok a) \/ r = Err d)) /\
  (forall (B : Type) (f : A -> result B E), re_bind (re_mzero d) f = re_mzero d).
Proof.
  intros A E d. unfold associative, left_identity, re_mzero. repeat split; intros;
    repeat match goal with x : result _ _ |- _ => destruct x end; cbn in *; try reflexivity; eauto.
  match goal with H : _ \/ _ |- _ => destruct H as [[? H]|H] end; congruence.
Qed.
Theorem C67_result_right_identity_refuted : exists r : result nat nat, re_mplus r (re_mzero 0) <> r.
Proof. exists (Err 1). vm_compute. discriminate. Qed.
Theorem C67_result_right_zero_refuted : exists r : result nat nat,
  re_bind r (fun _ => @re_mzero nat nat 0) <> re_mzero 0.
Proof. exists (Err 1). vm_compute. discriminate. Qed.
(** [Vec]'s [alt] picks the first non-empty one; it is not concatenation. *)
Theorem C67_vec_alt_concat_refuted : exists a b : list nat, vec_alt a b <> a ++ b.
Proof. exists [1], [2]. vm_compute. discriminate. Qed.
(** [guard] keeps what follows when the condition holds and is empty otherwise. *)
Theorem C67_guard : forall (A : Type) (c : bool) (o : option A) (l : list A) (m : maybe A) (x : A),
  op_bind (op_guard c) (fun _ => o) = (if c then o else None) /\
  flat_map (fun _ => l) (vec_guard c) = (if c then l else []) /\
  mb_bind (mb_guard c) (fun _ => m) = (if c then m else Nothing) /\
  mb_when c x = mb_bind (mb_guard c) (fun _ => mb_pure x).
Proof. intros A [|] o l m x; cbn; rewrite ?app_nil_r; repeat split; reflexivity. Qed.
Example C67_case : re_mplus (Err 1) (Ok 2) = Ok 2 /\ vec_alt [] [3] = [3].
Proof. split; reflexivity. Qed.

(** ** C67: MonadError *)
Theorem C67_monad_error : forall (A B E N : Type) (e : E) (x : A) (r : result A E) (h h' : E -> result A E) (f : A -> result B E)
    (k : E -> N) (o : option A) (ho : unit -> option A) (g : A -> option B) (ko : unit -> N),
  re_catch (re_throw e) h = h e /\ re_catch (re_pure x) h = re_pure x /\
  re_catch r re_throw = r /\
  re_catch (re_catch r h) h' = re_catch r (fun e => re_catch (h e) h') /\
  re_bind (re_throw e) f = re_throw e /\
  re_map_error_to (re_throw e) k = @re_throw A N (k e) /\ re_map_error_to (re_pure x) k = re_pure x /\
  op_catch (op_throw tt) ho = ho tt /\ op_catch (op_pure x) ho = op_pure x /\ op_catch o op_throw = o /\
  op_bind (op_throw tt) g = op_throw tt /\
  op_map_error_to (@op_throw A tt) ko = Err (ko tt) /\ op_map_error_to (op_pure x) ko = Ok x.
Proof. intros. destruct r, o; repeat split; reflexivity. Qed.
Example C67_error_case : re_catch (Err 4) (fun e => if e =? 4 then Ok 7 else Err e) = Ok 7.
Proof. reflexivity. Qed.

(** ** C78: FunctorExt *)
Theorem C78_try_map : forall (A B E E2 : Type) (f : A -> result B E) (d : B) (df : E -> B)
    (o : option A) (r : result A E2) (l : list A),
  op_try_map_or o d f = default_try_map_or (fun g => op_fmap g o) d f /\
  re_try_map_or r d f = default_try_map_or (fun g => re_fmap g r) d f /\
  vec_try_map_or l d f = default_try_map_or (fun g => vec_fmap g l) d f /\
  op_try_map_or_else o df f = default_try_map_or_else (fun g => op_fmap g o) df f /\
  re_try_map_or_else r df f = default_try_map_or_else (fun g => re_fmap g r) df f /\
  vec_try_map_or_else l df f = default_try_map_or_else (fun g => vec_fmap g l) df f /\
  length (vec_try_map_or l d f) = length l /\
  (forall i x, nth_error l i = Some x ->
     nth_error (vec_try_map_or l d f) i = Some (match f x with Ok b => b | Err _ => d end)).
Proof.
  intros. split; [destruct o as [x|]; cbn; [destruct (f x)|]; reflexivity|].
  split; [destruct r as [x|]; cbn; [destruct (f x)|]; reflexivity|].
  split; [reflexivity|]. split; [destruct o as [x|]; cbn; [destruct (f x)|]; reflexivity|].
  split; [destruct r as [x|]; cbn; [destruct (f x)|]; reflexivity|].
  split; [reflexivity|]. unfold vec_try_map_or. split; [apply map_length|].
  intros i x H. now rewrite (map_nth_error _ _ _ H).
Qed.
(** The same stated without the defaults: each element is replaced by what the function gives, or,
    exactly where the function fails, by the default (made from the error). *)
Theorem C78_try_map_exact : forall (A B E E2 : Type) (f : A -> result B E) (d : B) (df : E -> B)
    (o : option A) (r : result A E2) (l : list A) (x : A) (b : B) (e : E) (e2 : E2),
  (f x = Ok b -> op_try_map_or (Some x) d f = Some b /\ re_try_map_or (@Ok A E2 x) d f = Ok b /\
     op_try_map_or_else (Some x) df f = Some b /\ re_try_map_or_else (@Ok A E2 x) df f = Ok b) /\
  (f x = Err e -> op_try_map_or (Some x) d f = Some d /\ re_try_map_or (@Ok A E2 x) d f = Ok d /\
     op_try_map_or_else (Some x) df f = Some (df e) /\ re_try_map_or_else (@Ok A E2 x) df f = Ok (df e)) /\
  op_try_map_or None d f = None /\ op_try_map_or_else None df f = None /\
  re_try_map_or (Err e2) d f = Err e2 /\ re_try_map_or_else (Err e2) df f = Err e2 /\
  Forall2 (fun x y => (forall b, f x = Ok b -> y = b) /\ (forall e, f x = Err e -> y = d)) l (vec_try_map_or l d f) /\
  Forall2 (fun x y => (forall b, f x = Ok b -> y = b) /\ (forall e, f x = Err e -> y = df e)) l (vec_try_map_or_else l df f).
Proof.
  intros. repeat match goal with |- _ /\ _ => split end; auto.
  1, 2: intros H; cbn; rewrite H; auto.
  - induction l as [|y l IH]; constructor; auto. cbn. destruct (f y); split; congruence.
  - induction l as [|y l IH]; constructor; auto. cbn. destruct (f y); split; congruence.
Qed.
Theorem C78_filter_map : forall (A B E : Type) (f : A -> option B) (d : E) (o : option A) (r : result A E) (l : list A) (b : B) (e : E),
  (op_filter_map o f = Some b <-> exists a, o = Some a /\ f a = Some b) /\
  (re_filter_map d r f = Ok b <-> exists a, r = Ok a /\ f a = Some b) /\
  (re_filter_map d r f = Err e <-> (r = Err e \/ exists a, r = Ok a /\ f a = None /\ e = d)) /\
  vec_filter_map l f = concat (map (fun a => match f a with Some b => [b] | None => [] end) l).
Proof.
  intros. split; [|split; [|split]].
  - destruct o as [a|]; cbn; split; intros H; eauto; try discriminate.
    + destruct H as (a' & H1 & H2). congruence.
    + destruct H as (a' & H1 & H2). congruence.
  - destruct r as [a|e']; cbn.
    + destruct (f a) as [b'|] eqn:E1; split; intros H.
      * injection H as ->. eauto.
      * destruct H as (a' & H1 & H2). congruence.
      * discriminate.
      * destruct H as (a' & H1 & H2). congruence.
    + split; [discriminate|]. intros (a' & H1 & H2). congruence.
  - destruct r as [a|e']; cbn.
    + destruct (f a) as [b'|] eqn:E1; split; intros H.
      * discriminate.
      * destruct H as [H|(a' & H1 & H2 & H3)]; congruence.
      * injection H as ->. right. eauto.
      * destruct H as [H|(a' & H1 & H2 & H3)]; congruence.
    + split; [intros H; injection H as ->; auto|].
      intros [H|(a' & H1 & H2 & H3)]; congruence.
  - induction l as [|a l IH]; cbn; [reflexivity|]. rewrite IH. destruct (f a); reflexivity.
Qed.
Example C78_case : vec_filter_map [1; 2; 3; 4] (fun x => if Nat.even x then Some (x * x) else None) = [4; 16].
Proof. reflexivity. Qed.

(** ** C79: sequence_right / sequence_left, replace, void *)
Theorem C79_sequencing : forall (A B E : Type) (a : A) (b : B) (oa : option A) (ob : option B)
    (ra : result A E) (rb : result B E) (la : list A) (lb : list B) (va : validated E A) (vb : validated E B),
  default_sequence_right (fun f => op_lift2 f oa ob) = op_bind oa (fun _ => ob) /\
  default_sequence_left (fun f => op_lift2 f oa ob) = op_bind oa (fun x => op_fmap (fun _ => x) ob) /\
  default_sequence_right (fun f => re_lift2 f ra rb) = re_bind ra (fun _ => rb) /\
  default_sequence_left (fun f => re_lift2 f ra rb) = re_bind ra (fun x => re_fmap (fun _ => x) rb) /\
  default_sequence_right (fun f => vec_lift2 f la lb) = concat (repeat lb (length la)) /\
  default_sequence_left (fun f => vec_lift2 f la lb) = concat (map (fun x => repeat x (length lb)) la) /\
  (forall e1 e2, va = Invalid e1 -> vb = Invalid e2 ->
     default_sequence_right (fun f => va_lift2 f va vb) = Invalid (e1 ++ e2)) /\
  default_sequence_right (fun f => va_lift2 f (@Valid E A a) (Valid b)) = Valid b /\
  default_sequence_left (fun f => va_lift2 f (@Valid E A a) (Valid b)) = Valid a.
Proof.
  intros. unfold default_sequence_right, default_sequence_left. rewrite !vec_lift2_eq.
  split; [destruct oa, ob; reflexivity|]. split; [destruct oa, ob; reflexivity|].
  split; [destruct ra, rb; reflexivity|]. split; [destruct ra, rb; reflexivity|].
  split. { rewrite flat_map_concat_map. f_equal. rewrite map_id. induction la; cbn; congruence. }
  split. { rewrite flat_map_concat_map. f_equal. apply map_ext. intros x. induction lb; cbn; congruence. }
  split; [intros e1 e2 -> ->; reflexivity|]. split; reflexivity.
Qed.
Theorem C79_replace_void : forall (A B E : Type) (b : B) (o : option A) (r : result A E) (l : list A) (m : maybe A),
  default_replace (fun f => op_fmap f o) b = (match o with Some _ => Some b | None => None end) /\
  default_replace (fun f => re_fmap f r) b = (match r with Ok _ => Ok b | Err e => Err e end) /\
  default_replace (fun f => vec_fmap f l) b = repeat b (length l) /\
  default_replace (fun f => mb_fmap f m) b = (match m with Just _ => Just b | Nothing => Nothing end) /\
  default_void (fun f => vec_fmap f l) = repeat tt (length l) /\
  default_void (fun f => op_fmap f o) = (match o with Some _ => Some tt | None => None end).
Proof.
  intros. unfold default_replace, default_void, vec_fmap. destruct o, r, m; repeat split;
    induction l; cbn; congruence.
Qed.
Example C79_case : default_sequence_left (fun f => vec_lift2 f [1; 2] [7; 8]) = [1; 1; 2; 2].
Proof. reflexivity. Qed.

Print Assumptions C30_laws.
Print Assumptions C30_nothing_absorbs.
Print Assumptions C31_iso.
Print Assumptions C31_operations.
Print Assumptions C31_alternative.
Print Assumptions C31_results.
Print Assumptions C31_order_refuted.
Print Assumptions C31_order_partial.
Print Assumptions C32_fmap_error_refuted.
Print Assumptions C32_fmap_error_partial.
Print Assumptions C32_others.
Print Assumptions C33_laws.
Print Assumptions C33_bifunctor.
Print Assumptions C33_first_left_wins.
Print Assumptions C34_alt_mplus_partial.
Print Assumptions C34_refuted.
Print Assumptions C35_laws.
Print Assumptions C35_comonad.
Print Assumptions C35_monoid_fold.
Print Assumptions C36_result_iso.
Print Assumptions C36_options.
Print Assumptions C75_std.
Print Assumptions C75_defaults_partial.
Print Assumptions C75_refuted.
Print Assumptions C76_option.
Print Assumptions C76_result.
Print Assumptions C76_vec.
Print Assumptions C76_vec_exact.
Print Assumptions C76_vec_choice_order_refuted.
Print Assumptions C77_monads.
Print Assumptions C77_join.
Print Assumptions C77_defaults.
Print Assumptions C67_option_vec.
Print Assumptions C67_result_partial.
Print Assumptions C67_result_right_identity_refuted.
Print Assumptions C67_result_right_zero_refuted.
Print Assumptions C67_vec_alt_concat_refuted.
Print Assumptions C67_monad_error.
Print Assumptions C78_try_map.
Print Assumptions C78_try_map_exact.
Print Assumptions C78_filter_map.
Print Assumptions C79_sequencing.
Print Assumptions C79_replace_void.
Print Assumptions C34_guard_many.
Print Assumptions C35_join_then.
Print Assumptions C67_guard.

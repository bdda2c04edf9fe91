(** Theorems about lenses, prisms and isomorphisms: C54-C58. *)
From Coq Require Import List Bool Arith Lia.
From Verif Require Import Base Types SumModel ValidatedModel OpticModel OpticSpec.
Import ListNotations.

(** ** C54 *)
Lemma ln_set_is_always : forall S A eqb (l : lens S A), eq_sound eqb ->
  get_put (ln_get l) (ln_set_always l) -> forall s a, ln_set eqb l s a = ln_set_always l s a.
Proof.
  intros S A eqb l E G s a. unfold ln_set. destruct (eqb (ln_get l s) a) eqn:H; auto.
  apply E in H. subst. symmetry. apply G.
Qed.
(** [set] and [set_always] agree for every lawful lens, and [modify] with [modify_always]. *)
Theorem C54_set_is_set_always : forall S A eqb (l : lens S A), eq_sound eqb ->
  get_put (ln_get l) (ln_set_always l) ->
  (forall s a, ln_set eqb l s a = ln_set_always l s a) /\
  (forall s f, ln_modify eqb l s f = ln_modify_always l s f).
Proof. intros S A eqb l E G. split; intros; apply ln_set_is_always; auto. Qed.
(** [GetPut] is exactly what is needed: when the equality is reflexive and the two agree, it holds. *)
Theorem C54_set_is_set_always_only_if : forall S A eqb (l : lens S A), (forall a, eqb a a = true) ->
  (forall s a, ln_set eqb l s a = ln_set_always l s a) -> get_put (ln_get l) (ln_set_always l).
Proof. intros S A eqb l E H s. rewrite <- H. unfold ln_set. now rewrite E. Qed.
(** An equal value leaves the source untouched, whatever the setter does. *)
Theorem C54_equal_value_skips : forall S A eqb (l : lens S A) s a,
  eqb (ln_get l s) a = true -> ln_set eqb l s a = s.
Proof. intros. unfold ln_set. now rewrite H. Qed.
(** With lawful getter and setter functions, the four operations obey the laws. *)
Theorem C54_laws : forall S A eqb (get : S -> A) (put : S -> A -> S), eq_sound eqb -> lens_laws get put ->
  let l := mkLens get put in
  lens_laws (ln_get l) (ln_set eqb l) /\ lens_laws (ln_get l) (ln_set_always l) /\
  modify_laws (ln_modify eqb l) /\ modify_laws (ln_modify_always l) /\
  (forall s f, ln_get l (ln_modify eqb l s f) = f (get s)).
Proof.
  intros S A eqb get put E (G & P & Q) l.
  assert (W : forall s a, ln_set eqb l s a = put s a) by (apply ln_set_is_always; auto).
  unfold lens_laws, get_put, put_get, put_put, modify_laws, ln_modify, ln_modify_always in *.
  setoid_rewrite W. subst l. unfold ln_get, ln_set_always. cbn.
  repeat split; intros; rewrite ?W, ?P, ?Q, ?G; auto.
Qed.
(** Changing the view along an isomorphism keeps the laws. *)
Theorem C54_fmap_laws : forall S A B (l : lens S A) (f : A -> B) (g : B -> A), iso_laws f g ->
  lens_laws (ln_get l) (ln_set_always l) ->
  lens_laws (ln_get (ln_fmap l f g)) (ln_set_always (ln_fmap l f g)).
Proof.
  intros S A B l f g [I J] (G & P & Q). unfold get_put, put_get, put_put, ln_get, ln_set_always in *.
  split; [|split]; intro; intros; cbn; unfold ln_get, ln_set_always; cbn; rewrite ?I, ?P, ?J, ?G, ?Q; auto.
Qed.
(** [fmap] is functorial in the isomorphism. *)
Theorem C54_fmap_functor : forall S A B C (l : lens S A) (f : A -> B) g (f' : B -> C) g' s c,
  ln_get (ln_fmap l (fun a => a) (fun a => a)) s = ln_get l s /\
  ln_get (ln_fmap (ln_fmap l f g) f' g') s = ln_get (ln_fmap l (fun a => f' (f a)) (fun c => g (g' c))) s /\
  ln_set_always (ln_fmap (ln_fmap l f g) f' g') s c
    = ln_set_always (ln_fmap l (fun a => f' (f a)) (fun c => g (g' c))) s c.
Proof. intros. repeat split. Qed.
(** The hypothesis on equality matters: with [==] comparing only parity, [set] drops a write. *)
Theorem C54_coarse_equality_refuted : exists (eqb : nat -> nat -> bool) (l : lens (nat * nat) nat),
  lens_laws (ln_get l) (ln_set_always l) /\ ~ put_get (ln_get l) (ln_set eqb l).
Proof.
  exists (fun a b => Bool.eqb (Nat.even a) (Nat.even b)), (mkLens fst (fun s a => (a, snd s))). split.
  - split; [|split]; [intros [] | intros [] | intros []]; reflexivity.
  - intros H. specialize (H (1, 0) 3). discriminate.
Qed.
Example C54_case : let l := mkLens (fun s : nat * nat => fst s) (fun s a => (a, snd s)) in
  lens_laws (ln_get_fn l) (ln_set_fn l) /\ eq_sound Nat.eqb /\
  ln_set Nat.eqb l (1, 7) 1 = (1, 7) /\ ln_set Nat.eqb l (1, 7) 5 = (5, 7) /\ ln_modify Nat.eqb l (1, 7) S = (2, 7).
Proof.
  cbn. split; [|split; [|auto]].
  - split; [|split]; [intros [] | intros [] | intros []]; reflexivity.
  - intros a b. apply Nat.eqb_eq.
Qed.

(** ** C55 *)
Lemma pr_set_review : forall S A eqb (p : prism S A), eq_sound eqb ->
  prism_laws (pr_preview p) (pr_review p) -> forall s a, pr_set_if_different eqb p s a = pr_review p a.
Proof.
  intros S A eqb p E [L1 L2] s a. unfold pr_set_if_different. destruct (pr_preview p s) eqn:H; auto.
  destruct (eqb a a0) eqn:K; auto. apply E in K. subst. symmetry. auto.
Qed.
Lemma pr_modify_spec : forall S A eqb (p : prism S A), eq_sound eqb ->
  prism_laws (pr_preview p) (pr_review p) -> forall s f, pr_modify eqb p s f =
    match pr_preview p s with Some a => pr_review p (f a) | None => s end.
Proof.
  intros S A eqb p E [L1 L2] s f. unfold pr_modify. destruct (pr_preview p s) eqn:H; auto.
  destruct (eqb (f a) a) eqn:K; auto. apply E in K. rewrite K. symmetry. auto.
Qed.
(** [modify] acts on the focus of matching values, and leaves all others unchanged. *)
Theorem C55_modify : forall S A eqb (p : prism S A), eq_sound eqb ->
  prism_laws (pr_preview p) (pr_review p) ->
  (forall s f, pr_preview p (pr_modify eqb p s f) = option_map f (pr_preview p s)) /\
  (forall s f, pr_preview p s = None -> pr_modify eqb p s f = s) /\
  (forall s f a, pr_preview p s = Some a -> pr_modify eqb p s f = pr_review p (f a)) /\
  modify_laws (pr_modify eqb p).
Proof.
  intros S A eqb p E L. pose proof (pr_modify_spec _ _ eqb p E L) as M. destruct L as [L1 L2].
  split; [|split; [|split; [|split]]].
  - intros s f. rewrite M. destruct (pr_preview p s) eqn:H; cbn; auto.
  - intros s f H. now rewrite M, H.
  - intros s f a H. now rewrite M, H.
  - intros s. rewrite M. destruct (pr_preview p s) eqn:H; auto.
  - intros s f g. rewrite !M. destruct (pr_preview p s) eqn:H; cbn; rewrite ?L1, ?H; auto.
Qed.
(** Even for an unlawful prism, values that do not match are never modified. *)
Theorem C55_modify_no_match : forall S A eqb (p : prism S A) s f,
  pr_preview p s = None -> pr_modify eqb p s f = s.
Proof. intros. unfold pr_modify. now rewrite H. Qed.
(** [set_if_different] always produces the value built from the new focus. *)
Theorem C55_set_if_different : forall S A eqb (p : prism S A), eq_sound eqb ->
  prism_laws (pr_preview p) (pr_review p) -> forall s a,
  pr_set_if_different eqb p s a = pr_review p a /\
  pr_preview p (pr_set_if_different eqb p s a) = Some a /\
  (forall b, pr_set_if_different eqb p (pr_set_if_different eqb p s a) b = pr_set_if_different eqb p s b) /\
  (pr_preview p s = Some a -> pr_set_if_different eqb p s a = s).
Proof.
  intros S A eqb p E L s a. pose proof (pr_set_review _ _ eqb p E L) as M. rewrite M.
  destruct L as [L1 L2]. repeat split; auto. intros b. now rewrite !M.
Qed.
(** So a value that does not match is replaced, not left alone. *)
Theorem C55_set_keeps_unmatched_refuted : exists (p : prism (option nat) nat) s a,
  prism_laws (pr_preview p) (pr_review p) /\ pr_preview p s = None /\ pr_set_if_different Nat.eqb p s a <> s.
Proof.
  exists (mkPrism (fun s => s) Some), None, 3. split; [split; auto|split; auto]. discriminate.
Qed.
Example C55_case : let p := mkPrism (fun s : either nat bool => match s with Left n => Some n | Right _ => None end) Left in
  prism_laws (pr_preview p) (pr_review p) /\
  pr_modify Nat.eqb p (Left 3) S = Left 4 /\ pr_modify Nat.eqb p (Right true) S = Right true /\
  pr_set_if_different Nat.eqb p (Right true) 9 = Left 9.
Proof.
  cbn. split; [|auto]. split; [auto|]. intros [n|b] a H; [now injection H as -> | discriminate].
Qed.

(** ** C56 *)
(** With a lawful isomorphism, [get]/[set]/[modify] are the lens of the whole. *)
Theorem C56_whole_laws : forall S A (i : iso S A), iso_laws (is_forward i) (is_backward i) ->
  (forall s, il_set i (il_get i s) = s) /\ (forall a, il_get i (il_set i a) = a) /\
  modify_laws (il_modify i) /\ (forall s f, il_get i (il_modify i s f) = f (il_get i s)).
Proof.
  intros S A i [L1 L2]. unfold modify_laws, il_modify, il_get, il_set.
  repeat split; intros; rewrite ?L2, ?L1; auto.
Qed.
(** With a lawful isomorphism, [modify_focus] changes the focus and nothing else. *)
Theorem C56_modify_focus : forall S F (i : iso S (F * S)), iso_laws (is_forward i) (is_backward i) ->
  (forall s f, fst (il_get i (il_modify_focus i s f)) = f (fst (il_get i s))) /\
  (forall s f, snd (il_get i (il_modify_focus i s f)) = snd (il_get i s)) /\
  modify_laws (il_modify_focus i).
Proof.
  intros S F i [L1 L2]. unfold modify_laws, il_modify_focus, il_get.
  repeat split; intros; destruct (is_forward i s) as [a c] eqn:H; rewrite ?L2; auto.
  rewrite <- H, L1; auto.
Qed.
(** [set_focus] is lawful for the documented shape of such pairs: [forward s = (focus, s)], [backward] updates the focus. *)
Theorem C56_set_focus_partial : forall S F (get : S -> F) (put : S -> F -> S), lens_laws get put ->
  let i := mkIso (fun s => (get s, s)) (fun p => put (snd p) (fst p)) in
  lens_laws (fun s => fst (il_get i s)) (il_set_focus i) /\ modify_laws (il_modify_focus i) /\
  (forall s f, il_modify_focus i s f = il_set_focus i s (f (get s))) /\
  (forall s, il_set i (il_get i s) = s).
Proof.
  intros S F get put (G & P & Q) i. unfold get_put, put_get, put_put in *. subst i. cbn.
  unfold modify_laws, il_modify_focus, il_set_focus, il_set, il_get, lens_laws, get_put, put_get, put_put. cbn.
  repeat split; intros; rewrite ?P, ?Q, ?G; auto.
Qed.
(** What remains for [set_focus] with any lawful isomorphism: the focus read back
    is the one written, but the old value is now the context. *)
Theorem C56_set_focus_lawful_iso : forall S F (i : iso S (F * S)), iso_laws (is_forward i) (is_backward i) ->
  forall s v, il_get i (il_set_focus i s v) = (v, s).
Proof. intros S F i [L1 L2] s v. apply L2. Qed.
(** So with a lawful isomorphism [set_focus] can change more than the focus:
    writing back the current focus changes the value. *)
Definition halving : iso nat (bool * nat) :=
  mkIso (fun n => (Nat.odd n, Nat.div2 n)) (fun p => (if fst p then 1 else 0) + 2 * snd p).
Lemma halving_lawful : iso_laws (is_forward halving) (is_backward halving).
Proof.
  split.
  - intros n. cbn. pose proof (Nat.div2_odd n) as H. destruct (Nat.odd n); cbn [Nat.b2n] in H; lia.
  - intros [[|] n]; cbn [is_forward is_backward halving fst snd].
    + rewrite Nat.odd_add, Nat.odd_mul. cbn [Nat.odd xorb andb Nat.even negb].
      change (1 + 2 * n) with (S (2 * n)). now rewrite Nat.div2_succ_double.
    + rewrite Nat.odd_add, Nat.odd_mul. cbn [Nat.odd xorb andb Nat.even negb plus].
      now rewrite Nat.div2_double.
Qed.
Theorem C56_set_focus_refuted : exists S F (i : iso S (F * S)) s,
  iso_laws (is_forward i) (is_backward i) /\ il_set_focus i s (fst (il_get i s)) <> s /\
  snd (il_get i (il_set_focus i s (fst (il_get i s)))) <> snd (il_get i s).
Proof. exists nat, bool, halving, 6. split; [apply halving_lawful|]. split; discriminate. Qed.
(** With any lawful isomorphism and at least two values, [set_focus] is not a lawful lens
    unless the context always is the value itself. *)
Theorem C56_set_focus_lawful_iso_only_if : forall S F (i : iso S (F * S)), iso_laws (is_forward i) (is_backward i) ->
  get_put (fun s => fst (il_get i s)) (il_set_focus i) -> forall s, snd (il_get i s) = s.
Proof.
  intros S F i L G s. pose proof (C56_set_focus_lawful_iso S F i L s (fst (il_get i s))) as H.
  rewrite (G s) in H. now rewrite H at 1.
Qed.
(** Composition keeps lawful isomorphisms lawful, and reads/writes through both. *)
Theorem C56_compose : forall S A B (l : iso S A) (m : iso A (B * S)),
  (forall s, il_get (il_compose l m) s = il_get m (il_get l s)) /\
  (forall p, il_set (il_compose l m) p = il_set l (il_set m p)) /\
  (iso_laws (is_forward l) (is_backward l) -> iso_laws (is_forward m) (is_backward m) ->
   iso_laws (is_forward (il_compose l m)) (is_backward (il_compose l m))).
Proof.
  intros. split; [reflexivity|split; [reflexivity|]]. intros [L1 L2] [M1 M2].
  split; intros; cbn; rewrite ?M1, ?L2, ?M2; auto.
Qed.
Example C56_case :
  iso_laws (is_forward halving) (is_backward halving) /\ il_get halving 6 = (false, 3) /\
  il_modify_focus halving 6 negb = 7 /\ il_set_focus halving 6 true = 13.
Proof. split; [apply halving_lawful|]. repeat split. Qed.

(** ** C57 *)
Theorem C57_laws : forall S A (i : iso S (option A)), iso_laws (is_forward i) (is_backward i) ->
  prism_laws (ip_preview i) (ip_review i) /\
  (forall s s', ip_preview i s = None -> ip_preview i s' = None -> s = s').
Proof.
  intros S A i [L1 L2]. unfold ip_preview, ip_review. repeat split.
  - intros a. apply L2.
  - intros s a H. now rewrite <- H, L1.
  - intros s s' H K. now rewrite <- (L1 s), <- (L1 s'), H, K.
Qed.
(** The prism laws do not even need a lawful isomorphism: both parts of the
    composition being lawful prisms is enough for the composite. *)
Theorem C57_compose : forall S A B (i : iso S (option A)) (j : iso A (option B)),
  prism_laws (ip_preview i) (ip_review i) -> prism_laws (ip_preview j) (ip_review j) ->
  prism_laws (ip_preview (ip_compose i j)) (ip_review (ip_compose i j)) /\
  (forall s, ip_preview (ip_compose i j) s = match ip_preview i s with Some a => ip_preview j a | None => None end) /\
  (forall b, ip_review (ip_compose i j) b = ip_review i (ip_review j b)).
Proof.
  unfold ip_preview, ip_review. intros S A B i j [I1 I2] [J1 J2]. split; [|split; reflexivity]. split.
  - intros b. cbn. now rewrite I1, J1.
  - intros s b H. cbn in *. destruct (is_forward i s) as [a|] eqn:K; [|discriminate].
    rewrite (J2 _ _ H). auto.
Qed.
(** The composite of two lawful isomorphisms is a lawful prism but never a lawful isomorphism. *)
Theorem C57_compose_not_iso : forall S A B (i : iso S (option A)) (j : iso A (option B)),
  iso_laws (is_forward i) (is_backward i) -> iso_laws (is_forward j) (is_backward j) ->
  exists s, is_backward (ip_compose i j) (is_forward (ip_compose i j) s) <> s.
Proof.
  intros S A B i j [I1 I2] [J1 J2]. exists (is_backward i (Some (is_backward j None))).
  cbn. rewrite I2, J2. cbn. intros H. apply (f_equal (is_forward i)) in H. rewrite !I2 in H. discriminate.
Qed.
Definition pred_iso : iso nat (option nat) :=
  mkIso (fun n => match n with O => None | S m => Some m end) (fun o => match o with None => 0 | Some m => S m end).
Example C57_case : iso_laws (is_forward pred_iso) (is_backward pred_iso) /\
  ip_preview (ip_compose pred_iso pred_iso) 5 = Some 3 /\ ip_review (ip_compose pred_iso pred_iso) 3 = 5 /\
  ip_preview (ip_compose pred_iso pred_iso) 1 = None.
Proof. split; [|auto]. split; intros []; reflexivity. Qed.

(** ** C58 *)
Theorem C58_compose : forall A B C (i : iso A B) (j : iso B C),
  iso_laws (is_forward i) (is_backward i) -> iso_laws (is_forward j) (is_backward j) ->
  iso_laws (is_forward (is_compose i j)) (is_backward (is_compose i j)) /\
  (forall a, is_forward (is_compose i j) a = is_forward j (is_forward i a)) /\
  (forall c, is_backward (is_compose i j) c = is_backward i (is_backward j c)).
Proof.
  intros A B C i j [I1 I2] [J1 J2]. split; [|split; reflexivity]. split; intros; cbn; rewrite ?J1, ?I2, ?I1; auto.
Qed.
(** Composition is associative with the identity isomorphism as unit, and inverse reverses it. *)
Theorem C58_category : forall A B C D (i : iso A B) (j : iso B C) (k : iso C D),
  is_compose (is_compose i j) k = is_compose i (is_compose j k) /\
  (forall a, is_forward (is_compose (mkIso (fun x => x) (fun x => x)) i) a = is_forward i a) /\
  (forall b, is_backward (is_compose (mkIso (fun x => x) (fun x => x)) i) b = is_backward i b) /\
  (forall a, is_forward (is_compose i (mkIso (fun x => x) (fun x => x))) a = is_forward i a) /\
  (forall b, is_backward (is_compose i (mkIso (fun x => x) (fun x => x))) b = is_backward i b) /\
  is_inverse (is_compose i j) = is_compose (is_inverse j) (is_inverse i).
Proof. intros. repeat split. Qed.
Theorem C58_inverse : forall A B (i : iso A B),
  (forall b, is_forward (is_inverse i) b = is_backward i b) /\
  (forall a, is_backward (is_inverse i) a = is_forward i a) /\
  is_inverse (is_inverse i) = i /\
  (iso_laws (is_forward i) (is_backward i) <-> iso_laws (is_forward (is_inverse i)) (is_backward (is_inverse i))) /\
  (iso_laws (is_forward i) (is_backward i) ->
     (forall a, is_backward (is_compose i (is_inverse i)) a = a) /\
     (forall a, is_forward (is_compose i (is_inverse i)) a = a)).
Proof.
  intros A B i. unfold iso_laws. repeat split; try (destruct i; reflexivity); cbn; intros; firstorder.
Qed.
Theorem C58_modify : forall A B (i : iso A B), iso_laws (is_forward i) (is_backward i) ->
  modify_laws (is_modify i) /\ (forall a f, is_forward i (is_modify i a f) = f (is_forward i a)) /\
  (forall a f, is_modify (is_inverse i) (is_forward i a) f = is_forward i (f a)).
Proof.
  intros A B i [L1 L2]. unfold modify_laws, is_modify. cbn. repeat split; intros; rewrite ?L2, ?L1; auto.
Qed.
(** [map_from_target]/[map_from_source] move functions along the isomorphism and back. *)
Theorem C58_map : forall A B R (i : iso A B) (f : B -> R) (g : A -> R), iso_laws (is_forward i) (is_backward i) ->
  (forall a, is_map_from_target i f a = f (is_convert_forward i a)) /\
  (forall b, is_map_from_source i g b = g (is_convert_backward i b)) /\
  (forall b, is_map_from_source i (is_map_from_target i f) b = f b) /\
  (forall a, is_map_from_target i (is_map_from_source i g) a = g a).
Proof.
  intros A B R i f g [L1 L2]. unfold is_map_from_target, is_map_from_source.
  repeat split; intros; rewrite ?L1, ?L2; auto.
Qed.
(** [verify_laws] decides the two round trips at the two points; it accepts all
    points exactly for lawful isomorphisms. *)
Theorem C58_verify_laws : forall A B eqa eqb (i : iso A B),
  (forall x y, eqa x y = true <-> x = y) -> (forall x y, eqb x y = true <-> x = y) ->
  (forall a b, is_verify_laws eqa eqb i a b = true <->
     is_backward i (is_forward i a) = a /\ is_forward i (is_backward i b) = b) /\
  ((exists a : A, True) -> (exists b : B, True) ->
   ((forall a b, is_verify_laws eqa eqb i a b = true) <-> iso_laws (is_forward i) (is_backward i))).
Proof.
  intros A B eqa eqb i Ha Hb.
  assert (V : forall a b, is_verify_laws eqa eqb i a b = true <->
     is_backward i (is_forward i a) = a /\ is_forward i (is_backward i b) = b).
  { intros a b. unfold is_verify_laws. now rewrite andb_true_iff, Ha, Hb. }
  split; auto. intros [a0 _] [b0 _]. split.
  - intros H. split; intros x; [apply (V x b0) | apply (V a0 x)]; auto.
  - intros [L1 L2] a b. now apply V.
Qed.
Theorem C58_result_either : forall R L, iso_laws (is_forward (result_either_iso R L)) (is_backward (result_either_iso R L)).
Proof. intros. split; intros []; reflexivity. Qed.
Example C58_case : iso_laws (is_forward pred_iso) (is_backward pred_iso) /\
  is_modify pred_iso 4 (option_map S) = 5 /\
  is_verify_laws Nat.eqb (fun a b => match a, b with Some x, Some y => Nat.eqb x y | None, None => true | _, _ => false end)
    pred_iso 3 None = true /\
  is_verify_laws Nat.eqb Nat.eqb (mkIso (fun n => n * 2) Nat.div2) 4 3 = false.
Proof. split; [split; intros []; reflexivity|]. repeat split. Qed.

Print Assumptions C54_set_is_set_always.
Print Assumptions C54_set_is_set_always_only_if.
Print Assumptions C54_equal_value_skips.
Print Assumptions C54_laws.
Print Assumptions C54_fmap_laws.
Print Assumptions C54_fmap_functor.
Print Assumptions C54_coarse_equality_refuted.
Print Assumptions C55_modify.
Print Assumptions C55_modify_no_match.
Print Assumptions C55_set_if_different.
Print Assumptions C55_set_keeps_unmatched_refuted.
Print Assumptions C56_whole_laws.
Print Assumptions C56_modify_focus.
Print Assumptions C56_set_focus_partial.
Print Assumptions C56_set_focus_lawful_iso.
Print Assumptions C56_set_focus_refuted.
Print Assumptions C56_set_focus_lawful_iso_only_if.
Print Assumptions C56_compose.
Print Assumptions C57_laws.
Print Assumptions C57_compose.
Print Assumptions C57_compose_not_iso.
Print Assumptions C58_compose.
Print Assumptions C58_category.
Print Assumptions C58_inverse.
Print Assumptions C58_modify.
Print Assumptions C58_map.
Print Assumptions C58_verify_laws.
Print Assumptions C58_result_either.

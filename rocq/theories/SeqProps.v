(** C79 for every type with these methods, and for every lawful applicative. *)
From Coq Require Import List Arith Lia.
From Verif Require Import Base Types LawSpec SumModel ChoiceModel ChoiceFacts ValidatedModel ValidatedSpec EffModel WrapModel AliasModel
  PvecModel PvecSpec PvecComb PvecProps WalkSpec WalkProps SumProps.
Import ListNotations.
Open Scope list_scope.

(** ** Sequencing *)
Theorem C79_sequencing_types : forall (A B L W : Type) (combine : W -> W -> W)
    (ma : maybe A) (mb : maybe B) (ea : either L A) (eb : either L B) (ia : id_ A) (ib : id_ B)
    (ca : choice A) (cb : choice B) (va : validated L A) (vb : validated L B) (wa : writer W A) (wb : writer W B),
  (* Maybe, Either, Id: both sides must be there; the first Left wins *)
  default_sequence_right (fun f => mb_lift2 f ma mb) = match ma with Just _ => mb | Nothing => Nothing end /\
  default_sequence_left (fun f => mb_lift2 f ma mb) =
    match ma, mb with Just a, Just _ => Just a | _, _ => Nothing end /\
  default_sequence_right (fun f => ei_lift2 f ea eb) = match ea with Right _ => eb | Left l => Left l end /\
  default_sequence_left (fun f => ei_lift2 f ea eb) =
    match ea, eb with Right a, Right _ => Right a | Left l, _ => Left l | _, Left l => Left l end /\
  default_sequence_right (fun f => id_lift2 f ia ib) = ib /\ default_sequence_left (fun f => id_lift2 f ia ib) = ia /\
  (* Choice: every value of one side once for every value of the other *)
  values (default_sequence_right (fun f => ch_lift2 f ca cb)) = concat (repeat (values cb) (length (values ca))) /\
  values (default_sequence_left (fun f => ch_lift2 f ca cb)) =
    concat (map (fun a => repeat a (length (values cb))) (values ca)) /\
  (* Validated: the errors of both sides *)
  default_sequence_right (fun f => va_lift2 f va vb) =
    match va, vb with Valid _, Valid b => Valid b | _, _ => Invalid (errors_of va ++ errors_of vb) end /\
  default_sequence_left (fun f => va_lift2 f va vb) =
    match va, vb with Valid a, Valid _ => Valid a | _, _ => Invalid (errors_of va ++ errors_of vb) end /\
  (* Writer: both logs, in order *)
  wr_run (default_sequence_right (fun f => wr_lift2 combine f wa wb)) =
    (combine (fst (wr_run wa)) (fst (wr_run wb)), snd (wr_run wb)) /\
  wr_run (default_sequence_left (fun f => wr_lift2 combine f wa wb)) =
    (combine (fst (wr_run wa)) (fst (wr_run wb)), snd (wr_run wa)).
Proof.
  intros. unfold default_sequence_right, default_sequence_left.
  repeat apply conj.
  - now destruct ma, mb.
  - now destruct ma, mb.
  - now destruct ea, eb.
  - now destruct ea, eb.
  - now destruct ib.
  - now destruct ia.
  - rewrite ch_lift2_values, flat_map_concat_map. f_equal.
    induction (values ca) as [|a l IH]; cbn; [reflexivity|]. now rewrite IH, map_id.
  - rewrite ch_lift2_values, flat_map_concat_map. f_equal. apply map_ext. intros a.
    induction (values cb) as [|b l IH]; cbn; [reflexivity|]. now rewrite IH.
  - destruct va, vb; cbn; now rewrite ?app_nil_r.
  - destruct va, vb; cbn; now rewrite ?app_nil_r.
  - reflexivity.
  - reflexivity.
Qed.

(** The forms that take their arguments by value *)
Theorem C79_sequencing_owned : forall (A B L : Type) (ma : maybe A) (mb : maybe B) (ea : either L A) (eb : either L B)
    (ia : id_ A) (ib : id_ B),
  default_sequence_right (fun f => mb_lift2_owned f ma mb) = default_sequence_right (fun f => mb_lift2 f ma mb) /\
  default_sequence_left (fun f => mb_lift2_owned f ma mb) = default_sequence_left (fun f => mb_lift2 f ma mb) /\
  default_sequence_right (fun f => ei_lift2_owned f ea eb) = default_sequence_right (fun f => ei_lift2 f ea eb) /\
  default_sequence_left (fun f => ei_lift2_owned f ea eb) = default_sequence_left (fun f => ei_lift2 f ea eb) /\
  default_sequence_right (fun f => id_lift2_owned f ia ib) = default_sequence_right (fun f => id_lift2 f ia ib) /\
  default_sequence_left (fun f => id_lift2_owned f ia ib) = default_sequence_left (fun f => id_lift2 f ia ib).
Proof. intros. repeat apply conj; destruct ma, mb, ea, eb; reflexivity. Qed.

(** Every lawful applicative whose [lift2] is built from [apply]: doing one thing after another is associative, and
    doing nothing before or after changes nothing. *)
Section Any.
Variable F : Type -> Type.
Variable pure : forall A, A -> F A.
Variable apply : forall A B, F (A -> B) -> F A -> F B.
Variable lift2 : forall A B C, (A -> B -> C) -> F A -> F B -> F C.
Hypothesis L : applicative_laws F (fun A x y => x = y) pure apply.
Hypothesis H2 : forall A B C (f : A -> B -> C) a b, lift2 A B C f a b = apply _ _ (apply _ _ (pure _ f) a) b.
Let right {A B} (a : F A) (b : F B) : F B := default_sequence_right (fun f => lift2 A B B f a b).
Let left {A B} (a : F A) (b : F B) : F A := default_sequence_left (fun f => lift2 A B A f a b).

Lemma ap_pure {A B} (f : A -> B) (x : A) : apply _ _ (pure _ f) (pure _ x) = pure _ (f x).
Proof. apply L. Qed.
Lemma ap_ap {A B C} (u : F (B -> C)) (v : F (A -> B)) (w : F A) :
  apply _ _ u (apply _ _ v w) =
  apply _ _ (apply _ _ (apply _ _ (pure _ (fun (g : B -> C) (f : A -> B) (a : A) => g (f a))) u) v) w.
Proof. symmetry. apply L. Qed.
Lemma ap_swap {A B} (u : F (A -> B)) (y : A) : apply _ _ u (pure _ y) = apply _ _ (pure _ (fun f => f y)) u.
Proof. apply L. Qed.
Lemma ap_map_map {A B C} (g : B -> C) (f : A -> B) (x : F A) :
  apply _ _ (pure _ g) (apply _ _ (pure _ f) x) = apply _ _ (pure _ (fun a => g (f a))) x.
Proof. rewrite ap_ap, !ap_pure. reflexivity. Qed.
Lemma map_ap {A B C} (g : B -> C) (u : F (A -> B)) (x : F A) :
  apply _ _ (pure _ g) (apply _ _ u x) = apply _ _ (apply _ _ (pure _ (fun (f : A -> B) a => g (f a))) u) x.
Proof. rewrite ap_ap, !ap_pure. reflexivity. Qed.
Lemma ap_map {A B C} (u : F (B -> C)) (f : A -> B) (x : F A) :
  apply _ _ u (apply _ _ (pure _ f) x) = apply _ _ (apply _ _ (pure _ (fun (g : B -> C) a => g (f a))) u) x.
Proof. rewrite ap_ap, ap_swap, ap_map_map. reflexivity. Qed.
Lemma ap_ap' {A B C} (u : F (B -> C)) (v : F (A -> B)) (w : F A) :
  apply _ _ u (apply _ _ v w) =
  apply _ _ (apply _ _ (apply _ _ (pure _ (fun (g : B -> C) (f : A -> B) (a : A) => g (f a))) u) v) w.
Proof. apply ap_ap. Qed.

Lemma seq_any : forall A B C (x : A) (y : B) (a : F A) (b : F B) (c : F C),
  right (pure _ x) b = b /\ left a (pure _ y) = a /\
  right (right a b) c = right a (right b c) /\ left (left a b) c = left a (left b c) /\
  right (left a b) c = right a (right b c) /\ right (pure _ x) (pure _ y) = pure _ y.
Proof.
  intros. unfold right, left, default_sequence_right, default_sequence_left.
  assert (I : forall T (v : F T), apply _ _ (pure _ (fun a => a)) v = v) by apply L.
  rewrite !H2. repeat apply conj.
  - rewrite ap_pure. apply I.
  - rewrite ap_swap, ap_map_map. apply I.
  - rewrite map_ap, ap_map_map. rewrite ap_ap, ap_map_map, ap_map, ap_map_map. reflexivity.
  - rewrite map_ap, ap_map_map. rewrite ap_ap, ap_map_map, ap_map, ap_map_map. reflexivity.
  - rewrite map_ap, ap_map_map. rewrite ap_ap, ap_map_map, ap_map, ap_map_map. reflexivity.
  - rewrite !ap_pure. reflexivity.
Qed.
End Any.
Theorem C79_any_applicative : forall (F : Type -> Type) (pure : forall A, A -> F A)
    (apply : forall A B, F (A -> B) -> F A -> F B) (lift2 : forall A B C, (A -> B -> C) -> F A -> F B -> F C),
  applicative_laws F (fun A x y => x = y) pure apply ->
  (forall A B C (f : A -> B -> C) a b, lift2 A B C f a b = apply _ _ (apply _ _ (pure _ f) a) b) ->
  let right := fun A B (a : F A) (b : F B) => default_sequence_right (fun f => lift2 A B B f a b) in
  let left := fun A B (a : F A) (b : F B) => default_sequence_left (fun f => lift2 A B A f a b) in
  forall A B C (x : A) (y : B) (a : F A) (b : F B) (c : F C),
  right _ _ (pure _ x) b = b /\ left _ _ a (pure _ y) = a /\
  right _ _ (right _ _ a b) c = right _ _ a (right _ _ b c) /\ left _ _ (left _ _ a b) c = left _ _ a (left _ _ b c) /\
  right _ _ (left _ _ a b) c = right _ _ a (right _ _ b c) /\ right _ _ (pure _ x) (pure _ y) = pure _ y.
Proof. intros. now apply seq_any with (pure := pure) (apply := apply). Qed.

(** ** Replacing *)
Lemma map_const {A B} (b : B) (l : list A) : map (fun _ => b) l = repeat b (length l).
Proof. induction l as [|x l IH]; cbn; [reflexivity|]. now rewrite IH. Qed.
Lemma ch_fmap_values {A B} (f : A -> B) c : values (ch_fmap f c) = map f (values c).
Proof. now destruct c as [[|]]. Qed.
Theorem C79_replace_types : forall (A B L W : Type) (b : B) (e : either L A) (i : id_ A) (c : choice A) (v : validated L A)
    (w : writer W A) (fi : first A) (la : last A) (su : sum A) (pr : product A) (mi : min A) (mx : max A),
  default_replace (fun f => ei_fmap f e) b = match e with Right _ => Right b | Left l => Left l end /\
  default_replace (fun f => id_fmap f i) b = mkId b /\
  values (default_replace (fun f => ch_fmap f c) b) = repeat b (length (values c)) /\
  default_replace (fun f => va_fmap f v) b = match v with Valid _ => Valid b | Invalid es => Invalid es end /\
  wr_run (default_replace (fun f => wr_fmap f w) b) = (fst (wr_run w), b) /\
  first_val (default_replace (fun f => first_fmap f fi) b) = match first_val fi with Some _ => Some b | None => None end /\
  last_val (default_replace (fun f => last_fmap f la) b) = match last_val la with Some _ => Some b | None => None end /\
  sum_val (default_replace (fun f => sum_fmap f su) b) = b /\ product_val (default_replace (fun f => product_fmap f pr) b) = b /\
  min_val (default_replace (fun f => min_fmap f mi) b) = b /\ max_val (default_replace (fun f => max_fmap f mx) b) = b.
Proof.
  intros. unfold default_replace. repeat apply conj; try reflexivity.
  - now rewrite ch_fmap_values, map_const.
  - now destruct fi as [[x|]].
  - now destruct la as [[x|]].
Qed.
(** [void] is replacing by the unit value; a vector keeps as many elements as iterating it finds. *)
Theorem C79_void_types : forall (A E L W : Type) (r : result A E) (m : maybe A) (e : either L A) (i : id_ A) (c : choice A)
    (v : validated L A) (w : writer W A),
  default_void (fun f => re_fmap f r) = match r with Ok _ => Ok tt | Err x => Err x end /\
  default_void (fun f => mb_fmap f m) = match m with Just _ => Just tt | Nothing => Nothing end /\
  default_void (fun f => ei_fmap f e) = match e with Right _ => Right tt | Left l => Left l end /\
  default_void (fun f => id_fmap f i) = mkId tt /\
  values (default_void (fun f => ch_fmap f c)) = repeat tt (length (values c)) /\
  default_void (fun f => va_fmap f v) = match v with Valid _ => Valid tt | Invalid es => Invalid es end /\
  wr_run (default_void (fun f => wr_fmap f w)) = (fst (wr_run w), tt).
Proof.
  intros. unfold default_void. repeat apply conj; try reflexivity.
  now rewrite ch_fmap_values, map_const.
Qed.
Theorem C79_replace_vector : forall (A B : Type) (b : B) (p : pvec A) l s, front p 0 l s ->
  (exists q, default_replace (fun f => pv_fmap f p) b = upto s q /\ represents q (repeat b (length l))) /\
  (exists q, default_void (fun f => pv_fmap f p) = upto s q /\ represents q (repeat tt (length l))).
Proof.
  intros A B b p l s H. unfold default_replace, default_void, pv_fmap, pv_map. rewrite (iter_front H), <- !(map_const _ l).
  split; [exists (pv_from_iter (map (fun _ => b) l))|exists (pv_from_iter (map (fun _ => tt) l))];
    (split; [now destruct s|apply from_iter_represents]).
Qed.
(** Replacing twice is replacing once, and replacing after a map forgets the map: for every lawful functor. *)
Theorem C79_replace_any : forall (F : Type -> Type) (fmap : forall A B, (A -> B) -> F A -> F B),
  functor_laws F (fun A x y => x = y) fmap ->
  forall A B C (x : F A) (f : A -> B) (c : C) (b : B),
  default_replace (fun g => fmap B C g (fmap A B f x)) c = default_replace (fun g => fmap A C g x) c /\
  default_replace (fun g => fmap B C g (default_replace (fun g => fmap A B g x) b)) c = default_replace (fun g => fmap A C g x) c /\
  default_void (fun g => fmap A unit g x) = default_replace (fun g => fmap A unit g x) tt.
Proof.
  intros F fmap [_ H] A B C x f c b. unfold default_replace, default_void.
  split; [symmetry; apply (H A B C f (fun _ => c))|]. split; [symmetry; apply (H A B C (fun _ => b) (fun _ => c))|reflexivity].
Qed.

(** ** Cases *)
Example C79_types_case :
  default_sequence_left (fun f => va_lift2 f (@Invalid nat nat [1; 2]) (@Invalid nat nat [3])) = Invalid [1; 2; 3] /\
  values (default_sequence_left (fun f => ch_lift2 f (mkChoice [1; 2]) (mkChoice [7; 8; 9]))) = [1; 1; 1; 2; 2; 2] /\
  wr_run (default_sequence_right (fun f => wr_lift2 (@app nat) f (mkWriter [1] 5) (mkWriter [2; 3] 6))) = ([1; 2; 3], 6) /\
  default_sequence_left (fun f => ei_lift2 f (@Right nat nat 1) (@Left nat nat 4)) = Left 4.
Proof. repeat split. Qed.
Example C79_any_case : applicative_laws list (fun A x y => x = y) (@vec_pure) (@vec_apply) /\
  default_sequence_right (fun f => vec_lift2 f [1; 2] [7; 8]) = [7; 8; 7; 8] /\
  functor_laws list (fun A x y => x = y) (@vec_fmap).
Proof.
  destruct SumProps.C76_vec as (H1 & H2 & _). split; [exact H2|]. split; [reflexivity|exact H1].
Qed.
Example C79_replace_case : wr_run (default_replace (fun f => wr_fmap f (mkWriter [1; 2] 5)) 9) = ([1; 2], 9) /\
  (match default_replace (fun f => pv_fmap f C14_short) true with Ret q => pv_to_vec q | Panic => Panic end) = Ret [true; true].
Proof. split; vm_compute; reflexivity. Qed.

Print Assumptions C79_sequencing_types.
Print Assumptions C79_sequencing_owned.
Print Assumptions C79_any_applicative.
Print Assumptions C79_replace_types.
Print Assumptions C79_void_types.
Print Assumptions C79_replace_vector.
Print Assumptions C79_replace_any.

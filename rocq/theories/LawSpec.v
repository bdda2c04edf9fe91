(** The algebraic laws, stated for an arbitrary type constructor [F] and an
    observational equality [eqv] on it.  Nothing here mentions a model. *)
From Coq Require Import List.
Import ListNotations.

Section Laws.
Variable F : Type -> Type.
Variable eqv : forall A, F A -> F A -> Prop.
Variable fmap : forall A B, (A -> B) -> F A -> F B.
Variable pure : forall A, A -> F A.
Variable apply : forall A B, F (A -> B) -> F A -> F B.
Variable bind : forall A B, F A -> (A -> F B) -> F B.
Arguments eqv {A}.
Arguments fmap {A B}.
Arguments pure {A}.
Arguments apply {A B}.
Arguments bind {A B}.

Definition functor_laws : Prop :=
  (forall A (x : F A), eqv (fmap (fun a => a) x) x) /\
  (forall A B C (f : A -> B) (g : B -> C) (x : F A),
     eqv (fmap (fun a => g (f a)) x) (fmap g (fmap f x))).

Definition applicative_laws : Prop :=
  (forall A (v : F A), eqv (apply (pure (fun a => a)) v) v) /\
  (forall A B (f : A -> B) (x : A), eqv (apply (pure f) (pure x)) (pure (f x))) /\
  (forall A B (u : F (A -> B)) (y : A), eqv (apply u (pure y)) (apply (pure (fun f => f y)) u)) /\
  (forall A B C (u : F (B -> C)) (v : F (A -> B)) (w : F A),
     eqv (apply (apply (apply (pure (fun (g : B -> C) (f : A -> B) (a : A) => g (f a))) u) v) w)
         (apply u (apply v w))).

Definition monad_laws : Prop :=
  (forall A B (x : A) (f : A -> F B), eqv (bind (pure x) f) (f x)) /\
  (forall A (m : F A), eqv (bind m pure) m) /\
  (forall A B C (m : F A) (f : A -> F B) (g : B -> F C),
     eqv (bind (bind m f) g) (bind m (fun a => bind (f a) g))).

(** The derived operations agree with each other. *)
Definition fmap_is_apply : Prop :=
  forall A B (f : A -> B) (x : F A), eqv (fmap f x) (apply (pure f) x).
Definition fmap_is_bind : Prop :=
  forall A B (f : A -> B) (x : F A), eqv (fmap f x) (bind x (fun a => pure (f a))).
Definition apply_is_bind : Prop :=
  forall A B (u : F (A -> B)) (x : F A),
    eqv (apply u x) (bind u (fun f => bind x (fun a => pure (f a)))).

Variable lift2 : forall A B C, (A -> B -> C) -> F A -> F B -> F C.
Variable lift3 : forall A B C D, (A -> B -> C -> D) -> F A -> F B -> F C -> F D.
Definition lifts_are_apply : Prop :=
  (forall A B C (f : A -> B -> C) a b,
     eqv (lift2 A B C f a b) (apply (apply (pure f) a) b)) /\
  (forall A B C D (f : A -> B -> C -> D) a b c,
     eqv (lift3 A B C D f a b c) (apply (apply (apply (pure f) a) b) c)).
End Laws.

(** A monoid. *)
Definition associative {A} (op : A -> A -> A) : Prop := forall x y z, op (op x y) z = op x (op y z).
Definition left_identity {A} (op : A -> A -> A) (e : A) : Prop := forall x, op e x = x.
Definition right_identity {A} (op : A -> A -> A) (e : A) : Prop := forall x, op x e = x.
Definition monoid_laws {A} (op : A -> A -> A) (e : A) : Prop :=
  associative op /\ left_identity op e /\ right_identity op e.

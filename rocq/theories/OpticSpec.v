(** The laws of optics, stated for bare functions.  Nothing here mentions a model. *)

(** A getter and a setter form a lawful lens. *)
Definition get_put {S A} (get : S -> A) (put : S -> A -> S) : Prop := forall s, put s (get s) = s.
Definition put_get {S A} (get : S -> A) (put : S -> A -> S) : Prop := forall s a, get (put s a) = a.
Definition put_put {S A} (put : S -> A -> S) : Prop := forall s a b, put (put s a) b = put s b.
Definition lens_laws {S A} (get : S -> A) (put : S -> A -> S) : Prop :=
  get_put get put /\ put_get get put /\ put_put put.

(** A partial view and an injection form a lawful prism. *)
Definition prism_laws {S A} (preview : S -> option A) (review : A -> S) : Prop :=
  (forall a, preview (review a) = Some a) /\ (forall s a, preview s = Some a -> review a = s).

(** Two functions are mutually inverse. *)
Definition iso_laws {A B} (to : A -> B) (from : B -> A) : Prop :=
  (forall a, from (to a) = a) /\ (forall b, to (from b) = b).

(** A way of modifying a focus behaves like a functor action. *)
Definition modify_laws {S A} (modify : S -> (A -> A) -> S) : Prop :=
  (forall s, modify s (fun a => a) = s) /\
  (forall s f g, modify (modify s f) g = modify s (fun a => g (f a))).

(** The boolean [eqb] only identifies equal values ([NaN <> NaN] is allowed). *)
Definition eq_sound {A} (eqb : A -> A -> bool) : Prop := forall a b, eqb a b = true -> a = b.

(** Vocabulary for random generators; mentions no model.  [G] is the type of
    generator states, [gen] takes a state to a value and the next state. *)

(** The value can be drawn, whatever is to be drawn afterwards. *)
Definition reaches {G A} (gen : G -> A * G) (x : A) : Prop := forall next, exists g, gen g = (x, next).
(** Every value can be drawn. *)
Definition complete {G A} (gen : G -> A * G) : Prop := forall x, reaches gen x.
(** Only such values are ever drawn. *)
Definition only {G A} (gen : G -> A * G) (P : A -> Prop) : Prop := forall g, P (fst (gen g)).

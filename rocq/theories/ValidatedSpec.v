(** Specification vocabulary for validations. *)
From Coq Require Import List.
From Verif Require Import Types.
Import ListNotations.

(** The errors a validation carries. *)
Definition errors_of {E A} (v : validated E A) : list E :=
  match v with Valid _ => [] | Invalid es => es end.

(** [r] is the accumulation of validations with these contents: valid with
    [a] when [vs] are all valid, otherwise invalid with all their errors. *)
Definition accumulates {E A B} (vs : list (validated E A)) (f : list A -> B) (r : validated E B) : Prop :=
  (forall xs, vs = map Valid xs -> r = Valid (f xs)) /\
  ((exists es, In (Invalid es) vs) -> r = Invalid (concat (map errors_of vs))).

(** No validation is invalid with an empty error list. *)
Definition proper {E A} (v : validated E A) : Prop := v <> Invalid [].

(** What it means that all ways of reading a container agree; mentions no model
    but the panic type.  [content] is what the container holds, at most the
    first element of which a reader returns. *)
From Coq Require Import List.
From Verif Require Import Base.

Definition one_reading {A} (content : list A) (panicking : list (outcome A)) (optional : list (option A))
    (listing : list (list A)) (defaulting : list (A -> A)) : Prop :=
  (forall r, In r panicking -> match content with x :: _ => r = Ret x | nil => r = Panic end) /\
  (forall o, In o optional -> match content with x :: _ => o = Some x | nil => o = None end) /\
  (forall l, In l listing -> l = content) /\
  (forall f d, In f defaulting -> match content with x :: _ => f d = x | nil => f d = d end).

(** When a text can be told apart: the characters a text uses. *)
From Coq Require Import String Ascii List.
Import ListNotations.
Open Scope char_scope.

(** [s] does not contain the character [c]. *)
Fixpoint free_of (c : ascii) (s : string) : Prop :=
  match s with
  | EmptyString => True
  | String d s' => d <> c /\ free_of c s'
  end.
(** A way of printing elements that leaves the separators alone and prints
    something. *)
Definition plain {T} (show : T -> string) : Prop :=
  forall x, free_of "," (show x) /\ free_of "|" (show x) /\ show x <> EmptyString.

(** Calls that add to a parse error, and the last text given by each kind of call. *)
From Coq Require Import String List.
From Verif Require Import ParseErrModel.
Import ListNotations.

Inductive hint := Expected (text : string) | Found (text : string).
Definition add_hint (e : parse_error) (h : hint) : parse_error :=
  match h with Expected s => pe_with_expected e s | Found s => pe_with_found e s end.
Definition build (message : string) (position : nat) (hints : list hint) : parse_error :=
  fold_left add_hint hints (pe_new message position).

(** [s] was given as what was expected (found), and nothing else after it. *)
Definition last_expected (hints : list hint) (s : string) : Prop :=
  exists before after, (hints = before ++ Expected s :: after)%list /\ forall t, ~ In (Expected t) after.
Definition last_found (hints : list hint) (s : string) : Prop :=
  exists before after, (hints = before ++ Found s :: after)%list /\ forall t, ~ In (Found t) after.

(** What one finds by asking any vector for one position after the other. Nothing is assumed about the vector. *)
From Coq Require Import List.
From Verif Require Import Base PvecModel.
Import ListNotations.

(** Asking for positions [p], [p+1], ... until there is none: the elements met, and whether the end was reached
    or a read panicked. *)
Inductive front {T} (v : pvec T) : nat -> list T -> outcome unit -> Prop :=
| front_stop p : pv_get v p = Ret None -> front v p [] (Ret tt)
| front_some p x l s : pv_get v p = Ret (Some x) -> front v (S p) l s -> front v p (x :: l) s
| front_panic p : pv_get v p = Panic -> front v p [] Panic.

(** Asking for positions [p-1], [p-2], ..., 0, passing over those where there is nothing. *)
Inductive back {T} (v : pvec T) : nat -> list T -> outcome unit -> Prop :=
| back_stop : back v 0 [] (Ret tt)
| back_some p x l s : pv_get v p = Ret (Some x) -> back v p l s -> back v (S p) (x :: l) s
| back_none p l s : pv_get v p = Ret None -> back v p l s -> back v (S p) l s
| back_panic p : pv_get v p = Panic -> back v (S p) [] Panic.

(** [r], if the end [s] was reached *)
Definition upto {A} (s : outcome unit) (r : A) : outcome A :=
  match s with Ret _ => Ret r | Panic => Panic end.

(** Specification for C13: the vectors any program can make. *)
From Coq Require Import List.
From Verif Require Import Base PvecModel PvecSpec.

(** Start values, every call that returns (also ones whose contents are wrong),
    and [concat] of two such vectors.  [sorted], [dedup], [zip] and the like collect
    their result from an iterator, so their results are start values. *)
Inductive made {T} : pvec T -> Prop :=
| made_start v l : starts v l -> made v
| made_step o v v' r : made v -> vec_step o v = Ret (v', r) -> made v'
| made_concat a b : made a -> made b -> made (pv_concat a b).

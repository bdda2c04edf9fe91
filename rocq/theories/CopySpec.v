(** Specification for element copies: the vectors the bounds speak about. *)
From Coq Require Import List.
From Verif Require Import Base PvecModel PvecSpec.
Set Implicit Arguments.

(** Everything a program can make with the public interface: start values
    ([from_iter] also stands for the operations that collect their result:
    [map], [filter], [sorted], [dedup], [zip], ...), any call of [op], and
    [concat] of two such vectors. *)
Inductive made {T} : pvec T -> Prop :=
| made_start v l : starts v l -> made v
| made_step o v v' r : made v -> vec_step o v = Ret (v', r) -> made v'
| made_concat a b : made a -> made b -> made (pv_concat a b).

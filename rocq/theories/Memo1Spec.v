(** What a memoizer should answer after any calls, without a memoizer. *)
From Coq Require Import List.
Import ListNotations.

Section Spec.
Context {K V E : Type} (eqb : K -> K -> bool).

(** A call as the caller sees it: a key, with the effects and the value of its
    function, or a wipe. *)
Inductive call : Type := Ask (k : K) (es : list E) (v : V) | Wipe.

(** The value of the first call for [k] since the last wipe; the latest call
    comes first in [past]. *)
Fixpoint first_value (past : list call) (k : K) : option V :=
  match past with
  | [] => None
  | Wipe :: _ => None
  | Ask k' _ v :: past' =>
      match first_value past' k with
      | Some w => Some w
      | None => if eqb k k' then Some v else None
      end
  end.

(** Answers (none for a wipe) and effects of calls that come after [past] *)
Fixpoint answers (past calls : list call) : list (option V) :=
  match calls with
  | [] => []
  | Wipe :: cs => None :: answers (Wipe :: past) cs
  | Ask k es v :: cs =>
      Some (match first_value past k with Some w => w | None => v end)
      :: answers (Ask k es v :: past) cs
  end.
Fixpoint traces (past calls : list call) : list E :=
  match calls with
  | [] => []
  | Wipe :: cs => traces (Wipe :: past) cs
  | Ask k es v :: cs =>
      match first_value past k with Some _ => [] | None => es end
      ++ traces (Ask k es v :: past) cs
  end.
End Spec.
Arguments call K V E : clear implicits.

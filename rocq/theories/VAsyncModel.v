(** Model of the asynchronous methods of [Validated]
    ([/repo/src/datatypes/validated/core.rs], feature [async]).  Definitions only.

    The futures are those of [AsyncModel].  A user closure may act on the world
    and may panic when it is called ([eff]), and returns a future. *)
From Coq Require Import List Bool Arith.
From Verif Require Import Base Types WrapModel AsyncModel.
Import ListNotations.

Section VAsync.
Context {W : Type}.
(** One visit of the branch at one position; out of range nothing happens. *)
Fixpoint visit_at {A} (i : nat) (bs : list (branch W A)) (w : W) {struct bs} : option (list (branch W A)) * W :=
  match bs, i with
  | [], _ => (Some [], w)
  | b :: bs', 0 => match branch_step b w with (Some b', w') => (Some (b' :: bs'), w') | (None, w') => (None, w') end
  | b :: bs', S i' => match visit_at i' bs' w with (Some r, w') => (Some (b :: r), w') | (None, w') => (None, w') end
  end.
Fixpoint visit_all {A} (visits : list nat) (bs : list (branch W A)) (w : W) : option (list (branch W A)) * W :=
  match visits with
  | [] => (Some bs, w)
  | i :: visits' => match visit_at i bs w with (Some bs', w') => visit_all visits' bs' w' | (None, w') => (None, w') end
  end.
(** The values, when every branch has finished *)
Fixpoint all_finished {A} (bs : list (branch W A)) : option (list A) :=
  match bs with
  | [] => Some []
  | Finished a :: bs' => match all_finished bs' with Some l => Some (a :: l) | None => None end
  | Running _ :: _ => None
  end.
(** [futures::future::join_all].  Up to 30 futures it visits all of them, in
    order, at each poll; with more it visits those that were woken, in the order
    in which they were.  So [visits] says, for every poll, which positions are
    visited and in which order.  A finished future is not polled again. *)
CoFixpoint join_all_branches {A} (visits : nat -> list nat) (bs : list (branch W A)) : fut W (list A) :=
  Fut (fun w =>
    match visit_all (visits 0) bs w with
    | (None, w') => (Panicked, w')
    | (Some bs', w') =>
        match all_finished bs' with
        | Some l => (Ready l, w')
        | None => (Pending (join_all_branches (fun n => visits (S n)) bs'), w')
        end
    end).
Definition fut_join_all {A} (visits : nat -> list nat) (xs : list (fut W A)) : fut W (list A) :=
  join_all_branches visits (map Running xs).
(** [es.iter().map(|e| f(e.clone()))], consumed by [join_all]: the closure is
    called for every error, in order, before the first future is polled *)
Fixpoint call_each {A B} (f : A -> eff W B) (es : list A) : eff W (list B) :=
  match es with
  | [] => eff_ret []
  | e :: es' => eff_bind (f e) (fun x => eff_bind (call_each f es') (fun xs => eff_ret (x :: xs)))
  end.

(** validated/core.rs 1649-1662; an [async fn]: its body starts at the first poll *)
Definition va_fmap_valid_async {E A B} (v : validated E A) (f : A -> eff W (fut W B)) : fut W (validated E B) :=
  match v with
  | Valid x => fut_bind (fut_call (f x)) (fun result => fut_ready (Valid result))
  | Invalid e => fut_ready (Invalid e)
  end.
(** validated/core.rs 1692-1709 *)
Definition va_fmap_invalid_async {E A G} (visits : nat -> list nat) (v : validated E A) (f : E -> eff W (fut W G)) : fut W (validated G A) :=
  match v with
  | Valid x => fut_ready (Valid x)
  | Invalid es =>
      fut_bind (fut_call (eff_bind (call_each f es) (fun futures => eff_ret (fut_join_all visits futures))))
        (fun results => fut_ready (Invalid results))
  end.
(** validated/core.rs 1746-1756 *)
Definition va_and_then_async {E A B} (v : validated E A) (f : A -> eff W (fut W (validated E B))) : fut W (validated E B) :=
  match v with
  | Valid x => fut_call (f x)
  | Invalid e => fut_ready (Invalid e)
  end.
End VAsync.

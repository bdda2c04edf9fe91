(** What a caller sees of a future: they poll it, the rest of the world acts
    between two polls (the functions in [env]), until the future is ready or
    panics, or they stop polling. *)
From Coq Require Import List.
From Verif Require Import Base WrapModel AsyncModel.
Import ListNotations.

(** The result, the world then, and the steps of [env] that were not needed. *)
Inductive seen (W A : Type) : Type := Ended (o : outcome A) (w : W) (rest : list (W -> W)) | Stopped (w : W).
Arguments Ended {W A} _ _ _.
Arguments Stopped {W A} _.
Fixpoint await {W A} (env : list (W -> W)) (x : fut W A) (w : W) : seen W A :=
  match poll x w with
  | (Ready a, w') => Ended (Ret a) w' env
  | (Panicked, w') => Ended Panic w' env
  | (Pending x', w') => match env with [] => Stopped w' | g :: env' => await env' x' (g w') end
  end.
(** The second computation starts where the first one was ready. *)
Definition followed_by {W A B} (s : seen W A) (k : A -> list (W -> W) -> W -> seen W B) : seen W B :=
  match s with
  | Ended (Ret a) w rest => k a rest w
  | Ended Panic w rest => Ended Panic w rest
  | Stopped w => Stopped w
  end.
(** Indistinguishable futures: same number of polls, same effects, same results. *)
Definition fut_eqv {W A} (x y : fut W A) : Prop := forall env w, await env x w = await env y w.
Definition am_eqv {W A} (x y : asyncm W A) : Prop := fut_eqv (am_try_get x) (am_try_get y).
(** Building [x], then awaiting the result *)
Definition await_built {W A} (env : list (W -> W)) (x : eff W (asyncm W A)) (w : W) : seen W A :=
  match x w with (Ret m, w') => await env (am_try_get m) w' | (Panic, w') => Ended Panic w' env end.
(** A future that uses only one half of the world *)
CoFixpoint on_fst {V W A} (x : fut V A) : fut (V * W) A :=
  Fut (fun w =>
    match poll x (fst w) with
    | (Ready a, v) => (Ready a, (v, snd w))
    | (Panicked, v) => (Panicked, (v, snd w))
    | (Pending x', v) => (Pending (on_fst x'), (v, snd w))
    end).
CoFixpoint on_snd {V W A} (x : fut W A) : fut (V * W) A :=
  Fut (fun w =>
    match poll x (snd w) with
    | (Ready a, v) => (Ready a, (fst w, v))
    | (Panicked, v) => (Panicked, (fst w, v))
    | (Pending x', v) => (Pending (on_snd x'), (fst w, v))
    end).
Definition on_both {V W} (g : (V -> V) * (W -> W)) (w : V * W) : V * W := (fst g (fst w), snd g (snd w)).
(** The world after some steps *)
Definition steps {W} (env : list (W -> W)) (w : W) : W := fold_left (fun v g => g v) env w.

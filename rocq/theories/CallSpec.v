(** What it means to call a function on the elements of a list, with effects.
    Nothing here mentions the model. *)
From Coq Require Import List.
From Verif Require Import Base.
Import ListNotations.

(** [f] is called on the elements in order, each call seeing the effects of the
    one before; the calls end after the list, after the first result accepted by
    [stop], or with the first panic.  The third argument is the results of the
    calls made. *)
Inductive calls_until {W A B} (stop : B -> bool) (f : A -> W -> outcome B * W)
  : list A -> W -> outcome (list B) -> W -> Prop :=
| calls_nil w : calls_until stop f [] w (Ret []) w
| calls_stop x l w y w1 : f x w = (Ret y, w1) -> stop y = true ->
    calls_until stop f (x :: l) w (Ret [y]) w1
| calls_next x l w y w1 r w2 : f x w = (Ret y, w1) -> stop y = false ->
    calls_until stop f l w1 r w2 -> calls_until stop f (x :: l) w (omap (cons y) r) w2
| calls_panic x l w w1 : f x w = (Panic, w1) -> calls_until stop f (x :: l) w Panic w1.

(** One call for every element. *)
Definition calls {W A B} (f : A -> W -> outcome B * W) : list A -> W -> outcome (list B) -> W -> Prop :=
  calls_until (fun _ => false) f.

(** [f] is called on an accumulator and each element in order. *)
Inductive threads {W S A} (f : S -> A -> W -> outcome S * W) : S -> list A -> W -> outcome S -> W -> Prop :=
| threads_nil s w : threads f s [] w (Ret s) w
| threads_next s x l w s1 w1 r w2 : f s x w = (Ret s1, w1) -> threads f s1 l w1 r w2 ->
    threads f s (x :: l) w r w2
| threads_panic s x l w w1 : f s x w = (Panic, w1) -> threads f s (x :: l) w Panic w1.

(** A fold visits the elements of [l] in order. *)
Definition folds {W A} (fold : forall U, (U -> A -> W -> outcome U * W) -> U -> W -> outcome U * W) (l : list A) : Prop :=
  forall U f s w, exists r w', threads f s l w r w' /\ fold U f s w = (r, w').

(** Operations are called one after the other on what the one before gave,
    as long as [go] finds something to go on with; [done] ends the last one. *)
Inductive pipes {W B R} (go : R -> option B) (done : B -> R) : B -> list (B -> W -> outcome R * W) ->
    W -> outcome R -> W -> Prop :=
| pipes_nil b w : pipes go done b [] w (Ret (done b)) w
| pipes_next b op ops w r b1 w1 q w2 : op b w = (Ret r, w1) -> go r = Some b1 ->
    pipes go done b1 ops w1 q w2 -> pipes go done b (op :: ops) w q w2
| pipes_stop b op ops w r w1 : op b w = (Ret r, w1) -> go r = None ->
    pipes go done b (op :: ops) w (Ret r) w1
| pipes_panic b op ops w w1 : op b w = (Panic, w1) -> pipes go done b (op :: ops) w Panic w1.

(** An iterator is asked for items until it gives none. *)
Inductive drains {W S Y} (next : S -> W -> outcome (option Y * S) * W) : S -> W -> outcome (list Y) -> W -> Prop :=
| drains_end s w s1 w1 : next s w = (Ret (None, s1), w1) -> drains next s w (Ret []) w1
| drains_item s w y s1 w1 r w2 : next s w = (Ret (Some y, s1), w1) -> drains next s1 w1 r w2 ->
    drains next s w (omap (cons y) r) w2
| drains_panic s w w1 : next s w = (Panic, w1) -> drains next s w Panic w1.

(** The elements whose answer is yes, and those whose answer is no. *)
Definition yes {A} (l : list A) (bs : list bool) : list A := map fst (filter snd (combine l bs)).
Definition no {A} (l : list A) (bs : list bool) : list A := map fst (filter (fun p => negb (snd p)) (combine l bs)).
(** The values present. *)
Definition somes {A} (l : list (option A)) : list A :=
  flat_map (fun o => match o with Some x => [x] | None => [] end) l.

(** C85: exclusive access to the contents of [Maybe], [Id], [Either] and
    [Validated]. *)
From Coq Require Import List Arith Lia.
From Verif Require Import Base Types SumModel ValidatedModel AccessModel AccessSpec.
Import ListNotations.
Open Scope outcome_scope.

Lemma answers_nil A n : @answers A n [] = repeat None n.
Proof.
  unfold answers. generalize 0 as k. induction n; intros k; simpl; [reflexivity|].
  destruct k; simpl; now rewrite IHn.
Qed.
Lemma answers_cons A n (x : A) l : answers (S n) (x :: l) = Some x :: answers n l.
Proof. unfold answers. simpl. f_equal. rewrite <- seq_shift, map_map. reflexivity. Qed.

Lemma walk_spec {I A} (next : I -> option A * I) (rest : I -> list A) (f : A -> A) :
  (forall it, match rest it with
              | [] => fst (next it) = None /\ rest (snd (next it)) = []
              | x :: l => fst (next it) = Some x /\ rest (snd (next it)) = l
              end) ->
  forall n it, walk next rest f n it = (answers n (rest it), touched f n (rest it)).
Proof.
  intros Hn n. induction n; intros it; [reflexivity|].
  specialize (Hn it). simpl. destruct (next it) as [o it'] eqn:E; cbn [fst snd] in Hn.
  destruct (rest it) as [|x l] eqn:R; destruct Hn as [-> Hr]; rewrite IHn, Hr.
  - rewrite !answers_nil. unfold touched. rewrite !firstn_nil, !skipn_nil. reflexivity.
  - rewrite answers_cons. reflexivity.
Qed.
Lemma walk_take A (f : A -> A) n it :
  walk take_next take_left f n it = (answers n (take_left it), touched f n (take_left it)).
Proof. apply walk_spec. intros [a|]; simpl; auto. Qed.
Lemma walk_slice A (f : A -> A) n it :
  walk slice_next slice_left f n it = (answers n it, touched f n it).
Proof. rewrite walk_spec; [reflexivity|]. intros [|a l]; simpl; auto. Qed.
Lemma walk_errors A (f : A -> A) n it :
  walk errors_next errors_left f n it = (answers n (errors_left it), touched f n (errors_left it)).
Proof. apply walk_spec. intros [|[|a l]]; simpl; auto. Qed.

(** A loop that asks [Maybe] for its contents [n] times sees the value once,
    then nothing; asking at least once has the effect of [fmap], not asking
    changes nothing.  Both ways of obtaining the iterator agree. *)
Theorem C85_maybe : forall A (f : A -> A) n m,
  mb_walk_mut f n m = (answers n (mb_to_vec m), if n =? 0 then m else mb_fmap f m) /\
  mb_walk_into_mut f n m = mb_walk_mut f n m.
Proof.
  intros A f n m. unfold mb_walk_into_mut, mb_walk_mut. rewrite walk_take, walk_slice.
  destruct n, m; auto.
Qed.

Theorem C85_id : forall A (f : A -> A) n i,
  id_walk_mut f n i = (answers n [id_extract i], if n =? 0 then i else id_fmap f i) /\
  id_value_mut f i = id_fmap f i.
Proof.
  intros A f n [i]. unfold id_walk_mut. rewrite walk_slice. split; [|reflexivity]. now destruct n.
Qed.

(** The two sides of [Either]: a loop over one side acts as the map of that
    side and can never change the other. *)
Theorem C85_either : forall L R (f : R -> R) (g : L -> L) n (e : either L R),
  ei_walk_mut f n e = (answers n (ei_iter e), if n =? 0 then e else ei_fmap f e) /\
  ei_walk_left_mut g n e = (answers n (ei_left_iter e), if n =? 0 then e else ei_fmap_left g e).
Proof.
  intros. unfold ei_walk_mut, ei_walk_left_mut. rewrite !walk_take.
  destruct n, e; auto.
Qed.

(** [left_mut] panics exactly where [unwrap_left] does and otherwise acts as
    the map of the left side; [left_ref] shows what it gives access to. *)
Theorem C85_left_mut : forall L R (g : L -> L) (e : either L R),
  ei_left_mut g e = omap (fun _ => ei_fmap_left g e) (ei_unwrap_left e) /\
  ei_left_ref e = ei_unwrap_left e /\
  (ei_left_mut g e = Panic <-> ei_is_right e = true).
Proof.
  intros L R g [l|r]; unfold ei_left_mut; simpl; (split; [|split; [|split]]); congruence.
Qed.

Theorem C85_validated : forall E A (f : A -> A) n (v : validated E A),
  va_walk_mut f n v =
    (answers n (match v with Valid a => [a] | Invalid _ => [] end), if n =? 0 then v else va_fmap f v).
Proof. intros. unfold va_walk_mut. rewrite walk_take. destruct n, v; auto. Qed.

(** Walking over the errors: the first [n] are rewritten in place, in order,
    the others and a valid value stay; a loop to the end is [fmap_invalid]. *)
Theorem C85_errors : forall E A (f : E -> E) n (v : validated E A),
  fst (va_walk_errors_mut f n v) = answers n (va_errors v) /\
  va_errors (snd (va_walk_errors_mut f n v)) = touched f n (va_errors v) /\
  va_is_valid (snd (va_walk_errors_mut f n v)) = va_is_valid v /\
  va_to_option (snd (va_walk_errors_mut f n v)) = va_to_option v /\
  (length (va_errors v) <= n -> snd (va_walk_errors_mut f n v) = va_fmap_invalid f v).
Proof.
  intros E A f n v. unfold va_walk_errors_mut. rewrite walk_errors.
  destruct v as [a|es]; simpl; repeat split; auto.
  - unfold touched. now rewrite firstn_nil, skipn_nil.
  - intros H. unfold touched. rewrite firstn_all2, skipn_all2, app_nil_r by assumption. reflexivity.
Qed.

(** Complete passes over the errors compose: one with [f] then one with [g] is
    one with both. *)
Theorem C85_two_passes : forall E A (f g : E -> E) n m (v : validated E A),
  length (va_errors v) <= n -> length (va_errors v) <= m ->
  snd (va_walk_errors_mut g m (snd (va_walk_errors_mut f n v))) =
  snd (va_walk_errors_mut (fun e => g (f e)) n v).
Proof.
  intros E A f g n m v Hn Hm.
  destruct (C85_errors E A f n v) as (_ & _ & _ & _ & ->); [|assumption].
  destruct (C85_errors E A (fun e => g (f e)) n v) as (_ & _ & _ & _ & ->); [|assumption].
  destruct (C85_errors E A g m (va_fmap_invalid f v)) as (_ & _ & _ & _ & ->).
  - destruct v; simpl; [reflexivity|]. now rewrite map_map.
  - unfold va_errors, va_error_slice in *. destruct v; simpl in *; [assumption|].
    now rewrite map_length.
Qed.
Example C85_case :
  va_walk_errors_mut S 2 (Invalid [1; 2; 3] : validated nat nat) =
    ([Some 1; Some 2], Invalid [2; 3; 3]) /\
  va_walk_errors_mut S 5 (Invalid [1; 2; 3] : validated nat nat) =
    ([Some 1; Some 2; Some 3; None; None], Invalid [2; 3; 4]) /\
  mb_walk_mut S 2 (Just 4) = ([Some 4; None], Just 5) /\
  ei_walk_left_mut S 2 (Right 4 : either nat nat) = ([None; None], Right 4) /\
  ei_left_mut S (Left 1 : either nat nat) = Ret (Left 2).
Proof. repeat split. Qed.

(** The error buffer can be replaced as a whole, and only if there is one. *)
Theorem C85_error_buffer_partial : forall E A (g : list E -> list E) (v : validated E A),
  (fst (va_error_buffer_mut g v) = None <-> va_is_valid v = true) /\
  va_is_valid (snd (va_error_buffer_mut g v)) = va_is_valid v /\
  va_to_option (snd (va_error_buffer_mut g v)) = va_to_option v /\
  (va_is_valid v = false -> va_errors (snd (va_error_buffer_mut g v)) = g (va_errors v)).
Proof. intros E A g [a|es]; repeat split; simpl; congruence. Qed.

(** That every invalid result carries an error, and so can be turned into a
    [Result] without a panic, is not preserved: the buffer can be emptied. *)
Theorem C85_emptied_refuted : exists (g : list nat -> list nat) (v : validated nat nat),
  va_to_result v <> Panic /\
  va_to_result (snd (va_error_buffer_mut g v)) = Panic.
Proof. exists (fun _ => []), (Invalid [1]). split; [discriminate|reflexivity]. Qed.

Print Assumptions C85_maybe.
Print Assumptions C85_id.
Print Assumptions C85_either.
Print Assumptions C85_left_mut.
Print Assumptions C85_validated.
Print Assumptions C85_errors.
Print Assumptions C85_two_passes.
Print Assumptions C85_error_buffer_partial.
Print Assumptions C85_emptied_refuted.

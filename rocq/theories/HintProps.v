(** C102: what is built from an iterator depends only on the items it yields. *)
From Coq Require Import List Arith Lia Bool.
From Verif Require Import Base Types ChoiceModel HintModel HintSpec.
Import ListNotations.
Open Scope outcome_scope.

Section Facts.
Variable limit : nat.
Hypothesis Hlim : 8 <= limit.

Lemma fits_iff : forall n, sv_fits limit n = true <-> n <= limit.
Proof.
  intros n. unfold sv_fits. rewrite orb_true_iff, !Nat.leb_le. lia.
Qed.

Lemma with_capacity_ok : forall A n, n <= limit -> @sv_with_capacity limit A n = Ret [].
Proof.
  intros A n H. unfold sv_with_capacity. destruct (n <=? 8); [reflexivity|].
  apply Nat.leb_le in H. now rewrite H.
Qed.

Lemma with_capacity_panic : forall A n, limit < n -> @sv_with_capacity limit A n = Panic.
Proof.
  intros A n H. unfold sv_with_capacity.
  destruct (Nat.leb_spec n 8); [lia|]. destruct (Nat.leb_spec n limit); [lia|reflexivity].
Qed.

Lemma extend_items_ok : forall A (s : source A) v,
  length v + length (yields s) <= limit -> sv_extend_items limit v s = Ret (v ++ yields s).
Proof.
  induction s as [l u|l u x r IH]; intros v H; cbn in *.
  - now rewrite app_nil_r.
  - unfold sv_push. destruct (sv_fits limit (S (length v))) eqn:E.
    + cbn [obind]. rewrite IH by (rewrite app_length; cbn; lia).
      now rewrite <- app_assoc.
    + assert (sv_fits limit (S (length v)) = true) by (apply fits_iff; lia). congruence.
Qed.

Lemma extend_ok : forall A (s : source A) v, honest s ->
  length v + length (yields s) <= limit -> sv_extend limit v s = Ret (v ++ yields s).
Proof.
  intros A s v Hh H. unfold sv_extend.
  assert (fst (size_hint s) <= length (yields s)) by (destruct s; apply Hh).
  assert (sv_fits limit (length v + fst (size_hint s)) = true) as -> by (apply fits_iff; lia).
  now apply extend_items_ok.
Qed.

Lemma push_ok : forall A (v : list A) x, S (length v) <= limit ->
  sv_push limit v x = Ret (v ++ [x]).
Proof.
  intros A v x H. unfold sv_push.
  now assert (sv_fits limit (S (length v)) = true) as -> by (apply fits_iff; lia).
Qed.
End Facts.

Lemma hint_bounds : forall A (s : source A), honest s ->
  fst (size_hint s) <= length (yields s) /\
  (forall u, snd (size_hint s) = Some u -> length (yields s) <= u).
Proof.
  intros A s H. destruct s; cbn in *; destruct H as (H1 & H2 & _); split; auto;
    intros u' ->; assumption.
Qed.
Arguments hint_bounds {A} s _.

(** [invalid_many] on any iterator with right estimates whose items fit: the
    upper estimate decides whether it works at all. *)
Theorem C102_invalid_many_partial : forall E A limit (s : source E),
  8 <= limit -> honest s -> length (yields s) <= limit ->
  (@invalid_many_from limit E A s = Ret (Invalid (yields s)) <-> upper_within limit s) /\
  (~ upper_within limit s -> @invalid_many_from limit E A s = Panic).
Proof.
  intros E A limit s Hl Hh Hn.
  destruct (hint_bounds s Hh) as [H1 H2].
  assert (Hext : sv_extend limit [] s = Ret (yields s)) by (now apply extend_ok).
  unfold invalid_many_from, sv_collect, upper_within.
  destruct (size_hint s) as [lower upper]. cbn [fst snd] in *.
  destruct upper as [u|].
  - specialize (H2 u eq_refl).
    assert (Hsame : forall b : bool,
      (if b then if u <=? 4 then omap Invalid (sv_extend limit [] s)
        else do vec <- sv_with_capacity limit u; omap Invalid (sv_extend limit vec s)
       else if u <=? 4 then omap (@Invalid E A) (sv_extend limit [] s)
        else do vec <- sv_with_capacity limit u; omap Invalid (sv_extend limit vec s)) =
      (if u <=? 4 then omap Invalid (sv_extend limit [] s)
        else do vec <- sv_with_capacity limit u; omap Invalid (sv_extend limit vec s)))
      by (intros []; reflexivity).
    rewrite Hsame.
    destruct (Nat.leb_spec u limit) as [Hu|Hu].
    + assert ((if u <=? 4 then omap Invalid (sv_extend limit [] s)
        else do vec <- sv_with_capacity limit u; omap Invalid (sv_extend limit vec s))
        = Ret (@Invalid E A (yields s))) as ->.
      { destruct (u <=? 4); [|rewrite with_capacity_ok by assumption; cbn [obind]];
          now rewrite Hext. }
      split; [split; auto|intros C; lia].
    + destruct (Nat.leb_spec u 4); [lia|].
      rewrite with_capacity_panic by assumption. cbn [obind].
      split; [split; [discriminate|lia]|reflexivity].
  - assert ((if lower <=? 4 then omap Invalid (sv_extend limit [] s)
        else do vec <- sv_with_capacity limit lower; omap Invalid (sv_extend limit vec s))
        = Ret (@Invalid E A (yields s))) as ->.
    { destruct (lower <=? 4); [|rewrite with_capacity_ok by lia; cbn [obind]];
        now rewrite Hext. }
    split; [split; auto|intros C; tauto].
Qed.

(** two errors out of a filtered range of ten: right estimates, upper bound 10 *)
Definition two_of_ten : source nat := More 0 (Some 10) 3 (More 0 (Some 6) 7 (Stop 0 (Some 2))).
Example C102_invalid_many_case :
  honest two_of_ten /\ upper_within 100 two_of_ten /\
  @invalid_many_from 100 nat nat two_of_ten = Ret (Invalid [3; 7]).
Proof. repeat split; cbn; lia. Qed.

(** However large the machine, some iterator that yields nothing, with right
    estimates, makes [invalid_many] panic: an empty filter of a long range. *)
Theorem C102_invalid_many_refuted : forall E A limit, 8 <= limit ->
  exists s : source E, honest s /\ yields s = [] /\ @invalid_many_from limit E A s = Panic.
Proof.
  intros E A limit Hl. exists (Stop 0 (Some (S limit))).
  assert (Hh : honest (@Stop E 0 (Some (S limit)))) by (cbn; lia).
  split; [exact Hh|]. split; [reflexivity|].
  apply (proj2 (C102_invalid_many_partial E A limit _ Hl Hh (Nat.le_0_l _))).
  cbn. lia.
Qed.

(** [invalid_vec] only relies on the lower estimate. *)
Theorem C102_invalid_vec : forall E A limit (s : source E),
  8 <= limit -> honest s -> length (yields s) <= limit ->
  @invalid_vec_from limit E A s =
  match yields s with [] => Panic | _ => Ret (Invalid (yields s)) end.
Proof.
  intros E A limit s Hl Hh Hn. unfold invalid_vec_from.
  destruct s as [l u|l u x r]; [reflexivity|].
  cbn [src_next yields] in *. cbn [length] in Hn.
  assert (Hr : honest r) by (apply Hh).
  destruct (hint_bounds r Hr) as [H1 _].
  rewrite with_capacity_ok by (cbn; lia). cbn [obind].
  rewrite push_ok by (cbn; lia). cbn [obind app].
  now rewrite extend_ok by (cbn; auto; lia).
Qed.
Example C102_invalid_vec_case :
  @invalid_vec_from 8 nat nat (More 0 (Some 1000) 3 (More 0 None 7 (Stop 0 None)))
  = Ret (Invalid [3; 7]).
Proof. reflexivity. Qed.

(** [Choice::new]: the first value, then the items, whatever the estimates. *)
Theorem C102_choice_new : forall A limit (item : A) (s : source A),
  9 <= limit -> honest s -> S (length (yields s)) <= limit ->
  omap values (choice_new_from limit item s) = Ret (item :: yields s).
Proof.
  intros A limit item s Hl Hh Hn. unfold choice_new_from.
  destruct (hint_bounds s Hh) as [H1 H2].
  assert (Hext : sv_extend limit [item] s = Ret (item :: yields s))
    by (apply extend_ok; auto; lia).
  destruct (size_hint s) as [lower upper]. cbn [fst snd] in *.
  assert (Hcap : new_capacity lower upper <= limit).
  { unfold new_capacity. destruct upper as [u|]; [|lia].
    specialize (H2 u eq_refl).
    destruct (Nat.eqb_spec u lower); [lia|].
    destruct (Nat.leb_spec u 8); lia. }
  rewrite with_capacity_ok by assumption. cbn [obind].
  rewrite push_ok by (cbn; lia). cbn [obind app].
  now rewrite Hext.
Qed.
Example C102_choice_new_case :
  omap values (choice_new_from 9 1 (More 0 (Some 1000) 3 (More 0 None 7 (Stop 0 None))))
  = Ret [1; 3; 7].
Proof. reflexivity. Qed.

(** How much [Choice::new] asks for: enough for the value and what is promised; exactly what is needed when the
    estimate is exact; room for all there can be when that is at most eight; and nothing beyond the eight places
    of the inline buffer in the other cases unless more is promised. *)
Theorem C102_choice_new_request : forall A (s : source A) lower upper,
  honest s -> size_hint s = (lower, upper) ->
  S lower <= new_capacity lower upper /\
  new_capacity lower upper <= Nat.max 9 (S (length (yields s))) /\
  (upper = Some lower -> new_capacity lower upper = S (length (yields s))) /\
  (forall u, upper = Some u -> u <= 8 -> new_capacity lower upper = S u) /\
  ((forall u, upper = Some u -> 8 < u) -> lower < 8 -> new_capacity lower upper = 8).
Proof.
  intros A s lower upper Hh Hs. destruct (hint_bounds s Hh) as [H1 H2]. rewrite Hs in H1, H2. cbn [fst snd] in *.
  unfold new_capacity. destruct upper as [u|].
  - specialize (H2 u eq_refl).
    split; [|split; [|split; [|split]]].
    + destruct (Nat.eqb_spec u lower); [lia|]. destruct (Nat.leb_spec u 8); lia.
    + destruct (Nat.eqb_spec u lower); [lia|]. destruct (Nat.leb_spec u 8); lia.
    + intros [= ->]. rewrite Nat.eqb_refl. lia.
    + intros u' [= <-] Hu. destruct (Nat.eqb_spec u lower); [lia|]. destruct (Nat.leb_spec u 8); lia.
    + intros Hu Hl. specialize (Hu u eq_refl). destruct (Nat.eqb_spec u lower); [lia|].
      destruct (Nat.leb_spec u 8); lia.
  - split; [lia|]. split; [lia|]. split; [discriminate|]. split; [discriminate|]. intros _ Hl. lia.
Qed.
Example C102_choice_new_request_case :
  let s := More 1 (Some 1) 5 (Stop 0 (Some 0)) in
  honest s /\ new_capacity 1 (Some 1) = 2 /\ new_capacity 1 (Some 6) = 7 /\ new_capacity 1 None = 8 /\
  new_capacity 20 (Some 40) = 21.
Proof. cbn. lia. Qed.

Lemma vec_push_ok : forall A limit (v : list A) x, S (length v) <= limit ->
  vec_push limit v x = Ret (v ++ [x]).
Proof.
  intros A limit v x H. unfold vec_push. apply Nat.leb_le in H. now rewrite H.
Qed.

Lemma kept_length : forall A B (f : A -> option B) l, length (kept f l) <= length l.
Proof.
  intros A B f l. induction l as [|x l IH]; cbn; [lia|].
  rewrite app_length. destruct (f x); cbn; lia.
Qed.

Lemma fmc_loop_ok : forall T U limit (f : T -> option U) s v,
  length v + length (kept f (yields s)) <= limit ->
  fmc_from_loop limit f v s = Ret (v ++ kept f (yields s)).
Proof.
  intros T U limit f. induction s as [l u|l u x r IH]; intros v H; cbn in *.
  - now rewrite app_nil_r.
  - destruct (f x) as [y|]; cbn in *.
    + rewrite vec_push_ok by lia. cbn [obind].
      rewrite IH by (rewrite app_length; cbn; lia). now rewrite <- app_assoc.
    + now apply IH.
Qed.

Lemma fm_is_fmc : forall A B limit (p : A -> bool) (f : A -> B) s v,
  fm_from_loop limit p f v s =
  fmc_from_loop limit (fun x => if p x then Some (f x) else None) v s.
Proof.
  intros A B limit p f. induction s as [l u|l u x r IH]; intros v; cbn; [reflexivity|].
  destruct (p x); [|apply IH].
  destruct (vec_push limit v (f x)); cbn; [apply IH|reflexivity].
Qed.

Lemma kept_filter : forall A B (p : A -> bool) (f : A -> B) l,
  kept (fun x => if p x then Some (f x) else None) l = map f (filter p l).
Proof.
  intros A B p f l. induction l as [|x l IH]; cbn; [reflexivity|].
  destruct (p x); cbn; now rewrite IH.
Qed.

(** [filter_map_collect] and [filter_map] keep room for half the lower
    estimate, so they work exactly when that much may be asked for. *)
Theorem C102_filter_map_partial : forall limit, 8 <= limit ->
  (forall T U (f : T -> option U) (s : source T), honest s ->
    length (kept f (yields s)) <= limit ->
    filter_map_collect_from limit s f =
    if fst (size_hint s) / 2 <=? limit then Ret (kept f (yields s)) else Panic) /\
  (forall T U (p : T -> bool) (f : T -> U) (s : source T), honest s ->
    length (filter p (yields s)) <= limit ->
    filter_map_from limit s p f =
    if fst (size_hint s) / 2 <=? limit then Ret (map f (filter p (yields s))) else Panic).
Proof.
  intros limit Hl.
  assert (Hcap : forall U n,
    @vec_with_capacity limit U (Nat.max n 8) = if n <=? limit then Ret [] else Panic).
  { intros U n. unfold vec_with_capacity.
    destruct (Nat.leb_spec (Nat.max n 8) limit), (Nat.leb_spec n limit);
      auto; lia. }
  split.
  - intros T U f s Hh Hn. unfold filter_map_collect_from. rewrite Hcap.
    destruct (fst (size_hint s) / 2 <=? limit); cbn [obind]; [|reflexivity].
    now rewrite fmc_loop_ok.
  - intros T U p f s Hh Hn. unfold filter_map_from. rewrite Hcap.
    destruct (fst (size_hint s) / 2 <=? limit); cbn [obind]; [|reflexivity].
    rewrite fm_is_fmc, fmc_loop_ok.
    + now rewrite kept_filter.
    + rewrite kept_filter, map_length. cbn. exact Hn.
Qed.
Example C102_filter_map_case :
  filter_map_from 8 two_of_ten Nat.even S = Ret [] /\
  filter_map_from 8 two_of_ten Nat.odd S = Ret [4; 8] /\
  filter_map_collect_from 8 two_of_ten (fun n => if n <? 5 then Some (n * 2) else None) = Ret [6].
Proof. repeat split. Qed.

(** [n] copies of a value, estimated exactly *)
Fixpoint copies {A} (n : nat) (x : A) : source A :=
  match n with 0 => Stop 0 (Some 0) | S n' => More n (Some n) x (copies n' x) end.

Lemma copies_length : forall A n (x : A), length (yields (copies n x)) = n.
Proof. intros A n x. induction n; cbn; auto. Qed.

Lemma copies_hint : forall A n (x : A), size_hint (copies n x) = (n, Some n).
Proof. intros A [|n] x; reflexivity. Qed.

Lemma copies_honest : forall A n (x : A), honest (copies n x).
Proof.
  intros A n x. induction n as [|n IH]; [cbn; lia|].
  cbn [copies honest size_hint fst snd].
  change (length (yields (More (S n) (Some (S n)) x (copies n x))))
    with (S (length (yields (copies n x)))).
  rewrite copies_length. repeat split; auto.
Qed.

Lemma kept_none : forall A B (l : list A), kept (fun _ => @None B) l = [].
Proof. intros A B l. induction l; cbn; auto. Qed.

(** A long iterator of which nothing is kept needs no memory, but both
    functions panic on it. *)
Theorem C102_filter_map_refuted : forall T U limit (t : T) (g : T -> U), 8 <= limit ->
  exists s : source T, honest s /\
    filter_map_collect_from limit s (fun _ => @None U) = Panic /\
    filter_map_from limit s (fun _ => false) g = Panic.
Proof.
  intros T U limit t g Hl. exists (copies (2 * S limit) t).
  pose proof (copies_honest T (2 * S limit) t) as Hh.
  assert (Hd : fst (size_hint (copies (2 * S limit) t)) / 2 <=? limit = false).
  { rewrite copies_hint. cbn [fst]. rewrite Nat.mul_comm, Nat.div_mul by lia.
    apply Nat.leb_gt. lia. }
  destruct (C102_filter_map_partial limit Hl) as [H1 H2].
  split; [exact Hh|]. split.
  - rewrite H1; auto.
    + now rewrite Hd.
    + rewrite kept_none. cbn. lia.
  - rewrite H2; auto.
    + now rewrite Hd.
    + assert (filter (fun _ : T => false) (yields (copies (2 * S limit) t)) = []) as ->.
      { generalize (yields (copies (2 * S limit) t)). intros l. induction l; cbn; auto. }
      cbn. lia.
Qed.

Lemma push_all_ok : forall A limit (xs v : list A), length v + length xs <= limit ->
  push_all limit v xs = Ret (v ++ xs).
Proof.
  intros A limit xs. induction xs as [|x xs IH]; intros v H; cbn in *.
  - now rewrite app_nil_r.
  - rewrite vec_push_ok by lia. cbn [obind].
    rewrite IH by (rewrite app_length; cbn; lia). now rewrite <- app_assoc.
Qed.

Lemma all2_length : forall A B C (f : A -> B -> C) la lb,
  length (all2 f la lb) = length la * length lb.
Proof.
  intros A B C f la lb. unfold all2. induction la as [|a la IH]; cbn; [reflexivity|].
  now rewrite app_length, map_length, IH.
Qed.

Lemma lift2_loop_ok : forall A B C limit (f : A -> B -> C) lb la v,
  length v + length la * length lb <= limit ->
  lift2_loop limit f lb v la = Ret (v ++ all2 f la lb).
Proof.
  intros A B C limit f lb la. induction la as [|a la IH]; intros v H; cbn in *.
  - now rewrite app_nil_r.
  - rewrite push_all_ok by (rewrite map_length; lia). cbn [obind].
    rewrite IH by (rewrite app_length, map_length; lia).
    unfold all2. cbn. now rewrite <- app_assoc.
Qed.

Lemma all3_length : forall A B C D (f : A -> B -> C -> D) la lb lc,
  length (all3 f la lb lc) = length la * (length lb * length lc).
Proof.
  intros A B C D f la lb lc. unfold all3. induction la as [|a la IH]; cbn; [reflexivity|].
  rewrite app_length, IH. f_equal. apply (all2_length B C D (f a)).
Qed.

Lemma lift3_loop_ok : forall A B C D limit (f : A -> B -> C -> D) lb lc la v,
  length v + length la * (length lb * length lc) <= limit ->
  lift3_loop limit f lb lc v la = Ret (v ++ all3 f la lb lc).
Proof.
  intros A B C D limit f lb lc la. induction la as [|a la IH]; intros v H; cbn in *.
  - now rewrite app_nil_r.
  - rewrite lift2_loop_ok by lia. cbn [obind].
    rewrite IH by (rewrite app_length, all2_length; lia).
    unfold all3, all2. cbn. now rewrite <- app_assoc.
Qed.

(** [lift2] on lists of any length works exactly when the result fits. *)
Theorem C102_lift2 : forall A B C limit umax (f : A -> B -> C) la lb, limit <= umax ->
  vec_lift2_sized limit umax f la lb =
  if length (all2 f la lb) <=? limit then Ret (all2 f la lb) else Panic.
Proof.
  intros A B C limit umax f la lb Hu. unfold vec_lift2_sized, umul, vec_with_capacity.
  rewrite all2_length.
  destruct (Nat.leb_spec (length la * length lb) umax), (Nat.leb_spec (length la * length lb) limit);
    cbn [obind]; try lia; try reflexivity.
  - apply Nat.leb_le in H0 as E. rewrite E. cbn [obind]. now rewrite lift2_loop_ok.
  - apply Nat.leb_gt in H0 as E. now rewrite E.
Qed.
Example C102_lift2_case :
  vec_lift2_sized 6 100 Nat.add [10; 20] [1; 2; 3] = Ret [11; 12; 13; 21; 22; 23] /\
  vec_lift2_sized 5 100 Nat.add [10; 20] [1; 2; 3] = Panic.
Proof. split; reflexivity. Qed.

(** [lift3]: the same when the third list is not empty, but with an empty third
    list the product of the first two lengths must still fit a [usize]. *)
Theorem C102_lift3_partial : forall A B C D limit umax (f : A -> B -> C -> D) la lb lc,
  limit <= umax ->
  vec_lift3_sized limit umax f la lb lc =
  if length la * length lb <=? umax then
    if length (all3 f la lb lc) <=? limit then Ret (all3 f la lb lc) else Panic
  else Panic.
Proof.
  intros A B C D limit umax f la lb lc Hu. unfold vec_lift3_sized, umul, vec_with_capacity.
  rewrite all3_length, Nat.mul_assoc.
  destruct (length la * length lb <=? umax); cbn [obind]; [|reflexivity].
  destruct (Nat.leb_spec (length la * length lb * length lc) limit) as [H|H].
  - destruct (Nat.leb_spec (length la * length lb * length lc) umax); [|lia].
    cbn [obind]. apply Nat.leb_le in H as E. rewrite E. cbn [obind].
    rewrite lift3_loop_ok; [reflexivity|]. cbn. lia.
  - destruct (length la * length lb * length lc <=? umax); cbn [obind]; [|reflexivity].
    apply Nat.leb_gt in H as E. now rewrite E.
Qed.
Example C102_lift3_case :
  vec_lift3_sized 4 100 (fun a b c => a + b + c) [100; 200] [10] [1; 2]
  = Ret [111; 112; 211; 212].
Proof. reflexivity. Qed.

(** With an empty third list nothing is to be built; still it panics on some
    first two lists that fit in memory ([umax < limit * limit] holds of every
    item size below two gigabytes, and of items of size zero). *)
Theorem C102_lift3_refuted : forall A B C D limit umax (f : A -> B -> C -> D) (a : A) (b : B),
  limit <= umax -> umax < limit * limit ->
  exists la lb, length la <= limit /\ length lb <= limit /\ all3 f la lb [] = [] /\
    vec_lift3_sized limit umax f la lb [] = Panic.
Proof.
  intros A B C D limit umax f a b Hu Hs. exists (repeat a limit), (repeat b limit).
  rewrite !repeat_length. repeat split; auto.
  - apply length_zero_iff_nil. rewrite all3_length. cbn [length]. lia.
  - rewrite C102_lift3_partial by assumption. rewrite !repeat_length.
    destruct (Nat.leb_spec (limit * limit) umax); [lia|reflexivity].
Qed.
Example C102_lift3_refuted_case :
  15 <= 15 /\ 15 < 15 * 15 /\
  vec_lift3_sized 15 15 (fun a b c => a + b + c) [1; 2; 3; 4] [5; 6; 7; 8] [] = Panic.
Proof. repeat split; lia. Qed.

Print Assumptions C102_invalid_many_partial.
Print Assumptions C102_invalid_many_refuted.
Print Assumptions C102_invalid_vec.
Print Assumptions C102_choice_new.
Print Assumptions C102_choice_new_request.
Print Assumptions C102_filter_map_partial.
Print Assumptions C102_filter_map_refuted.
Print Assumptions C102_lift2.
Print Assumptions C102_lift3_partial.
Print Assumptions C102_lift3_refuted.

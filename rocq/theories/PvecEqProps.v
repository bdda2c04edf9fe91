(** C12 for short vectors, exactly: two vectors made within 64 elements compare equal when they hold the same elements
    and were changed equally often since their elements were last collected. *)
From Coq Require Import List Arith Lia Bool.
From Verif Require Import Base ListFacts PvecModel PvecSpec PvecFacts PvecFront PvecComb PvecProps.
Import ListNotations.
Open Scope outcome_scope.

(** How often a vector has been changed since it was built from a slice, by the calls alone: a call that changes
    nothing is not counted, one that collects the elements anew begins again at 0. *)
Definition edits_after {T} (o : op T) (l : list T) (c : nat) : nat :=
  match o with
  | PushBack _ | PushFront _ => S c
  | PopBack | PopFront => match l with [] => c | _ => S c end
  | Update i _ => if i <? length l then S c else c
  | Extend xs => c + length xs
  | Map _ | Filter _ | ConcatSlice _ | SliceConcat _ => 0
  | Take n | SplitLeft n => if length l <=? n then c else if n =? 0 then 0 else S c
  | Skip n | SplitRight n => if length l <=? n then 0 else if n =? 0 then c else S c
  | Insert i _ => if (length l <=? i) || (i =? 0) then S c else 0
  | Remove i => if length l <=? i then c else 0
  end.
Fixpoint edits {T} (ops : list (op T)) (l : list T) (c : nat) : nat :=
  match ops with [] => c | o :: ops' => edits ops' (fst (list_step o l)) (edits_after o l c) end.

Lemma inline_64 : ADAPTIVE_INLINE_SIZE = 64.
Proof. vm_compute. reflexivity. Qed.
Lemma small_shape {T} (v : pvec T) : small_inv v ->
  v = mkPvec (Inline (pv_elems v)) (length (pv_elems v)) (generation v) /\ length (pv_elems v) <= 64.
Proof.
  destruct v as [i n g]. intros (es & E & H1 & H2). rewrite inline_64 in H2. cbn in *. subst i. unfold pv_elems. cbn. subst n. auto.
Qed.

Lemma concat_small {T} (xs ys : list T) n m g h : length xs + length ys <= 64 ->
  pv_concat (mkPvec (Inline xs) n g) (mkPvec (Inline ys) m h) = mkPvec (Inline (xs ++ ys)) (length (xs ++ ys)) 0.
Proof.
  intros H. unfold pv_concat. cbn [inner]. unfold pv_from_iter; rewrite inline_64.
  rewrite (proj2 (Nat.leb_le _ _)); [reflexivity|]. rewrite app_length. exact H.
Qed.
Lemma from_iter_small {T} (xs : list T) : length xs <= 64 -> pv_from_iter xs = mkPvec (Inline xs) (length xs) 0.
Proof. intros H. unfold pv_from_iter; rewrite inline_64. now rewrite (proj2 (Nat.leb_le _ _) H). Qed.
Lemma push_back_small {T} (xs : list T) n g x : length xs < 64 ->
  pv_push_back (mkPvec (Inline xs) n g) x = mkPvec (Inline (xs ++ [x])) (n + 1) (g + 1).
Proof. intros H. unfold pv_push_back; rewrite inline_64; cbn [inner]. now rewrite (proj2 (Nat.ltb_lt _ _) H). Qed.
Lemma extend_small {T} : forall (ys xs : list T) n g, length xs + length ys <= 64 ->
  generation (pv_extend (mkPvec (Inline xs) n g) ys) = g + length ys.
Proof.
  unfold pv_extend. induction ys as [|y ys IH]; intros xs n g H; cbn [fold_left length] in *; [cbn; lia|].
  rewrite push_back_small by lia. rewrite IH by (rewrite app_length; cbn; lia). lia.
Qed.

Lemma concat_gen {T} (xs ys : list T) n m g h :
  generation (pv_concat (mkPvec (Inline xs) n g) (mkPvec (Inline ys) m h)) = 0.
Proof. unfold pv_concat, pv_from_iter. cbn [inner]. destruct (_ <=? _); reflexivity. Qed.
Lemma split_small {T} (es : list T) g i :
  pv_split_at (mkPvec (Inline es) (length es) g) i =
  Ret (if length es <=? i then (mkPvec (Inline es) (length es) g, pv_new)
       else if i =? 0 then (pv_new, mkPvec (Inline es) (length es) g)
       else (mkPvec (Inline (firstn i es)) i (g + 1), mkPvec (Inline (skipn i es)) (length es - i) (g + 1))).
Proof.
  unfold pv_split_at. cbn [pv_len inner generation]. destruct (length es <=? i); [reflexivity|].
  destruct (i =? 0); reflexivity.
Qed.
Lemma omap_ret {A B} (f : A -> B) o b : omap f o = Ret b -> exists a, o = Ret a /\ b = f a.
Proof. destruct o; intros [= <-]; eauto. Qed.

Lemma step_edits {T} (o : op T) es g v' r : length es <= 64 ->
  length (fst (list_step o es)) <= 64 ->
  vec_step o (mkPvec (Inline es) (length es) g) = Ret (v', r) -> generation v' = edits_after o es g.
Proof.
  intros Hl Hr.
  destruct o as [x|x| | |i x|xs|f|p|n|n|i|i|i x|i|xs|xs]; cbn [vec_step list_step fst edits_after] in *.
  - intros [= <- _]. rewrite app_length in Hr. cbn in Hr. rewrite push_back_small by lia. cbn. lia.
  - intros [= <- _]. cbn in Hr. unfold pv_push_front. cbn [inner].
    rewrite (proj2 (Nat.ltb_lt (length es) ADAPTIVE_INLINE_SIZE)) by (rewrite inline_64; lia). cbn. lia.
  - unfold pv_pop_back, pv_is_empty. cbn [pv_len inner generation].
    destruct es as [|e es']; [intros [= <- _]; reflexivity|]. change (length (e :: es') =? 0) with false. cbv iota.
    destruct (pop_last (e :: es')) as [[es'' y]|] eqn:E.
    + intros [= <- _]. cbn. lia.
    + exfalso. clear - E. unfold pop_last in E. destruct (rev (e :: es')) eqn:E'; [|discriminate].
      apply (f_equal (@length T)) in E'. rewrite rev_length in E'. discriminate.
  - unfold pv_pop_front, pv_is_empty. cbn [pv_len inner generation].
    destruct es as [|e es']; intros [= <- _]; cbn; lia.
  - unfold pv_update. cbn [pv_len inner generation]. destruct (Nat.leb_spec (length es) i) as [H|H].
    + rewrite (proj2 (Nat.ltb_ge _ _) H). intros [= <- _]. reflexivity.
    + rewrite (proj2 (Nat.ltb_lt _ _) H). intros [= <- _]. cbn. lia.
  - intros [= <- _]. rewrite app_length in Hr. apply extend_small. lia.
  - unfold pv_map. destruct (omap _ _) as [w|] eqn:E; [|discriminate]. intros [= <- _].
    apply omap_ret in E. destruct E as (l & _ & ->). unfold pv_from_iter. destruct (_ <=? _); reflexivity.
  - unfold pv_filter. destruct (omap _ _) as [w|] eqn:E; [|discriminate]. intros [= <- _].
    apply omap_ret in E. destruct E as (l & _ & ->). unfold pv_from_iter. destruct (_ <=? _); reflexivity.
  - unfold pv_take. rewrite split_small. cbn [pv_len]. destruct (length es <=? n); [intros [= <- _]; reflexivity|].
    destruct (n =? 0); intros [= <- _]; cbn; lia.
  - unfold pv_skip. rewrite split_small. cbn [pv_len]. destruct (length es <=? n); [intros [= <- _]; reflexivity|].
    destruct (n =? 0); intros [= <- _]; cbn; lia.
  - rewrite split_small. destruct (length es <=? i); [intros [= <- _]; reflexivity|].
    destruct (i =? 0); intros [= <- _]; cbn; lia.
  - rewrite split_small. destruct (length es <=? i); [intros [= <- _]; reflexivity|].
    destruct (i =? 0); intros [= <- _]; cbn; lia.
  - assert (He : length es < 64).
    { rewrite app_length in Hr. cbn [length] in Hr. rewrite firstn_length, skipn_length in Hr. lia. }
    unfold pv_insert. rewrite split_small. cbn [pv_len]. destruct (Nat.leb_spec (length es) i) as [H|H].
    + intros [= <- _]. rewrite push_back_small by assumption. cbn. lia.
    + destruct (i =? 0).
      * intros [= <- _]. unfold pv_push_front. cbn [inner].
        rewrite (proj2 (Nat.ltb_lt (length es) ADAPTIVE_INLINE_SIZE)) by (rewrite inline_64; lia). cbn. lia.
      * cbn [obind fst snd orb]. intros [= <- _].
        rewrite push_back_small by (rewrite firstn_length; lia).
        rewrite concat_small by (rewrite app_length, firstn_length, skipn_length; cbn; lia). reflexivity.
  - unfold pv_remove. rewrite split_small. cbn [pv_len]. destruct (Nat.leb_spec (length es) i) as [H|H].
    + intros [= <- _]. reflexivity.
    + destruct (length es =? 1); [intros [= <- _]; reflexivity|]. cbn [obind].
      destruct (i =? 0) eqn:Ei.
      * cbn [fst snd]. unfold pv_skip. rewrite split_small. cbn [pv_len].
        destruct (length es <=? 1); cbn [omap obind snd fst]; intros [= <- _]; unfold pv_new; apply concat_gen.
      * cbn [fst snd]. unfold pv_skip. cbn [pv_len].
        replace (length es - i) with (length (skipn i es)) by apply skipn_length.
        rewrite split_small.
        destruct (length (skipn i es) <=? 1); cbn [omap obind snd fst]; intros [= <- _]; unfold pv_new; apply concat_gen.
  - rewrite app_length in Hr. intros [= <- _]. rewrite from_iter_small by lia. rewrite concat_small by lia. reflexivity.
  - rewrite app_length in Hr. intros [= <- _]. rewrite from_iter_small by lia. rewrite concat_small by lia. reflexivity.
Qed.

Lemma run_edits {T} (ops : list (op T)) : forall es g v rs, stays_within 64 ops es ->
  vec_run ops (mkPvec (Inline es) (length es) g) = Ret (v, rs) ->
  v = mkPvec (Inline (fst (list_run ops es))) (length (fst (list_run ops es))) (edits ops es g).
Proof.
  induction ops as [|o ops IH]; intros es g v rs Hw.
  - cbn. intros [= <- _]. reflexivity.
  - cbn [stays_within] in Hw. destruct Hw as [Hl Hw].
    assert (Hr : length (fst (list_step o es)) <= 64) by (destruct ops; cbn in Hw; tauto).
    assert (Hs : small_inv (mkPvec (Inline es) (length es) g)) by (exists es; auto).
    destruct (@small_step T o _ Hs Hr) as (v1 & S1 & I1 & E1).
    change (pv_elems (mkPvec (Inline es) (length es) g)) with es in *.
    cbn [vec_run list_run edits]. rewrite S1. cbn [obind fst snd].
    destruct (small_shape _ I1) as [Sh _]. rewrite E1 in Sh.
    rewrite (step_edits o es g v1 _ Hl Hr S1) in Sh. rewrite Sh.
    destruct (vec_run ops _) as [[v2 rs2]|] eqn:E2; [|discriminate]. cbn [obind fst snd]. intros [= <- _].
    apply IH in E2; [|exact Hw]. destruct (list_step o es) as [l1 r1]. cbn [fst] in *.
    destruct (list_run ops l1) as [l2 rs']. exact E2.
Qed.
Lemma starts_short {T} (v : pvec T) l : starts v l -> length l <= 64 -> v = mkPvec (Inline l) (length l) 0.
Proof. intros [|x|l'] H; [reflexivity|reflexivity|]. apply from_iter_small. exact H. Qed.

Theorem C12_up_to_64_exact : forall T (eqb : T -> T -> bool), (forall x y, eqb x y = true <-> x = y) ->
  forall (a b a' b' : pvec T) la lb opsa opsb ra rb,
  starts a la -> starts b lb -> stays_within 64 opsa la -> stays_within 64 opsb lb ->
  vec_run opsa a = Ret (a', ra) -> vec_run opsb b = Ret (b', rb) ->
  pv_eqb eqb a' b' = true <->
  fst (list_run opsa la) = fst (list_run opsb lb) /\ edits opsa la 0 = edits opsb lb 0.
Proof.
  intros T eqb He a b a' b' la lb opsa opsb ra rb Sa Sb Wa Wb Ra Rb.
  rewrite (starts_short a la Sa) in Ra by (destruct opsa; cbn in Wa; tauto).
  rewrite (starts_short b lb Sb) in Rb by (destruct opsb; cbn in Wb; tauto).
  apply run_edits in Ra; [|exact Wa]. apply run_edits in Rb; [|exact Wb]. subst a' b'.
  rewrite (pv_eqb_eq He). split; [intros [= E1 _ E2]; auto|intros [-> ->]; reflexivity].
Qed.

(** Vectors of any length built the same way from their elements are equal exactly when the elements are. *)
Theorem C12_built_alike : forall T (eqb : T -> T -> bool), (forall x y, eqb x y = true <-> x = y) ->
  forall build : list T -> pvec T, (forall l, represents (build l) l) ->
  forall l m, pv_eqb eqb (build l) (build m) = true <-> l = m.
Proof.
  intros T eqb He build Hb l m. rewrite (pv_eqb_eq He). split; [|intros ->; reflexivity].
  intros E. eapply represents_unique; [apply Hb|]. rewrite E. apply Hb.
Qed.

(** ** Concrete cases *)
(** Three pushes are three pushes at either end; an update more, and the same elements are no longer equal, until the
    elements are collected anew. *)
Example C12_up_to_64_case :
  let ab := [PushBack 2; PushBack 3; PushFront 1] in let ba := [PushFront 2; PushFront 1; PushBack 3] in
  let upd := ab ++ [Update 0 1] in let again := upd ++ [Map (fun x => x)] in
  let run ops := match vec_run ops (pv_new : pvec nat) with Ret (v, _) => v | Panic => pv_new end in
  (map (fun o => edits o [] 0) [ab; ba; upd; again],
   pv_eqb Nat.eqb (run ab) (run ba), pv_eqb Nat.eqb (run ab) (run upd), pv_eqb Nat.eqb (run again) (pv_from_iter [1; 2; 3]))
  = ([3; 3; 4; 0], true, false, true).
Proof. reflexivity. Qed.
Example C12_up_to_64_case_within : stays_within 64 [PushBack 2; PushBack 3; PushFront 1; Update 0 1] ([] : list nat).
Proof. cbn. lia. Qed.
(** Pushing one by one is such a way; mixed with collecting it is not *)
Example C12_built_alike_case : forall l m : list nat,
  pv_eqb Nat.eqb (fold_left pv_push_back l pv_new) (fold_left pv_push_back m pv_new) = true <-> l = m.
Proof.
  apply (C12_built_alike nat Nat.eqb Nat.eqb_eq).
  intros l. assert (F : faithful pv_new [] (map (@PushBack nat) l)).
  { apply C02_growing_histories; [constructor|]. apply Forall_forall. intros o Ho. apply in_map_iff in Ho.
    destruct Ho as (x & <- & _). reflexivity. }
  destruct F as (v & R & Rv).
  assert (E : forall (xs : list nat) (v0 : pvec nat), exists rs, vec_run (map (@PushBack nat) xs) v0 = Ret (fold_left pv_push_back xs v0, rs)).
  { induction xs as [|x xs IH]; intros v0; cbn; [eauto|]. destruct (IH (pv_push_back v0 x)) as [rs ->]. cbn. eauto. }
  assert (L : forall (xs l0 : list nat), fst (list_run (map (@PushBack nat) xs) l0) = l0 ++ xs).
  { induction xs as [|x xs IH]; intros l0; cbn; [now rewrite app_nil_r|].
    specialize (IH (l0 ++ [x])). destruct (list_run (map (@PushBack nat) xs) (l0 ++ [x])) eqn:E2. cbn [fst] in *. rewrite IH, <- app_assoc. reflexivity. }
  destruct (E l pv_new) as [rs E1]. rewrite E1 in R. injection R as <- _. now rewrite L in Rv.
Qed.

Print Assumptions C12_up_to_64_exact.
Print Assumptions C12_built_alike.

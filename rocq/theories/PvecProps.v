(** Persistent vector: the theorems for properties C01-C15. *)
From Coq Require Import List Arith Lia Bool Permutation Sorted.
From Verif Require Import Base ListFacts PvecModel PvecSpec PvecFacts PvecShape PvecEnds PvecHist
  PvecFront PvecSafe PvecComb PvecFlat PvecQueue.
Import ListNotations.
Open Scope outcome_scope.
Set Implicit Arguments.
Unset Strict Implicit.

(** A history whose observable result differs from the list is not faithful. *)
Lemma not_faithful {T} (v0 : pvec T) l0 ops v rs :
  vec_run ops v0 = Ret (v, rs) ->
  rs <> snd (list_run ops l0) \/ pv_to_vec v <> Ret (fst (list_run ops l0)) ->
  ~ faithful v0 l0 ops.
Proof. intros E H (v' & E' & _ & _ & R). rewrite E in E'. injection E' as -> ->. tauto. Qed.

Lemma not_faithful_panic {T} (v0 : pvec T) l0 ops :
  vec_run ops v0 = Panic -> ~ faithful v0 l0 ops.
Proof. intros E (v' & E' & _). congruence. Qed.

Ltac run_differs := eapply not_faithful;
  [vm_compute; reflexivity|first [left; vm_compute; discriminate|right; vm_compute; discriminate]].

(** ** C01 *)
Theorem C01_from_slice_round_trip {T} (l : list T) :
  pv_len (pv_from_iter l) = length l /\
  pv_to_vec (pv_from_iter l) = Ret l /\
  pv_iter (pv_from_iter l) = Ret l /\
  (forall i, pv_get (pv_from_iter l) i = Ret (nth_error l i)).
Proof. destruct (from_iter_represents l) as (A & B & C). auto. Qed.

(** from_slice of 67 elements really is a tree with a tail *)
Example C01_case : pv_get (pv_from_iter (seq 0 67)) 66 = Ret (Some 66) /\
                   pv_get (pv_from_iter (seq 0 67)) 67 = Ret None /\
                   pv_is_inline (pv_from_iter (seq 0 67)) = false.
Proof. vm_compute. auto. Qed.

(** ** C02 *)
Theorem C02_growing_histories {T} (v : pvec T) l ops :
  starts v l -> Forall (fun o => is_grow o = true) ops -> faithful v l ops.
Proof. exact (@grow_faithful T v l ops). Qed.

Example C02_case : exists ops : list (op nat), Forall (fun o => is_grow o = true) ops /\
  length (fst (list_run ops [])) = 201 /\
  exists v rs, vec_run ops pv_new = Ret (v, rs) /\ pv_get v 100 = Ret (Some 7).
Proof.
  exists (Extend (seq 0 100) :: map (@PushFront nat) (seq 0 100) ++ [Update 100 6; Map S; PushBack 0]).
  split; [repeat constructor|]. split; [reflexivity|].
  eexists _, _. split; vm_compute; reflexivity.
Qed.

(** ** C03: stack histories; the stronger class also has extend, map, filter,
    take, skip and both halves of split_at. *)
Theorem C03_back_histories {T} (v : pvec T) l ops :
  starts v l -> Forall (fun o => is_back o = true) ops -> faithful v l ops.
Proof. exact (@back_faithful T v l ops). Qed.

Theorem C03_stack_histories {T} (v : pvec T) l ops :
  starts v l -> Forall (fun o => is_stack o = true) ops -> faithful v l ops.
Proof.
  intros Hs H. apply back_faithful; auto. eapply Forall_impl; [|exact H].
  intros o Ho. now destruct o.
Qed.

Example C03_case : exists v rs,
  vec_run (repeat PopBack 131) (pv_from_iter (seq 0 130)) = Ret (v, rs) /\
  nth_error rs 0 = Some (Some 129) /\ nth_error rs 129 = Some (Some 0) /\
  nth_error rs 130 = Some None.
Proof. eexists _, _. split; [vm_compute; reflexivity|]. vm_compute. auto. Qed.

(** ** C04: the full statement is

    [forall v l ops, starts v l -> Forall (fun o => is_deque o = true) ops -> faithful v l ops]

    and fails at both ends. *)
Theorem C04_pop_front_order_refuted :
  exists (l : list nat) ops, Forall (fun o => is_deque o = true) ops /\
    ~ faithful (pv_from_iter l) l ops.
Proof.
  exists (seq 0 67), (repeat PopFront 67). split; [repeat constructor|]. run_differs.
Qed.

Theorem C04_mixed_ends_refuted :
  exists (l : list nat), ~ faithful (pv_from_iter l) l [PushFront 7; PopBack].
Proof. exists (seq 0 128). run_differs. Qed.

(** What the two failing runs return. *)
Example C04_refuted_values :
  (exists v rs, vec_run (repeat PopFront 67) (pv_from_iter (seq 0 67)) = Ret (v, rs) /\
    nth_error rs 64 = Some (Some 64) /\ nth_error rs 65 = Some (Some 66) /\
    nth_error rs 66 = Some (Some 65)) /\
  (exists v, vec_run [PushFront 7; PopBack] (pv_from_iter (seq 0 128)) = Ret (v, [None; None]) /\
    pv_len v = 129).
Proof.
  split; [eexists _, _|eexists]; (split; [vm_compute; reflexivity|]); vm_compute; auto.
Qed.

(** Positive parts: everything up to 64 elements; pure front stacks over a
    slice whose length leaves at most two elements beyond a multiple of 64;
    draining from the front after growth until 64 elements remain; and (C03)
    everything at the back. *)
Theorem C04_up_to_64_partial {T} (v : pvec T) l ops :
  starts v l -> stays_within 64 ops l -> faithful v l ops.
Proof. exact (@small_faithful T v l ops). Qed.

Theorem C04_front_stack_partial {T} (l : list T) ops :
  length l <= 64 \/ length l mod 64 <= 2 ->
  Forall (fun o => is_front_stack o = true) ops -> faithful (pv_from_iter l) l ops.
Proof. exact (@front_faithful T l ops). Qed.

Theorem C04_drain_after_growth_partial {T} (v : pvec T) l ops k :
  starts v l -> Forall (fun o => is_grow o = true) ops ->
  k + 64 <= length (fst (list_run ops l)) ->
  faithful v l (ops ++ repeat PopFront k).
Proof. exact (@grow_then_pop_front_faithful T v l ops k). Qed.

(** Queues: any mixture of growth and [pop_front] in which no [pop_front] meets
    fewer than 66 elements. *)
Theorem C04_fed_queue_partial {T} (v : pvec T) l ops :
  starts v l -> Forall (fun o => is_feed o = true) ops -> fed 66 ops l -> faithful v l ops.
Proof. exact (@queue_faithful T v l ops). Qed.

(** With 65 instead of 66 it is false. *)
Theorem C04_fed_65_refuted : exists (l : list nat) ops,
  Forall (fun o => is_feed o = true) ops /\ fed 65 ops l /\ ~ faithful (pv_from_iter l) l ops.
Proof.
  exists (repeat 1 127), (PushBack 1 :: repeat PopFront 64 ++ [PushBack 2; PopFront]).
  split; [repeat constructor|]. split; [|run_differs].
  assert (G : forall k (l : list nat) ops, 64 + k <= length l ->
    fed 65 ops (skipn k l) -> fed 65 (repeat PopFront k ++ ops) l).
  { induction k as [|k IH]; intros l ops L F; [exact F|]. cbn [repeat app fed]. split; [lia|].
    destruct l as [|x l]; [cbn in L; lia|]. cbn in L. apply IH; [cbn; lia|exact F]. }
  cbn [fed]. split; [discriminate|]. apply G; [cbn; lia|]. cbn. repeat split; try discriminate; lia.
Qed.

Example C04_fed_queue_case :
  let ops := repeat PopFront 64 ++ [PushBack 7; PopFront; PushFront 8; PopFront; PopFront] in
  fed 66 ops (seq 0 131) /\
  exists v rs, vec_run ops (pv_from_iter (seq 0 131)) = Ret (v, rs) /\ pv_len v = 66 /\
    nth_error rs 65 = Some (Some 64) /\ nth_error rs 67 = Some (Some 8) /\ nth_error rs 68 = Some (Some 65) /\
    pv_get v 65 = Ret (Some 7).
Proof.
  cbn zeta. split.
  - cbn. repeat split; intros; try discriminate; lia.
  - eexists _, _. split; [vm_compute; reflexivity|]. vm_compute. auto 8.
Qed.
Example C04_partial_case :
  length (seq 0 130) mod 64 <= 2 /\
  (exists v rs, vec_run (repeat PopFront 130) (pv_from_iter (seq 0 130)) = Ret (v, rs) /\
                rs = map Some (seq 0 130) /\ pv_len v = 0) /\
  66 + 64 <= length (fst (list_run [Extend (seq 0 130)] ([] : list nat))) /\
  stays_within 64 [PushBack 1; PopFront; PushFront 2; Insert 1 5; Remove 0] ([] : list nat).
Proof.
  split; [vm_compute; lia|]. split.
  { eexists _, _. split; [vm_compute; reflexivity|]. vm_compute. auto. }
  split; [vm_compute; lia|]. cbn. lia.
Qed.

(** ** C05: the full statement is

    [forall a b la lb, assembled a -> assembled b -> represents a la ->
       represents b lb -> represents (pv_concat a b) (la ++ lb)]

    and fails when the right operand is the higher tree. *)
Theorem C05_concat_refuted :
  exists la lb : list nat,
    pv_to_vec (pv_concat (pv_from_iter la) (pv_from_iter lb)) = Ret (lb ++ la) /\
    lb ++ la <> la ++ lb.
Proof. exists [1; 2; 3], (seq 0 130). split; [vm_compute; reflexivity|vm_compute; discriminate]. Qed.

(** No element is ever lost or duplicated, and the result is always one of the
    two orders. *)
Theorem C05_concat_contents_partial {T} (a b : pvec T) la lb :
  assembled a -> assembled b -> represents a la -> represents b lb ->
  assembled (pv_concat a b) /\
  pv_len (pv_concat a b) = pv_len a + pv_len b /\
  (represents (pv_concat a b) (la ++ lb) \/ represents (pv_concat a b) (lb ++ la)).
Proof.
  intros Ha Hb Ra Rb. pose proof (assembled_ok Ha) as Oa. pose proof (assembled_ok Hb) as Ob.
  rewrite (represents_unique Ra (pv_ok_represents Oa)).
  rewrite (represents_unique Rb (pv_ok_represents Ob)).
  destruct (pv_concat_ok Oa Ob) as [C1 C2].
  split; [now constructor|]. split.
  - rewrite (represents_len (pv_ok_represents C1)), (represents_len (pv_ok_represents Oa)),
      (represents_len (pv_ok_represents Ob)), C2. unfold pv_concat_content.
    destruct (_ && _)%bool; rewrite app_length; lia.
  - apply pv_ok_represents in C1. rewrite C2 in C1. unfold pv_concat_content in C1.
    destruct (_ && _)%bool; auto.
Qed.

Lemma pow_levels_mono k h1 h2 : h1 <= h2 -> k <= 32 ^ h1 -> k <= 32 ^ h2.
Proof. intros H1 H2. pose proof (Nat.pow_le_mono_r 32 _ _ ltac:(lia) H1). lia. Qed.

Local Transparent LEAF_CAPACITY BRANCHING_FACTOR ADAPTIVE_INLINE_SIZE.
Lemma slice_height {T} (l : list T) h :
  pv_height (pv_from_iter l) <= h <-> length l / 64 <= 32 ^ h.
Proof. exact (@pv_from_iter_height T l h). Qed.

Lemma slice_inline {T} (l : list T) : pv_is_inline (pv_from_iter l) = (length l <=? 64).
Proof.
  unfold pv_from_iter, pv_is_inline, ADAPTIVE_INLINE_SIZE.
  now destruct (length l <=? 64).
Qed.
Local Opaque LEAF_CAPACITY BRANCHING_FACTOR ADAPTIVE_INLINE_SIZE.

(** Exactly which pairs of slices are appended in the right order: the left
    one must need at least as many tree levels as the right one. *)
Theorem C05_concat_slices_exact {T} (la lb : list T) : la <> [] -> lb <> [] ->
  let c := pv_concat (pv_from_iter la) (pv_from_iter lb) in
  ((forall h, length la / 64 <= 32 ^ h -> length lb / 64 <= 32 ^ h) -> represents c (la ++ lb)) /\
  (~ (forall h, length la / 64 <= 32 ^ h -> length lb / 64 <= 32 ^ h) -> represents c (lb ++ la)).
Proof.
  intros Na Nb c. destruct (pv_from_iter_ok la) as [Oa Ea]. destruct (pv_from_iter_ok lb) as [Ob Eb].
  destruct (pv_concat_ok Oa Ob) as [C1 C2]. fold c in C1, C2. apply pv_ok_represents in C1.
  rewrite C2 in C1. unfold pv_concat_content in C1. rewrite Ea, Eb in C1.
  assert (Hl : forall l : list T, l <> [] -> negb (pv_len (pv_from_iter l) =? 0) = true).
  { intros l Hl. rewrite (represents_len (from_iter_represents l)). now destruct l. }
  rewrite (Hl la Na), (Hl lb Nb) in C1. cbn [andb] in C1.
  rewrite !slice_inline in C1.
  set (ha := pv_height (pv_from_iter la)) in *. set (hb := pv_height (pv_from_iter lb)) in *.
  assert (Hle : (forall h, length la / 64 <= 32 ^ h -> length lb / 64 <= 32 ^ h) <-> hb <= ha).
  { unfold ha, hb. split.
    - intros H. apply slice_height, H, slice_height. lia.
    - intros H h Hh. apply slice_height in Hh. apply slice_height. lia. }
  assert (Hi : length la <= 64 -> length lb <= 64 -> hb <= ha).
  { intros H1 H2. assert (hb <= 0); [|lia]. apply slice_height. change (32 ^ 0) with 1.
    assert (length lb / 64 <= 1); [|lia]. apply Nat.div_le_upper_bound; lia. }
  rewrite Hle. clear Hle. split; intros H.
  - rewrite (proj2 (Nat.ltb_ge _ _)) in C1 by auto. exact C1.
  - rewrite (proj2 (Nat.ltb_lt _ _)) in C1 by lia.
    destruct (Nat.leb_spec (length la) 64), (Nat.leb_spec (length lb) 64); cbn in C1; auto.
    exfalso. apply H. auto.
Qed.

(** Appending a slice shorter than 128 elements is right for any left operand. *)
Theorem C05_concat_short_right {T} (a : pvec T) la lb :
  assembled a -> represents a la -> length lb < 128 ->
  represents (pv_concat a (pv_from_iter lb)) (la ++ lb).
Proof.
  intros Ha Ra Hl. pose proof (assembled_ok Ha) as Oa.
  rewrite (represents_unique Ra (pv_ok_represents Oa)).
  destruct (pv_from_iter_ok lb) as [Ob Eb].
  destruct (@pv_concat_plain T a (pv_from_iter lb)) as [C1 C2]; auto.
  { right; right; left. assert (pv_height (pv_from_iter lb) <= 0); [|lia].
    apply slice_height. change (32 ^ 0) with 1. assert (length lb / 64 < 2); [|lia].
    apply Nat.div_lt_upper_bound; lia. }
  apply pv_ok_represents in C1. rewrite C2, Eb in C1. exact C1.
Qed.

Example C05_case :
  pv_to_vec (pv_concat (pv_from_iter (seq 0 200)) (pv_from_iter (seq 200 130))) = Ret (seq 0 330) /\
  pv_to_vec (pv_concat (pv_from_iter [1; 2]) (pv_from_iter (seq 3 127))) = Ret (seq 1 129).
Proof. vm_compute. auto. Qed.

(** ** C06, C07 *)
Theorem C06_split_at_partial {T} (v0 : pvec T) l0 ops v rs i :
  starts v0 l0 -> Forall (fun o => is_back o = true) ops -> vec_run ops v0 = Ret (v, rs) ->
  exists l r, pv_split_at v i = Ret (l, r) /\
    represents l (firstn i (fst (list_run ops l0))) /\
    represents r (skipn i (fst (list_run ops l0))).
Proof.
  intros Hs Ho E. destruct (back_run Hs Ho E) as (B & <- & _).
  destruct (@pv_split_at_back T v i B) as (l & r & E2 & Bl & Br & El & Er).
  exists l, r. split; auto. rewrite <- El, <- Er.
  split; apply pv_ok_represents; [apply Bl|apply Br].
Qed.

(** Full statement: for every assembled vector.  Missing (and false): vectors
    that went through push_front on large trees, concat, insert or remove. *)
Theorem C06_split_after_insert_refuted :
  exists (l0 : list nat) v, pv_insert (pv_from_iter l0) 1 777 = Ret v /\
    represents v (0 :: 777 :: tl l0) /\
    (exists left right, pv_split_at v 2 = Ret (left, right) /\
       pv_to_vec left = Ret [0] /\ pv_to_vec right = Ret [64]).
Proof.
  exists (seq 0 65). eexists. split; [vm_compute; reflexivity|]. split.
  - destruct (@insert_step nat (pv_from_iter (seq 0 65)) 1 777 (@from_iter_back nat _))
      as (v' & E & Hok & He).
    apply pv_ok_represents in Hok. rewrite He in Hok.
    destruct (pv_from_iter_ok (seq 0 65)) as [_ E2]. rewrite E2 in Hok.
    assert (Ev : forall a, vec_step (Insert 1 777) (pv_from_iter (seq 0 65)) = Ret (a, None) ->
                 represents a (0 :: 777 :: seq 1 64)).
    { intros a Ea. rewrite Ea in E. injection E as ->. exact Hok. }
    apply Ev. vm_compute. reflexivity.
  - eexists _, _. split; [vm_compute; reflexivity|]. vm_compute. auto.
Qed.

(** Growth at both ends ([push_front] included) up to 2112 elements, then a
    split; and any growth after that. *)
Theorem C06_split_both_ends_partial {T} (v0 : pvec T) l0 ops v rs i :
  starts v0 l0 -> Forall (fun o => is_grow o = true) ops -> stays_within 2112 ops l0 ->
  vec_run ops v0 = Ret (v, rs) ->
  exists l r, pv_split_at v i = Ret (l, r) /\
    represents l (firstn i (fst (list_run ops l0))) /\
    represents r (skipn i (fst (list_run ops l0))).
Proof.
  rewrite <- limit_value. intros Hs Ho Hw E. destruct (starts_ok Hs) as [_ El]. rewrite <- El in Hw.
  destruct (@flat_run T ops v0) as (v1 & R & I & Ev); auto.
  { eapply starts_flat; eauto. rewrite <- El. destruct ops; cbn in Hw; tauto. }
  rewrite R in E. injection E as <- <-. rewrite El in Ev.
  destruct (@flat_split T v1 i I) as (l & r & E2 & Bl & Br & E3 & E4).
  exists l, r. split; auto. rewrite <- Ev, <- E3, <- E4. split; now apply pv_ok_represents.
Qed.

Theorem C06_split_then_grow_partial {T} (v : pvec T) l ops1 s ops2 :
  starts v l -> Forall (fun o => is_grow o = true) ops1 -> stays_within 2112 ops1 l ->
  is_split_view s = true -> Forall (fun o => is_grow o = true) ops2 ->
  faithful v l (ops1 ++ s :: ops2).
Proof. rewrite <- limit_value. exact (@flat_split_grow_faithful T v l ops1 s ops2). Qed.

(** The bound is sharp: 2113 elements, the 65th [push_front] spoils the tree. *)
Theorem C06_beyond_2112_refuted :
  exists (l0 : list nat) v, vec_run (repeat (PushFront 9) 65) (pv_from_iter l0) = Ret (v, repeat None 65) /\
    pv_len v = 2113 /\
    exists left right, pv_split_at v 1000 = Ret (left, right) /\
      pv_len left = 1000 /\ pv_to_vec left = Ret (repeat 9 65 ++ repeat 1 64) /\
      pv_len right = 1113 /\ pv_to_vec right = Ret [].
Proof.
  exists (repeat 1 2048). eexists. split; [vm_compute; reflexivity|]. split; [vm_compute; reflexivity|].
  eexists _, _. split; [vm_compute; reflexivity|]. vm_compute. auto.
Qed.

Example C06_both_ends_case :
  let ops := repeat (PushFront 9) 64 ++ repeat (PushBack 8) 2 in
  let digits := map (fun i => i mod 10) (seq 0 2046) in
  stays_within 2112 ops digits /\
  (exists v rs, vec_run (ops ++ [SplitRight 1000; PushFront 3]) (pv_from_iter digits) = Ret (v, rs) /\
     pv_len v = 1113 /\ pv_get v 0 = Ret (Some 3) /\ pv_get v 1 = Ret (Some 6) /\
     pv_get v 1112 = Ret (Some 8)).
Proof.
  cbn zeta. split.
  - assert (G : forall a b (l : list nat), length l + a + b <= 2112 ->
      stays_within 2112 (repeat (PushFront 9) a ++ repeat (PushBack 8) b) l).
    { induction a as [|a IH]; cbn [repeat app].
      - induction b as [|b IHb]; intros l H; split; try lia; auto.
        apply IHb. cbn [list_step fst]. rewrite app_length. cbn [length]. lia.
      - intros l H. split; [lia|]. apply IH. cbn [list_step fst length]. lia. }
    apply G. rewrite map_length, seq_length. lia.
  - eexists _, _. split; [vm_compute; reflexivity|]. vm_compute. auto.
Qed.
Theorem C07_take_skip_partial {T} (v0 : pvec T) l0 ops v rs n :
  starts v0 l0 -> Forall (fun o => is_back o = true) ops -> vec_run ops v0 = Ret (v, rs) ->
  (exists t, pv_take v n = Ret t /\ represents t (firstn n (fst (list_run ops l0)))) /\
  (exists s, pv_skip v n = Ret s /\ represents s (skipn n (fst (list_run ops l0)))).
Proof.
  intros Hs Ho E. destruct (back_run Hs Ho E) as (B & <- & _).
  destruct (@pv_take_back T v n B) as (t & E1 & B1 & <-).
  destruct (@pv_skip_back T v n B) as (s & E2 & B2 & <-).
  split; eexists; (split; [eassumption|]); apply pv_ok_represents; [apply B1|apply B2].
Qed.

Theorem C07_take_skip_both_ends_partial {T} (v0 : pvec T) l0 ops v rs n :
  starts v0 l0 -> Forall (fun o => is_grow o = true) ops -> stays_within 2112 ops l0 ->
  vec_run ops v0 = Ret (v, rs) ->
  (exists t, pv_take v n = Ret t /\ represents t (firstn n (fst (list_run ops l0)))) /\
  (exists s, pv_skip v n = Ret s /\ represents s (skipn n (fst (list_run ops l0)))).
Proof.
  intros Hs Ho Hw E. pose proof (grow_faithful Hs Ho) as (v1 & R1 & Rp). rewrite R1 in E. injection E as -> _.
  destruct (C06_split_both_ends_partial n Hs Ho Hw R1) as (l & r & E & Hl & Hr).
  unfold pv_take, pv_skip. rewrite (represents_len Rp).
  destruct (Nat.leb_spec (length (fst (list_run ops l0))) n) as [H|H].
  - rewrite firstn_all2, skipn_all2 by lia. split; eexists; (split; [reflexivity|]); auto. exact (from_iter_represents []).
  - rewrite E. cbn. split; eexists; (split; [reflexivity|]); auto.
Qed.
Theorem C07_take_after_insert_refuted :
  exists (l0 : list nat) v t, pv_insert (pv_from_iter l0) 1 777 = Ret v /\
    pv_len v = 66 /\ pv_take v 2 = Ret t /\ pv_to_vec t = Ret [0].
Proof.
  exists (seq 0 65). eexists _, _. split; [vm_compute; reflexivity|].
  split; [reflexivity|]. split; [vm_compute; reflexivity|]. vm_compute. reflexivity.
Qed.

Example C07_case : exists ops : list (op nat),
  Forall (fun o => is_back o = true) ops /\
  exists v rs t s, vec_run ops (pv_from_iter (seq 0 300)) = Ret (v, rs) /\
    pv_take v 100 = Ret t /\ pv_skip v 100 = Ret s /\ represents t (seq 20 100) /\ represents s (seq 120 30 ++ [7]) /\
    (exists w, pv_take v 1000 = Ret w /\ represents w (seq 20 130 ++ [7])) /\
    (exists w, pv_skip v 1000 = Ret w /\ represents w []).
Proof.
  exists [Take 150; Skip 20; PushBack 7]. split; [repeat constructor|].
  destruct (vec_run [Take 150; Skip 20; PushBack 7] (pv_from_iter (seq 0 300))) as [[v rs]|] eqn:E;
    [|vm_compute in E; discriminate].
  assert (K : forall n, (exists t, pv_take v n = Ret t /\ represents t (firstn n (seq 20 130 ++ [7]))) /\
                        (exists s, pv_skip v n = Ret s /\ represents s (skipn n (seq 20 130 ++ [7])))).
  { intros n. exact (@C07_take_skip_partial nat _ _ [Take 150; Skip 20; PushBack 7] v rs n (starts_slice _) ltac:(repeat constructor) E). }
  destruct (K 100) as [(t & T1 & T2) (s & S1 & S2)]. destruct (K 1000) as [(t' & T1' & T2') (s' & S1' & S2')].
  exists v, rs, t, s. split; [reflexivity|]. split; [exact T1|]. split; [exact S1|]. split; [exact T2|].
  split; [exact S2|]. split; [exists t'; split; [exact T1'|exact T2']|exists s'; split; [exact S1'|exact S2']].
Qed.
Example C06_case : exists ops : list (op nat),
  Forall (fun o => is_back o = true) ops /\
  exists v rs, vec_run ops (pv_from_iter (seq 0 300)) = Ret (v, rs) /\ pv_len v = 150 /\
  exists l r, pv_split_at v 100 = Ret (l, r) /\ pv_len l = 100 /\ pv_len r = 50 /\
              pv_get r 0 = Ret (Some 120).
Proof.
  exists [Skip 20; Take 153; PopBack; PopBack; PopBack]. split; [repeat constructor|].
  eexists _, _. split; [vm_compute; reflexivity|]. split; [reflexivity|].
  eexists _, _. split; [vm_compute; reflexivity|]. vm_compute. auto.
Qed.

(** ** C08 *)
Theorem C08_one_edit_partial {T} (v : pvec T) l ops1 e ops2 :
  starts v l -> Forall (fun o => is_back o = true) ops1 -> is_edit e = true ->
  Forall (fun o => is_grow o = true) ops2 ->
  faithful v l (ops1 ++ e :: ops2).
Proof. exact (@back_edit_grow_faithful T v l ops1 e ops2). Qed.

(** Chains of edits (full statement: [Forall is_edit ops]) go wrong, and so
    does one insert after one push_front. *)
Theorem C08_insert_chain_refuted :
  exists l : list nat, ~ faithful (pv_from_iter l) l [Insert 1 777; Insert 2 888].
Proof. exists (seq 0 65). run_differs. Qed.

Theorem C08_insert_after_push_front_refuted :
  exists l : list nat, ~ faithful (pv_from_iter l) l [PushFront 5; Insert 1 777].
Proof. exists (seq 0 128). run_differs. Qed.

Example C08_refuted_value :
  exists v rs, vec_run [Insert 1 777; Insert 2 888] (pv_from_iter (seq 0 65)) = Ret (v, rs) /\
               pv_to_vec v = Ret [0; 888; 64].
Proof. eexists _, _. split; [vm_compute; reflexivity|]. vm_compute. reflexivity. Qed.

Example C08_case :
  exists v rs, vec_run [PopBack; Insert 70 777; PushFront 1] (pv_from_iter (seq 0 140)) = Ret (v, rs) /\
    pv_get v 71 = Ret (Some 777) /\ pv_get v 72 = Ret (Some 70) /\ pv_len v = 141.
Proof. eexists _, _. split; [vm_compute; reflexivity|]. vm_compute. auto. Qed.

(** ** C09: for every vector that reads as [l], however it was obtained *)
Theorem C09_map_filter {T U} (v : pvec T) l (f : T -> U) (p : T -> bool) (g : T -> option U)
    (h : T -> list U) : represents v l ->
  (exists w, pv_map f v = Ret w /\ represents w (map f l)) /\
  (exists w, pv_filter p v = Ret w /\ represents w (filter p l)) /\
  (exists w, pv_filter_map g v = Ret w /\
     represents w (flat_map (fun x => match g x with Some y => [y] | None => [] end) l)) /\
  (exists w, pv_flat_map h v = Ret w /\ represents w (flat_map h l)).
Proof.
  intros H. apply represents_iter in H.
  unfold pv_map, pv_filter, pv_filter_map, pv_flat_map. rewrite H. cbn [omap].
  rewrite <- filter_map_spec.
  repeat split; eexists; (split; [reflexivity|apply from_iter_represents]).
Qed.

Lemma iter_zip_ok {T U} (v : pvec T) (w : pvec U) l m n : represents v l -> n = Nat.min (length l) (length m) ->
  (forall i, i < length l -> i <= n -> iter_next w i = Ret (nth_error m i, if i <? length m then S i else i)) ->
  forall fuel i, i <= n -> pv_len v < fuel + i ->
  iter_zip fuel v w i = Ret (combine (skipn i l) (skipn i m)).
Proof.
  intros Hv Hn Hw. pose proof (represents_len Hv) as Hl.
  assert (Hs : forall A (k : list A) j x, nth_error k j = Some x -> skipn j k = x :: skipn (S j) k).
  { intros A. induction k as [|z k IH]; intros [|j] x Hk; try discriminate.
    - injection Hk as ->. reflexivity.
    - cbn [skipn] in *. now apply IH. }
  induction fuel as [|fuel IH]; intros i Hi Hf; [lia|].
  cbn [iter_zip]. unfold iter_next at 1. rewrite (represents_get i Hv).
  destruct (Nat.ltb_spec i (pv_len v)) as [Hlt|Hge]; cbn [obind fst].
  2:{ rewrite (skipn_all2 l) by lia. reflexivity. }
  destruct (nth_error l i) as [x|] eqn:Ex; [|apply nth_error_None in Ex; lia].
  rewrite (Hw i) by lia. cbn [obind fst]. rewrite (Hs _ _ _ _ Ex).
  destruct (nth_error m i) as [y|] eqn:Ey.
  - assert (i < length m) by (apply nth_error_Some; congruence).
    rewrite (Hs _ _ _ _ Ey). rewrite IH by lia. reflexivity.
  - apply nth_error_None in Ey. rewrite (skipn_all2 m) by lia. reflexivity.
Qed.

Theorem C09_zip {T U} (v : pvec T) (w : pvec U) l m : represents v l -> represents w m ->
  exists z, pv_zip v w = Ret z /\ represents z (combine l m).
Proof.
  intros H1 H2. unfold pv_zip. rewrite (@iter_zip_ok T U v w l m _ H1 eq_refl); [|..|lia|lia].
  - eexists. split; [reflexivity|apply from_iter_represents].
  - intros i _ _. unfold iter_next. rewrite (represents_len H2), (represents_get i H2).
    destruct (Nat.ltb_spec i (length m)) as [Hi|Hi]; [reflexivity|]. now rewrite (proj2 (nth_error_None m i) Hi).
Qed.

(** The right vector is asked for no more elements than the left one has. *)
Theorem C09_zip_asks {T U} (v : pvec T) (w : pvec U) l m : represents v l -> length m = length l ->
  length l <= pv_len w -> (forall i, i < length l -> pv_get w i = Ret (nth_error m i)) ->
  exists z, pv_zip v w = Ret z /\ represents z (combine l m).
Proof.
  intros H1 Hm Hw Hg. unfold pv_zip. rewrite (@iter_zip_ok T U v w l m _ H1 eq_refl); [|..|lia|lia].
  - eexists. split; [reflexivity|apply from_iter_represents].
  - intros i Hi _. unfold iter_next. rewrite (proj2 (Nat.ltb_lt _ _) (Nat.lt_le_trans _ _ _ Hi Hw)), Hg by assumption.
    rewrite Hm, (proj2 (Nat.ltb_lt _ _) Hi). reflexivity.
Qed.

Theorem C09_partition {T} (v : pvec T) l p : represents v l ->
  exists a b, pv_partition p v = Ret (a, b) /\ represents a (filter p l) /\
              represents b (filter (fun x => negb (p x)) l).
Proof.
  intros H. unfold pv_partition. rewrite (represents_iter H). cbn [omap].
  rewrite partition_fold. cbn [app].
  eexists _, _. split; [reflexivity|]. split; apply from_iter_represents.
Qed.

Theorem C09_fold {T B} (v : pvec T) l (f : B -> T -> B) (g : T -> B -> B) b : represents v l ->
  pv_fold f b v = Ret (fold_left f l b) /\ pv_fold_right g b v = Ret (fold_right g b l).
Proof.
  intros H. split.
  - unfold pv_fold. now rewrite (represents_iter H).
  - unfold pv_fold_right. rewrite (represents_len H), (fold_right_from_ok g H) by lia.
    now rewrite firstn_all.
Qed.

Theorem C09_dedup {T} (v : pvec T) l eqb : represents v l ->
  exists w m, pv_dedup eqb v = Ret w /\ represents w m /\ runs_collapsed eqb l m.
Proof.
  intros H. unfold pv_dedup. rewrite (represents_iter H). cbn [omap].
  eexists _, _. split; [reflexivity|]. split; [apply from_iter_represents|apply dedup_ok].
Qed.

Theorem C09_sorted {T} (v : pvec T) l leb : represents v l -> total_preorder leb ->
  exists w m, pv_sorted leb v = Ret w /\ represents w m /\
    Permutation m l /\ StronglySorted (fun x y => leb x y = true) m /\
    (forall c, filter (same_class leb c) m = filter (same_class leb c) l).
Proof.
  intros H Hleb. unfold pv_sorted. rewrite (represents_iter H). cbn [omap].
  eexists _, _. split; [reflexivity|]. split; [apply from_iter_represents|].
  split; [apply stable_sort_perm|]. split; [now apply stable_sort_sorted|].
  intros c. now apply stable_sort_stable.
Qed.

Theorem C09_chunk {T} (v : pvec T) l size : represents v l -> 1 <= size ->
  exists w ws pieces, pv_chunk v size = Ret w /\ represents w ws /\
    Forall2 represents ws pieces /\ cut_into size l pieces.
Proof.
  intros H Hs. unfold pv_chunk. destruct (Nat.eqb_spec size 0); [lia|].
  rewrite (represents_iter H). cbn [omap].
  eexists _, _, (chunks size l). split; [reflexivity|]. split; [apply from_iter_represents|].
  split; [|now apply chunks_cut].
  induction (chunks size l); cbn; constructor; auto. apply from_iter_represents.
Qed.

Theorem C09_chunk_zero {T} (v : pvec T) : pv_chunk v 0 = Ret pv_new.
Proof. reflexivity. Qed.

Example C09_case :
  (do w <- pv_dedup Nat.eqb (pv_from_iter [1;1;2;3;3;1]); pv_to_vec w) = Ret [1;2;3;1] /\
  (do w <- pv_sorted Nat.leb (pv_from_iter [3;1;2;1]); pv_to_vec w) = Ret [1;1;2;3] /\
  (do w <- pv_chunk (pv_from_iter (seq 0 5)) 2; pv_to_vec w) =
    Ret [pv_from_iter [0;1]; pv_from_iter [2;3]; pv_from_iter [4]] /\
  total_preorder Nat.leb.
Proof.
  split; [vm_compute; reflexivity|]. split; [vm_compute; reflexivity|].
  split; [vm_compute; reflexivity|].
  split; intros; rewrite ?Nat.leb_le in *; lia.
Qed.

(** ** C10 *)
Theorem C10_functor_laws_partial {T U V} (v : pvec T) l (f : T -> U) (g : U -> V) : represents v l ->
  (exists w, pv_fmap (fun x => x) v = Ret w /\ represents w l) /\
  (exists w1 w2 w3 m, pv_fmap f v = Ret w1 /\ pv_fmap g w1 = Ret w2 /\
     pv_fmap (fun x => g (f x)) v = Ret w3 /\ represents w2 m /\ represents w3 m /\
     pv_len w2 = pv_len v).
Proof.
  intros H. unfold pv_fmap, pv_map. rewrite (represents_iter H). cbn [omap]. split.
  - eexists. split; [reflexivity|]. rewrite map_id. apply from_iter_represents.
  - eexists _, _, _, (map g (map f l)). split; [reflexivity|].
    rewrite (represents_iter (from_iter_represents (map f l))). cbn [omap].
    split; [reflexivity|]. split; [reflexivity|].
    split; [apply from_iter_represents|]. split; [rewrite map_map; apply from_iter_represents|].
    rewrite (represents_len (from_iter_represents _)), (represents_len H). now rewrite !map_length.
Qed.

Example C10_case : represents (pv_from_iter (seq 0 100)) (seq 0 100).
Proof. apply from_iter_represents. Qed.

(** ** C11 *)
Theorem C11_identity {T} (v : pvec T) l : assembled v -> represents v l ->
  represents (pv_combine v pv_empty) l /\ represents (pv_combine pv_empty v) l.
Proof.
  intros Ha R. pose proof (assembled_ok Ha) as Oa.
  rewrite (represents_unique R (pv_ok_represents Oa)).
  destruct (@pv_new_ok T) as [On En]. unfold pv_combine, pv_empty.
  destruct (@pv_concat_plain T v pv_new Oa On) as [C1 C2]; [auto|].
  destruct (@pv_concat_plain T pv_new v On Oa) as [C3 C4]; [auto|].
  apply pv_ok_represents in C1, C3. rewrite C2, En, app_nil_r in C1. rewrite C4, En in C3. auto.
Qed.

(** Associativity fails already for vectors of 1, 64 and 64 elements. *)
Theorem C11_associativity_refuted :
  exists a b c : list nat,
    pv_to_vec (pv_combine (pv_combine (pv_from_iter a) (pv_from_iter b)) (pv_from_iter c)) =
      Ret (a ++ b ++ c) /\
    pv_to_vec (pv_combine (pv_from_iter a) (pv_combine (pv_from_iter b) (pv_from_iter c))) =
      Ret (b ++ c ++ a) /\
    a ++ b ++ c <> b ++ c ++ a.
Proof.
  exists [1000], (seq 0 64), (seq 64 64). vm_compute.
  split; [reflexivity|]. split; [reflexivity|discriminate].
Qed.

(** Below 128 elements in total every grouping is right. *)
Lemma pv_concat_low {T} (a b : pvec T) : pv_ok a -> pv_ok b ->
  pv_height a = 0 -> pv_height b = 0 -> pv_len a + pv_len b < 128 ->
  pv_ok (pv_concat a b) /\ pv_elems (pv_concat a b) = pv_elems a ++ pv_elems b /\
  pv_height (pv_concat a b) = 0 /\ pv_len (pv_concat a b) = pv_len a + pv_len b.
Proof.
  intros Oa Ob Ha Hb Hl.
  destruct (@pv_concat_plain T a b Oa Ob) as [C1 C2]; [right; right; left; lia|].
  split; auto. split; auto.
  assert (Hlen : pv_len (pv_concat a b) = pv_len a + pv_len b).
  { rewrite (represents_len (pv_ok_represents C1)), C2, app_length.
    now rewrite (represents_len (pv_ok_represents Oa)), (represents_len (pv_ok_represents Ob)). }
  split; auto.
  assert (Hfe : forall es : list T, length es < 128 -> t_height (from_elements es) = 0).
  { intros es He. assert (pv_height (pv_from_iter es) <= 0).
    { apply slice_height. change (32 ^ 0) with 1. assert (length es / 64 < 2); [|lia].
      apply Nat.div_lt_upper_bound; lia. }
    unfold pv_height, pv_from_iter in H. destruct (length es <=? ADAPTIVE_INLINE_SIZE); cbn in H; lia. }
  assert (Htc : forall s t : tree T, t_height s = 0 -> t_height t = 0 -> t_height (tree_concat s t) = 0).
  { intros s t Es Et. unfold tree_concat. destruct (t_len s =? 0); auto. destruct (t_len t =? 0); auto.
    rewrite Es, Et. cbn. now rewrite Es, Et. }
  destruct Oa as [La _], Ob as [Lb _]. unfold pv_height, pv_concat, pv_elems in *.
  destruct (inner a) as [l|s], (inner b) as [r|t]; cbn [inner].
  - unfold pv_from_iter. destruct (_ <=? _); cbn [inner]; apply Hfe; rewrite app_length; lia.
  - apply Htc; auto.
  - apply Htc; auto.
  - apply Htc; auto.
Qed.

Lemma slice_low {T} (l : list T) : length l < 128 -> pv_height (pv_from_iter l) = 0.
Proof.
  intros H. assert (pv_height (pv_from_iter l) <= 0); [|lia].
  apply slice_height. change (32 ^ 0) with 1. assert (length l / 64 < 2); [|lia].
  apply Nat.div_lt_upper_bound; lia.
Qed.

Theorem C11_associativity_partial {T} (a b c : list T) :
  length a + length b + length c < 128 ->
  represents (pv_combine (pv_combine (pv_from_iter a) (pv_from_iter b)) (pv_from_iter c)) (a ++ b ++ c) /\
  represents (pv_combine (pv_from_iter a) (pv_combine (pv_from_iter b) (pv_from_iter c))) (a ++ b ++ c).
Proof.
  intros H. unfold pv_combine.
  assert (L : forall l : list T, pv_len (pv_from_iter l) = length l)
    by (intros l; apply (represents_len (from_iter_represents l))).
  destruct (pv_from_iter_ok a) as [Oa Ea]. destruct (pv_from_iter_ok b) as [Ob Eb].
  destruct (pv_from_iter_ok c) as [Oc Ec].
  pose proof (@slice_low T a ltac:(lia)). pose proof (@slice_low T b ltac:(lia)).
  pose proof (@slice_low T c ltac:(lia)).
  destruct (pv_concat_low Oa Ob) as (A1 & A2 & A3 & A4); auto; [rewrite !L; lia|].
  destruct (pv_concat_low Ob Oc) as (B1 & B2 & B3 & B4); auto; [rewrite !L; lia|].
  destruct (pv_concat_low A1 Oc) as (D1 & D2 & _); auto; [rewrite A4, !L; lia|].
  destruct (pv_concat_low Oa B1) as (F1 & F2 & _); auto; [rewrite B4, !L; lia|].
  apply pv_ok_represents in D1, F1.
  rewrite D2, A2, Ea, Eb, Ec, <- app_assoc in D1. rewrite F2, B2, Ea, Eb, Ec in F1. auto.
Qed.

Example C11_case : assembled (pv_from_iter (seq 0 200)) /\
  length (seq 0 60) + length (seq 0 40) + length (seq 0 27) < 128.
Proof. split; [apply (starts_assembled (starts_slice _))|vm_compute; lia]. Qed.

(** ** C12: the full statement is

    [forall a b la lb, represents a la -> represents b lb ->
       (pv_eqb eqb a b = true <-> la = lb)]. *)
Theorem C12_equality_sound_partial {T} (eqb : T -> T -> bool) (a b : pvec T) la lb :
  (forall x y, eqb x y = true <-> x = y) ->
  represents a la -> represents b lb -> pv_eqb eqb a b = true -> la = lb.
Proof.
  intros He Ra Rb E. apply (pv_eqb_eq He) in E. subst b. eapply represents_unique; eauto.
Qed.

Theorem C12_equality_slices {T} (eqb : T -> T -> bool) (l m : list T) :
  (forall x y, eqb x y = true <-> x = y) ->
  pv_eqb eqb (pv_from_iter l) (pv_from_iter m) = true <-> l = m.
Proof.
  intros He. rewrite (pv_eqb_eq He). split; [|now intros ->].
  intros E. eapply represents_unique; [apply from_iter_represents|]. rewrite E.
  apply from_iter_represents.
Qed.

Theorem C12_equality_refuted :
  exists a b : pvec nat, represents a [1] /\ represents b [1] /\ pv_eqb Nat.eqb a b = false.
Proof.
  exists (pv_push_back pv_new 1), (pv_from_iter [1]).
  split; [|split; [apply from_iter_represents|reflexivity]].
  destruct (@pv_new_ok nat) as [H _]. destruct (pv_push_back_ok 1 H) as [P1 P2].
  apply pv_ok_represents in P1. now rewrite P2 in P1.
Qed.

Example C12_case :
  represents (pv_from_iter (seq 0 200)) (seq 0 200) /\
  pv_eqb Nat.eqb (pv_from_iter (seq 0 200)) (pv_from_iter (seq 0 200)) = true /\
  pv_eqb Nat.eqb (pv_from_iter (seq 0 200)) (pv_from_iter (seq 1 200)) = false /\
  pv_eqb Nat.eqb (pv_from_iter (seq 0 200)) (pv_from_iter (seq 0 199)) = false.
Proof. split; [apply from_iter_represents|]. repeat split; vm_compute; reflexivity. Qed.

(** ** C13 *)
Theorem C13_update_frame {T} (v : pvec T) l i x : assembled v -> represents v l ->
  exists v', pv_update v i x = Ret v' /\ pv_len v' = pv_len v /\
    (forall j, j <> i -> pv_get v' j = pv_get v j) /\
    (i < length l -> pv_get v' i = Ret (Some x)) /\
    (length l <= i -> v' = v).
Proof.
  intros Ha R. pose proof (assembled_ok Ha) as Oa.
  rewrite (represents_unique R (pv_ok_represents Oa)) in *. clear R l.
  pose proof (pv_ok_represents Oa) as R.
  destruct (@pv_update_ok T v i x Oa) as (v' & E & O' & E').
  exists v'. split; auto. pose proof (pv_ok_represents O') as R'.
  rewrite (represents_len R), (represents_len R'), E', list_set_length.
  split; auto. split; [|split].
  - intros j Hj. rewrite (represents_get j R), (represents_get j R'), E'.
    now rewrite nth_error_list_set_ne by auto.
  - intros Hi. rewrite (represents_get i R'), E'. now rewrite nth_error_list_set_eq.
  - intros Hi. unfold pv_update in E. rewrite (represents_len R) in E.
    rewrite (proj2 (Nat.leb_le _ _)) in E by auto. now injection E as <-.
Qed.

Theorem C13_try_update {T} (v : pvec T) l i x : assembled v -> represents v l ->
  (length l <= i -> pv_try_update v i x = Ret (inr (i, length l))) /\
  (i < length l -> exists v', pv_update v i x = Ret v' /\ pv_try_update v i x = Ret (inl v')).
Proof.
  intros Ha R. unfold pv_try_update. rewrite (represents_len R). split; intros Hi.
  - now rewrite (proj2 (Nat.leb_le _ _)).
  - rewrite (proj2 (Nat.leb_gt _ _)) by auto.
    destruct (C13_update_frame i x Ha R) as (v' & E & _). rewrite E. cbn. eauto.
Qed.

Example C13_case : assembled (pv_from_iter (seq 0 100)) /\ represents (pv_from_iter (seq 0 100)) (seq 0 100).
Proof. split; [apply (starts_assembled (starts_slice _))|apply from_iter_represents]. Qed.

(** ** C14 *)
Theorem C14_accessors_partial {T} (v : pvec T) l : represents v l ->
  pv_first v = Ret (nth_error l 0) /\ pv_first v = pv_get v 0 /\
  pv_last v = Ret (match l with [] => None | _ => nth_error l (length l - 1) end) /\
  (forall i, pv_try_get v i =
     Ret (match nth_error l i with Some x => inl x | None => inr (i, length l) end)) /\
  (forall i, pv_index v i = match nth_error l i with Some x => Ret x | None => Panic end) /\
  pv_is_empty v = match l with [] => true | _ => false end /\
  (forall B (f : B -> T -> B) b, pv_fold f b v = Ret (fold_left f l b)) /\
  (forall B (f : T -> B -> B) b, pv_fold_right f b v = Ret (fold_right f b l)).
Proof.
  intros H. split; [apply (represents_get 0 H)|]. split; [reflexivity|].
  split. { unfold pv_last. rewrite (represents_len H), (represents_get _ H). now destruct l. }
  split. { intros i. unfold pv_try_get. rewrite (represents_get i H), (represents_len H). reflexivity. }
  split. { intros i. unfold pv_index. rewrite (represents_get i H). reflexivity. }
  split. { unfold pv_is_empty. rewrite (represents_len H). now destruct l. }
  split; intros B f b.
  - now apply (C09_fold f (fun _ b => b) b H).
  - now apply (C09_fold (fun b _ => b) f b H).
Qed.

(** After [k] calls of [next]: the first [k] elements (then [None]s), and
    [size_hint] is exactly what is left. *)
Theorem C14_iteration_partial {T} (v : pvec T) l k : represents v l ->
  exists pos, next_times k v 0 = Ret (map Some (firstn k l) ++ repeat None (k - length l), pos) /\
              iter_size_hint v pos = Ret (length l - k).
Proof.
  intros H. eexists. split.
  - rewrite (next_times_ok k H) by lia. cbn [skipn]. rewrite Nat.sub_0_r. reflexivity.
  - unfold iter_size_hint. rewrite (represents_len H), usub_ok by lia. f_equal. lia.
Qed.

Example C14_case : pv_last (pv_from_iter (seq 0 70)) = Ret (Some 69) /\
  exists r, next_times 72 (pv_from_iter (seq 0 70)) 0 = Ret (r, 70) /\ nth_error r 69 = Some (Some 69).
Proof. split; [vm_compute; auto|]. eexists. split; vm_compute; reflexivity. Qed.

(** ** C15 *)
Theorem C15_no_panic_partial {T} (v : pvec T) : reached v ->
  (forall i, exists o, pv_get v i = Ret o) /\
  (exists l, pv_to_vec v = Ret l) /\
  (forall o, is_pop_back o = false -> exists v' r, vec_step o v = Ret (v', r)).
Proof.
  intros H. apply reached_safe in H. split; [|split].
  - intros i. now apply pv_get_safe.
  - now apply pv_iter_safe.
  - intros o Ho. destruct (safe_step Ho H) as (v' & r & E & _). eauto.
Qed.

Theorem C15_no_panic_history_partial {T} (v0 : pvec T) l0 ops1 ops2 :
  starts v0 l0 -> Forall (fun o => is_back o = true) ops1 ->
  Forall (fun o => is_pop_back o = false) ops2 ->
  exists v rs, vec_run (ops1 ++ ops2) v0 = Ret (v, rs) /\
    (forall i, exists o, pv_get v i = Ret o) /\ (exists l, pv_to_vec v = Ret l).
Proof.
  intros Hs H1 H2. destruct (back_faithful Hs H1) as (v1 & E1 & _).
  destruct (back_run Hs H1 E1) as ([Ok _] & _ & _).
  destruct (safe_run H2 (pv_ok_safe Ok)) as (v2 & rs & E2 & Sf).
  exists v2, (snd (list_run ops1 l0) ++ rs). rewrite vec_run_app, E1. cbn [obind fst snd].
  rewrite E2. cbn [omap fst snd]. split; auto.
  split; [intros i; now apply pv_get_safe|now apply pv_iter_safe].
Qed.

(** The full statement (all operations) is false: after this history the
    vector has length 6 but 5 + 3 buffered elements, and reading it
    underflows. *)
Definition C15_bad_history : list (op nat) :=
  repeat (PushBack 0) 65 ++ repeat PopBack 65 ++ repeat (PushFront 1) 65 ++ [PopFront] ++
  repeat PopBack 10 ++ repeat (PushFront 2) 5 ++ repeat PopBack 56 ++ repeat (PushBack 3) 3.

Theorem C15_no_panic_refuted :
  Forall (fun o => is_deque o = true) C15_bad_history /\
  exists v rs, vec_run C15_bad_history pv_new = Ret (v, rs) /\
    pv_len v = 6 /\ pv_get v 5 = Panic /\ pv_to_vec v = Panic.
Proof.
  split; [repeat constructor|]. eexists _, _. split; [vm_compute; reflexivity|].
  vm_compute. auto.
Qed.

(** Zipping with the vector of [C15_no_panic_refuted] returns if its last element is not needed. *)
Example C09_zip_case : exists v rs, vec_run C15_bad_history pv_new = Ret (v, rs) /\ pv_to_vec v = Panic /\
  (do z <- pv_zip (pv_from_iter [7; 8]) v; pv_to_vec z) = Ret [(7, 2); (8, 2)].
Proof.
  eexists _, _. split; [vm_compute; reflexivity|]. vm_compute. auto.
Qed.

(** A reached vector whose contents are wrong, yet every call returns. *)
Lemma reached_run {T} ops : forall (v v' : pvec T) rs, reached v ->
  Forall (fun o => is_pop_back o = false) ops -> vec_run ops v = Ret (v', rs) -> reached v'.
Proof.
  induction ops as [|o ops IH]; intros v v' rs Hr Ho E.
  - now injection E as <- _.
  - inversion Ho; subst. cbn [vec_run] in E.
    destruct (vec_step o v) as [[v1 r]|] eqn:E1; [|discriminate]. cbn [obind fst snd] in E.
    destruct (vec_run ops v1) as [[v2 rs2]|] eqn:E2; [|discriminate]. cbn in E.
    injection E as <- _. eapply IH; [eapply rch_step; eauto|auto|eauto].
Qed.

Example C15_case : exists v : pvec nat, reached v /\ pv_len v = 67 /\ pv_to_vec v = Ret [0; 888; 64].
Proof.
  set (ops := [Insert 1 777; Insert 2 888]). set (v0 := pv_from_iter (seq 0 65)).
  assert (H : (do r <- vec_run ops v0; do l <- pv_to_vec (fst r); Ret (pv_len (fst r), l)) =
              Ret (67, [0; 888; 64])) by (vm_compute; reflexivity).
  destruct (vec_run ops v0) as [[v rs]|] eqn:E; [|discriminate]. cbn [obind fst snd] in H.
  exists v. split.
  - eapply reached_run; [|  |exact E]; [|repeat constructor].
    apply rch_asm. exact (starts_assembled (starts_slice (seq 0 65))).
  - destruct (pv_to_vec v) as [l|]; [|discriminate]. cbn in H. injection H as -> ->. auto.
Qed.

Print Assumptions C01_from_slice_round_trip.
Print Assumptions C02_growing_histories.
Print Assumptions C03_back_histories.
Print Assumptions C03_stack_histories.
Print Assumptions C04_pop_front_order_refuted.
Print Assumptions C04_mixed_ends_refuted.
Print Assumptions C04_up_to_64_partial.
Print Assumptions C04_front_stack_partial.
Print Assumptions C04_drain_after_growth_partial.
Print Assumptions C05_concat_refuted.
Print Assumptions C05_concat_contents_partial.
Print Assumptions C05_concat_slices_exact.
Print Assumptions C05_concat_short_right.
Print Assumptions C06_split_at_partial.
Print Assumptions C06_split_after_insert_refuted.
Print Assumptions C07_take_skip_partial.
Print Assumptions C07_take_after_insert_refuted.
Print Assumptions C08_one_edit_partial.
Print Assumptions C08_insert_chain_refuted.
Print Assumptions C08_insert_after_push_front_refuted.
Print Assumptions C09_map_filter.
Print Assumptions C09_zip.
Print Assumptions C09_zip_asks.
Print Assumptions C09_partition.
Print Assumptions C09_fold.
Print Assumptions C09_dedup.
Print Assumptions C09_sorted.
Print Assumptions C09_chunk.
Print Assumptions C10_functor_laws_partial.
Print Assumptions C11_identity.
Print Assumptions C11_associativity_refuted.
Print Assumptions C11_associativity_partial.
Print Assumptions C12_equality_sound_partial.
Print Assumptions C12_equality_slices.
Print Assumptions C12_equality_refuted.
Print Assumptions C13_update_frame.
Print Assumptions C13_try_update.
Print Assumptions C14_accessors_partial.
Print Assumptions C14_iteration_partial.
Print Assumptions C15_no_panic_partial.
Print Assumptions C15_no_panic_history_partial.
Print Assumptions C15_no_panic_refuted.
Print Assumptions C06_split_both_ends_partial.
Print Assumptions C06_split_then_grow_partial.
Print Assumptions C06_beyond_2112_refuted.
Print Assumptions C07_take_skip_both_ends_partial.
Print Assumptions C04_fed_queue_partial.
Print Assumptions C04_fed_65_refuted.

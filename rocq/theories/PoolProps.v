(** C97: running many asynchronous [IO]s at once on a pool of blocking threads. *)
From Coq Require Import List Arith Bool Lia.
From Verif Require Import Base ListFacts PoolModel.
Import ListNotations.

Definition all_returned (s : pool) : Prop := Forall (fun p => p = PReturned) (p_calls s).
(** no job can move *)
Definition stuck (cap : nat) (s : pool) : Prop := forall s', ~ pstep cap s s'.

(** what is left of a call *)
Definition rank (p : phase) : nat :=
  match p with
  | PNew => 6 | POuterQ => 5 | POuter => 4 | PInnerQ => 3 | PInner => 2
  | PInnerDone => 1 | PReturned => 0
  end.
Definition total (f : phase -> nat) (l : list phase) : nat := sum_list (map f l).

Lemma total_app f a b : total f (a ++ b) = total f a + total f b.
Proof. unfold total, sum_list. rewrite map_app, fold_right_app. induction a as [|x a IH]; cbn; lia. Qed.

Lemma total_set f l i p q :
  nth_error l i = Some p -> total f (list_set l i q) + f p = total f l + f q.
Proof.
  revert i. induction l as [|x l IH]; intros [|i] H; try discriminate H.
  - injection H as ->. unfold total, sum_list. cbn. lia.
  - specialize (IH i H). unfold total, sum_list in *. cbn in *. lia.
Qed.

Lemma total_repeat f p n : total f (repeat p n) = n * f p.
Proof. unfold total, sum_list. induction n as [|n IH]; cbn; lia. Qed.

Lemma step_total cap s s' : pstep cap s s' -> total rank (p_calls s') + 1 = total rank (p_calls s).
Proof.
  intros H. destruct H as [q l i H|q l i H Hc|q l i H Hc|q l i H|q l i H|q l i H]; cbn [p_calls].
  - pose proof (total_set rank l i _ POuterQ H). cbn [rank] in *; lia.
  - pose proof (total_set rank l i _ POuter H). cbn [rank] in *; lia.
  - pose proof (total_set rank l i _ PInner H). cbn [rank] in *; lia.
  - pose proof (total_set rank l i _ PInnerQ H). cbn [rank] in *; lia.
  - pose proof (total_set rank l i _ PInnerDone H). cbn [rank] in *; lia.
  - pose proof (total_set rank l i _ PReturned H). cbn [rank] in *; lia.
Qed.

Lemma steps_total cap k s s' : psteps cap k s s' -> total rank (p_calls s') + k = total rank (p_calls s).
Proof.
  induction 1 as [s|k s s1 s2 _ IH H2]; [lia|]. apply step_total in H2. lia.
Qed.

Lemma total_zero l : total rank l = 0 <-> Forall (fun p => p = PReturned) l.
Proof.
  induction l as [|p l IH]; [split; [constructor|reflexivity]|].
  change (total rank (p :: l)) with (rank p + total rank l). split.
  - intros H. constructor; [destruct p; cbn [rank] in H; try lia; reflexivity|]. apply IH. lia.
  - intros H. inversion H as [|? ? -> Hl]; subst. apply IH in Hl. cbn [rank]. lia.
Qed.

(** The queue names exactly the calls with a waiting job. *)
Definition queued (p : phase) : bool := match p with POuterQ | PInnerQ => true | _ => false end.
Definition consistent (s : pool) : Prop :=
  NoDup (p_queue s) /\
  forall i p, nth_error (p_calls s) i = Some p -> (In i (p_queue s) <-> queued p = true).
Definition in_range (s : pool) : Prop := forall i, In i (p_queue s) -> i < length (p_calls s).

Lemma set_cases {A} (l : list A) i j x y z :
  nth_error l i = Some y -> nth_error (list_set l i x) j = Some z ->
  (j = i /\ z = x) \/ (j <> i /\ nth_error l j = Some z).
Proof.
  intros Hi H. destruct (Nat.eq_dec j i) as [->|E].
  - rewrite nth_error_list_set_eq in H.
    + injection H as <-. now left.
    + apply nth_error_Some. congruence.
  - rewrite nth_error_list_set_ne in H by congruence. now right.
Qed.

Lemma add_consistent q l i p0 p1 :
  nth_error l i = Some p0 -> queued p0 = false -> queued p1 = true ->
  consistent (mkPool q l) -> consistent (mkPool (q ++ [i]) (list_set l i p1)).
Proof.
  intros H H0 H1 [Hn Hc]. cbn [p_queue p_calls] in *. split; cbn [p_queue p_calls].
  - assert (Hi : ~ In i q) by (intros Hi; apply (Hc i p0 H) in Hi; congruence).
    clear Hc. induction q as [|a q IH]; cbn [app].
    + constructor; [easy|constructor].
    + inversion Hn as [|? ? Ha Hq]; subst. constructor.
      * rewrite in_app_iff. intros [Hx|[->|[]]]; [easy|]. apply Hi. now left.
      * apply IH; [exact Hq|]. intros Hx. apply Hi. now right.
  - intros j p Hj. rewrite in_app_iff. cbn [In].
    destruct (set_cases _ _ _ _ _ _ H Hj) as [[-> ->]|[Hne Hj']].
    + split; [intros _; exact H1|]. intros _. right. now left.
    + rewrite <- (Hc j p Hj'). split; [intros [Hx|[Hx|[]]]; congruence || exact Hx|]. now left.
Qed.

Lemma take_consistent q l i p0 p1 :
  nth_error l i = Some p0 -> queued p1 = false ->
  consistent (mkPool (i :: q) l) -> consistent (mkPool q (list_set l i p1)).
Proof.
  intros H H1 [Hn Hc]. cbn [p_queue p_calls] in *. inversion Hn as [|? ? Hi Hq]; subst.
  split; cbn [p_queue p_calls]; [exact Hq|].
  intros j p Hj. destruct (set_cases _ _ _ _ _ _ H Hj) as [[-> ->]|[Hne Hj']].
  - split; [intros Hx; contradiction|congruence].
  - rewrite <- (Hc j p Hj'). cbn [In]. split; [now right|]. intros [Hx|Hx]; [congruence|exact Hx].
Qed.

Lemma same_consistent q l i p0 p1 :
  nth_error l i = Some p0 -> queued p0 = false -> queued p1 = false ->
  consistent (mkPool q l) -> consistent (mkPool q (list_set l i p1)).
Proof.
  intros H H0 H1 [Hn Hc]. cbn [p_queue p_calls] in *. split; cbn [p_queue p_calls]; [exact Hn|].
  intros j p Hj. destruct (set_cases _ _ _ _ _ _ H Hj) as [[-> ->]|[Hne Hj']]; [|exact (Hc j p Hj')].
  rewrite (Hc i p0 H), H0, H1. reflexivity.
Qed.

Lemma step_consistent cap s s' : pstep cap s s' -> consistent s -> consistent s'.
Proof.
  intros H Hs. destruct H as [q l i H|q l i H Hc|q l i H Hc|q l i H|q l i H|q l i H].
  - now apply (add_consistent q l i PNew).
  - now apply (take_consistent q l i POuterQ).
  - now apply (take_consistent q l i PInnerQ).
  - now apply (add_consistent q l i POuter).
  - now apply (same_consistent q l i PInner).
  - now apply (same_consistent q l i PInnerDone).
Qed.

Lemma step_range cap s s' : pstep cap s s' -> in_range s ->
  in_range s' /\ length (p_calls s') = length (p_calls s).
Proof.
  intros H Hs. unfold in_range in *.
  destruct H as [q l i H|q l i H Hc|q l i H Hc|q l i H|q l i H|q l i H]; cbn [p_queue p_calls] in *;
  rewrite list_set_length; (split; [|reflexivity]); intros j Hj;
  try (apply Hs; try right; exact Hj).
  - apply in_app_or in Hj. destruct Hj as [Hj|[<-|[]]]; [auto|]. apply nth_error_Some. congruence.
  - apply in_app_or in Hj. destruct Hj as [Hj|[<-|[]]]; [auto|]. apply nth_error_Some. congruence.
Qed.

Lemma start_consistent n : consistent (pool_start n) /\ in_range (pool_start n).
Proof.
  split; [split; cbn [p_queue p_calls pool_start]|intros i []].
  - constructor.
  - intros i p H. apply nth_error_In, repeat_spec in H. subst p. split; [intros []|discriminate].
Qed.

Lemma reach_inv cap k n s : psteps cap k (pool_start n) s ->
  consistent s /\ in_range s /\ length (p_calls s) = n.
Proof.
  intros H. remember (pool_start n) as s0 eqn:E.
  induction H as [s|k s s1 s2 _ IH H2]; subst s.
  - destruct (start_consistent n) as [H1 H2]. split; [exact H1|]. split; [exact H2|]. apply repeat_length.
  - destruct (IH eq_refl) as (Hc & Hr & Hl). split; [eapply step_consistent; eassumption|].
    destruct (step_range _ _ _ H2 Hr) as [Hr' Hl']. split; [exact Hr'|congruence].
Qed.

(** never more threads than the pool has *)
Theorem C97_thread_limit : forall cap n k s,
  psteps cap k (pool_start n) s -> threads_used (p_calls s) <= cap.
Proof.
  intros cap n k s H. remember (pool_start n) as s0 eqn:E.
  induction H as [s|k s s1 s2 _ IH H2]; subst s.
  - cbn [pool_start p_calls]. change (threads_used (repeat PNew n)) with (total threads_of (repeat PNew n)).
    rewrite total_repeat. cbn [threads_of]. lia.
  - specialize (IH eq_refl). unfold threads_used in *. fold (total threads_of (p_calls s1)) in IH.
    fold (total threads_of (p_calls s2)).
    destruct H2 as [q l i H|q l i H Hc|q l i H Hc|q l i H|q l i H|q l i H]; cbn [p_calls] in *.
    + pose proof (total_set threads_of l i _ POuterQ H). cbn [threads_of] in *. lia.
    + pose proof (total_set threads_of l i _ POuter H). unfold threads_used in Hc.
      fold (total threads_of l) in Hc. cbn [threads_of] in *. lia.
    + pose proof (total_set threads_of l i _ PInner H). unfold threads_used in Hc.
      fold (total threads_of l) in Hc. cbn [threads_of] in *. lia.
    + pose proof (total_set threads_of l i _ PInnerQ H). cbn [threads_of] in *. lia.
    + pose proof (total_set threads_of l i _ PInnerDone H). cbn [threads_of] in *. lia.
    + pose proof (total_set threads_of l i _ PReturned H). cbn [threads_of] in *. lia.
Qed.

(** calls that can move without a free thread *)
Definition moves (p : phase) : bool :=
  match p with PNew | POuter | PInner | PInnerDone => true | _ => false end.

Lemma moving_or_waiting l :
  (exists i p, nth_error l i = Some p /\ moves p = true) \/
  (total threads_of l <= length l /\
   (Forall (fun p => p = PReturned) l \/ exists i p, nth_error l i = Some p /\ queued p = true)).
Proof.
  induction l as [|p l IH]; [right; split; [cbn; lia|left; constructor]|].
  destruct (moves p) eqn:Em; [left; now exists 0, p|].
  destruct IH as [(i & p' & H)|[Hl IH]]; [left; now exists (S i), p'|].
  right. change (total threads_of (p :: l)) with (threads_of p + total threads_of l).
  cbn [length]. split; [destruct p; cbn in *; try discriminate; lia|].
  destruct (queued p) eqn:Eq; [right; now exists 0, p|].
  assert (p = PReturned) as -> by (destruct p; cbn in *; congruence).
  destruct IH as [IH|(i & p' & H)]; [left; now constructor|right; now exists (S i), p'].
Qed.

(** With fewer calls than pool threads, no schedule gets stuck: every run can be
    continued until all calls have returned, which happens after six steps per
    call. *)
Theorem C97_fewer_calls_partial : forall cap n k s,
  n < cap -> psteps cap k (pool_start n) s ->
  (all_returned s \/ exists s', pstep cap s s') /\
  k <= 6 * n /\ (all_returned s <-> k = 6 * n).
Proof.
  intros cap n k s Hn H. pose proof (steps_total _ _ _ _ H) as Ht.
  destruct (reach_inv _ _ _ _ H) as ([Hnd Hc] & Hr & Hl).
  cbn [pool_start p_calls] in Ht. rewrite total_repeat in Ht. cbn [rank] in Ht.
  split; [|split; [lia|unfold all_returned; rewrite <- total_zero; lia]].
  destruct s as [q l]. cbn [p_queue p_calls] in *.
  destruct (moving_or_waiting l) as [(i & p & Hi & Hm)|[Hu [Ha|(i & p & Hi & Hq)]]].
  - right. destruct p; try discriminate Hm; eexists;
      [eapply ps_spawn|eapply ps_nest|eapply ps_inner_end|eapply ps_outer_end]; exact Hi.
  - now left.
  - right. apply (Hc i p Hi) in Hq. destruct q as [|j q]; [destruct Hq|].
    assert (Hj : j < length l) by (apply Hr; now left).
    destruct (nth_error l j) as [pj|] eqn:Ej; [|apply nth_error_None in Ej; lia].
    assert (Hqj : queued pj = true) by (apply (Hc j pj Ej); now left).
    assert (Hcap : threads_used l < cap) by (unfold threads_used; fold (total threads_of l); lia).
    destruct pj; try discriminate Hqj; eexists;
      [eapply ps_take_outer|eapply ps_take_inner]; eassumption.
Qed.

(** ** As many calls as threads *)

Lemma set_boundary {A} (a b : A) j m l :
  nth_error (repeat a j ++ repeat b (S m) ++ l) j = Some b /\
  list_set (repeat a j ++ repeat b (S m) ++ l) j a = repeat a (S j) ++ repeat b m ++ l.
Proof.
  induction j as [|j [IH1 IH2]]; [split; reflexivity|].
  cbn [repeat app nth_error list_set]. split; [exact IH1|].
  f_equal. exact IH2.
Qed.

Lemma spawn_all cap n j : j <= n ->
  psteps cap j (pool_start n) (mkPool (seq 0 j) (repeat POuterQ j ++ repeat PNew (n - j) ++ [])).
Proof.
  induction j as [|j IH]; intros Hj.
  - rewrite Nat.sub_0_r. cbn [repeat app seq]. rewrite app_nil_r. constructor.
  - econstructor; [apply IH; lia|].
    replace (n - j) with (S (n - S j)) by lia.
    destruct (set_boundary POuterQ PNew j (n - S j) []) as [H1 H2].
    rewrite <- H2, seq_S. apply (ps_spawn cap (seq 0 j)). exact H1.
Qed.

Lemma take_all cap n j : j <= cap -> cap <= n ->
  psteps cap (n + j) (pool_start n)
    (mkPool (seq j (n - j)) (repeat POuter j ++ repeat POuterQ (n - j) ++ [])).
Proof.
  induction j as [|j IH]; intros Hj Hn.
  - rewrite Nat.add_0_r, Nat.sub_0_r. cbn [repeat app]. rewrite app_nil_r.
    pose proof (spawn_all cap n n (le_n n)) as H. rewrite Nat.sub_diag in H. cbn [repeat app] in H.
    now rewrite app_nil_r in H.
  - replace (n + S j) with (S (n + j)) by lia. econstructor; [apply IH; lia|].
    replace (n - j) with (S (n - S j)) by lia.
    destruct (set_boundary POuter POuterQ j (n - S j) []) as [H1 H2].
    rewrite <- H2. cbn [seq]. apply ps_take_outer; [exact H1|].
    unfold threads_used. fold (total threads_of (repeat POuter j ++ repeat POuterQ (S (n - S j)) ++ [])).
    rewrite !total_app, !total_repeat. change (total threads_of []) with 0. cbn [threads_of]. lia.
Qed.

Lemma nest_all cap n j : j <= cap -> cap <= n ->
  psteps cap (n + cap + j) (pool_start n)
    (mkPool (seq cap (n - cap) ++ seq 0 j)
            (repeat PInnerQ j ++ repeat POuter (cap - j) ++ repeat POuterQ (n - cap))).
Proof.
  induction j as [|j IH]; intros Hj Hn.
  - rewrite Nat.add_0_r, Nat.sub_0_r. cbn [repeat app seq]. rewrite app_nil_r.
    pose proof (take_all cap n cap (le_n cap) Hn) as H. now rewrite app_nil_r in H.
  - replace (n + cap + S j) with (S (n + cap + j)) by lia. econstructor; [apply IH; lia|].
    replace (cap - j) with (S (cap - S j)) by lia.
    destruct (set_boundary PInnerQ POuter j (cap - S j) (repeat POuterQ (n - cap))) as [H1 H2].
    rewrite <- H2, seq_S, (app_assoc (seq cap (n - cap))). apply (ps_nest cap (seq cap (n - cap) ++ seq 0 j)). exact H1.
Qed.

(** With at least as many calls as threads there is a schedule after which no
    call ever returns: every thread waits for a job that has no thread. *)
Theorem C97_many_calls_refuted : forall cap n,
  1 <= cap -> cap <= n ->
  exists k s, psteps cap k (pool_start n) s /\ stuck cap s /\
    Forall (fun p => p <> PReturned) (p_calls s).
Proof.
  intros cap n H1 Hn. pose proof (nest_all cap n cap (le_n cap) Hn) as H.
  rewrite Nat.sub_diag in H. cbn [repeat app] in H.
  eexists; eexists; split; [exact H|]. clear H.
  assert (Hall : forall i p, nth_error (repeat PInnerQ cap ++ repeat POuterQ (n - cap)) i = Some p ->
            p = PInnerQ \/ p = POuterQ).
  { intros i p Hi. apply nth_error_In, in_app_or in Hi.
    destruct Hi as [Hi|Hi]; apply repeat_spec in Hi; auto. }
  assert (Hu : threads_used (repeat PInnerQ cap ++ repeat POuterQ (n - cap)) = cap).
  { unfold threads_used. fold (total threads_of (repeat PInnerQ cap ++ repeat POuterQ (n - cap))).
    rewrite total_app, !total_repeat. cbn [threads_of]. lia. }
  split.
  - intros s' Hs. remember (mkPool _ _) as s eqn:E.
    destruct Hs as [q l i H|q l i H Hc|q l i H Hc|q l i H|q l i H|q l i H]; injection E as Eq El;
    rewrite El in *; try (rewrite Hu in Hc; lia);
    destruct (Hall _ _ H) as [X|X]; discriminate X.
  - cbn [p_calls]. apply Forall_forall. intros p Hp. apply in_app_or in Hp.
    destruct Hp as [Hp|Hp]; apply repeat_spec in Hp; subst p; discriminate.
Qed.

(** ** How many futures are awaited at the same time *)

Definition awaiting (p : phase) : bool := match p with PInner => true | _ => false end.
Definition awaited (s : pool) : nat := length (filter awaiting (p_calls s)).

Lemma await_all cap n j : 2 * j <= cap -> j <= n ->
  exists k, psteps cap k (pool_start n) (mkPool [] (repeat PInner j ++ repeat PNew (n - j) ++ [])).
Proof.
  induction j as [|j IH]; intros Hj Hn.
  - rewrite Nat.sub_0_r. cbn [repeat app]. rewrite app_nil_r. exists 0. constructor.
  - destruct IH as [k IH]; [lia|lia|].
    replace (n - j) with (S (n - S j)) in IH by lia.
    set (l := repeat PInner j ++ repeat PNew (S (n - S j)) ++ []) in *.
    destruct (set_boundary PInner PNew j (n - S j) []) as [H1 H2]. fold l in H1, H2.
    assert (Hu : threads_used l = 2 * j).
    { unfold threads_used. fold (total threads_of l). unfold l.
      rewrite !total_app, !total_repeat. change (total threads_of []) with 0. cbn [threads_of]. lia. }
    assert (Hlt : j < length l) by (apply nth_error_Some; congruence).
    assert (Hset : forall (m : list phase) p q, list_set (list_set m j p) j q = list_set m j q).
    { clear. induction j as [|j IHj]; intros [|x m] p q; cbn; try reflexivity. f_equal. apply IHj. }
    assert (Hnth : forall p, nth_error (list_set l j p) j = Some p).
    { intros p. now apply nth_error_list_set_eq. }
    assert (Hth : forall p, threads_used (list_set l j p) = 2 * j + threads_of p).
    { intros p. pose proof (total_set threads_of l j _ p H1) as H. unfold threads_used in *.
      fold (total threads_of l) in Hu. fold (total threads_of (list_set l j p)).
      cbn [threads_of] in H. lia. }
    exists (S (S (S (S k)))). rewrite <- H2.
    econstructor; [econstructor; [econstructor; [econstructor; [exact IH|]|]|]|].
    + exact (ps_spawn cap [] l j H1).
    + apply (ps_take_outer cap [] _ j); [apply Hnth|]. rewrite Hth. cbn [threads_of]. lia.
    + rewrite Hset. apply (ps_nest cap [] _ j). apply Hnth.
    + rewrite Hset, <- (Hset l PInnerQ PInner).
      apply (ps_take_inner cap [] _ j); [apply Hnth|]. rewrite Hth. cbn [threads_of]. lia.
Qed.

(** Each awaited future keeps two threads: at most half as many futures as there
    are threads are awaited at the same time, and that many can be. *)
Theorem C97_parallel : forall cap n,
  (forall k s, psteps cap k (pool_start n) s -> 2 * awaited s <= cap /\ awaited s <= n) /\
  (forall m, 2 * m <= cap -> m <= n ->
     exists k s, psteps cap k (pool_start n) s /\ awaited s = m).
Proof.
  intros cap n. split.
  - intros k s H. pose proof (C97_thread_limit cap n k s H) as Hl.
    destruct (reach_inv _ _ _ _ H) as (_ & _ & Hlen).
    assert (Hb : forall l, 2 * length (filter awaiting l) <= threads_used l /\
                           length (filter awaiting l) <= length l).
    { induction l as [|p l IH]; [cbn; lia|]. unfold threads_used in *.
      change (sum_list (map threads_of (p :: l))) with (threads_of p + sum_list (map threads_of l)).
      cbn [filter length]. destruct p; cbn [awaiting threads_of length]; lia. }
    destruct (Hb (p_calls s)). unfold awaited. split; lia.
  - intros m H1 H2. destruct (await_all cap n m H1 H2) as [k H]. do 2 eexists. split; [exact H|].
    unfold awaited. cbn [p_calls]. rewrite app_nil_r, filter_app, app_length.
    assert (E1 : forall j, filter awaiting (repeat PInner j) = repeat PInner j)
      by (induction j as [|j IH]; cbn; congruence).
    assert (E2 : forall j, filter awaiting (repeat PNew j) = [])
      by (induction j as [|j IH]; cbn; congruence).
    rewrite E1, E2, repeat_length. cbn. lia.
Qed.

(** Two calls on three threads; two calls on two threads stop for good. *)
Example C97_fewer_calls_case : exists s,
  psteps 3 4 (pool_start 2) s /\ p_calls s = [POuter; POuter].
Proof. exists (mkPool [] [POuter; POuter]). split; [|reflexivity].
  eapply psteps_S; [eapply psteps_S; [eapply psteps_S; [eapply psteps_S; [apply psteps_0|]|]|]|].
  - apply (ps_spawn 3 [] _ 0). reflexivity.
  - apply (ps_spawn 3 [0] _ 1). reflexivity.
  - apply (ps_take_outer 3 [1] _ 0); [reflexivity|cbn; lia].
  - exact (ps_take_outer 3 [] [POuter; POuterQ] 1 eq_refl ltac:(cbn; lia)).
Qed.
Example C97_many_calls_case :
  stuck 2 (mkPool [0; 1] [PInnerQ; PInnerQ]).
Proof.
  intros s' H. inversion H as [? ? i Hi|? ? i Hi Hc|? ? i Hi Hc|? ? i Hi|? ? i Hi|? ? i Hi]; subst;
    try (cbn in Hc; lia); destruct i as [|[|[|i]]]; discriminate Hi.
Qed.

Example C97_parallel_case : exists k s, psteps 5 k (pool_start 9) s /\ awaited s = 2.
Proof. apply C97_parallel; lia. Qed.

Print Assumptions C97_thread_limit.
Print Assumptions C97_fewer_calls_partial.
Print Assumptions C97_many_calls_refuted.
Print Assumptions C97_parallel.

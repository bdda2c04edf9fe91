(** Theorems about the asynchronous methods of [Validated]: C83.  They hold for
    every world, every closure, every future, every behaviour of the environment
    between two polls and every order in which [join_all] visits its futures. *)
From Coq Require Import List Arith Bool Lia Permutation.
From Verif Require Import Base Types WrapModel AsyncModel AsyncSpec AsyncProps ValidatedModel VAsyncModel VAsyncSpec.
Import ListNotations.

Lemma poll_join_all : forall W A visits (bs : list (branch W A)) w, poll (join_all_branches visits bs) w =
  match visit_all (visits 0) bs w with
  | (None, w') => (Panicked, w')
  | (Some bs', w') =>
      match all_finished bs' with
      | Some l => (Ready l, w')
      | None => (Pending (join_all_branches (fun n => visits (S n)) bs'), w')
      end
  end.
Proof. reflexivity. Qed.
Lemma call_each_in_order : forall W A B (f : A -> eff W B) es w, call_each f es w = in_order (map f es) w.
Proof.
  intros W A B f es. induction es as [|e es IH]; intros w; cbn; [reflexivity|].
  unfold eff_bind. destruct (f e w) as [[x|] w1]; auto. rewrite IH. destruct (in_order (map f es) w1) as [[r|] w2]; auto.
Qed.

(** *** How a branch may end *)
Definition branch_can {W A} (b : branch W A) (o : outcome A) : Prop :=
  match b with Running x => can_end x o | Finished a => o = Ret a end.
Lemma branch_step_can : forall W A (b b' : branch W A) w w' o, branch_step b w = (Some b', w') -> branch_can b' o -> branch_can b o.
Proof.
  intros W A [x|a] b' w w' o E C; cbn in E; [|injection E as <- <-; exact C].
  destruct (poll x w) as [[a| |x'] v] eqn:P; [| discriminate |]; injection E as <- <-; cbn in *.
  - subst. exists [], w, v, []. now rewrite await_unfold, P.
  - destruct C as (env & u & u' & rest & C). exists ((fun _ => u) :: env), w, u', rest. now rewrite await_unfold, P.
Qed.
Lemma branch_step_panics : forall W A (b : branch W A) w w', branch_step b w = (None, w') -> branch_can b Panic.
Proof.
  intros W A [x|a] w w' E; cbn in E; [|discriminate].
  destruct (poll x w) as [[a| |x'] v] eqn:P; [discriminate | | discriminate]; injection E as <-.
  exists [], w, v, []. now rewrite await_unfold, P.
Qed.
Lemma visit_at_can : forall W A (bs : list (branch W A)) i w, match visit_at i bs w with
  | (Some bs', _) => length bs' = length bs /\ forall os, Forall2 branch_can bs' os -> Forall2 branch_can bs os
  | (None, _) => Exists (fun b => branch_can b Panic) bs
  end.
Proof.
  intros W A bs. induction bs as [|b bs IH]; intros i w; cbn; [auto|]. destruct i as [|i].
  - destruct (branch_step b w) as [[b'|] w'] eqn:E; [|left; eapply branch_step_panics; eauto].
    split; [reflexivity|]. intros os H. inversion H; subst. constructor; auto. eapply branch_step_can; eauto.
  - specialize (IH i w). destruct (visit_at i bs w) as [[r|] w']; [|right; exact IH]. destruct IH as [L IH].
    split; [cbn; lia|]. intros os H. inversion H; subst. constructor; auto.
Qed.
Lemma visit_at_panic_back : forall W A (bs bs' : list (branch W A)) i w w', visit_at i bs w = (Some bs', w') ->
  Exists (fun b => branch_can b Panic) bs' -> Exists (fun b => branch_can b Panic) bs.
Proof.
  intros W A bs. induction bs as [|b bs IH]; intros bs' i w w' E; cbn in E; [injection E as <- <-; auto|]. destruct i as [|i].
  - destruct (branch_step b w) as [[b'|] w1] eqn:E1; [|discriminate]. injection E as <- <-. intros H. inversion H; subst; [left|right]; auto.
    eapply branch_step_can; eauto.
  - destruct (visit_at i bs w) as [[r|] w1] eqn:E1; [|discriminate]. injection E as <- <-. intros H. inversion H; subst; [left|right]; eauto.
Qed.
Lemma visit_all_can : forall W A vs (bs : list (branch W A)) w, match visit_all vs bs w with
  | (Some bs', _) => length bs' = length bs /\ (forall os, Forall2 branch_can bs' os -> Forall2 branch_can bs os) /\
      (Exists (fun b => branch_can b Panic) bs' -> Exists (fun b => branch_can b Panic) bs)
  | (None, _) => Exists (fun b => branch_can b Panic) bs
  end.
Proof.
  intros W A vs. induction vs as [|i vs IH]; intros bs w; cbn; [auto|].
  pose proof (visit_at_can W A bs i w) as H. destruct (visit_at i bs w) as [[bs1|] w1] eqn:E; [|exact H].
  destruct H as [L H]. specialize (IH bs1 w1). pose proof (visit_at_panic_back W A _ _ _ _ _ E) as K.
  destruct (visit_all vs bs1 w1) as [[bs2|] w2]; [|auto]. destruct IH as (L2 & IH & IP). repeat split; auto. lia.
Qed.
Lemma all_finished_iff : forall W A (bs : list (branch W A)) l, all_finished bs = Some l <-> bs = map Finished l.
Proof.
  intros W A bs. induction bs as [|[x|a] bs IH]; intros l; cbn.
  - split; [intros H; injection H as <-; reflexivity | destruct l; [reflexivity|discriminate]].
  - split; [discriminate | destruct l; discriminate].
  - destruct (all_finished bs) as [r|].
    + split; [intros H; injection H as <-; cbn; f_equal; now apply IH|].
      destruct l as [|b l]; [discriminate|]. cbn. intros H. injection H as -> H. apply IH in H. now injection H as ->.
    + split; [discriminate|]. destruct l as [|b l]; [discriminate|]. cbn. intros H. injection H as _ H. apply IH in H. discriminate.
Qed.
Lemma finished_can : forall W A (l : list A), Forall2 (@branch_can W A) (map Finished l) (map Ret l).
Proof. induction l; cbn; constructor; cbn; auto. Qed.
Lemma join_all_can : forall W A env visits (bs : list (branch W A)) w,
  match await env (join_all_branches visits bs) w with
  | Ended (Ret l) _ _ => Forall2 branch_can bs (map Ret l)
  | Ended Panic _ _ => Exists (fun b => branch_can b Panic) bs
  | Stopped _ => True
  end.
Proof.
  intros W A env. induction env as [|g env IH]; intros visits bs w; rewrite await_unfold, poll_join_all;
    pose proof (visit_all_can W A (visits 0) bs w) as H; destruct (visit_all (visits 0) bs w) as [[bs'|] w'] eqn:E; auto;
    destruct H as (L & H & HP); destruct (all_finished bs') as [l|] eqn:F; auto;
    try (apply all_finished_iff in F; subst; apply H, finished_can).
  specialize (IH (fun n => visits (S n)) bs' (g w')).
  destruct (await env _ (g w')) as [[l|] u r|u]; auto.
Qed.
(** [join_all] in a shared world, any order of visits: one result per future, in
    the order of the futures, each one a result of its own future; it panics only
    if one of them can. *)
Theorem C83_join_all_results : forall W A env visits (xs : list (fut W A)) w,
  match await env (fut_join_all visits xs) w with
  | Ended (Ret l) _ _ => Forall2 (fun x a => can_end x (Ret a)) xs l
  | Ended Panic _ _ => Exists (fun x => can_end x Panic) xs
  | Stopped _ => True
  end.
Proof.
  intros. pose proof (join_all_can W A env visits (map Running xs) w) as H. unfold fut_join_all.
  destruct (await env _ w) as [[l|] u r|u]; auto.
  - revert l H. induction xs as [|x xs IH]; intros [|a l] H; inversion H; subst; constructor; auto.
  - induction xs as [|x xs IH]; cbn in H; inversion H; subst; [left | right]; auto.
Qed.

(** *** Progress *)
Definition branch_within {W A} (k : nat) (b : branch W A) : Prop :=
  match b with Running x => ready_within k x | Finished _ => True end.
Lemma ready_within_mono : forall W A k k' (x : fut W A), ready_within k x -> k <= k' -> ready_within k' x.
Proof.
  intros W A k. induction k as [|k IH]; intros k' x H L; destruct k' as [|k']; cbn in *; intros w; specialize (H w);
    destruct (poll x w) as [[a| |x'] v]; auto; try contradiction; try lia. eapply IH; eauto. lia.
Qed.
Lemma branch_within_mono : forall W A k k' (b : branch W A), branch_within k b -> k <= k' -> branch_within k' b.
Proof. intros W A k k' [x|a]; cbn; auto. apply ready_within_mono. Qed.
Lemma branch_step_within : forall W A (b : branch W A) k w, branch_within k b ->
  exists b' w', branch_step b w = (Some b', w') /\
    match k with 0 => exists a, b' = Finished a | S k' => branch_within k' b' end.
Proof.
  intros W A [x|a] k w H; cbn in *; [|exists (Finished a), w; split; auto; destruct k; eauto; exact I].
  destruct k as [|k]; cbn in H; specialize (H w); destruct (poll x w) as [[a| |x'] v]; try contradiction.
  - eauto.
  - exists (Finished a), v. split; auto; exact I.
  - exists (Running x'), v. auto.
Qed.
(** [k] bounds every branch, and [k-1] (or being finished) those already visited *)
Definition stepped {W A} (k : nat) (b : branch W A) : Prop :=
  match k with 0 => exists a, b = Finished a | S k' => branch_within k' b end.
Lemma stepped_within : forall W A k (b : branch W A), stepped k b -> branch_within k b.
Proof. intros W A [|k] b H; cbn in H; [destruct H as [a ->]; exact I|]. eapply branch_within_mono; eauto. Qed.
Lemma stepped_again : forall W A (b b' : branch W A) k w w', branch_within k b -> stepped k b -> branch_step b w = (Some b', w') -> stepped k b'.
Proof.
  intros W A b b' k w w' H S E. destruct (branch_step_within W A b k w H) as (b2 & w2 & E2 & K). rewrite E in E2. now injection E2 as <- <-.
Qed.
Lemma visit_at_within : forall W A (bs : list (branch W A)) i k w, Forall (branch_within k) bs ->
  exists bs' w', visit_at i bs w = (Some bs', w') /\ length bs' = length bs /\ Forall (branch_within k) bs' /\
    (forall b', nth_error bs' i = Some b' -> stepped k b') /\
    (forall j, j <> i -> nth_error bs' j = nth_error bs j).
Proof.
  intros W A bs. induction bs as [|b bs IH]; intros i k w H.
  - exists [], w. repeat split; auto. destruct i; discriminate.
  - inversion H; subst. destruct i as [|i]; cbn.
    + destruct (branch_step_within W A b k w H2) as (b' & w' & E & S1). rewrite E. exists (b' :: bs), w'.
      assert (K : stepped k b') by exact S1. split; [auto|]. split; [auto|]. split; [|split].
      * constructor; auto. now apply stepped_within.
      * intros b2 Hb. now injection Hb as <-.
      * intros [|j] N; [congruence|reflexivity].
    + destruct (IH i k w H3) as (bs' & w' & E & L & F & Q & R). rewrite E. exists (b :: bs'), w'.
      split; [auto|]. split; [cbn; lia|]. split; [|split]; auto. intros [|j] N; cbn; auto.
Qed.
Lemma visit_all_within : forall W A vs (bs : list (branch W A)) k w, Forall (branch_within k) bs ->
  exists bs' w', visit_all vs bs w = (Some bs', w') /\ length bs' = length bs /\ Forall (branch_within k) bs' /\
    (forall j b', In j vs -> nth_error bs' j = Some b' -> stepped k b') /\
    (forall j b', (forall b, nth_error bs j = Some b -> stepped k b) -> nth_error bs' j = Some b' -> stepped k b').
Proof.
  intros W A vs. induction vs as [|i vs IH]; intros bs k w H.
  - exists bs, w. cbn. split; [auto|]. split; [auto|]. split; [auto|]. split; [contradiction|]. eauto.
  - cbn [visit_all]. destruct (visit_at_within W A bs i k w H) as (bs1 & w1 & E & L & F & Q & R). rewrite E.
    destruct (IH bs1 k w1 F) as (bs2 & w2 & E2 & L2 & F2 & Q2 & R2). exists bs2, w2.
    split; [auto|]. split; [lia|]. split; [auto|]. split.
    + intros j b' [Ej|I] Hb; [|eauto]. subst j. apply (R2 i b'); [exact Q|exact Hb].
    + intros j b' S1 Hb. apply (R2 j b'); [|exact Hb]. intros b Hj. destruct (Nat.eq_dec j i) as [Ej|N]; [subst; eauto|]. rewrite R in Hj; auto.
Qed.
(** Progress: if every poll visits every future, and every future is ready after
    at most [k] pending polls, so is [join_all]. *)
Theorem C83_join_all_ready : forall W A k visits (xs : list (fut W A)),
  (forall n i, i < length xs -> In i (visits n)) -> Forall (ready_within k) xs -> ready_within k (fut_join_all visits xs).
Proof.
  intros W A k visits xs V H. unfold fut_join_all.
  assert (G : forall k visits (bs : list (branch W A)), (forall n i, i < length bs -> In i (visits n)) ->
    Forall (branch_within k) bs -> ready_within k (join_all_branches visits bs)).
  { clear. intros k. induction k as [|k IH]; intros visits bs V H w; rewrite poll_join_all;
      destruct (visit_all_within W A (visits 0) bs _ w H) as (bs' & w' & E & L & F & Q & _); rewrite E;
      destruct (all_finished bs') as [l|] eqn:AF; auto.
    - assert (exists l, bs' = map Finished l) as [l ->].
      { assert (P : Forall (fun b => exists a, b = Finished a) bs').
        { apply Forall_forall. intros b Hb. apply In_nth_error in Hb as [j Hj]. apply (Q j b); auto. apply V.
          rewrite <- L. apply nth_error_Some. congruence. }
        clear -P. induction P as [|b bs [a ->] _ [l ->]]; [exists []; reflexivity | now exists (a :: l)]. }
      assert (X : all_finished (map (@Finished W A) l) = Some l) by now apply all_finished_iff. congruence.
    - apply IH.
      + intros n i Hi. apply V. lia.
      + apply Forall_forall. intros b Hb. apply In_nth_error in Hb as [j Hj]. apply (Q j b); auto. apply V.
        rewrite <- L. apply nth_error_Some. congruence. }
  apply G.
  - intros n i. rewrite map_length. apply V.
  - apply Forall_forall. intros b Hb. apply in_map_iff in Hb as (x & <- & I). cbn. now rewrite Forall_forall in H; apply H.
Qed.

(** *** Futures that are ready at once *)
Lemma visit_at_mid : forall W A (p : list (branch W A)) b s w, visit_at (length p) (p ++ b :: s) w =
  match branch_step b w with (Some b', w') => (Some (p ++ b' :: s), w') | (None, w') => (None, w') end.
Proof.
  intros W A p. induction p as [|c p IH]; intros b s w; cbn; [reflexivity|].
  rewrite IH. now destruct (branch_step b w) as [[b'|] w'].
Qed.
Lemma visit_all_eff : forall W A (es : list (eff W A)) (done : list A) w,
  visit_all (seq (length done) (length es)) (map Finished done ++ map Running (map fut_eff es)) w =
  match in_order es w with (Ret l, w') => (Some (map Finished (done ++ l)), w') | (Panic, w') => (None, w') end.
Proof.
  intros W A es. induction es as [|e es IH]; intros done w; cbn [length seq visit_all map in_order].
  - now rewrite !app_nil_r.
  - rewrite <- (map_length (@Finished W A) done), visit_at_mid. cbn [branch_step fut_eff poll].
    destruct (e w) as [[a|] w1]; [|reflexivity].
    specialize (IH (done ++ [a]) w1). rewrite app_length, map_app, <- app_assoc, Nat.add_comm in IH. cbn in IH.
    rewrite map_length, IH. destruct (in_order es w1) as [[l|] w2]; [|reflexivity]. now rewrite <- app_assoc.
Qed.
(** With at most 30 futures the first poll visits them in order: if each of them
    finishes in one poll, [join_all] runs them in order, in that one poll, up to the
    first panic. *)
Theorem C83_join_all_sync : forall W A visits (es : list (eff W A)) env w, visits 0 = seq 0 (length es) ->
  await env (fut_join_all visits (map fut_eff es)) w = let '(o, w') := in_order es w in Ended o w' env.
Proof.
  intros W A visits es env w V. rewrite await_unfold. unfold fut_join_all. rewrite poll_join_all, V.
  pose proof (visit_all_eff W A es [] w) as H. cbn [length map app] in H. rewrite H.
  destruct (in_order es w) as [[l|] w'] eqn:E; [|reflexivity].
  replace (all_finished (map (@Finished W A) l)) with (Some l) by (symmetry; now apply all_finished_iff). reflexivity.
Qed.

(** *** The methods *)
Theorem C83_methods : forall W E A B G visits (v : validated E A) (f : A -> eff W (fut W B)) (h : E -> eff W (fut W G))
    (k : A -> eff W (fut W (validated E B))) env w,
  await env (va_fmap_valid_async v f) w =
    match v with
    | Valid a =>
        match f a w with
        | (Ret x, w1) => followed_by (await env x w1) (fun b rest w2 => Ended (Ret (Valid b)) w2 rest)
        | (Panic, w1) => Ended Panic w1 env
        end
    | Invalid es => Ended (Ret (Invalid es)) w env
    end /\
  await env (va_fmap_invalid_async visits v h) w =
    match v with
    | Valid a => Ended (Ret (Valid a)) w env
    | Invalid es =>
        match in_order (map h es) w with
        | (Ret xs, w1) => followed_by (await env (fut_join_all visits xs) w1) (fun l rest w2 => Ended (Ret (Invalid l)) w2 rest)
        | (Panic, w1) => Ended Panic w1 env
        end
    end /\
  await env (va_and_then_async v k) w =
    match v with
    | Valid a => match k a w with (Ret x, w1) => await env x w1 | (Panic, w1) => Ended Panic w1 env end
    | Invalid es => Ended (Ret (Invalid es)) w env
    end.
Proof.
  intros. repeat split; destruct v as [a|es]; cbn [va_fmap_valid_async va_fmap_invalid_async va_and_then_async]; try apply await_ready.
  - rewrite await_bind, await_call. destruct (f a w) as [[x|] w1]; auto. apply followed_by_ext. intros. apply await_ready.
  - rewrite await_bind, await_call. unfold eff_bind. rewrite call_each_in_order. destruct (in_order (map h es) w) as [[xs|] w1]; auto.
    cbn [eff_ret]. apply followed_by_ext. intros. apply await_ready.
  - rewrite await_call. now destruct (k a w) as [[x|] w1].
Qed.
Lemma in_order_members : forall W A (l : list (eff W A)) w r w', in_order l w = (Ret r, w') ->
  Forall2 (fun e a => exists v v', e v = (Ret a, v')) l r.
Proof.
  intros W A l. induction l as [|e l IH]; intros w r w' H; cbn in H; [injection H as <- <-; constructor|].
  destruct (e w) as [[a|] w1] eqn:E; [|discriminate]. destruct (in_order l w1) as [[r1|] w2] eqn:E2; [|discriminate].
  injection H as <- <-. constructor; eauto.
Qed.
(** Mapping the errors: as many as before, in the same order, each one a result of
    a future the closure returned for the error at its place. *)
Theorem C83_errors_mapped : forall W E A G visits (es : list E) (h : E -> eff W (fut W G)) env w v w' rest,
  await env (va_fmap_invalid_async visits (@Invalid E A es) h) w = Ended (Ret v) w' rest ->
  exists l, v = Invalid l /\ length l = length es /\
    Forall2 (fun e g => exists x u u', h e u = (Ret x, u') /\ can_end x (Ret g)) es l.
Proof.
  intros W E A G visits es h env w v w' rest H.
  assert (M := proj1 (proj2 (C83_methods W E A A G visits (@Invalid E A es) (fun a => eff_ret (fut_ready a)) h (fun a => eff_ret (fut_ready (Valid a))) env w))).
  cbn zeta in M. rewrite M in H. clear M. destruct (in_order (map h es) w) as [[xs|] w1] eqn:I; [|discriminate].
  pose proof (C83_join_all_results W G env visits xs w1) as R.
  destruct (await env (fut_join_all visits xs) w1) as [[l|] u r|u]; cbn in H; try discriminate. injection H as <- <- <-.
  exists l. apply in_order_members in I.
  assert (Q : Forall2 (fun e g => exists x u u', h e u = (Ret x, u') /\ can_end x (Ret g)) es l).
  { clear w1 u r. revert xs l I R. induction es as [|e es IH]; intros xs l I R; inversion I; subst; inversion R; subst; constructor; eauto.
    destruct H1 as (v & v' & H1). eauto 8. }
  split; [reflexivity|]. split; [|exact Q]. clear -Q. induction Q; cbn; auto.
Qed.
(** With closures that are ready at once the methods are the synchronous ones. *)
Theorem C83_sync_agree : forall W E A B G visits (v : validated E A) (f : A -> B) (h : E -> G) (k : A -> validated E B),
  fut_eqv (va_fmap_valid_async v (fun a => @eff_ret W _ (fut_ready (f a)))) (fut_ready (va_fmap f v)) /\
  (visits 0 = seq 0 (length (va_errors v)) ->
   fut_eqv (va_fmap_invalid_async visits v (fun e => @eff_ret W _ (fut_ready (h e)))) (fut_ready (va_fmap_invalid h v))) /\
  fut_eqv (va_and_then_async v (fun a => @eff_ret W _ (fut_ready (k a)))) (fut_ready (va_bind v k)).
Proof.
  intros W E A B G visits v f h k. split; [|split]; [| intros V |]; intros env w; rewrite await_ready;
    destruct (C83_methods W E A B G visits v (fun a => eff_ret (fut_ready (f a))) (fun e => eff_ret (fut_ready (h e))) (fun a => eff_ret (fut_ready (k a))) env w) as (M1 & M2 & M3).
  - rewrite M1. destruct v; cbn; auto. now rewrite await_ready.
  - rewrite M2. destruct v as [a|es]; cbn [va_fmap_invalid]; auto. cbn [va_errors va_error_slice] in V.
    assert (I : forall es (w : W), in_order (map (fun e => @eff_ret W _ (fut_ready (h e))) es) w = (Ret (map (fun e => @fut_ready W _ (h e)) es), w)).
    { clear. intros es. induction es as [|e es IH]; intros w; cbn; [reflexivity|]. now rewrite IH. }
    rewrite I. rewrite await_unfold. unfold fut_join_all. rewrite poll_join_all, V.
    assert (K : forall es (done : list G) (w : W), visit_all (seq (length done) (length es)) (map Finished done ++ map Running (map (fun e => @fut_ready W _ (h e)) es)) w
      = (Some (map Finished (done ++ map h es)), w)).
    { clear. intros es. induction es as [|e es IH]; intros done w; cbn [length seq visit_all map]; [now rewrite !app_nil_r|].
      rewrite <- (map_length (@Finished W G) done), visit_at_mid. cbn [branch_step fut_ready poll].
      specialize (IH (done ++ [h e]) w). rewrite app_length, map_app, <- app_assoc, Nat.add_comm in IH. cbn in IH.
      rewrite map_length, IH. now rewrite <- app_assoc. }
    specialize (K es [] w). cbn [length map app] in K. rewrite K.
    replace (all_finished (map (@Finished W G) (map h es))) with (Some (map h es)) by (symmetry; now apply all_finished_iff). reflexivity.
  - rewrite M3. destruct v; cbn; auto. now rewrite await_ready.
Qed.
(** Laws for asynchronous closures. *)
Theorem C83_async_laws : forall W E A B C (v : validated E A) (a : A) (f : A -> eff W (fut W B)) (g : B -> eff W (fut W C))
    (k : A -> eff W (fut W (validated E B))) (j : B -> eff W (fut W (validated E C))),
  fut_eqv (va_fmap_valid_async v (fun a => @eff_ret W _ (fut_ready a))) (fut_ready v) /\
  fut_eqv (fut_bind (va_fmap_valid_async v f) (fun u => va_fmap_valid_async u g))
    (va_fmap_valid_async v (fun a => eff_ret (fut_bind (fut_call (f a)) (fun b => fut_call (g b))))) /\
  fut_eqv (va_and_then_async (@Valid E A a) k) (fut_call (k a)) /\
  fut_eqv (va_and_then_async v (fun a => @eff_ret W _ (fut_ready (Valid a)))) (fut_ready v) /\
  fut_eqv (fut_bind (va_and_then_async v k) (fun u => va_and_then_async u j))
    (va_and_then_async v (fun a => eff_ret (fut_bind (fut_call (k a)) (fun u => va_and_then_async u j)))) /\
  fut_eqv (va_fmap_valid_async v f) (va_and_then_async v (fun a => eff_ret (fut_bind (fut_call (f a)) (fun b => fut_ready (Valid b))))).
Proof.
  intros. repeat split; destruct v as [x|es]; intros env w; cbn [va_fmap_valid_async va_and_then_async];
    rewrite ?await_bind, ?await_call, ?await_ready; cbn [eff_ret followed_by va_fmap_valid_async va_and_then_async];
    rewrite ?await_bind, ?await_call, ?await_ready; cbn [followed_by]; auto; try apply await_ready.
  - rewrite !followed_by_assoc. destruct (f x w) as [[y|] w1]; cbn [followed_by]; auto. apply followed_by_ext.
    intros b r w2. rewrite await_ready. cbn [followed_by va_fmap_valid_async]. now rewrite await_bind.
Qed.

(** *** Futures that share nothing *)
Lemma poll_at : forall V A i (x : fut V A) (w : nat -> V), poll (on_at i x) w =
  match poll x (w i) with
  | (Ready a, v) => (Ready a, put i v w)
  | (Panicked, v) => (Panicked, put i v w)
  | (Pending x', v) => (Pending (on_at i x'), put i v w)
  end.
Proof. reflexivity. Qed.
Lemma visit_at_nth : forall W A (bs : list (branch W A)) i w,
  match nth_error bs i with
  | None => visit_at i bs w = (Some bs, w)
  | Some b =>
      match branch_step b w with
      | (Some b', w') => exists bs', visit_at i bs w = (Some bs', w') /\ length bs' = length bs /\
          nth_error bs' i = Some b' /\ forall j, j <> i -> nth_error bs' j = nth_error bs j
      | (None, w') => visit_at i bs w = (None, w')
      end
  end.
Proof.
  intros W A bs. induction bs as [|b bs IH]; intros [|i] w; cbn; auto.
  - destruct (branch_step b w) as [[b'|] w']; auto. exists (b' :: bs). repeat split; auto. intros [|j] N; [congruence|reflexivity].
  - specialize (IH i w). destruct (nth_error bs i) as [c|]; [|now rewrite IH].
    destruct (branch_step c w) as [[b'|] w']; [|now rewrite IH]. destruct IH as (bs' & -> & L & N1 & N2).
    exists (b :: bs'). repeat split; auto; [cbn; lia|]. intros [|j] N; cbn; auto.
Qed.

Section Independent.
Context {V A : Type}.
Notation ending := (A * V * list (V -> V))%type.
Definition at_pos (env : list (nat -> V -> V)) (i : nat) : list (V -> V) := map (fun g => g i) env.
Definition over (env : list (nat -> V -> V)) (i : nat) (v0 : V) (e : ending) : Prop :=
  let '(a, v, r) := e in
  length env <= length r /\ v0 = steps (firstn (length r - length env) r) v /\ skipn (length r - length env) r = at_pos env i.
Definition tracks (env : list (nat -> V -> V)) (i : nat) (b : branch (nat -> V) A) (v0 : V) (e : ending) : Prop :=
  let '(a, v, r) := e in
  match b with
  | Running y => exists x, y = on_at i x /\ await (at_pos env i) x v0 = Ended (Ret a) v r
  | Finished a' => a' = a /\ over env i v0 e
  end.
Definition polled (env : list (nat -> V -> V)) (i : nat) (b : branch (nat -> V) A) (v0 : V) (e : ending) : Prop :=
  let '(a, v, r) := e in
  match b with
  | Running y => match env with
      | [] => False
      | g :: env' => exists x, y = on_at i x /\ await (at_pos env' i) x (g i v0) = Ended (Ret a) v r
      end
  | Finished a' => a' = a /\ over env i v0 e
  end.
Lemma tracks_step : forall env i b w e, tracks env i b (w i) e ->
  exists b' v', branch_step b w = (Some b', put i v' w) /\ polled env i b' v' e \/
    branch_step b w = (Some b', w) /\ polled env i b' (w i) e.
Proof.
  intros env i [y|a'] w [[a v] r] H; cbn in H.
  - destruct H as (x & -> & H). cbn [branch_step]. rewrite poll_at. rewrite await_unfold in H.
    destruct (poll x (w i)) as [[a1| |x'] v1] eqn:P; [| discriminate |].
    + injection H as <- <- <-. exists (Finished a1), v1. left. split; [reflexivity|]. cbn. unfold at_pos. rewrite map_length, Nat.sub_diag. auto.
    + destruct env as [|g env]; cbn in H; [discriminate|]. exists (Running (on_at i x')), v1. left. split; [reflexivity|]. cbn. eauto.
  - exists (Finished a'), (w i). right. split; [reflexivity|]. exact H.
Qed.
Lemma polled_tracks : forall g env i b v0 e, polled (g :: env) i b v0 e -> tracks env i b (g i v0) e.
Proof.
  intros g env i [y|a'] v0 [[a v] r] H; cbn in *; [exact H|]. destruct H as (-> & L & -> & S1). split; [reflexivity|].
  split; [lia|]. unfold at_pos in *. cbn [map] in S1.
  assert (X : exists p, r = p ++ g i :: map (fun g => g i) env /\ length p = length r - S (length env)).
  { exists (firstn (length r - S (length env)) r). rewrite <- S1, firstn_skipn. split; [reflexivity|]. apply firstn_length_le. lia. }
  destruct X as (p & -> & Lp). rewrite app_length in *. cbn [length] in *. rewrite map_length in *.
  replace (length p + S (length env) - S (length env)) with (length p + 0) by lia.
  replace (length p + S (length env) - length env) with (length p + 1) by lia.
  rewrite !firstn_app_2, skipn_app, skipn_all2 by lia. replace (length p + 1 - length p) with 1 by lia. cbn.
  split; [|reflexivity]. rewrite app_nil_r. unfold steps. now rewrite fold_left_app.
Qed.
Lemma put_same : forall i (v : V) w, put i v w i = v.
Proof. intros. unfold put. now rewrite Nat.eqb_refl. Qed.
Lemma put_other : forall i j (v : V) w, j <> i -> put i v w j = w j.
Proof. intros. unfold put. now apply Nat.eqb_neq in H as ->. Qed.
Lemma visit_all_track : forall env (ends : list ending) vs (bs : list (branch (nat -> V) A)) w, NoDup vs ->
  (forall i b e, nth_error bs i = Some b -> nth_error ends i = Some e -> In i vs -> tracks env i b (w i) e) ->
  (forall i b e, nth_error bs i = Some b -> nth_error ends i = Some e -> ~ In i vs -> polled env i b (w i) e) ->
  length bs = length ends ->
  exists bs' w', visit_all vs bs w = (Some bs', w') /\ length bs' = length ends /\
    forall i b e, nth_error bs' i = Some b -> nth_error ends i = Some e -> polled env i b (w' i) e.
Proof.
  intros env ends vs. induction vs as [|i vs IH]; intros bs w ND T P L.
  - exists bs, w. split; [reflexivity|]. split; [exact L|]. intros. now apply P.
  - inversion ND as [|? ? NI ND']; subst. cbn [visit_all]. pose proof (visit_at_nth _ _ bs i w) as K.
    destruct (nth_error bs i) as [b|] eqn:Eb.
    + destruct (nth_error ends i) as [e|] eqn:Ee.
      2: { apply nth_error_None in Ee. assert (i < length bs) by (apply nth_error_Some; congruence). lia. }
      destruct (tracks_step env i b w e (T i b e Eb Ee (or_introl eq_refl))) as (b' & v' & [[S1 S2]|[S1 S2]]); rewrite S1 in K;
        destruct K as (bs1 & -> & L1 & N1 & N2); apply IH; auto; try lia.
      * intros j c d Hc Hd Hj. assert (j <> i) by congruence. rewrite put_other by auto. rewrite N2 in Hc by auto. apply T; auto. now right.
      * intros j c d Hc Hd Hj. destruct (Nat.eq_dec j i) as [Ej|N].
        -- subst j. rewrite put_same. congruence.
        -- rewrite put_other by auto. rewrite N2 in Hc by auto. apply P; auto. intros [?|?]; congruence.
      * intros j c d Hc Hd Hj. assert (j <> i) by congruence. rewrite N2 in Hc by auto. apply T; auto. now right.
      * intros j c d Hc Hd Hj. destruct (Nat.eq_dec j i) as [Ej|N].
        -- subst j. congruence.
        -- rewrite N2 in Hc by auto. apply P; auto. intros [?|?]; congruence.
    + rewrite K. apply IH; auto.
      * intros j c d Hc Hd Hj. apply T; auto. now right.
      * intros j c d Hc Hd Hj. apply P; auto. intros [?|?]; congruence.
Qed.
Lemma nth_error_ext : forall T (l l' : list T), (forall i, nth_error l i = nth_error l' i) -> l = l'.
Proof.
  intros T l. induction l as [|a l IH]; intros [|b l'] H; auto; pose proof (H 0) as H0; cbn in H0; try discriminate.
  injection H0 as ->. f_equal. apply IH. intros i. exact (H (S i)).
Qed.
Lemma running_somewhere : forall (bs : list (branch (nat -> V) A)), all_finished bs = None -> exists i y, nth_error bs i = Some (Running y).
Proof.
  intros bs. induction bs as [|[y|a] bs IH]; cbn; intros H; [discriminate | exists 0, y; reflexivity |].
  destruct (all_finished bs); [discriminate|]. destruct (IH eq_refl) as (i & y & Hi). exists (S i), y. exact Hi.
Qed.
Lemma join_all_track : forall (env : list (nat -> V -> V)) visits (ends : list ending) (bs : list (branch (nat -> V) A)) w,
  (forall n, Permutation (visits n) (seq 0 (length ends))) -> length bs = length ends ->
  (forall i b e, nth_error bs i = Some b -> nth_error ends i = Some e -> tracks env i b (w i) e) ->
  exists w' n, n <= length env /\
    await (map on_each env) (join_all_branches visits bs) w = Ended (Ret (map (fun e => fst (fst e)) ends)) w' (map on_each (skipn n env)) /\
    (forall i a v r, nth_error ends i = Some (a, v, r) -> length env - n <= length r /\ w' i = steps (firstn (length r - (length env - n)) r) v) /\
    (n = 0 \/ exists i a v r, nth_error ends i = Some (a, v, r) /\ length r = length env - n).
Proof.
  intros env. induction env as [|g env IH]; intros visits ends bs w Vis L T;
    (assert (ND : NoDup (visits 0)) by (eapply Permutation_NoDup; [apply Permutation_sym, Vis | apply seq_NoDup]));
    (edestruct (visit_all_track _ ends (visits 0) bs w ND (fun i b e H1 H2 _ => T i b e H1 H2)) as (bs' & w' & E & L' & P); [|exact L|];
     [intros i b e H1 H2 NI; exfalso; apply NI; eapply Permutation_in; [apply Permutation_sym, Vis|]; apply in_seq; split; [lia|]; cbn; apply nth_error_Some; congruence|]);
    rewrite await_unfold, poll_join_all, E; destruct (all_finished bs') as [l|] eqn:F.
  - apply all_finished_iff in F. subst bs'. exists w', 0. split; [lia|]. split; [|split; [|now left]].
    + cbn. f_equal. f_equal. clear -P L'. apply nth_error_ext. intros i. rewrite nth_error_map. rewrite map_length in L'.
      specialize (P i). rewrite nth_error_map in P. destruct (nth_error ends i) as [[[a v] r]|] eqn:Ee; destruct (nth_error l i) as [a'|] eqn:El; cbn in *; auto.
      * destruct (P _ _ eq_refl eq_refl) as [-> _]. reflexivity.
      * apply nth_error_None in El. assert (i < length ends) by (apply nth_error_Some; congruence). lia.
      * apply nth_error_None in Ee. assert (i < length l) by (apply nth_error_Some; congruence). lia.
    + intros i a v r He. assert (Hl : i < length (map (@Finished (nat -> V) A) l)) by (rewrite L'; apply nth_error_Some; congruence).
      apply nth_error_Some in Hl. destruct (nth_error (map Finished l) i) as [b|] eqn:Eb; [|congruence].
      pose proof (P i b _ Eb He) as Q. rewrite nth_error_map in Eb. destruct (nth_error l i); [|discriminate]. injection Eb as <-.
      destruct Q as (_ & Q1 & Q2 & _). rewrite Nat.sub_0_r in *. cbn [length]. rewrite Nat.sub_0_r. split; [cbn in *; lia | exact Q2].
  - apply running_somewhere in F as (i & y & Hi). assert (Hl : i < length bs') by (apply nth_error_Some; congruence).
    rewrite L' in Hl. apply nth_error_Some in Hl. destruct (nth_error ends i) as [[[a v] r]|] eqn:Ee; [|congruence].
    destruct (P i _ _ Hi Ee).
  - apply all_finished_iff in F. subst bs'. exists w', 0. split; [lia|]. split; [|split; [|now left]].
    + cbn [skipn]. f_equal. f_equal. clear -P L'. apply nth_error_ext. intros i. rewrite nth_error_map. rewrite map_length in L'.
      specialize (P i). rewrite nth_error_map in P. destruct (nth_error ends i) as [[[a v] r]|] eqn:Ee; destruct (nth_error l i) as [a'|] eqn:El; cbn in *; auto.
      * destruct (P _ _ eq_refl eq_refl) as [-> _]. reflexivity.
      * apply nth_error_None in El. assert (i < length ends) by (apply nth_error_Some; congruence). lia.
      * apply nth_error_None in Ee. assert (i < length l) by (apply nth_error_Some; congruence). lia.
    + intros i a v r He. assert (Hl : i < length (map (@Finished (nat -> V) A) l)) by (rewrite L'; apply nth_error_Some; congruence).
      apply nth_error_Some in Hl. destruct (nth_error (map Finished l) i) as [b|] eqn:Eb; [|congruence].
      pose proof (P i b _ Eb He) as Q. rewrite nth_error_map in Eb. destruct (nth_error l i); [|discriminate]. injection Eb as <-.
      destruct Q as (_ & Q1 & Q2 & _). rewrite Nat.sub_0_r in *. split; [exact Q1 | exact Q2].
  - cbn [map]. destruct (IH (fun n => visits (S n)) ends bs' (on_each g w')) as (w2 & n & Ln & Aw & Fin & Last); auto.
    { intros i b e Hb He. apply (polled_tracks g env i b (w' i) e). now apply P. }
    exists w2, (S n). split; [cbn; lia|]. split; [exact Aw|]. split.
    + intros i a v r He. cbn [length]. replace (S (length env) - S n) with (length env - n) by lia. now apply (Fin i a).
    + right. destruct Last as [->|(i & a & v & r & He & Hr)].
      * apply running_somewhere in F as (i & y & Hi). assert (Hl : i < length bs') by (apply nth_error_Some; congruence).
        rewrite L' in Hl. apply nth_error_Some in Hl. destruct (nth_error ends i) as [[[a v] r]|] eqn:Ee; [|congruence].
        destruct (P i _ _ Hi Ee) as (x & -> & Hx). apply await_rest_length in Hx. unfold at_pos in Hx. rewrite map_length in Hx.
        exists i, a, v, r. split; [auto|]. destruct (Fin i a v r Ee) as [K _]. cbn [length]. lia.
      * exists i, a, v, r. split; [auto|]. cbn [length]. lia.
Qed.
End Independent.
Lemma nth_on_positions : forall V A (xs : list (fut V A)) k i, nth_error (on_positions k xs) i = option_map (on_at (k + i)) (nth_error xs i).
Proof.
  intros V A xs. induction xs as [|x xs IH]; intros k [|i]; cbn; auto; [now rewrite Nat.add_0_r|]. rewrite IH. now rewrite Nat.add_succ_r.
Qed.
(** Futures that do not share anything, every poll visiting each of them once, in
    any order: [join_all] gives all their results in order, after as many polls as
    the slowest one needs, and each of them sees what it sees when awaited alone.
    [ends] lists how each one ends alone: value, world then, unused steps. *)
Theorem C83_join_all_independent : forall V A visits (env : list (nat -> V -> V)) (xs : list (fut V A)) (w : nat -> V) ends,
  (forall n, Permutation (visits n) (seq 0 (length xs))) -> length ends = length xs ->
  (forall i x a v r, nth_error xs i = Some x -> nth_error ends i = Some (a, v, r) ->
    await (map (fun g => g i) env) x (w i) = Ended (Ret a) v r) ->
  exists w' n, n <= length env /\
    await (map on_each env) (fut_join_all visits (on_positions 0 xs)) w =
      Ended (Ret (map (fun e => fst (fst e)) ends)) w' (map on_each (skipn n env)) /\
    (forall i a v r, nth_error ends i = Some (a, v, r) ->
      length env - n <= length r /\ w' i = steps (firstn (length r - (length env - n)) r) v) /\
    (n = 0 \/ exists i a v r, nth_error ends i = Some (a, v, r) /\ length r = length env - n).
Proof.
  intros V A visits env xs w ends Vis L H. unfold fut_join_all. apply join_all_track.
  - intros n. now rewrite L.
  - rewrite map_length, L. clear. generalize 0. induction xs; intros k; cbn; auto.
  - intros i b [[a v] r] Hb He. rewrite nth_error_map, nth_on_positions in Hb. destruct (nth_error xs i) as [x|] eqn:Ex; [|discriminate].
    injection Hb as <-. cbn. exists x. split; [reflexivity|]. unfold at_pos. eapply H; eauto.
Qed.

(** *** Cases: two errors; the future for the first one needs one more poll *)
Definition slow (n : nat) : fut (list nat) nat :=
  Fut (fun w => (Pending (Fut (fun w' => (Ready (n * 10), n :: w'))), n :: w)).
Definition quick (n : nat) : fut (list nat) nat := Fut (fun w => (Ready (n * 10), n :: w)).
Definition handler (n : nat) : eff (list nat) (fut (list nat) nat) := fun w => (Ret (if n =? 1 then slow n else quick n), 100 + n :: w).
Example C83_case_errors :
  await [fun w => 0 :: w] (va_fmap_invalid_async (fun _ => [0; 1]) (@Invalid nat bool [1; 2]) handler) [] =
  Ended (Ret (Invalid [10; 20])) [1; 0; 2; 1; 102; 101] [].
Proof. reflexivity. Qed.
Example C83_case_other_order :
  await [fun w => 0 :: w] (va_fmap_invalid_async (fun n => match n with 0 => [1; 0] | _ => [0] end) (@Invalid nat bool [1; 2]) handler) [] =
  Ended (Ret (Invalid [10; 20])) [1; 0; 1; 2; 102; 101] [].
Proof. reflexivity. Qed.
Example C83_case_valid :
  await [fun w => 0 :: w] (va_fmap_valid_async (@Valid nat nat 1) handler) [] = Ended (Ret (Valid 10)) [1; 0; 1; 101] [] /\
  await [] (va_fmap_valid_async (@Invalid nat nat [7]) handler) [] = Ended (Ret (Invalid [7])) [] [] /\
  await [] (va_and_then_async (@Valid nat nat 1) (fun a w => (Ret (fut_ready (@Invalid nat nat [a; a])), a :: w))) [] = Ended (Ret (Invalid [1; 1])) [1] [].
Proof. repeat split; reflexivity. Qed.
Example C83_case_ready : Forall (ready_within 1) [slow 1; quick 2].
Proof. repeat constructor; intros w; cbn; auto. Qed.
Definition nat_slow : fut nat nat := Fut (fun w => (Pending (Fut (fun w' => (Ready w', S w'))), w + 10)).
Definition nat_quick : fut nat nat := Fut (fun w => (Ready w, S w)).
Definition case_env : list (nat -> nat -> nat) := [fun i v => v + 100 * i; fun _ v => v].
Example C83_case_independent :
  await (map (fun g => g 0) case_env) nat_slow 5 = Ended (Ret 15) 16 [fun v => v] /\
  await (map (fun g => g 1) case_env) nat_quick 7 = Ended (Ret 7) 8 [fun v => v + 100; fun v => v] /\
  exists w', await (map on_each case_env) (fut_join_all (fun n => if n =? 0 then [1; 0] else [0; 1]) (on_positions 0 [nat_slow; nat_quick])) (fun i => if i =? 0 then 5 else 7)
    = Ended (Ret [15; 7]) w' [on_each (fun _ v => v)] /\ w' 0 = 16 /\ w' 1 = 108.
Proof. split; [reflexivity|]. split; [reflexivity|]. eexists. split; [reflexivity|]. split; reflexivity. Qed.

Print Assumptions C83_join_all_results.
Print Assumptions C83_join_all_ready.
Print Assumptions C83_join_all_sync.
Print Assumptions C83_methods.
Print Assumptions C83_errors_mapped.
Print Assumptions C83_sync_agree.
Print Assumptions C83_async_laws.
Print Assumptions C83_join_all_independent.

(** Theorems about the shared-state parts: C50 to C52. *)
From Coq Require Import List Arith Lia Bool Relations.
From Verif Require Import Base ListFacts ConcModel.
Import ListNotations.

(** ** Lists of threads *)
Fixpoint tally {A} (f : A -> nat) (l : list A) : nat :=
  match l with [] => 0 | x :: l' => f x + tally f l' end.
Lemma tally_set : forall A (f : A -> nat) l i x y, nth_error l i = Some y ->
  tally f (list_set l i x) + f y = tally f l + f x.
Proof.
  induction l as [|a l IH]; intros [|i] x y H; try discriminate; cbn in *.
  - injection H; intros; subst. lia.
  - specialize (IH i x y H). lia.
Qed.
Lemma tally_nth : forall A (f : A -> nat) l i y, nth_error l i = Some y -> f y <= tally f l.
Proof.
  induction l as [|a l IH]; intros [|i] y H; try discriminate; cbn in *.
  - injection H; intros; subst. lia.
  - specialize (IH i y H). lia.
Qed.
Lemma tally_pos : forall A (f : A -> nat) l, 0 < tally f l -> exists i y, nth_error l i = Some y /\ 0 < f y.
Proof.
  induction l as [|a l IH]; cbn; intros H; [lia|].
  destruct (Nat.eq_dec (f a) 0) as [E|E].
  - destruct IH as (i & y & H1 & H2); [lia|]. exists (S i), y. auto.
  - exists 0, a. split; auto. lia.
Qed.
Lemma tally_two : forall A (f : A -> nat) l i j y z, i <> j -> nth_error l i = Some y -> nth_error l j = Some z ->
  f y + f z <= tally f l.
Proof.
  induction l as [|a l IH]; intros [|i] [|j] y z N H1 H2; try discriminate; cbn in *; try congruence.
  - injection H1; intros; subst. pose proof (tally_nth _ f _ _ _ H2). lia.
  - injection H2; intros; subst. pose proof (tally_nth _ f _ _ _ H1). lia.
  - specialize (IH i j y z ltac:(congruence) H1 H2). lia.
Qed.
Lemma tally_repeat0 : forall A (f : A -> nat) x n, f x = 0 -> tally f (repeat x n) = 0.
Proof. induction n; cbn; intros; auto. rewrite H, IHn; auto. Qed.
Lemma nth_set : forall A (l : list A) i j (x z : A), nth_error (list_set l i x) j = Some z ->
  (j = i /\ z = x) \/ (j <> i /\ nth_error l j = Some z).
Proof.
  intros A l i j x z H. destruct (Nat.eq_dec j i) as [->|N].
  - left. split; auto. assert (i < length (list_set l i x)) by (apply nth_error_Some; congruence).
    rewrite list_set_length in H0. rewrite nth_error_list_set_eq in H by lia. now injection H.
  - right. split; auto. now rewrite nth_error_list_set_ne in H by auto.
Qed.
Lemma nth_set_eq : forall A (l : list A) i (x y : A), nth_error l i = Some y -> nth_error (list_set l i x) i = Some x.
Proof. intros. apply nth_error_list_set_eq. apply nth_error_Some. congruence. Qed.

(** ** C50 *)
Section C50.
Context {V : Type} (fut : outcome V).
Definition at_run (pc : apc V) : nat := match pc with ARun => 1 | _ => 0 end.
Definition early (pc : apc V) : Prop := pc = AStart \/ pc = ATake.
Definition holds (pc : apc V) : Prop := pc = ARun \/ exists v, pc = ASet v.
Record ainv (s : astate V) : Prop :=
  { ai_before : a_future s = true ->
      a_awaited s = 0 /\ a_cache s = None /\ forall i pc, nth_error (a_runners s) i = Some pc -> early pc;
    ai_once : a_future s = false -> a_awaited s + tally at_run (a_runners s) = 1;
    ai_cache : forall v, a_cache s = Some v -> fut = Ret v /\ a_awaited s = 1;
    ai_value : forall i v, nth_error (a_runners s) i = Some (ASet v) \/
                           nth_error (a_runners s) i = Some (AReturned v) -> fut = Ret v /\ a_awaited s = 1;
    ai_owner : a_future s = false -> a_cache s = None ->
      fut = Panic \/ exists j pc, nth_error (a_runners s) j = Some pc /\ holds pc;
    ai_dead : forall i, nth_error (a_runners s) i = Some APanicked ->
      fut = Panic \/ a_future s = false }.
Lemma ainv_reach : forall n s, areach fut n s -> ainv s.
Proof.
  induction 1 as [|s i s' _ I H].
  - assert (G : forall i pc, nth_error (repeat (@AStart V) n) i = Some pc -> pc = AStart).
    { intros i pc H. apply nth_error_In in H. now apply repeat_spec in H. }
    split; cbn; try discriminate.
    + intros _. repeat split; auto. intros. left. eauto.
    + intros i v [H|H]; apply G in H; discriminate.
    + intros i H. apply G in H. discriminate.
  - destruct I as [Ib Io Ic Iv Iw Id]. destruct H as [future cache awaited rs pc f' c' a' pc' Hn Hs]. cbn in *.
    pose proof (tally_set _ at_run rs i pc' pc Hn) as T.
    assert (Keep : forall j q, nth_error rs j = Some q -> j <> i -> nth_error (list_set rs i pc') j = Some q)
      by (intros; now rewrite nth_error_list_set_ne by auto).
    assert (New := nth_set_eq _ rs i pc' pc Hn).
    destruct pc; cbn in Hs; try discriminate; injection Hs; intros; subst; clear Hs; cbn in T.
    + (* AStart *)
      destruct c' as [v|]; cbn in T; split; cbn; auto.
      * intros Hf. destruct (Ib Hf) as (_ & C & _). discriminate.
      * intros Hf. specialize (Io Hf). lia.
      * intros j w [H|H]; apply nth_set in H as [[-> H]|[_ H]]; try discriminate.
        -- eauto.
        -- injection H; intros; subst. auto.
        -- eauto.
      * discriminate.
      * intros j H; apply nth_set in H as [[-> H]|[_ H]]; [discriminate|eauto].
      * intros Hf. destruct (Ib Hf) as (A0 & C & E). repeat split; auto.
        intros j q H; apply nth_set in H as [[-> ->]|[_ H]]; [now right|eauto].
      * intros Hf. specialize (Io Hf). lia.
      * intros j w [H|H]; apply nth_set in H as [[-> H]|[_ H]]; try discriminate; eauto.
      * intros Hf Hc. destruct (Iw Hf Hc) as [P|(j & q & H1 & H2)]; auto. right. exists j, q. split; auto.
        apply Keep; auto. intros ->. rewrite Hn in H1. injection H1; intros; subst.
        destruct H2 as [H2|[v H2]]; discriminate.
      * intros j H; apply nth_set in H as [[-> H]|[_ H]]; [discriminate|eauto].
    + (* ATake *)
      split; cbn; auto; try discriminate.
      * intros _. destruct future; cbn in T.
        -- destruct (Ib eq_refl) as (A0 & C & E).
           assert (tally at_run rs = 0).
           { destruct (Nat.eq_dec (tally at_run rs) 0); auto.
             destruct (tally_pos _ at_run rs) as (j & q & H1 & H2); [lia|].
             apply E in H1 as [-> | ->]; cbn in H2; lia. }
           lia.
        -- specialize (Io eq_refl). lia.
      * intros j w [H|H]; apply nth_set in H as [[-> H]|[_ H]]; try (destruct future; discriminate); eauto.
      * intros _ Hc. destruct future.
        -- right. exists i, ARun. split; auto. now left.
        -- destruct (Iw eq_refl Hc) as [P|(j & q & H1 & H2)]; auto. right. exists j, q. split; auto.
           apply Keep; auto. intros ->. rewrite Hn in H1. injection H1; intros; subst.
           destruct H2 as [H2|[v H2]]; discriminate.
    + (* ARun *)
      assert (Ff : f' = false).
      { destruct f'; auto. destruct (Ib eq_refl) as (_ & _ & E). apply E in Hn as [?|?]; discriminate. }
      subst. specialize (Io eq_refl). pose proof (tally_nth _ at_run _ _ _ Hn) as P. cbn in P.
      assert (A0 : awaited = 0) by lia. split; cbn; auto; try discriminate.
      * intros _. destruct fut; cbn in T; lia.
      * intros v Hv. apply Ic in Hv as [_ Hv]. lia.
      * intros j w [H|H]; apply nth_set in H as [[-> H]|[_ H]]; try (destruct fut; discriminate).
        -- destruct fut; [|discriminate]. injection H; intros; subst. auto.
        -- destruct (Iv j w (or_introl H)) as [_ L]. lia.
        -- destruct (Iv j w (or_intror H)) as [_ L]. lia.
      * intros _ Hc. destruct fut eqn:F; auto. right. exists i, (ASet a). split; auto. right. eauto.
    + (* ASet *)
      assert (Ff : f' = false).
      { destruct f'; auto. destruct (Ib eq_refl) as (_ & _ & E). apply E in Hn as [?|?]; discriminate. }
      subst. specialize (Io eq_refl). destruct (Iv i v (or_introl Hn)) as [F A1]. split; cbn; auto; try discriminate.
      * intros _. lia.
      * destruct cache; intros w Hw; [auto | injection Hw; intros; subst; auto].
      * intros j w [H|H]; apply nth_set in H as [[-> H]|[_ H]]; try discriminate; eauto.
        injection H; intros; subst. auto.
      * destruct cache; discriminate.
    + (* AMiss *)
      assert (Ff : f' = false).
      { destruct f'; auto. destruct (Ib eq_refl) as (_ & _ & E). apply E in Hn as [?|?]; discriminate. }
      subst. specialize (Io eq_refl). split; cbn; auto; try discriminate.
      * intros _. destruct c'; cbn in T; lia.
      * intros j w [H|H]; apply nth_set in H as [[-> H]|[_ H]]; try (destruct c'; discriminate); eauto.
        destruct c'; [|discriminate]. injection H; intros; subst. auto.
      * intros _ Hc. destruct (Iw eq_refl Hc) as [P|(j & q & H1 & H2)]; auto. right. exists j, q. split; auto.
        apply Keep; auto. intros ->. rewrite Hn in H1. injection H1; intros; subst.
        destruct H2 as [H2|[v H2]]; discriminate.
Qed.

(** The future is awaited at most once, and every value handed out is its value. *)
Theorem C50_once_and_value_partial : forall n s, areach fut n s ->
  a_awaited s <= 1 /\
  (forall i v, nth_error (a_runners s) i = Some (AReturned v) -> fut = Ret v /\ a_awaited s = 1).
Proof.
  intros n s R. pose proof (ainv_reach n s R) as [Ib Io Ic Iv Iw Id]. split; [|eauto].
  destruct (a_future s) eqn:F; [destruct (Ib eq_refl) as (-> & _); lia | specialize (Io eq_refl); lia].
Qed.
(** A runner that starts once a value is cached returns that value, whatever the others do. *)
Theorem C50_after_cached : forall n s v, areach fut n s -> a_cache s = Some v ->
  forall i, nth_error (a_runners s) i = Some AStart ->
  forall s', clos_refl_trans_1n _ (fun x y => exists j, astep fut j x y) s s' ->
  nth_error (a_runners s') i = Some AStart \/ nth_error (a_runners s') i = Some (AReturned v).
Proof.
  intros n s v R C i Hi s' St.
  assert (G : forall x y, clos_refl_trans_1n _ (fun x y => exists j, astep fut j x y) x y ->
     a_cache x = Some v -> nth_error (a_runners x) i = Some AStart \/ nth_error (a_runners x) i = Some (AReturned v) ->
     nth_error (a_runners y) i = Some AStart \/ nth_error (a_runners y) i = Some (AReturned v)).
  { intros x y H. induction H as [|x y z [j H] _ IH]; auto. intros Hc Ho. apply IH.
    - destruct H as [future cache awaited rs pc f' c' a' pc' Hn Hs]. cbn in *. subst.
      destruct pc; cbn in Hs; try discriminate; injection Hs; intros; now subst.
    - destruct H as [future cache awaited rs pc f' c' a' pc' Hn Hs]. cbn in *. subst.
      destruct (Nat.eq_dec j i) as [->|N].
      + rewrite (nth_set_eq _ _ _ _ _ Hn). destruct Ho as [Ho|Ho]; rewrite Hn in Ho; injection Ho; intros; subst.
        * cbn in Hs. injection Hs; intros; subst. auto.
        * discriminate.
      + rewrite nth_error_list_set_ne by auto. auto. }
  eapply G; eauto.
Qed.
(** A runner fails only because the future itself panicked, or because it found the
    future taken and no value yet while another runner was still working on it. *)
Theorem C50_failure_cause : forall n s i s', areach fut n s -> astep fut i s s' ->
  nth_error (a_runners s') i = Some APanicked ->
  fut = Panic \/
  (nth_error (a_runners s) i = Some AMiss /\ a_cache s = None /\
   exists j pc, j <> i /\ nth_error (a_runners s) j = Some pc /\ holds pc).
Proof.
  intros n s i s' R H K. pose proof (ainv_reach n s R) as [Ib Io Ic Iv Iw Id].
  destruct H as [future cache awaited rs pc f' c' a' pc' Hn Hs]. cbn in *.
  rewrite (nth_set_eq _ _ _ _ _ Hn) in K. injection K; intros; subst; clear K.
  destruct pc; cbn in Hs; try discriminate; injection Hs; intros; subst; clear Hs.
  - destruct c'; discriminate.
  - destruct future; discriminate.
  - left. destruct fut; [discriminate|auto].
  - destruct c'; [discriminate|].
    assert (Ff : f' = false).
    { destruct f'; auto. destruct (Ib eq_refl) as (_ & _ & E). apply E in Hn as [?|?]; discriminate. }
    destruct (Iw Ff eq_refl) as [P|(j & q & H1 & H2)]; auto. right. repeat split; auto.
    exists j, q. repeat split; auto. intros ->. rewrite Hn in H1. injection H1; intros; subst.
    destruct H2 as [H2|[v H2]]; discriminate.
Qed.
(** Runs that do not overlap all obtain the value: a runner that starts while no
    other run is in progress, and is left alone, returns it. *)
Theorem C50_sequential : forall n s i v, fut = Ret v -> areach fut n s ->
  nth_error (a_runners s) i = Some AStart ->
  (forall j pc, nth_error (a_runners s) j = Some pc -> pc = AStart \/ exists w, pc = AReturned w) ->
  exists s', clos_refl_trans_1n _ (astep fut i) s s' /\ nth_error (a_runners s') i = Some (AReturned v) /\
             (forall j, j <> i -> nth_error (a_runners s') j = nth_error (a_runners s) j).
Proof.
  intros n s i v F R Hi Q. pose proof (ainv_reach n s R) as [Ib Io Ic Iv Iw Id].
  destruct s as [future cache awaited rs]. cbn in *.
  destruct cache as [w|].
  - destruct (Ic w eq_refl) as [F' _]. rewrite F in F'. injection F'; intros; subst.
    eexists. split; [|split].
    + eapply Relation_Operators.rt1n_trans; [econstructor; [eassumption|reflexivity]|]. apply rt1n_refl.
    + cbn. eapply nth_set_eq; eassumption.
    + intros. cbn. now rewrite nth_error_list_set_ne by auto.
  - destruct future.
    + eexists. split; [|split].
      * eapply Relation_Operators.rt1n_trans; [econstructor; [eassumption|reflexivity]|].
        eapply Relation_Operators.rt1n_trans; [econstructor; [eapply nth_set_eq; eassumption|reflexivity]|].
        eapply Relation_Operators.rt1n_trans; [econstructor; [do 2 (eapply nth_set_eq); eassumption|reflexivity]|].
        rewrite F. cbn.
        eapply Relation_Operators.rt1n_trans; [econstructor; [do 3 (eapply nth_set_eq); eassumption|reflexivity]|].
        apply rt1n_refl.
      * cbn. do 4 (eapply nth_set_eq). eassumption.
      * intros. cbn. now rewrite !nth_error_list_set_ne by auto.
    + exfalso. destruct (Iw eq_refl eq_refl) as [P|(j & q & H1 & H2)]; [congruence|].
      destruct (Q j q H1) as [->|[w ->]]; destruct H2 as [H2|[? H2]]; discriminate.
Qed.
End C50.

(** The full claim fails for two overlapping runs, even though the future succeeds. *)
Theorem C50_shared_refuted : exists s : astate nat,
  areach (Ret 5) 2 s /\ a_awaited s = 0 /\ nth_error (a_runners s) 1 = Some APanicked.
Proof.
  eexists. split; [|split].
  - eapply areach_step with (i := 1).
    eapply areach_step with (i := 1).
    eapply areach_step with (i := 0).
    eapply areach_step with (i := 1).
    eapply areach_step with (i := 0).
    apply areach_init.
    all: unfold ainit; cbn [repeat]; econstructor; cbn; reflexivity.
  - reflexivity.
  - reflexivity.
Qed.
(** A future that panics leaves the shared [IO] unusable: every run panics. *)
Theorem C50_panicking_future : forall V n s i (v : V), areach Panic n s ->
  nth_error (a_runners s) i <> Some (AReturned v).
Proof.
  intros V n s i v R H. destruct (ai_value _ _ (ainv_reach _ n s R) i v (or_intror H)) as [K _]. discriminate.
Qed.
Example C50_case : exists s : astate nat, areach (Ret 5) 2 s /\ a_runners s = [AReturned 5; AStart] /\ a_cache s = Some 5.
Proof.
  eexists. split; [|split].
  - eapply areach_step with (i := 0).
    eapply areach_step with (i := 0).
    eapply areach_step with (i := 0).
    eapply areach_step with (i := 0).
    apply areach_init.
    all: unfold ainit; cbn [repeat]; econstructor; cbn; reflexivity.
  - reflexivity.
  - reflexivity.
Qed.
Print Assumptions C50_once_and_value_partial.
Print Assumptions C50_after_cached.
Print Assumptions C50_failure_cause.
Print Assumptions C50_sequential.
Print Assumptions C50_shared_refuted.
Print Assumptions C50_panicking_future.

(** Property C43: values are dropped at most once. *)
From Coq Require Import List Arith Lia Bool.
From Verif Require Import DropModel.
Import ListNotations.

(** Specification: the resources dropped by a trace, in order. *)
Definition dropped (t : list event) : list nat :=
  flat_map (fun e => match e with EDrop i => [i] | _ => [] end) t.
Definition drops_once (t : list event) : Prop := NoDup (dropped t).

Lemma dropped_app t1 t2 : dropped (t1 ++ t2) = dropped t1 ++ dropped t2.
Proof. apply flat_map_app. Qed.

(** False of the code: every run of [bind] in which some call of the function
    drops or keeps its argument drops a value twice. *)
Theorem C43_refuted : forall (f : nat -> fate) (next : nat) (sources : list nat) (s : nat),
  In s sources -> f s <> Forgotten -> ~ drops_once (run_bind true f next sources).
Proof.
  intros f next sources s Hin Hf H. unfold drops_once, run_bind in H. rewrite !dropped_app in H.
  revert next H. induction sources as [|x r IH]; intros next H; [destruct Hin|].
  cbn [closures results source_drops map] in H. rewrite !dropped_app in H. cbn in H.
  destruct Hin as [->|Hin].
  - unfold bind_closure, consume, result_drop in H. destruct (f s) eqn:E; [..|congruence].
    + cbn in H. inversion H as [|? ? Hn Hr]. apply Hn. now left.
    + cbn in H. inversion H as [|? ? Hn Hr]. apply Hn. apply in_or_app. right. right.
      apply in_or_app. right. now left.
  - apply (IH Hin (S next)).
    assert (G : forall (a b c d e g : list nat), NoDup ((a ++ b) ++ (c ++ d) ++ e ++ g) -> NoDup (b ++ d ++ g)).
    { intros a b c d e g. rewrite <- !app_assoc. intros HN.
      assert (T : forall (p q w : list nat), NoDup (p ++ q ++ w) -> NoDup (p ++ w)).
      { intros p q w. induction p as [|y p IHp]; cbn.
        - induction q; cbn; [auto|]. intros HH. inversion HH. auto.
        - intros HH. inversion HH as [|? ? Hn Hr]. constructor; [|auto].
          intros HI. apply Hn. apply in_app_or in HI. apply in_or_app. destruct HI; [auto|right; apply in_or_app; auto]. }
      apply (T [] a) in HN. cbn in HN. apply T in HN.
      rewrite app_assoc in HN. apply T in HN. now rewrite <- app_assoc in HN. }
    refine (G _ _ [x] _ _ _ _). exact H.
Qed.
(** The exact condition: a run is free of double drops exactly when the
    element type owns nothing, or the function forgets every argument. *)
Theorem C43_exact_partial : forall (nd : bool) (f : nat -> fate) (next : nat) (sources : list nat),
  NoDup sources -> (forall s, In s sources -> s < next) ->
  (drops_once (run_bind nd f next sources) <->
   (nd = false \/ forall s, In s sources -> f s = Forgotten)).
Proof.
  intros nd f next sources Hnd Hlt. split.
  - intros H. destruct nd; [|now left]. right. intros s Hin. destruct (f s) eqn:E; [..|reflexivity]; exfalso;
      apply (C43_refuted f next sources s Hin); congruence.
  - intros [->|Hf].
    + assert (Hc : closures false f next sources = [] /\ results false f next sources = []).
      { clear. revert next. induction sources as [|x r IH]; intros next; [now split|]. cbn. exact (IH (S next)). }
      unfold drops_once, run_bind, source_drops. destruct Hc as [-> ->]. cbn. constructor.
    + destruct nd; unfold drops_once, run_bind, source_drops; rewrite !dropped_app.
      * assert (Hr : dropped (results true f next sources) = []).
        { clear Hlt Hnd. revert next. induction sources as [|x r IH]; intros next; [reflexivity|].
          cbn [results]. rewrite dropped_app, (Hf x) by (now left). cbn. apply IH. intros s Hs. apply Hf. now right. }
        assert (Hc : dropped (closures true f next sources) = seq next (length sources)).
        { clear Hlt Hnd Hr. revert next. induction sources as [|x r IH]; intros next; [reflexivity|].
          cbn [closures]. rewrite dropped_app. unfold bind_closure. rewrite (Hf x) by (now left). cbn. f_equal.
          apply IH. intros s Hs. apply Hf. now right. }
        assert (Hs : dropped (map EDrop sources) = sources).
        { clear. induction sources as [|x r IH]; cbn; [reflexivity|]. unfold dropped in IH. now rewrite IH. }
        rewrite Hr, Hc, Hs, app_nil_r.
        assert (G : forall n k, (forall s, In s sources -> s < k) -> NoDup (seq k n ++ sources)).
        { intros n. induction n as [|n IHn]; intros k Hk; cbn; [exact Hnd|]. constructor.
          - intros HI. apply in_app_or in HI. destruct HI as [HI|HI].
            + apply in_seq in HI. lia.
            + specialize (Hk _ HI). lia.
          - apply IHn. intros s Hs'. specialize (Hk s Hs'). lia. }
        apply G. exact Hlt.
      * assert (Hc : closures false f next sources = [] /\ results false f next sources = []).
        { clear. revert next. induction sources as [|x r IH]; intros next; [now split|]. cbn. exact (IH (S next)). }
        destruct Hc as [-> ->]. cbn. constructor.
Qed.
(** A value kept by the function is already dead when [bind] returns. *)
Theorem C43_dangling_result_refuted : exists (f : nat -> fate) (t1 t2 : list event),
  run_bind true f 1 [0] = t1 ++ [EDrop 1] ++ t2 /\ In (EDrop 1) t2 /\ f 0 = Kept.
Proof.
  exists (fun _ => Kept), [EClone 0 1; EUse 1], [EDrop 0; EDrop 1]. repeat split. now right; left.
Qed.
(** [bind_with] is free of the problem, whatever the function does. *)
Theorem C43_bind_with : forall (nd : bool) (f : nat -> fate) (sources : list nat),
  NoDup sources -> drops_once (run_bind_with nd f sources).
Proof.
  intros nd f sources Hnd. unfold drops_once, run_bind_with. rewrite dropped_app.
  assert (H : forall l,
    dropped (flat_map (bind_with_closure nd f) l) = filter (fun s => nd && match f s with Dropped => true | _ => false end) l /\
    dropped (flat_map (fun s => if nd then result_drop (f s) s else []) l) =
      filter (fun s => nd && match f s with Kept => true | _ => false end) l).
  { intros l. induction l as [|x l [IH1 IH2]]; [now split|]. cbn [flat_map filter]. rewrite !dropped_app, IH1, IH2.
    unfold bind_with_closure, consume, result_drop. destruct nd, (f x); now split. }
  destruct (H sources) as [-> ->].
  assert (G : forall l1 l2, NoDup l1 -> NoDup l2 -> (forall x : nat, In x l1 -> ~ In x l2) -> NoDup (l1 ++ l2)).
  { intros l1 l2 H1 H2 Hd. induction l1 as [|x l1 IH]; cbn; [exact H2|]. inversion H1 as [|? ? Hn Hr]. subst. constructor.
    - intros HI. apply in_app_or in HI. destruct HI as [HI|HI]; [contradiction|]. apply (Hd x); [now left|exact HI].
    - apply IH; [exact Hr|]. intros y Hy. apply Hd. now right. }
  apply G; try (apply NoDup_filter; exact Hnd).
  intros x H1 H2. apply filter_In in H1. apply filter_In in H2. destruct H1 as [_ H1], H2 as [_ H2].
  destruct nd, (f x); discriminate.
Qed.
Example C43_case : dropped (run_bind true (fun _ => Dropped) 1 [0]) = [1; 1; 0].
Proof. reflexivity. Qed.

Print Assumptions C43_refuted.
Print Assumptions C43_exact_partial.
Print Assumptions C43_dangling_result_refuted.
Print Assumptions C43_bind_with.

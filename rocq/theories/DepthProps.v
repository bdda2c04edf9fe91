(** C111: how many calls are active at once when a chain of operations is used. *)
From Coq Require Import List Arith Lia.
From Verif Require Import Base Types ErrModel WrapModel EffModel IOModel ArrowModel DepthModel DepthSpec.
Import ListNotations.

(** ** Nesting of appended and of enclosed calls *)
Lemma nested_app : forall n a b, nested n (a ++ b) <-> nested n a \/ nested n b.
Proof.
  intros n a b; split.
  - intros H; inversion H; subst; [left; constructor|].
    apply in_app_or in H0. destruct H0 as [H0|H0]; [left|right]; econstructor; eassumption.
  - intros [H|H]; inversion H; subst; try constructor; econstructor; try eassumption; apply in_or_app; auto.
Qed.
Lemma nested_call : forall n c, nested (S n) [Call c] <-> nested n c.
Proof.
  intros n c; split; intros H.
  - inversion H; subst. destruct H1 as [E|[]]. injection E; intros; subst; assumption.
  - econstructor; [left; reflexivity|exact H].
Qed.
Lemma nested_less : forall n m cs, nested n cs -> m <= n -> nested m cs.
Proof.
  induction n as [|n IH]; intros m cs H L.
  - replace m with 0 by lia. constructor.
  - inversion H; subst. destruct m; [constructor|]. econstructor; [eassumption|]. apply IH; [assumption|lia].
Qed.
Lemma calls_ret : forall A (a : A), calls_of (tret a) = [].
Proof. reflexivity. Qed.
Lemma calls_bind : forall A B (m : tr A) (k : A -> tr B),
  calls_of (tbind m k) = calls_of m ++ calls_of (k (value_of m)).
Proof. intros A B [cs a] k; unfold tbind, calls_of, value_of; cbn [fst snd]. destruct (k a); reflexivity. Qed.
Lemma value_bind : forall A B (m : tr A) (k : A -> tr B), value_of (tbind m k) = value_of (k (value_of m)).
Proof. intros A B [cs a] k; unfold tbind, value_of; cbn [fst snd]. destruct (k a); reflexivity. Qed.
Lemma calls_call : forall A (m : tr A), calls_of (tcall m) = [Call (calls_of m)].
Proof. reflexivity. Qed.
Lemma value_call : forall A (m : tr A), value_of (tcall m) = value_of m.
Proof. reflexivity. Qed.

Lemma nested_bind : forall A B (m : tr A) (k : A -> tr B) n,
  nested n (calls_of (tbind m k)) <-> nested n (calls_of m) \/ nested n (calls_of (k (value_of m))).
Proof. intros. rewrite calls_bind. apply nested_app. Qed.
Lemma nested_tcall : forall A (m : tr A) n, nested (S n) (calls_of (tcall m)) <-> nested n (calls_of m).
Proof. intros. rewrite calls_call. apply nested_call. Qed.

Lemma within_ret : forall A (a : A) d, within d (tret a).
Proof. intros A a d n H. inversion H; subst; [lia|contradiction]. Qed.
Lemma within_bind : forall A B (m : tr A) (k : A -> tr B) d,
  within d m -> within d (k (value_of m)) -> within d (tbind m k).
Proof. intros A B m k d H1 H2 n H. apply nested_bind in H. destruct H; auto. Qed.
Lemma within_call : forall A (m : tr A) d, within d m -> within (S d) (tcall m).
Proof. intros A m d H [|n] N; [lia|]. apply (proj1 (nested_tcall _ _ _)) in N. apply H in N. lia. Qed.
Lemma within_more : forall A (m : tr A) d e, within d m -> d <= e -> within e m.
Proof. intros A m d e H L n N. apply H in N. lia. Qed.

(** ** State *)
(** Every operation of a chain adds one more active call: whatever the first computation reaches is reached below one
    call for each operation, however simple the functions are. *)
Theorem C111_state_adds : forall S A (ops : list (sstep S A)) (x : hstate S A) k,
  (forall s, nested k (calls_of (hs_run x s))) ->
  forall s, nested (length ops + k) (calls_of (hs_run (fold_left sdo ops x) s)).
Proof.
  intros S A ops. induction ops as [|op ops IH]; intros x k H s; cbn [fold_left length]; [apply H|].
  replace (Datatypes.S (length ops) + k) with (length ops + Datatypes.S k) by lia.
  apply IH. intros s'. destruct op as [f|f|fs]; cbn [sdo]; apply nested_tcall.
  - apply nested_bind. left. apply H.
  - apply nested_bind. left. apply H.
  - apply nested_bind. right. apply nested_bind. left. apply H.
Qed.

(** ... and no more than one: the functions' own nesting comes on top of the number of operations at most. *)
Theorem C111_state_at_most : forall S A (ops : list (sstep S A)) (x : hstate S A) d,
  (forall s, within d (hs_run x s)) -> Forall (sstep_within d) ops ->
  forall s, within (length ops + d) (hs_run (fold_left sdo ops x) s).
Proof.
  intros S A ops x d Hx Hops.
  assert (G : forall e y, d <= e -> (forall s, within e (hs_run y s)) ->
    forall s, within (length ops + e) (hs_run (fold_left sdo ops y) s)); [|apply (G d x); auto].
  induction Hops as [|op ops Hop Hops IH]; intros e y L Hy s; cbn [fold_left length]; [apply Hy|].
  replace (Datatypes.S (length ops) + e) with (length ops + Datatypes.S e) by lia.
  apply IH; [lia|]. intros s'. destruct op as [f|f|fs]; cbn [sdo sstep_within] in *; apply within_call.
  - apply within_bind; [apply Hy|]. apply within_bind; [eapply within_more; [apply Hop|exact L]|apply within_ret].
  - apply within_bind; [apply Hy|]. apply within_bind; [eapply within_more; [apply Hop|exact L]|].
    eapply within_more; [apply Hop|exact L].
  - apply within_bind; [eapply within_more; [apply Hop|exact L]|]. apply within_bind; [apply Hy|].
    apply within_bind; [eapply within_more; [apply Hop|exact L]|apply within_ret].
Qed.

(** A computation that calls itself as the function of a bind nests as deep as it repeats. *)
Theorem C111_state_loop : forall S A (act : nat -> hstate S A) (loop : nat -> hstate S A),
  (forall n, loop (Datatypes.S n) = hs_bind (act n) (fun _ => tret (loop n))) ->
  forall n s, nested (Datatypes.S n) (calls_of (hs_run (loop n) s)).
Proof.
  intros S A act loop E n. induction n as [|n IH]; intros s.
  - apply nested_tcall. constructor.
  - rewrite E. apply nested_tcall. apply nested_bind. right. apply nested_bind. right. apply IH.
Qed.

(** ** Reader *)
Theorem C111_reader_adds : forall E A (ops : list (rstep E A)) (x : hreader E A) k,
  (forall e, nested k (calls_of (hr_run x e))) ->
  forall e, nested (length ops + k) (calls_of (hr_run (fold_left rdo ops x) e)).
Proof.
  intros E A ops. induction ops as [|op ops IH]; intros x k H e; cbn [fold_left length]; [apply H|].
  replace (Datatypes.S (length ops) + k) with (length ops + Datatypes.S k) by lia.
  apply IH. intros e'. destruct op as [f|f|f|y f]; cbn [rdo]; apply nested_tcall; apply nested_bind.
  - left. apply H.
  - left. apply H.
  - right. apply H.
  - left. apply H.
Qed.
Theorem C111_reader_at_most : forall E A (ops : list (rstep E A)) (x : hreader E A) d,
  (forall e, within d (hr_run x e)) -> Forall (rstep_within d) ops ->
  forall e, within (length ops + d) (hr_run (fold_left rdo ops x) e).
Proof.
  intros E A ops x d Hx Hops.
  assert (G : forall c y, d <= c -> (forall e, within c (hr_run y e)) ->
    forall e, within (length ops + c) (hr_run (fold_left rdo ops y) e)); [|apply (G d x); auto].
  induction Hops as [|op ops Hop Hops IH]; intros c y L Hy e; cbn [fold_left length]; [apply Hy|].
  replace (S (length ops) + c) with (length ops + S c) by lia.
  apply IH; [lia|]. intros e'. destruct op as [f|f|f|z f]; cbn [rdo rstep_within] in *; apply within_call; apply within_bind.
  - apply Hy.
  - eapply within_more; [apply Hop|exact L].
  - apply Hy.
  - apply within_bind; eapply within_more; [apply Hop|exact L|apply Hop|exact L].
  - eapply within_more; [apply Hop|exact L].
  - apply Hy.
  - apply Hy.
  - apply within_bind; eapply within_more; [apply Hop|exact L|apply Hop|exact L].
Qed.

(** ** IO *)
(** Building a chain on an effect makes no call; running it nests one call deeper for each operation. *)
Theorem C111_io_adds : forall A (ops : list (istep A)) (effect : tr A) k,
  nested k (calls_of effect) ->
  calls_of (ichain (HEffect effect) ops) = []
  /\ nested (length ops + S k) (calls_of (hi_run (value_of (ichain (HEffect effect) ops)))).
Proof.
  intros A ops. induction ops as [|op ops IH]; intros effect k H; cbn [ichain length].
  - split; [reflexivity|]. apply nested_tcall. exact H.
  - rewrite calls_bind, value_bind.
    replace (S (length ops) + S k) with (length ops + S (S k)) by lia.
    destruct op as [f|f]; cbn [ido hi_fmap hi_bind]; rewrite calls_ret; apply IH;
      apply nested_bind; left; apply nested_tcall; exact H.
Qed.
(** Building a chain on any IO nests no deeper than its functions, and running it at most one deeper per operation. *)
Theorem C111_io_at_most : forall A (ops : list (istep A)) (x : hio A) d,
  within d (hi_run x) -> Forall (istep_within d) ops ->
  within d (ichain x ops) /\ within (length ops + d) (hi_run (value_of (ichain x ops))).
Proof.
  intros A ops x d Hx Hops.
  assert (G : forall c y, d <= c -> within c (hi_run y) ->
    within d (ichain y ops) /\ within (length ops + c) (hi_run (value_of (ichain y ops)))); [|apply (G d x); auto].
  induction Hops as [|op ops Hop Hops IH]; intros c y L Hy; cbn [ichain length].
  - split; [apply within_ret|exact Hy].
  - rewrite value_bind. replace (S (length ops) + c) with (length ops + S c) by lia.
    assert (K : within d (ido y op) /\ within (S c) (hi_run (value_of (ido y op)))).
    { destruct op as [f|f], y as [a|effect]; cbn [ido hi_fmap hi_bind istep_within] in *.
      - split; [apply within_bind; [apply Hop|apply within_ret]|]. rewrite value_bind. apply within_ret.
      - split; [apply within_ret|]. apply within_call. apply within_bind; [exact Hy|].
        eapply within_more; [apply Hop|exact L].
      - split; [apply Hop|]. eapply within_more; [apply Hop|lia].
      - split; [apply within_ret|]. apply within_call. apply within_bind; [exact Hy|].
        apply within_bind; (eapply within_more; [apply Hop|exact L]). }
    destruct K as [K1 K2].
    destruct (IH (S c) (value_of (ido y op)) ltac:(lia) K2) as [B R].
    split; [apply within_bind; assumption|exact R].
Qed.
(** On a pure value, a chain of maps is done while it is built: nothing is left to run. *)
Theorem C111_io_pure_maps : forall A (fs : list (A -> tr A)) (a : A),
  calls_of (hi_run (value_of (ichain (HPure a) (map IMap fs)))) = [].
Proof.
  intros A fs. induction fs as [|f fs IH]; intros a; cbn [map ichain]; [reflexivity|].
  rewrite value_bind. cbn [ido hi_fmap]. rewrite value_bind. apply IH.
Qed.
(** [IO::sequence] runs any number of effects one call deeper than the deepest. *)
Theorem C111_io_sequence : forall A (ios : list (hio A)) d,
  (forall io, In io ios -> within d (hi_run io)) -> within (S d) (hi_run (hi_sequence ios)).
Proof.
  intros A ios d H. apply within_call. induction ios as [|x ios IH]; cbn [hi_run_all]; [apply within_ret|].
  apply within_bind; [apply H; left; reflexivity|].
  apply within_bind; [apply IH; intros; apply H; right; assumption|apply within_ret].
Qed.
Theorem C111_io_loop : forall A (act : nat -> tr A) (loop : nat -> hio A),
  (forall n, tret (loop (S n)) = hi_bind (HEffect (act n)) (fun _ => tret (loop n))) ->
  forall n, nested n (calls_of (hi_run (loop n))).
Proof.
  intros A act loop E n. induction n as [|n IH]; [constructor|].
  specialize (E n). apply (f_equal value_of) in E. cbn [hi_bind value_of tret snd] in E. rewrite E. cbn [hi_run].
  apply nested_tcall. apply nested_bind. right. apply nested_bind. right. exact IH.
Qed.

(** ** Cont *)
(** The final continuation runs inside every call made before it: two more for each map, three for each bind. *)
Lemma cont_chain : forall R A (ops : list (kstep A)) (a : A) (k : A -> tr R) m,
  nested (2 + list_sum (map kcost ops) + m) (calls_of (hc_run (fold_left kdo ops (hc_pure a)) k))
  <-> nested m (calls_of (k (fold_left (fun v op => kfun op v) ops a))).
Proof.
  intros R A ops a. induction ops as [|op ops IH] using rev_ind; intros k m.
  - cbn [fold_left map]. unfold hc_run, hc_pure. cbn [list_sum fold_right Nat.add].
    rewrite !nested_tcall. reflexivity.
  - rewrite !fold_left_app, map_app, list_sum_app. cbn [fold_left map].
    destruct op as [f|f]; cbn [kdo kfun kcost list_sum fold_right].
    + replace (2 + (list_sum (map kcost ops) + (2 + 0)) + m) with (S (2 + list_sum (map kcost ops) + S m)) by lia.
      unfold hc_run at 1. rewrite nested_tcall. unfold hc_fmap at 1.
      match goal with |- nested _ (calls_of (tcall (?x ?k'))) <-> _ => change (tcall (x k')) with (hc_run x k') end.
      rewrite IH. rewrite nested_bind. cbn [value_of tret snd]. rewrite nested_tcall.
      split; [intros [H|H]; [inversion H; contradiction|exact H]|auto].
    + replace (2 + (list_sum (map kcost ops) + (3 + 0)) + m) with (S (2 + list_sum (map kcost ops) + S (S m))) by lia.
      unfold hc_run at 1. rewrite nested_tcall. unfold hc_bind at 1.
      match goal with |- nested _ (calls_of (tcall (?x ?k'))) <-> _ => change (tcall (x k')) with (hc_run x k') end.
      rewrite IH. rewrite nested_bind. cbn [value_of tret snd]. rewrite nested_tcall. change (hc_pure (f (fold_left (fun v op => kfun op v) ops a)) k) with (tcall (k (f (fold_left (fun v op => kfun op v) ops a)))).
      rewrite nested_tcall.
      split; [intros [H|H]; [inversion H; contradiction|exact H]|auto].
Qed.
Theorem C111_cont_exact : forall R A (ops : list (kstep A)) (a : A) (k : A -> tr R) m,
  nested (2 + list_sum (map kcost ops) + m) (calls_of (hc_run (fold_left kdo ops (hc_pure a)) k))
  <-> nested m (calls_of (k (fold_left (fun v op => kfun op v) ops a))).
Proof. exact cont_chain. Qed.

(** ** Function morphisms *)
(** A composition reaches one call deeper than its parts: as deep as the tree of compositions is high. *)
Theorem C111_morphism_reaches : forall A (t : mtree A) a, nested (S (mheight t)) (calls_of (tcall (mbuild t a))).
Proof.
  intros A t. induction t as [f|g IHg f IHf]; intros a; cbn [mheight mbuild]; apply nested_tcall; [constructor|].
  apply nested_bind. destruct (Nat.max_spec (mheight g) (mheight f)) as [[L E]|[L E]]; rewrite E.
  - left. apply IHf.
  - right. apply IHg.
Qed.
Theorem C111_morphism_at_most : forall A (t : mtree A) d,
  (forall f, In f (mleaves t) -> forall a, within d (f a)) ->
  forall a, within (S (mheight t) + d) (tcall (mbuild t a)).
Proof.
  intros A t d. induction t as [f|g IHg f IHf]; intros H a; cbn [mheight mbuild mleaves] in *;
    rewrite Nat.add_succ_l; apply within_call.
  - apply H. left; reflexivity.
  - apply within_bind.
    + eapply within_more; [apply IHf; intros; apply H; apply in_or_app; auto|lia].
    + eapply within_more; [apply IHg; intros; apply H; apply in_or_app; auto|lia].
Qed.
(** [sequence] and [compose_all] of any number of functions: no deeper than one function. *)
Theorem C111_sequence : forall A (fs : list (hmor A A)) d,
  (forall f, In f fs -> forall a, within d (f a)) ->
  forall a, within (S d) (tcall (hm_sequence fs a)).
Proof.
  intros A fs d H a. apply within_call. unfold hm_sequence. revert a.
  induction fs as [|f fs IH]; intros a; cbn [hm_fold]; [apply within_ret|].
  apply within_bind; [apply H; left; reflexivity|]. apply IH. intros; apply H; right; assumption.
Qed.
Theorem C111_compose_all : forall A B (from : A -> tr B) (fs : list (hmor A A)) d,
  (forall f, In f fs -> forall a, within d (f a)) -> (forall a, within (S d) (from a)) ->
  forall a, within (S (S d)) (tcall (hm_compose_all from fs a)).
Proof.
  intros A B from fs d H F a. apply within_call. unfold hm_compose_all. apply within_bind; [|apply F]. revert a.
  induction fs as [|f fs IH]; intros a; cbn [hm_fold_stored]; [apply within_ret|].
  apply within_bind; [apply within_call; apply H; left; reflexivity|]. apply IH. intros; apply H; right; assumption.
Qed.

(** ** Predicates *)
Theorem C111_predicate_reaches : forall A (t : ptree A) a, nested (S (pspine t)) (calls_of (hp_contains (pbuild t) a)).
Proof.
  intros A t. induction t as [p|p IH q _|p IH q _|p IH q _|p IH]; intros a; cbn [pspine pbuild]; apply nested_tcall;
    [constructor|..]; apply nested_bind; left; apply IH.
Qed.
Theorem C111_predicate_at_most : forall A (t : ptree A) d,
  (forall p, In p (pleaves t) -> forall a, within d (p a)) ->
  forall a, within (S (pheight t) + d) (hp_contains (pbuild t) a).
Proof.
  intros A t d.
  assert (M : forall (x : hpred A) n m a, within (S n + d) (hp_contains x a) -> n <= m -> within (S m + d) (hp_contains x a)).
  { intros x n m a W L. eapply within_more; [exact W|lia]. }
  induction t as [p|p IHp q IHq|p IHp q IHq|p IHp q IHq|p IH]; intros H a; cbn [pheight pbuild pleaves] in *;
    rewrite Nat.add_succ_l; apply within_call.
  - apply H. left; reflexivity.
  - apply within_bind; [apply (M (pbuild p) (pheight p)); [apply IHp; intros; apply H; apply in_or_app; auto|lia]|].
    destruct (value_of _); [apply within_ret|].
    apply (M (pbuild q) (pheight q)); [apply IHq; intros; apply H; apply in_or_app; auto|lia].
  - apply within_bind; [apply (M (pbuild p) (pheight p)); [apply IHp; intros; apply H; apply in_or_app; auto|lia]|].
    destruct (value_of _); [|apply within_ret].
    apply (M (pbuild q) (pheight q)); [apply IHq; intros; apply H; apply in_or_app; auto|lia].
  - apply within_bind; [apply (M (pbuild p) (pheight p)); [apply IHp; intros; apply H; apply in_or_app; auto|lia]|].
    destruct (value_of _); [|apply within_ret].
    apply within_bind; [|apply within_ret].
    apply (M (pbuild q) (pheight q)); [apply IHq; intros; apply H; apply in_or_app; auto|lia].
  - apply within_bind; [|apply within_ret]. apply IH. exact H.
Qed.

(** ** Writer and error pipelines: no deeper than the functions, however long the chain *)
Theorem C111_writer_flat : forall W A (combine : W -> W -> tr W) (ops : list (wstep W A)) d,
  (forall v w, within d (combine v w)) -> Forall (wstep_within d) ops -> forall w, within d (wchain combine w ops).
Proof.
  intros W A combine ops d C H. induction H as [|op ops Hop Hops IH]; intros w; cbn [wchain]; [apply within_ret|].
  destruct op as [f|f]; cbn [wstep_within] in Hop; (apply within_bind; [|apply IH]).
  - apply within_bind; [apply Hop|apply within_ret].
  - apply within_bind; [apply Hop|]. apply within_bind; [apply C|apply within_ret].
Qed.
Theorem C111_pipeline_flat : forall T E (ops : list (estep T E)) d,
  Forall (estep_within d) ops -> forall p, within d (echain p ops).
Proof.
  intros T E ops d H. induction H as [|op ops Hop Hops IH]; intros p; cbn [echain]; [apply within_ret|].
  apply within_bind; [|apply IH].
  destruct p as [r pend], op as [f|f|f|f|c]; destruct r as [t|e]; cbn [edo he_map_error he_recover he_and_then he_map he_with_context ep_result estep_within] in *;
    first [apply within_ret | (apply within_bind; [apply Hop|apply within_ret])].
Qed.

(** ** The values are those of the models without the calls *)
Theorem C111_same_values_state : forall S A B (x : hstate S A) (s : S),
  let plain {C} (y : hstate S C) := st_new (fun s => Ret (value_of (y s))) in
  (forall f : A -> tr B,
     st_run (st_fmap (fun a => value_of (f a)) (plain x)) s = Ret (value_of (hs_run (hs_fmap x f) s)))
  /\ (forall f : A -> tr (hstate S B),
     st_run (st_bind (plain x) (fun a => plain (value_of (f a)))) s = Ret (value_of (hs_run (hs_bind x f) s)))
  /\ (forall a : A, st_run (st_pure a) s = Ret (value_of (hs_run (hs_pure a) s)))
  /\ (forall fs : hstate S (A -> tr B),
     st_run (st_apply (st_fmap (fun f a => value_of (f a)) (plain fs)) (plain x)) s
     = Ret (value_of (hs_run (hs_apply fs x) s))).
Proof.
  intros S A B x s plain. unfold hs_fmap, hs_bind, hs_pure, hs_apply, hs_new, hs_run.
  split; [|split; [|split]].
  - intros f. rewrite value_call, !value_bind, value_call. cbn. unfold value_of. destruct (snd (x s)); reflexivity.
  - intros f. rewrite value_call, !value_bind, !value_call. cbn. unfold value_of.
    destruct (snd (x s)) as [a s']; cbn. destruct (snd (snd (f a) s')); reflexivity.
  - intros a. reflexivity.
  - intros fs. rewrite value_call, !value_bind, !value_call. cbn. unfold value_of.
    destruct (snd (fs s)) as [f s']; cbn. destruct (snd (x s')); reflexivity.
Qed.
Theorem C111_same_values_reader : forall E A B C (x : hreader E A) (e : E),
  let plain {D} (y : hreader E D) := rd_new (fun e => value_of (y e)) in
  (forall f : A -> tr B, rd_run (rd_fmap (fun a => value_of (f a)) (plain x)) e = value_of (hr_run (hr_fmap x f) e))
  /\ (forall f : A -> tr (hreader E B),
     rd_run (rd_bind (plain x) (fun a => plain (value_of (f a)))) e = value_of (hr_run (hr_bind x f) e))
  /\ (forall f : E -> tr E, rd_run (rd_local (plain x) (fun e => value_of (f e))) e = value_of (hr_run (hr_local x f) e))
  /\ (forall (y : hreader E B) (f : A -> B -> tr C),
     rd_run (rd_combine (plain x) (plain y) (fun a b => value_of (f a b))) e = value_of (hr_run (hr_combine x y f) e)).
Proof.
  intros E A B C x e plain. unfold hr_fmap, hr_bind, hr_local, hr_combine, hr_new, hr_run.
  split; [|split; [|split]]; intros; rewrite value_call, !value_bind; reflexivity.
Qed.
Theorem C111_same_values_cont : forall R A B (a : A) (k : A -> tr R) (kb : B -> tr R),
  co_run (co_pure a) (fun v => value_of (k v)) = value_of (hc_run (hc_pure a) k)
  /\ forall x : hcont R A, (forall h h', (forall v, value_of (h v) = value_of (h' v)) -> value_of (x h) = value_of (x h')) ->
     let plain {D} (y : hcont R D) := co_new (fun h : D -> R => value_of (y (fun v => tret (h v)))) in
     (forall f : A -> tr B,
        co_run (co_fmap (fun v => value_of (f v)) (plain x)) (fun v => value_of (kb v)) = value_of (hc_run (hc_fmap x f) kb))
     /\ (forall f : A -> tr (hcont R B),
        (forall v h h', (forall b, value_of (h b) = value_of (h' b)) -> value_of (value_of (f v) h) = value_of (value_of (f v) h')) ->
        co_run (co_bind (plain x) (fun v => plain (value_of (f v)))) (fun v => value_of (kb v))
        = value_of (hc_run (hc_bind x f) kb)).
Proof.
  intros R A B a k kb. split; [reflexivity|]. intros x X plain. unfold hc_run, hc_fmap, hc_bind.
  split; intros f; [|intros F]; rewrite !value_call; apply X; intros v; rewrite value_bind, value_call; [reflexivity|].
  apply F. intros b. reflexivity.
Qed.
Theorem C111_same_values_io : forall W A B (x : hio A) (w : W),
  let plain {D} (y : hio D) := match y with HPure a => IPure a | HEffect m => IEffect (fun w : W => (w, Done (value_of m))) end in
  let run_of {D} (m : @comp W (io W D)) := cbind m io_run w in
  (forall f : A -> tr B,
     run_of (io_fmap (plain x) (fun a w => (w, Done (value_of (f a))))) = (w, Done (value_of (hi_run (value_of (hi_fmap x f))))))
  /\ (forall f : A -> tr (hio B),
     run_of (io_bind (plain x) (fun a w => (w, Done (plain (value_of (f a)))))) = (w, Done (value_of (hi_run (value_of (hi_bind x f))))))
  /\ (forall ios : list (hio A),
     io_run (io_sequence (map plain ios)) w = (w, Done (value_of (hi_run (hi_sequence ios))))).
Proof.
  intros W A B x w plain run_of. split; [|split].
  - intros f. destruct x as [a|m]; cbn [hi_fmap plain]; [rewrite value_bind; reflexivity|].
    cbn [hi_run value_of tret snd]. rewrite value_call, value_bind, value_call. reflexivity.
  - intros f. destruct x as [a|m]; cbn [hi_bind plain].
    + unfold run_of, io_bind, cbind. destruct (value_of (f a)); reflexivity.
    + cbn [value_of tret snd]. cbn [hi_run]. rewrite value_call, !value_bind, value_call.
      unfold run_of, io_bind, cbind, cret, io_run, hi_run. destruct (value_of (f (value_of m))); reflexivity.
  - intros ios. cbn [hi_sequence hi_run]. rewrite value_call. unfold io_sequence, io_new, io_run.
    assert (G : forall acc, run_collect (map (plain A) ios) acc w = (w, Done (acc ++ value_of (hi_run_all ios)))).
    { clear x. induction ios as [|y ios IH]; intros acc; cbn [map run_collect hi_run_all].
      - unfold cret. rewrite app_nil_r. reflexivity.
      - rewrite !value_bind. cbn [value_of tret snd]. fold (value_of (hi_run_all ios)).
        unfold cbind, io_run. destruct y as [a|m]; cbn; rewrite IH, <- app_assoc; reflexivity. }
    apply (G []).
Qed.
Theorem C111_same_values_morphism : forall A B C (w : unit),
  let plain {D E} (f : hmor D E) : @mor unit D E := fun d w => (Ret (value_of (f d)), w) in
  (forall (g : hmor B C) (f : hmor A B) a, am_compose (plain g) (plain f) a w = plain (hm_compose g f) a w)
  /\ (forall (fs : list (hmor A A)) a, am_sequence (map plain fs) a w = plain (hm_sequence fs) a w)
  /\ (forall (from : hmor A B) (fs : list (hmor A A)) a,
       ah_compose_all (plain from) (map plain fs) a w = plain (hm_compose_all from fs) a w).
Proof.
  intros A B C w plain. split; [|split].
  - intros g f a. unfold plain, hm_compose. rewrite value_bind, !value_call. reflexivity.
  - intros fs a. unfold am_sequence, hm_sequence. revert a. induction fs as [|f fs IH]; intros a; [reflexivity|].
    unfold plain in *. cbn [map fold_funs hm_fold]. rewrite value_bind. cbn. unfold eff_bind. apply IH.
  - intros from fs a. unfold ah_compose_all, hm_compose_all, plain. rewrite value_bind. unfold eff_bind.
    assert (G : forall b, fold_funs b (map (plain A A) fs) w = (Ret (value_of (hm_fold_stored b fs)), w)).
    { clear a. induction fs as [|f fs IH]; intros b; [reflexivity|].
      cbn [map fold_funs hm_fold_stored]. rewrite value_bind, value_call. unfold eff_bind. apply IH. }
    unfold plain in G. rewrite (G a). reflexivity.
Qed.
Theorem C111_same_values_predicate : forall A (p q : hpred A) a,
  let plain (f : hpred A) : predicate A := fun a => Ret (value_of (f a)) in
  pd_contains (pd_union (plain p) (plain q)) a = Ret (value_of (hp_contains (hp_union p q) a))
  /\ pd_contains (pd_intersection (plain p) (plain q)) a = Ret (value_of (hp_contains (hp_intersection p q) a))
  /\ pd_contains (pd_diff (plain p) (plain q)) a = Ret (value_of (hp_contains (hp_diff p q) a))
  /\ pd_contains (pd_negate (plain p)) a = Ret (value_of (hp_contains (hp_negate p) a)).
Proof.
  intros A p q a plain. unfold hp_contains, hp_union, hp_intersection, hp_diff, hp_negate.
  rewrite !value_call, !value_bind, !value_call. unfold pd_contains, pd_union, pd_intersection, pd_diff, pd_negate, plain.
  destruct (value_of (p a)); repeat split; rewrite ?value_bind, ?value_call; reflexivity.
Qed.
Theorem C111_same_values_writer : forall W A B (combine : W -> W -> tr W) (v : W) (a : A),
  (forall f : A -> tr B,
     wr_run (wr_fmap (fun a => value_of (f a)) (mkWriter v a)) = value_of (hw_fmap (v, a) f))
  /\ (forall f : A -> tr (W * B),
     wr_run (wr_bind (fun x y => value_of (combine x y)) (mkWriter v a)
               (fun a => let '(l, b) := value_of (f a) in mkWriter l b)) = value_of (hw_bind combine (v, a) f)).
Proof.
  intros W A B combine v a. unfold hw_fmap, hw_bind. split; intros f; rewrite !value_bind; cbn [fst snd].
  - reflexivity.
  - unfold wr_run, wr_bind. cbn [w_value]. destruct (value_of (f a)); reflexivity.
Qed.
Theorem C111_same_values_pipeline : forall T E (p : epipe T E),
  (forall f : E -> tr E, ep_map_error p (fun e => value_of (f e)) = value_of (he_map_error p f))
  /\ (forall f : E -> tr (result T E), ep_recover p (fun e => value_of (f e)) = value_of (he_recover p f))
  /\ (forall f : T -> tr (result T E), ep_and_then p (fun t => value_of (f t)) = value_of (he_and_then p f))
  /\ (forall f : T -> tr T, ep_map p (fun t => value_of (f t)) = value_of (he_map p f))
  /\ (forall c : tr String.string, ep_with_context p (value_of c) = value_of (he_with_context p c)).
Proof.
  intros T E [r pend]. destruct r as [t|e]; unfold he_map_error, he_recover, he_and_then, he_map, he_with_context;
    cbn [ep_result ep_pending]; repeat split; intros; rewrite ?value_bind; reflexivity.
Qed.

(** The trees and chains spoken of above compute what the plain values would *)
Theorem C111_trees_values : forall A,
  (forall (t : ptree A) a,
     let fix says (t : ptree A) : bool :=
       match t with
       | PLeaf p => value_of (p a)
       | PUnion p q => orb (says p) (says q)
       | PInter p q => andb (says p) (says q)
       | PDiff p q => andb (says p) (negb (says q))
       | PNot p => negb (says p)
       end in
     value_of (hp_contains (pbuild t) a) = says t) /\
  (forall (t : mtree A) a, value_of (mbuild t a) = fold_right (fun f x => value_of (f x)) a (mleaves t)).
Proof.
  intros A. split.
  - intros t a says. change (value_of (hp_contains (pbuild t) a)) with (value_of (pbuild t a)).
    induction t as [p|p IHp q IHq|p IHp q IHq|p IHp q IHq|p IHp]; cbn [pbuild says]; try reflexivity.
    all: fold says; rewrite <- ?IHp, <- ?IHq.
    all: unfold hp_union, hp_intersection, hp_diff, hp_negate, hp_contains, tbind, tcall, tret, value_of; cbn.
    all: repeat match goal with |- context [pbuild ?x ?y] => destruct (pbuild x y) as [? []]; cbn end; reflexivity.
  - intros t. induction t as [f|g IHg f IHf]; intros a; cbn [mbuild mleaves].
    + reflexivity.
    + rewrite fold_right_app, <- IHf, <- IHg. reflexivity.
Qed.
Theorem C111_chains_values : forall W A (combine : W -> W -> tr W) (ops : list (wstep W A)) w,
  value_of (wchain combine w ops) =
  fold_left (fun x op =>
    match op with
    | WMap f => (fst x, value_of (f (snd x)))
    | WBind f => let '(l, b) := value_of (f (snd x)) in (value_of (combine (fst x) l), b)
    end) ops w.
Proof.
  intros W A combine ops. induction ops as [|[f|f] ops IH]; intros [l a]; cbn [wchain fold_left]; [reflexivity| |].
  - rewrite <- IH. unfold hw_fmap, tbind, tret, value_of. cbn. destruct (f a); cbn.
    destruct (wchain combine _ ops) eqn:E. now rewrite ?E.
  - rewrite <- IH. unfold hw_bind, tbind, tret, value_of. cbn. destruct (f a) as [c [l' b]]; cbn.
    destruct (combine l l'); cbn. destruct (wchain combine _ ops) eqn:E. now rewrite ?E.
Qed.

(** ** Concrete cases *)
Definition inc (n : nat) : tr nat := tret (S n).
(** A thousand maps on a state computation: a thousand and one calls are active at once, and no more *)
Example C111_case_state : forall s, 
  nested 1001 (calls_of (hs_run (fold_left sdo (repeat (SMap inc) 1000) (hs_pure 0)) s))
  /\ within 1001 (hs_run (fold_left sdo (repeat (SMap inc) 1000) (hs_pure (S := nat) 0)) s).
Proof.
  intros s. split.
  - change 1001 with (1000 + 1). rewrite <- (repeat_length (SMap (S := nat) inc) 1000) at 1.
    apply C111_state_adds. intros s'. apply nested_tcall. constructor.
  - change 1001 with (1000 + 1). rewrite <- (repeat_length (SMap (S := nat) inc) 1000) at 1.
    apply C111_state_at_most.
    + intros s'. apply within_call. apply within_ret.
    + apply Forall_forall. intros op I. apply repeat_spec in I. subst. intros a. apply within_ret.
Qed.
Example C111_case_small :
  calls_of (hs_run (sdo (sdo (hs_pure 0) (SMap inc)) (SBind (fun a => tret (hs_pure (a + 5))))) 7)
  = [Call [Call [Call []]; Call []]].
Proof. reflexivity. Qed.
Example C111_case_reader :
  calls_of (hr_run (rdo (rdo (rdo (hr_new inc) (RLocal inc)) (RMap inc)) (RCombine (hr_new inc) (fun a b => tret (a + b)))) 7)
  = [Call [Call [Call [Call []]]; Call []]].
Proof. reflexivity. Qed.
Example C111_case_io :
  calls_of (hi_run (value_of (ichain (HEffect (inc 1)) [IMap inc; IBind (fun a => tret (HEffect (inc a)))])))
  = [Call [Call [Call []]; Call []]].
Proof. reflexivity. Qed.
Example C111_case_sequence :
  calls_of (hi_run (hi_sequence [HEffect (inc 1); HPure 2; HEffect (inc 3); HEffect (inc 4)]))
  = [Call [Call []; Call []; Call []]].
Proof. reflexivity. Qed.
Example C111_case_cont :
  calls_of (hc_run (fold_left kdo [KMap S; KBind S] (hc_pure 0)) (fun n => tret n))
  = [Call [Call [Call [Call [Call [Call [Call []]]]]]]].
Proof. reflexivity. Qed.
Example C111_case_morphism :
  calls_of (tcall (mbuild (MComp (MComp (MLeaf inc) (MLeaf inc)) (MComp (MLeaf inc) (MLeaf inc))) 0))
  = [Call [Call [Call []; Call []]; Call [Call []; Call []]]]
  /\ calls_of (tcall (mbuild (MComp (MLeaf inc) (MComp (MLeaf inc) (MComp (MLeaf inc) (MLeaf inc)))) 0))
     = [Call [Call [Call [Call []; Call []]; Call []]; Call []]]
  /\ calls_of (tcall (hm_sequence [inc; inc; inc; inc] 0)) = [Call []]
  /\ calls_of (tcall (hm_compose_all inc [inc; inc; inc; inc] 0)) = [Call [Call []; Call []; Call []; Call []]].
Proof. repeat split. Qed.
(** The second operand is not asked when the first one decides *)
Example C111_case_predicate :
  let even := fun n => tret (Nat.even n) in let small := fun n => tret (Nat.ltb n 5) in
  calls_of (hp_contains (pbuild (PUnion (PInter (PLeaf even) (PLeaf small)) (PNot (PLeaf small)))) 4)
  = [Call [Call [Call []; Call []]]]
  /\ calls_of (hp_contains (pbuild (PUnion (PInter (PLeaf even) (PLeaf small)) (PNot (PLeaf small)))) 3)
     = [Call [Call [Call []]; Call [Call []]]].
Proof. split; reflexivity. Qed.
Example C111_case_values :
  let even := fun n => tret (Nat.even n) in let small := fun n => tret (Nat.ltb n 5) in
  map (fun n => value_of (hp_contains (pbuild (PDiff (PInter (PLeaf even) (PLeaf small)) (PNot (PLeaf even)))) n)) [3; 4; 6]
  = [false; true; false]
  /\ value_of (mbuild (MComp (MLeaf (fun n => tret (2 * n))) (MLeaf inc)) 3) = 8
  /\ value_of (wchain (fun v w => tret (v ++ w)) ([1], 2) [WMap inc; WBind (fun n => tret ([n], n * 10))]) = ([1; 3], 30).
Proof. repeat split. Qed.
(** The caller's functions may make calls: they stay beside each other *)
Example C111_case_writer :
  calls_of (wchain (fun v w => tret (v ++ w)) ([1], 2)
              [WMap (fun n => tcall (inc n)); WBind (fun n => tcall (tret ([n], n + 1))); WMap (fun n => tcall (inc n))])
  = [Call []; Call []; Call []].
Proof. reflexivity. Qed.
Example C111_case_pipeline :
  calls_of (echain (mkEpipe (Ok 1 : result nat nat) [])
              [EMap (fun n => tcall (inc n)); EAndThen (fun n => tcall (tret (Err n))); EMap (fun n => tcall (inc n));
               EMapError (fun n => tcall (inc n)); ERecover (fun e => tcall (tret (Ok e)))])
  = [Call []; Call []; Call []; Call []].
Proof. reflexivity. Qed.

Print Assumptions C111_state_adds.
Print Assumptions C111_state_at_most.
Print Assumptions C111_state_loop.
Print Assumptions C111_reader_adds.
Print Assumptions C111_reader_at_most.
Print Assumptions C111_io_adds.
Print Assumptions C111_io_at_most.
Print Assumptions C111_io_pure_maps.
Print Assumptions C111_io_sequence.
Print Assumptions C111_io_loop.
Print Assumptions C111_cont_exact.
Print Assumptions C111_morphism_reaches.
Print Assumptions C111_morphism_at_most.
Print Assumptions C111_sequence.
Print Assumptions C111_compose_all.
Print Assumptions C111_predicate_reaches.
Print Assumptions C111_predicate_at_most.
Print Assumptions C111_writer_flat.
Print Assumptions C111_pipeline_flat.
Print Assumptions C111_same_values_state.
Print Assumptions C111_same_values_reader.
Print Assumptions C111_same_values_cont.
Print Assumptions C111_same_values_io.
Print Assumptions C111_same_values_morphism.
Print Assumptions C111_same_values_predicate.
Print Assumptions C111_same_values_writer.
Print Assumptions C111_same_values_pipeline.
Print Assumptions C111_trees_values.
Print Assumptions C111_chains_values.

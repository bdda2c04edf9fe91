(** Theorems for C100: what the random generators of test values can produce. *)
From Coq Require Import List Arith Lia.
From Verif Require Import Base Types SumModel ChoiceModel ValidatedModel EffModel IOModel ArbModel ArbSpec.
Import ListNotations.

Section Props.
Context {G : Type}.

Lemma reaches_draw : forall A B (m : gen G A) (k : A -> gen G B) a b,
  reaches m a -> reaches (k a) b -> reaches (draw m k) b.
Proof.
  intros A B m k a b Hm Hk next. destruct (Hk next) as [g1 E1]. destruct (Hm g1) as [g E].
  exists g. unfold draw. now rewrite E.
Qed.
Lemma reaches_give : forall A (a : A), reaches (give (G := G) a) a.
Proof. intros A a next. now exists next. Qed.

(** If every element can be drawn, so can every [Id], [Maybe], [Either], [Writer] and [Choice]. *)
Theorem C100_complete : forall T L R W (b : gen G bool) (t : gen G T) (l : gen G L) (r : gen G R) (w : gen G W)
    (ts : gen G (list T)),
  complete b -> complete t -> complete l -> complete r -> complete w -> complete ts ->
  complete (id_arbitrary t) /\ complete (mb_arbitrary b t) /\ complete (ei_arbitrary b l r) /\
  complete (wr_arbitrary w t) /\ complete (ch_arbitrary ts).
Proof.
  intros T L R W b t l r w ts Hb Ht Hl Hr Hw Hts. repeat split; intros x.
  - destruct x as [x]. eapply reaches_draw; [apply Ht|apply reaches_give].
  - destruct x as [x|].
    + eapply reaches_draw; [apply (Hb false)|]. cbn. eapply reaches_draw; [apply Ht|apply reaches_give].
    + eapply reaches_draw; [apply (Hb true)|]. apply reaches_give.
  - destruct x as [x|x]; intros next.
    + destruct (Hb true next) as [g2 E2].
      (* any right value will do; one exists because [r] can be run *)
      destruct (r g2) as [y g3] eqn:Er. destruct (Hr y g2) as [g1 E1]. destruct (Hl x g1) as [g E].
      exists g. unfold ei_arbitrary, draw. now rewrite E, E1, E2.
    + destruct (Hb false next) as [g2 E2]. destruct (Hr x g2) as [g1 E1].
      destruct (l g1) as [y g3] eqn:El. destruct (Hl y g1) as [g E].
      exists g. unfold ei_arbitrary, draw. now rewrite E, E1, E2.
  - destruct x as [y x]. eapply reaches_draw; [apply Ht|]. eapply reaches_draw; [apply Hw|apply reaches_give].
  - destruct x as [l0]. eapply reaches_draw; [apply (Hts l0)|]. destruct l0; apply reaches_give.
Qed.

(** The generator of [Validated] gives every value and every single error, and nothing else. *)
Theorem C100_validated_partial : forall E A (b : gen G bool) (a : gen G A) (e : gen G E),
  only (va_arbitrary b a e) (fun v => (exists x, v = Valid x) \/ (exists y, v = Invalid [y])) /\
  (complete b -> complete a -> complete e ->
     (forall x, reaches (va_arbitrary b a e) (Valid x)) /\ (forall y, reaches (va_arbitrary b a e) (Invalid [y]))).
Proof.
  intros E A b a e. split.
  - intros g. unfold va_arbitrary, draw, give. destruct (a g) as [x g1]. destruct (e g1) as [y g2].
    destruct (b g2) as [[] g3]; [left; now exists x|right; now exists y].
  - intros Hb Ha He. split.
    + intros x next. destruct (Hb true next) as [g2 E2]. destruct (e g2) as [y g3] eqn:Ee.
      destruct (He y g2) as [g1 E1]. destruct (Ha x g1) as [g E0].
      exists g. unfold va_arbitrary, draw. now rewrite E0, E1, E2.
    + intros y next. destruct (Hb false next) as [g2 E2]. destruct (He y g2) as [g1 E1].
      destruct (a g1) as [x g3] eqn:Ea. destruct (Ha x g1) as [g E0].
      exists g. unfold va_arbitrary, draw. now rewrite E0, E1, E2.
Qed.
(** So no random test ever sees two errors: whatever the element generators, the generator is incomplete. *)
Theorem C100_validated_refuted : forall E A (b : gen G bool) (a : gen G A) (e : gen G E) (x y : E) (g : G),
  fst (va_arbitrary b a e g) <> Invalid [x; y] /\ ~ complete (va_arbitrary b a e).
Proof.
  intros E A b a e x y g.
  assert (K : forall g, fst (va_arbitrary b a e g) <> Invalid [x; y]).
  { intros g'. destruct (proj1 (C100_validated_partial E A b a e) g') as [[z ->]|[z ->]]; discriminate. }
  split; auto. intros C. destruct (C (Invalid [x; y]) g) as [g' H]. apply (K g'). now rewrite H.
Qed.

(** Generated computations only ever return a drawn value; each of these can be drawn. *)
Theorem C100_computations_partial : forall S E R W A (a : gen G A),
  only (st_arbitrary a) (fun x : state S A => exists v, forall s, st_run x s = Ret (v, s)) /\
  only (rd_arbitrary a) (fun x : reader E A => exists v, forall e, rd_run x e = v) /\
  only (co_arbitrary a) (fun x : cont R A => exists v, forall k, co_run x k = k v) /\
  only (io_arbitrary a) (fun x : io W A => exists v, forall w, io_run x w = (w, Done v)) /\
  (complete a -> forall v,
     (exists x : state S A, reaches (st_arbitrary a) x /\ forall s, st_run x s = Ret (v, s)) /\
     (exists x : reader E A, reaches (rd_arbitrary a) x /\ forall e, rd_run x e = v) /\
     (exists x : cont R A, reaches (co_arbitrary a) x /\ forall k, co_run x k = k v) /\
     (exists x : io W A, reaches (io_arbitrary a) x /\ forall w, io_run x w = (w, Done v))).
Proof.
  intros S E R W A a.
  repeat match goal with |- _ /\ _ => split end.
  1-4: intros g; unfold st_arbitrary, rd_arbitrary, co_arbitrary, io_arbitrary, draw, give;
    destruct (a g) as [v g1]; exists v; reflexivity.
  intros Ha v. repeat split; eexists; (split; [eapply reaches_draw; [apply (Ha v)|apply reaches_give]|reflexivity]).
Qed.
(** No generated [State] changes the state, no generated [Reader] looks at its environment, no generated [IO] has an
    effect. *)
Theorem C100_computations_refuted : forall (a : gen G nat) (g : G),
  (exists x : state nat nat, forall s, st_run (fst (st_arbitrary a g)) s <> st_run x s) /\
  (exists x : reader nat nat, exists e, rd_run (fst (rd_arbitrary a g)) e <> rd_run x e) /\
  (exists x : io nat nat, forall w, io_run (fst (io_arbitrary a g)) w <> io_run x w).
Proof.
  intros a g. unfold st_arbitrary, rd_arbitrary, io_arbitrary, draw, give. destruct (a g) as [v g1]. repeat split.
  - exists (st_new (fun s => Ret (v, S s))). intros s H. cbn in H. injection H as H. lia.
  - exists (rd_new (fun e => e)), (S v). cbn. lia.
  - exists (io_new (fun w => (S w, Done v))). intros w H. cbn in H. injection H as H. lia.
Qed.
End Props.

(** A concrete generator state, a list of numbers, from which booleans, numbers and lists of numbers are read. *)
Definition pop : gen (list nat) nat := fun g => match g with [] => (0, []) | n :: g' => (n, g') end.
Definition pop_bool : gen (list nat) bool := fun g => let '(n, g') := pop g in (Nat.eqb n 1, g').
Definition pop_list : gen (list nat) (list nat) :=
  fun g => let '(n, g') := pop g in (firstn n g', skipn n g').
Example C100_case :
  complete pop /\ complete pop_bool /\ complete pop_list /\
  va_arbitrary pop_bool pop pop [3; 5; 0; 9] = (Invalid [5], [9]) /\
  ei_arbitrary pop_bool pop pop [3; 5; 1] = (Left 3, []) /\
  mb_arbitrary pop_bool pop [1; 7] = (Nothing, [7]) /\
  wr_arbitrary pop pop_bool [1; 7] = (mkWriter 7 true, []) /\
  ch_arbitrary pop_list [2; 4; 6; 8] = (mkChoice [4; 6], [8]).
Proof.
  split; [|split; [|split; [|repeat split]]].
  - intros x next. now exists (x :: next).
  - intros [] next; [exists (1 :: next)|exists (0 :: next)]; reflexivity.
  - intros l next. exists (length l :: l ++ next). cbn.
    now rewrite firstn_app, skipn_app, firstn_all, skipn_all, Nat.sub_diag, firstn_O, app_nil_r.
Qed.

Print Assumptions C100_complete.
Print Assumptions C100_validated_partial.
Print Assumptions C100_validated_refuted.
Print Assumptions C100_computations_partial.
Print Assumptions C100_computations_refuted.

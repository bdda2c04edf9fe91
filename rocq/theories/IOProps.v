(** Theorems about [IO]: C46 to C49. *)
From Coq Require Import String List Arith.
From Verif Require Import Base Types ErrModel ErrProps IOModel IOSpec.
Import ListNotations.

(** Case analysis on every run of given code that the goal mentions. *)
Ltac head_var t := lazymatch t with ?f _ => head_var f | _ => is_var t end.
Ltac runs := unfold cbind, cret; cbn; unfold cbind, cret; cbn; repeat (match goal with
  | |- context [match ?m with (_, _) => _ end] => head_var m; destruct m as [? [?|?]]
  end; unfold cbind, cret; cbn; unfold cbind, cret; cbn).

(** ** C46 *)
Section C46.
Context {W : Type}.
Lemma ceq_refl : forall A (m : comp W A), ceq m m.
Proof. now intros A m w. Qed.
Lemma cbind_assoc : forall A B C (m : comp W A) (f : A -> comp W B) (g : B -> comp W C),
  ceq (cbind (cbind m f) g) (cbind m (fun a => cbind (f a) g)).
Proof. intros A B C m f g w. unfold cbind. now destruct (m w) as [w' [a|p]]. Qed.
Lemma cbind_ext : forall A B (m n : comp W A) (f g : A -> comp W B),
  ceq m n -> (forall a, ceq (f a) (g a)) -> ceq (cbind m f) (cbind n g).
Proof. intros A B m n f g H K w. unfold cbind. rewrite H. destruct (n w) as [w' [a|p]]; auto. apply K. Qed.
Lemma cbind_ret_r : forall A (m : comp W A), ceq (cbind m cret) m.
Proof. intros A m w. unfold cbind. now destruct (m w) as [w' [a|p]]. Qed.
Lemma beq_refl : forall A (b : comp W (io W A)), beq b b.
Proof. intros A b w. destruct (b w) as [w' [a|p]]; split; auto. apply ceq_refl. Qed.
Lemma beq_ret : forall A (x y : io W A), ioeq x y -> beq (cret x) (cret y).
Proof. intros A x y H w. now split. Qed.
(** A build followed by a [run]. *)
Lemma beq_run : forall A (b c : comp W (io W A)), beq b c -> ceq (cbind b io_run) (cbind c io_run).
Proof.
  intros A b c H w. specialize (H w). unfold cbind.
  destruct (b w) as [w1 [x|p]], (c w) as [w2 [y|q]]; try contradiction; destruct H as [-> H]; [apply H | now rewrite H].
Qed.

Theorem C46_functor_laws :
  (forall A (x : io W A), beq (io_fmap x (fun a => cret a)) (cret x)) /\
  (forall A B C (x : io W A) (f : A -> comp W B) (g : B -> comp W C),
     beq (io_fmap x (fun a => cbind (f a) g)) (cbind (io_fmap x f) (fun y => io_fmap y g))).
Proof.
  split.
  - intros A [a|e]; cbn.
    + intros w. cbn. split; auto. apply ceq_refl.
    + apply beq_ret. apply cbind_ret_r.
  - intros A B C [a|e] f g w.
    + runs; split; auto. apply ceq_refl.
    + split; auto. intros w'. runs; auto.
Qed.
Theorem C46_monad_laws :
  (forall A B (a : A) (f : A -> comp W (io W B)), beq (io_bind (io_pure a) f) (f a)) /\
  (forall A (x : io W A), beq (io_bind x (fun a => cret (io_pure a))) (cret x)) /\
  (forall A B C (x : io W A) (f : A -> comp W (io W B)) (g : B -> comp W (io W C)),
     beq (cbind (io_bind x f) (fun y => io_bind y g)) (io_bind x (fun a => cbind (f a) (fun y => io_bind y g)))).
Proof.
  split; [|split].
  - intros. apply beq_refl.
  - intros A [a|e]; cbn.
    + apply beq_refl.
    + apply beq_ret. intros w. cbn. unfold cbind, cret. now destruct (e w) as [w' [a|p]].
  - intros A B C [a|e] f g; cbn.
    + apply beq_refl.
    + intros w. cbn. split; auto. intros w'. runs; auto.
      match goal with y : io W B |- _ => destruct y end; runs; auto.
Qed.
(** [fmap] and [apply] are the operations derived from [bind]. *)
Theorem C46_derived :
  (forall A B (x : io W A) (f : A -> comp W B),
     beq (io_fmap x f) (io_bind x (fun a => cbind (f a) (fun b => cret (io_pure b))))) /\
  (forall A B (x : io W A) (mf : io W (A -> comp W B)),
     beq (io_apply x mf) (io_bind mf (fun f => io_fmap x f))).
Proof.
  split.
  - intros A B [a|e] f; cbn.
    + apply beq_refl.
    + apply beq_ret. intros w. cbn. unfold cbind, cret. destruct (e w) as [w' [a|p]]; auto. now destruct (f a w') as [w2 [b|p]].
  - intros A B [a|e] [f|ef]; cbn; try apply beq_refl; apply beq_ret; intros w; runs; auto.
Qed.
(** The applicative laws, functions being possibly effectful closures.
    Composition needs the closure applied while building to be silent. *)
Theorem C46_applicative_laws :
  (forall A (x : io W A), beq (io_apply x (io_pure (fun a => cret a))) (cret x)) /\
  (forall A B (a : A) (f : A -> comp W B), beq (io_apply (io_pure a) (io_pure f)) (cbind (f a) (fun b => cret (io_pure b)))) /\
  (forall A B (a : A) (u : io W (A -> comp W B)),
     beq (io_apply (io_pure a) u) (io_apply u (io_pure (fun f => f a)))) /\
  (forall A B C (u : io W (B -> comp W C)) (v : io W (A -> comp W B)) (x : io W A),
     (forall f a, io_is_effect u = true -> v = io_pure f -> x = io_pure a -> exists b, silent (f a) (Done b)) ->
     beq (cbind (io_apply u (io_pure (fun g => cret (fun f => cret (fun a => cbind (f a) g)))))
            (fun uc => cbind (io_apply v uc) (fun uv => io_apply x uv)))
         (cbind (io_apply x v) (fun y => io_apply y u))).
Proof.
  split; [|split; [|split]].
  - intros A [a|e]; cbn.
    + intros w. cbn. split; auto. apply ceq_refl.
    + apply beq_ret. apply cbind_ret_r.
  - intros. apply beq_refl.
  - intros A B a [f|ef]; cbn; apply beq_refl.
  - intros A B C [g|eg] [f|ef] [a|e] N w; try (runs; auto; split; auto; intros w'; runs; auto; fail).
    + destruct (N f a eq_refl eq_refl eq_refl) as [b S]. unfold cbind, cret. cbn. unfold cbind, cret.
      rewrite S. cbn. split; auto. intros w'. cbn. unfold cbind, cret. destruct (eg w') as [w1 [g|p]]; auto.
      now rewrite S.
Qed.
(** Indistinguishable parts may be replaced. *)
Theorem C46_congruence : forall A B,
  (forall (x y : io W A) (f g : A -> comp W B), ioeq x y -> (forall a, ceq (f a) (g a)) ->
     ceq (cbind (io_fmap x f) io_run) (cbind (io_fmap y g) io_run)) /\
  (forall (x y : io W A) (f g : A -> comp W (io W B)), ioeq x y -> (forall a, beq (f a) (g a)) ->
     ceq (cbind (io_bind x f) io_run) (cbind (io_bind y g) io_run)).
Proof.
  assert (RF : forall A B (x : io W A) (f : A -> comp W B), ceq (cbind (io_fmap x f) io_run) (cbind (io_run x) f)).
  { intros A B [a|e] f w; cbn; unfold cbind, cret; cbn; auto. now destruct (f a w) as [w' [b|p]]. }
  assert (RB : forall A B (x : io W A) (f : A -> comp W (io W B)),
     ceq (cbind (io_bind x f) io_run) (cbind (io_run x) (fun a => cbind (f a) io_run))).
  { intros A B [a|e] f w; cbn; unfold cbind, cret; cbn; auto. now destruct (e w) as [w' [b|p]]. }
  intros A B. split; intros x y f g H K w.
  - rewrite RF, RF. now apply cbind_ext.
  - rewrite RB, RB. apply cbind_ext; auto. intros a. now apply beq_run.
Qed.
End C46.

(** The world used in the examples: a log. *)
Definition emit (n : nat) : comp (list nat) nat := fun log => (log ++ [n], Done n).
Definition fail (s : string) : comp (list nat) nat := fun log => (log, Panicked (PStr s)).
(** Without that condition composition fails: the closure of a pure value runs early. *)
Theorem C46_composition_refuted : exists (u v : io (list nat) (nat -> comp (list nat) nat)) x,
  ~ ceq (cbind (cbind (io_apply u (io_pure (fun g => cret (fun f => cret (fun a => cbind (f a) g)))))
            (fun uc => cbind (io_apply v uc) (fun uv => io_apply x uv))) io_run)
        (cbind (cbind (io_apply x v) (fun y => io_apply y u)) io_run).
Proof.
  exists (io_new (cbind (emit 1) (fun _ => cret (fun a => cret a)))), (io_pure emit), (io_pure 2).
  intros H. specialize (H []). discriminate H.
Qed.
Example C46_case :
  (cbind (io_bind (io_new (emit 1)) (fun a => cret (io_new (emit (a + 1))))) io_run) [] = ([1; 2], Done 2).
Proof. reflexivity. Qed.

(** ** C47 *)
(** Building on top of an effect, or with closures that do nothing, does nothing. *)
Theorem C47_lazy_partial : forall W A B,
  (forall (x : io W A) (f : A -> comp W B), io_is_effect x = true ->
     exists y, silent (io_fmap x f) (Done y) /\ forall w, io_run y w = cbind (io_run x) f w) /\
  (forall (x : io W A) (f : A -> comp W (io W B)), io_is_effect x = true ->
     exists y, silent (io_bind x f) (Done y) /\ forall w, io_run y w = cbind (io_run x) (fun a => cbind (f a) io_run) w) /\
  (forall (x : io W A) (u : io W (A -> comp W B)), io_is_effect x = true \/ io_is_effect u = true ->
     exists y, silent (io_apply x u) (Done y) /\
               forall w, io_run y w = cbind (io_run u) (fun f => cbind (io_run x) f) w) /\
  (forall (x : io W A) (f : A -> B), exists y, silent (io_fmap x (fun a => cret (f a))) (Done y)) /\
  (forall (x : io W A) (f : A -> io W B), exists y, silent (io_bind x (fun a => cret (f a))) (Done y)).
Proof.
  intros W A B. repeat split.
  - intros [a|e] f H; [discriminate|]. exists (IEffect (cbind e f)). split; now intros w.
  - intros [a|e] f H; [discriminate|]. eexists. split; [now intros w|]. intros w. cbn. apply cbind_assoc.
  - intros [a|e] [f|ef] [H|H]; try discriminate; eexists; (split; [now intros w|]); now intros w.
  - intros [a|e] f; eexists; now intros w.
  - intros [a|e] f; eexists; now intros w.
Qed.
(** Each run of a built effect performs the effects again: [n] runs of [fmap]/[bind]
    on an effect do to the world what [n] runs of its parts do. *)
Theorem C47_afresh : forall W A B (e : comp W A) n w,
  (forall f : A -> comp W B, exists y, io_fmap (io_new e) f w = (w, Done y) /\
     times n (io_run y) w = times n (cbind e f) w) /\
  (forall f : A -> comp W (io W B), exists y, io_bind (io_new e) f w = (w, Done y) /\
     times n (io_run y) w = times n (cbind e (fun a => cbind (f a) io_run)) w).
Proof.
  intros. assert (G : forall C (m m' : comp W C), ceq m m' -> forall n w, times n m w = times n m' w).
  { intros C m m' H. induction n0; intros; cbn; auto. now rewrite H. }
  split; intros f; eexists; (split; [reflexivity|]).
  - reflexivity.
  - apply G. cbn. apply cbind_assoc.
Qed.
(** [is_pure] and [is_effect] tell exactly how a value was built; mapping
    keeps a suspended value suspended. *)
Theorem C47_is_pure : forall W A (x : io W A),
  io_is_effect x = negb (io_is_pure x) /\
  (io_is_pure x = true <-> exists a, x = io_pure a) /\
  (io_is_effect x = true <-> exists e, x = io_new e) /\
  (forall B (f : A -> comp W B) w y, io_is_pure x = false -> io_fmap x f w = (w, Done y) -> io_is_pure y = false) /\
  (forall a w, x = io_pure a -> io_run x w = (w, Done a)).
Proof.
  intros W A [a|e]; repeat split; cbn; intros; try discriminate; eauto.
  - destruct H. discriminate.
  - cbn in *. injection H as ->. reflexivity.
  - destruct H. discriminate.
  - injection H0 as <-. reflexivity.
Qed.
(** The unrestricted claim fails: mapping an effectful closure over a pure
    value performs the effect while building, and running performs none. *)
Theorem C47_lazy_refuted : exists (x : io (list nat) nat) (f : nat -> comp (list nat) nat) y,
  io_fmap x f [] = ([7], Done y) /\ io_run y [7] = ([7], Done 7) /\
  (exists z, io_bind x (fun a => cbind (f a) (fun b => cret (io_pure b))) [] = ([7], Done z)) /\
  (exists z, io_apply x (io_pure f) [] = ([7], Done z)).
Proof. exists (io_pure 7), emit. eexists. repeat split; eexists; reflexivity. Qed.
Example C47_case :
  exists y, io_fmap (io_new (emit 1)) (fun a => emit (a + 10)) [] = ([], Done y) /\
            times 2 (io_run y) [] = [1; 11; 1; 11].
Proof. eexists. split; reflexivity. Qed.

(** ** C48 *)
Lemma run_collect_spec : forall W A (ios : list (io W A)) acc w,
  (forall w' l, in_order (map io_run ios) w w' (Done l) -> run_collect ios acc w = (w', Done (acc ++ l))) /\
  (forall w' p, in_order (map io_run ios) w w' (Panicked p) -> run_collect ios acc w = (w', Panicked p)).
Proof.
  induction ios as [|x ios IH]; intros acc w; cbn; split; intros w' l H; inversion H; subst.
  - now rewrite app_nil_r.
  - unfold cbind. match goal with K : goes _ _ _ _ |- _ => rewrite K end.
    rewrite (proj1 (IH _ _) _ _ ltac:(eassumption)). now rewrite <- app_assoc.
  - unfold cbind. match goal with K : goes _ _ _ _ |- _ => rewrite K end. reflexivity.
  - unfold cbind. match goal with K : goes _ _ _ _ |- _ => rewrite K end.
    now apply (proj2 (IH _ _)).
Qed.
Lemma in_order_total : forall W A (ms : list (comp W A)) w, exists w' r, in_order ms w w' r.
Proof.
  induction ms as [|m ms IH]; intros w.
  - eexists _, _. constructor.
  - destruct (m w) as [w1 [a|p]] eqn:H.
    + destruct (IH w1) as (w2 & [l|p] & K); eexists _, _; [eapply io_go | eapply io_go_stop]; eauto.
    + eexists _, _. apply io_stop. eauto.
Qed.
Theorem C48_sequence : forall W A (ios : list (io W A)) w w' r,
  io_run (io_sequence ios) w = (w', r) <-> in_order (map io_run ios) w w' r.
Proof.
  intros. cbn. assert (D : forall w' r, in_order (map io_run ios) w w' r -> run_collect ios [] w = (w', r)).
  { intros w1 [l|p] H; [now apply (proj1 (run_collect_spec _ _ ios [] w)) in H | now apply (proj2 (run_collect_spec _ _ ios [] w)) in H]. }
  split; [|apply D]. intros H. destruct (in_order_total _ _ (map io_run ios) w) as (w1 & r1 & K).
  pose proof (D _ _ K) as L. rewrite H in L. injection L; intros; now subst.
Qed.
Theorem C48_combine : forall W A B (x : io W A) (y : io W B) w,
  (forall w1 p, goes (io_run x) w w1 (Panicked p) -> goes (io_run (io_combine x y)) w w1 (Panicked p)) /\
  (forall w1 a, goes (io_run x) w w1 (Done a) ->
     (forall w2 p, goes (io_run y) w1 w2 (Panicked p) -> goes (io_run (io_combine x y)) w w2 (Panicked p)) /\
     (forall w2 b, goes (io_run y) w1 w2 (Done b) -> goes (io_run (io_combine x y)) w w2 (Done (a, b)))).
Proof.
  intros. unfold goes. cbn. unfold cbind, cret. split.
  - intros w1 p ->. reflexivity.
  - intros w1 a ->. split; intros w2 ? ->; reflexivity.
Qed.
(** [apply] runs the function side first, then the value side. *)
Theorem C48_apply : forall W A B (x : io W A) (u : io W (A -> comp W B)) w,
  cbind (io_apply x u) io_run w = cbind (io_run u) (fun f => cbind (io_run x) (fun a => f a)) w.
Proof.
  intros W A B [a|e] [f|ef] w; cbn; unfold cbind, cret; cbn; auto.
  now destruct (f a w) as [w' [b|p]].
Qed.
Theorem C48_when : forall W A (p : comp W bool) (c d : comp W A) w,
  (forall w1 b, goes p w w1 (Done b) -> io_run (io_when p c d) w = if b then c w1 else d w1) /\
  (forall w1 q, goes p w w1 (Panicked q) -> io_run (io_when p c d) w = (w1, Panicked q)).
Proof.
  intros. unfold goes. cbn. unfold cbind. split; intros w1 x ->; auto. now destruct x.
Qed.
Theorem C48_delay : forall W A (sleep : comp W unit) (a : A) w w1,
  goes sleep w w1 (Done tt) -> io_run (io_delay_sync sleep a) w = (w1, Done a).
Proof. intros W A s a w w1 H. cbn. unfold cbind. now rewrite H. Qed.

Definition message (p : payload) : string :=
  match p with PStr s | PString s => s | POther => "IO operation panicked with unknown error"%string end.
Lemma try_get_eq : forall W A (x : io W A) w w' r, goes (io_run x) w w' r ->
  io_try_get x w = (w', Done (match r with Done a => Ok a | Panicked p => Err (report [] (OtherError (message p))) end)).
Proof.
  intros W A x w w' r H. unfold goes in H. unfold io_try_get, cbind, catch_unwind. rewrite H.
  now destruct r as [a|[s|s|]].
Qed.
Lemma partition_run : forall W A (ios : list (io W A)) w w' rs,
  all_run (map io_run ios) w w' rs -> forall ss fs,
  partition_loop ss fs ios w =
  (w', Done (ss ++ flat_map (fun r => match r with Done a => [Ok a] | Panicked _ => [] end) rs,
             fs ++ map (fun p => Err (report [] (OtherError (message p)))) (panics rs))).
Proof.
  induction ios as [|x ios IH]; intros w w' rs H ss fs; inversion H; subst; cbn.
  - unfold cret. now rewrite !app_nil_r.
  - unfold cbind. erewrite try_get_eq by eassumption. destruct r as [a|p]; cbn.
    + erewrite IH by eassumption. now rewrite <- app_assoc.
    + erewrite IH by eassumption. now rewrite <- app_assoc.
Qed.
Lemma unwrap_all_ok : forall W A E (l : list A) (w : W), unwrap_all (map (@Ok A E) l) w = (w, Done l).
Proof. induction l; intros; cbn; auto. unfold cbind. now rewrite IHl. Qed.
Lemma unwrap_err_all_ok : forall W A E (l : list E) (w : W), unwrap_err_all (map (@Err A E) l) w = (w, Done l).
Proof. induction l; intros; cbn; auto. unfold cbind. now rewrite IHl. Qed.
(** [sequence_composable] runs everything once, in order, whatever fails; it
    returns all values in order, or all failures in order; it never panics. *)
Theorem C48_sequence_composable : forall W A (ios : list (io W A)) w,
  exists w' rs, all_run (map io_run ios) w w' rs /\
    (forall l, rs = map Done l -> io_sequence_composable ios w = (w', Done (Ok l))) /\
    (panics rs <> [] ->
       io_sequence_composable ios w = (w', Done (Err (map (fun p => report [] (OtherError (message p))) (panics rs))))).
Proof.
  intros. assert (T : exists w' rs, all_run (map io_run ios) w w' rs).
  { generalize (map io_run ios). intros ms. revert w. induction ms as [|m ms IH]; intros w.
    - eexists _, _. constructor.
    - destruct (m w) as [w1 r] eqn:H. destruct (IH w1) as (w2 & rs & K). eexists _, _. econstructor; eauto. }
  destruct T as (w' & rs & T). exists w', rs. split; auto.
  pose proof (partition_run _ _ _ _ _ _ T [] []) as P. cbn [app] in P. split.
  - intros l ->. unfold io_sequence_composable, cbind. rewrite P.
    replace (panics (map Done l)) with (@nil payload) by (clear; induction l; cbn; auto). cbn [map].
    replace (flat_map _ (map Done l)) with (map (@Ok A (cerr ioerror)) l)
      by (clear; induction l as [|x l IH]; cbn; [auto | now rewrite <- IH]).
    now rewrite unwrap_all_ok.
  - intros N. unfold io_sequence_composable, cbind. rewrite P.
    destruct (panics rs) as [|p ps]; [congruence|]. cbn [map].
    rewrite <- (map_map (fun p => report [] (OtherError (message p))) Err).
    change (Err (report [] (OtherError (message p))) :: map Err (map (fun p => report [] (OtherError (message p))) ps))
      with (map (@Err A (cerr ioerror)) (map (fun p => report [] (OtherError (message p))) (p :: ps))).
    now rewrite unwrap_err_all_ok.
Qed.
Example C48_case :
  io_run (io_sequence [io_new (emit 1); io_pure 5; io_new (emit 2)]) [] = ([1; 2], Done [1; 5; 2]) /\
  io_run (io_sequence [io_new (emit 1); io_new (fail "x"); io_new (emit 2)]) [] = ([1], Panicked (PStr "x")) /\
  io_sequence_composable [io_new (emit 1); io_new (fail "x"); io_new (emit 2); io_new (fail "y")] []
    = ([1; 2], Done (Err [ce_new (OtherError "x"); ce_new (OtherError "y")]))%string /\
  (cbind (io_apply (io_new (emit 1)) (io_new (cbind (emit 2) (fun n => cret (fun m => cret (n + m)))))) io_run) []
    = ([2; 1], Done 3).
Proof. now cbn. Qed.

(** ** C49 *)
Theorem C49_try_get : forall W A (x : io W A) w w' c,
  (forall a, goes (io_run x) w w' (Done a) ->
     io_try_get x w = (w', Done (Ok a)) /\ io_try_get_with_context x c w = (w', Done (Ok a)) /\
     io_try_get_composable_with_context x c w = (w', Done (Ok a)) /\
     io_into_error_pipeline x w = (w', Done (ep_new (Ok a)))) /\
  (forall p, goes (io_run x) w w' (Panicked p) ->
     io_try_get x w = (w', Done (Err (report [] (OtherError (message p))))) /\
     io_try_get_with_context x c w = (w', Done (Err (report [c] (OtherError (message p))))) /\
     io_try_get_composable_with_context x c w = (w', Done (Err (report [c] (OtherError (message p))))) /\
     io_into_error_pipeline x w = (w', Done (ep_new (Err (report [] (OtherError (message p))))))).
Proof.
  intros. split; intros r H;
  unfold io_try_get_composable_with_context, io_into_error_pipeline, cbind;
  rewrite (try_get_eq _ _ _ _ _ _ H); unfold io_try_get_with_context, cbind, catch_unwind; rewrite H; cbn.
  - auto.
  - now destruct r.
Qed.
Theorem C49_recover_partial : forall W A (x : io W A) (h : cerr ioerror -> comp W (io W A)) d w w',
  (forall a, goes (io_run x) w w' (Done a) ->
     io_run (io_recover x h) w = (w', Done a) /\ io_run (io_recover_with x d) w = (w', Done a)) /\
  (forall p, goes (io_run x) w w' (Panicked p) ->
     io_run (io_recover_with x d) w = (w', Done d) /\
     io_run (io_recover x h) w = cbind (h (report [] (OtherError (message p)))) io_run w').
Proof.
  intros. unfold io_recover, io_recover_with, io_new. cbn [io_run]. unfold cbind.
  split; intros r H; rewrite (try_get_eq _ _ _ _ _ _ H); auto.
Qed.
(** [recover_with] and [try_get] never panic; [recover] panics only if the handler does. *)
Theorem C49_no_panic : forall W A (x : io W A) (h : cerr ioerror -> comp W (io W A)) d c w w' p,
  io_try_get x w <> (w', Panicked p) /\
  io_try_get_with_context x c w <> (w', Panicked p) /\
  io_try_get_composable_with_context x c w <> (w', Panicked p) /\
  io_run (io_recover_with x d) w <> (w', Panicked p) /\
  (io_run (io_recover x h) w = (w', Panicked p) ->
     exists w1 e, cbind (h e) io_run w1 = (w', Panicked p)).
Proof.
  intros. destruct (io_run x w) as [w1 [a|q]] eqn:H.
  - pose proof (proj1 (C49_try_get _ _ x w w1 c) a H) as (-> & -> & -> & _).
    pose proof (proj1 (C49_recover_partial _ _ x h d w w1) a H) as (-> & ->).
    repeat split; intros; discriminate.
  - pose proof (proj2 (C49_try_get _ _ x w w1 c) q H) as (-> & -> & -> & _).
    pose proof (proj2 (C49_recover_partial _ _ x h d w w1) q H) as (-> & ->).
    repeat split; intros; try discriminate. eauto.
Qed.
(** A handler that itself fails is not contained: [recover] is not [try_get]. *)
Theorem C49_recover_handler_panics_refuted : exists (x : io (list nat) nat) h w p,
  io_run x w = (w, Panicked (PStr "first"%string)) /\ io_run (io_recover x h) w = (w, Panicked p).
Proof. exists (io_new (fail "first")), (fun _ => cret (io_new (fail "second"))), [], (PStr "second"). now split. Qed.
Example C49_case :
  let x := io_new (cbind (emit 1) (fun _ => fail "disk")) in
  io_run x [] = ([1], Panicked (PStr "disk")) /\
  io_try_get_with_context x "load" [] = ([1], Done (Err (mkCerr (OtherError "disk") ["load"] None)))%string /\
  io_run (io_recover_with x 9) [] = ([1], Done 9) /\
  io_run (io_recover x (fun _ => cret (io_new (emit 4)))) [] = ([1; 4], Done 4).
Proof. now cbn. Qed.

Print Assumptions C46_functor_laws.
Print Assumptions C46_monad_laws.
Print Assumptions C46_derived.
Print Assumptions C46_applicative_laws.
Print Assumptions C46_composition_refuted.
Print Assumptions C46_congruence.
Print Assumptions C47_lazy_partial.
Print Assumptions C47_afresh.
Print Assumptions C47_lazy_refuted.
Print Assumptions C48_sequence.
Print Assumptions C48_combine.
Print Assumptions C48_apply.
Print Assumptions C48_when.
Print Assumptions C48_delay.
Print Assumptions C48_sequence_composable.
Print Assumptions C49_try_get.
Print Assumptions C49_recover_partial.
Print Assumptions C49_no_panic.
Print Assumptions C49_recover_handler_panics_refuted.
Print Assumptions C47_is_pure.

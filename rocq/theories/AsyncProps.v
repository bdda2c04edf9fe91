(** Theorems about [AsyncM]: C53.  They hold for every world, every future and
    every behaviour of the environment between two polls. *)
From Coq Require Import List Arith Bool Lia.
From Verif Require Import Base Types LawSpec WrapModel AsyncModel AsyncSpec.
Import ListNotations.

Lemma await_unfold : forall W A env (x : fut W A) w, await env x w =
  match poll x w with
  | (Ready a, w') => Ended (Ret a) w' env
  | (Panicked, w') => Ended Panic w' env
  | (Pending x', w') => match env with [] => Stopped w' | g :: env' => await env' x' (g w') end
  end.
Proof. destruct env; reflexivity. Qed.
Lemma poll_bind : forall W A B (x : fut W A) (k : A -> fut W B) w, poll (fut_bind x k) w =
  match poll x w with
  | (Ready a, w') => poll (k a) w'
  | (Panicked, w') => (Panicked, w')
  | (Pending x', w') => (Pending (fut_bind x' k), w')
  end.
Proof. reflexivity. Qed.
Lemma await_bind : forall W A B env (x : fut W A) (k : A -> fut W B) w,
  await env (fut_bind x k) w = followed_by (await env x w) (fun a rest w' => await rest (k a) w').
Proof.
  intros W A B env. induction env as [|g env IH]; intros x k w; rewrite (await_unfold _ _ _ x), (await_unfold _ _ _ (fut_bind x k)), poll_bind;
    destruct (poll x w) as [[a| |x'] w']; cbn [followed_by]; auto; now rewrite (await_unfold _ _ _ (k a)).
Qed.
Lemma await_ready : forall W A env (a : A) (w : W), await env (fut_ready a) w = Ended (Ret a) w env.
Proof. intros. now rewrite await_unfold. Qed.
Lemma await_call : forall W A env (e : eff W (fut W A)) w,
  await env (fut_call e) w = match e w with (Ret x, w') => await env x w' | (Panic, w') => Ended Panic w' env end.
Proof. intros. rewrite await_unfold. cbn. destruct (e w) as [[x|] w']; auto. now rewrite (await_unfold _ _ _ x). Qed.
Lemma await_eff : forall W A env (e : eff W A) w, await env (fut_eff e) w = let '(o, w') := e w in Ended o w' env.
Proof. intros. rewrite await_unfold. cbn. destruct (e w) as [[x|] w']; auto. Qed.
Lemma await_catch : forall W A env (x : fut W A) w, await env (fut_catch x) w =
  match await env x w with
  | Ended (Ret a) w' rest => Ended (Ret (Ok a)) w' rest
  | Ended Panic w' rest => Ended (Ret (Err tt)) w' rest
  | Stopped w' => Stopped w'
  end.
Proof.
  intros W A env. induction env as [|g env IH]; intros x w; rewrite (await_unfold _ _ _ x), (await_unfold _ _ _ (fut_catch x)); cbn [poll fut_catch];
    destruct (poll x w) as [[a| |x'] w']; auto.
Qed.
Lemma followed_by_ext : forall W A B (s : seen W A) (k k' : A -> list (W -> W) -> W -> seen W B),
  (forall a r w, k a r w = k' a r w) -> followed_by s k = followed_by s k'.
Proof. intros W A B [[a|] w r|w] k k' H; cbn; auto. Qed.
Lemma followed_by_assoc : forall W A B C (s : seen W A) (k : A -> list (W -> W) -> W -> seen W B) (j : B -> list (W -> W) -> W -> seen W C),
  followed_by (followed_by s k) j = followed_by s (fun a r w => followed_by (k a r w) j).
Proof. intros W A B C [[a|] w r|w] k j; cbn; auto. Qed.
Lemma followed_by_ret : forall W A (s : seen W A), followed_by s (fun a r w => Ended (Ret a) w r) = s.
Proof. intros W A [[a|] w r|w]; cbn; auto. Qed.
Lemma await_fmap : forall W A B (m : asyncm W A) (f : A -> eff W (fut W B)) env w,
  await env (am_try_get (am_fmap m f)) w =
  followed_by (await env (am_try_get m) w) (fun a rest w' => await rest (fut_call (f a)) w').
Proof.
  intros W A B [v|run] f env w; cbn [am_fmap am_try_get]; rewrite await_call; cbn [eff_ret].
  - now rewrite await_ready.
  - now rewrite await_bind.
Qed.
Lemma await_am_bind : forall W A B (m : asyncm W A) (f : A -> eff W (fut W (asyncm W B))) env w,
  await env (am_try_get (am_bind m f)) w =
  followed_by (await env (am_try_get m) w) (fun a rest w' =>
    followed_by (await rest (fut_call (f a)) w') (fun mb rest' w'' => await rest' (am_try_get mb) w'')).
Proof.
  intros W A B [v|run] f env w; cbn [am_bind am_try_get]; rewrite await_call; cbn [eff_ret].
  - now rewrite await_ready, await_bind.
  - rewrite await_bind. apply followed_by_ext. intros. now rewrite await_bind.
Qed.

(** ** C53 *)
(** The sequential operations: the rest starts where the first part was ready,
    in the same poll, and a panic ends everything. *)
Theorem C53_sequencing : forall W A B (m : asyncm W A) (f : A -> eff W (fut W B)) (k : A -> eff W (fut W (asyncm W B)))
    (e : eff W (fut W A)) (v : A) env w,
  await env (am_try_get (am_pure v)) w = Ended (Ret v) w env /\
  await env (am_try_get (am_new e)) w = match e w with (Ret x, w') => await env x w' | (Panic, w') => Ended Panic w' env end /\
  await env (am_try_get (am_fmap m f)) w =
    followed_by (await env (am_try_get m) w) (fun a rest w' =>
      match f a w' with (Ret x, w'') => await rest x w'' | (Panic, w'') => Ended Panic w'' rest end) /\
  await env (am_try_get (am_bind m k)) w =
    followed_by (await env (am_try_get m) w) (fun a rest w' =>
      match k a w' with
      | (Ret x, w'') => followed_by (await rest x w'') (fun mb rest' v => await rest' (am_try_get mb) v)
      | (Panic, w'') => Ended Panic w'' rest
      end).
Proof.
  intros. split; [apply await_ready|]. split; [apply await_call|]. split.
  - rewrite await_fmap. apply followed_by_ext. intros. apply await_call.
  - rewrite await_am_bind. apply followed_by_ext. intros a r w'. rewrite await_call. now destruct (k a w') as [[x|] w''].
Qed.
(** Functor and monad laws for asynchronous closures. *)
Theorem C53_async_laws : forall W A B C (m : asyncm W A) (f : A -> eff W (fut W B)) (g : B -> eff W (fut W C))
    (k : A -> eff W (fut W (asyncm W B))) (j : B -> eff W (fut W (asyncm W C))) (v : A),
  am_eqv (am_fmap m (fun a => eff_ret (fut_ready a))) m /\
  am_eqv (am_fmap (am_fmap m f) g) (am_fmap m (fun a => eff_ret (fut_bind (fut_call (f a)) (fun b => fut_call (g b))))) /\
  fut_eqv (am_try_get (am_bind (am_pure v) k)) (fut_bind (fut_call (k v)) am_try_get) /\
  am_eqv (am_bind m (fun a => eff_ret (fut_ready (am_pure a)))) m /\
  am_eqv (am_bind (am_bind m k) j) (am_bind m (fun a => eff_ret (fut_bind (fut_call (k a)) (fun mb => fut_ready (am_bind mb j))))) /\
  am_eqv (am_fmap m f) (am_bind m (fun a => eff_ret (fut_bind (fut_call (f a)) (fun b => fut_ready (am_pure b))))).
Proof.
  intros W A B C m f g k j v. split; [|split; [|split; [|split; [|split]]]]; intros env w.
  - rewrite await_fmap. erewrite followed_by_ext; [apply followed_by_ret|]. intros. rewrite await_call. apply await_ready.
  - rewrite !await_fmap, followed_by_assoc. apply followed_by_ext. intros.
    rewrite (await_call _ _ _ (eff_ret _)). cbn [eff_ret]. now rewrite await_bind.
  - rewrite await_am_bind, await_bind. cbn [am_try_get am_pure]. now rewrite await_ready.
  - rewrite await_am_bind. erewrite followed_by_ext; [apply followed_by_ret|]. intros. rewrite await_call. cbn [eff_ret].
    rewrite await_ready. cbn. apply await_ready.
  - rewrite !await_am_bind, followed_by_assoc. apply followed_by_ext. intros.
    rewrite (await_call _ _ _ (eff_ret _)). cbn [eff_ret]. rewrite await_bind, !followed_by_assoc.
    apply followed_by_ext. intros. rewrite await_ready. cbn. now rewrite await_am_bind.
  - rewrite await_fmap, await_am_bind. apply followed_by_ext. intros.
    rewrite (await_call _ _ _ (eff_ret _)). cbn [eff_ret]. rewrite await_bind, followed_by_assoc.
    erewrite (followed_by_ext _ _ _ (await r (fut_call (f a)) w0)); [symmetry; apply followed_by_ret|].
    intros. rewrite await_ready. cbn. apply await_ready.
Qed.
(** The textbook laws, for closures that are ready at once. *)
Theorem C53_laws : forall W,
  let fmap := fun A B (f : A -> B) (m : asyncm W A) => am_fmap m (fun a => eff_ret (fut_ready (f a))) in
  let bind := fun A B (m : asyncm W A) (k : A -> asyncm W B) => am_bind m (fun a => eff_ret (fut_ready (k a))) in
  functor_laws (asyncm W) (@am_eqv W) fmap /\ monad_laws (asyncm W) (@am_eqv W) (@am_pure W) bind /\
  fmap_is_bind (asyncm W) (@am_eqv W) fmap (@am_pure W) bind.
Proof.
  intros W fmap bind.
  assert (F : forall A B (f : A -> B) (m : asyncm W A) env w, await env (am_try_get (fmap A B f m)) w =
    followed_by (await env (am_try_get m) w) (fun a rest w' => Ended (Ret (f a)) w' rest)).
  { intros. unfold fmap. rewrite await_fmap. apply followed_by_ext. intros. rewrite await_call. apply await_ready. }
  assert (Bd : forall A B (m : asyncm W A) (k : A -> asyncm W B) env w, await env (am_try_get (bind A B m k)) w =
    followed_by (await env (am_try_get m) w) (fun a rest w' => await rest (am_try_get (k a)) w')).
  { intros. unfold bind. rewrite await_am_bind. apply followed_by_ext. intros. rewrite await_call. cbn [eff_ret]. now rewrite await_ready. }
  split; [split|split; [split; [|split]|]].
  - intros A x env w. rewrite F. apply followed_by_ret.
  - intros A B C f g x env w. rewrite !F, followed_by_assoc. reflexivity.
  - intros A B x f env w. rewrite Bd. cbn [am_try_get am_pure]. now rewrite await_ready.
  - intros A m env w. rewrite Bd. erewrite followed_by_ext; [apply followed_by_ret|]. intros. apply await_ready.
  - intros A B C m f g env w. rewrite !Bd, followed_by_assoc. apply followed_by_ext. intros. now rewrite Bd.
  - intros A B f x env w. rewrite F, Bd. apply followed_by_ext. intros. symmetry. apply await_ready.
Qed.
Theorem C53_owned_agree : forall W A B (m : asyncm W A) (f : A -> eff W (fut W B)) (k : A -> eff W (fut W (asyncm W B))),
  am_eqv (am_fmap_owned m f) (am_fmap m f) /\ am_eqv (am_bind_owned m k) (am_bind m k).
Proof.
  intros. split; intros env w.
  - rewrite await_fmap. unfold am_fmap_owned. cbn [am_try_get]. rewrite await_call. cbn [eff_ret]. apply await_bind.
  - rewrite await_am_bind. unfold am_bind_owned. cbn [am_try_get]. rewrite await_call. cbn [eff_ret].
    rewrite await_bind. apply followed_by_ext. intros. apply await_bind.
Qed.
(** A panic while awaiting becomes the default, after the effects made until then. *)
Theorem C53_recover_with : forall W A (m : asyncm W A) d env w,
  await env (am_try_get (am_recover_with m d)) w =
  match await env (am_try_get m) w with Ended Panic w' rest => Ended (Ret d) w' rest | s => s end.
Proof.
  intros. unfold am_recover_with. cbn [am_try_get]. rewrite await_call. cbn [eff_ret]. rewrite await_bind, await_catch.
  destruct (await env (am_try_get m) w) as [[a|] w' r|w']; cbn; auto; apply await_ready.
Qed.
Theorem C53_from_result_or_default : forall W A E (f : eff W (fut W (result A E))) d env w,
  await env (am_try_get (am_from_result_or_default f d)) w =
  followed_by (await env (am_try_get (am_new f)) w) (fun r rest w' =>
    Ended (Ret (match r with Ok a => a | Err _ => d end)) w' rest).
Proof.
  intros. unfold am_from_result_or_default. cbn [am_try_get am_new]. rewrite (await_call _ _ _ (eff_ret _)). cbn [eff_ret].
  rewrite await_bind. apply followed_by_ext. intros [a|e] r w'; apply await_ready.
Qed.

(** *** Concurrent operations *)
Lemma poll_join : forall W A B order (x : branch W A) (y : branch W B) w, poll (join_branches order x y) w =
  match join_step (order 0) x y w with
  | (None, w') => (Panicked, w')
  | (Some (Finished a, Finished b), w') => (Ready (a, b), w')
  | (Some (x', y'), w') => (Pending (join_branches (fun n => order (S n)) x' y'), w')
  end.
Proof. reflexivity. Qed.
Lemma join_finished_left : forall W A B env order (a : A) (y : fut W B) w,
  await env (join_branches order (Finished a) (Running y)) w =
  followed_by (await env y w) (fun b rest w' => Ended (Ret (a, b)) w' rest).
Proof.
  intros W A B env. induction env as [|g env IH]; intros order a y w;
    rewrite await_unfold, poll_join, (await_unfold _ _ _ y); unfold join_step, branch_step; destruct (order 0);
    destruct (poll y w) as [[b| |y'] w']; cbn [followed_by]; auto.
Qed.
Lemma join_finished_right : forall W A B env order (x : fut W A) (b : B) w,
  await env (join_branches order (Running x) (Finished b)) w =
  followed_by (await env x w) (fun a rest w' => Ended (Ret (a, b)) w' rest).
Proof.
  intros W A B env. induction env as [|g env IH]; intros order x b w;
    rewrite await_unfold, poll_join, (await_unfold _ _ _ x); unfold join_step, branch_step; destruct (order 0);
    destruct (poll x w) as [[a| |x'] w']; cbn [followed_by]; auto.
Qed.
(** [zip_with], [zip], [apply] and [apply_owned], when built and then awaited,
    await both sides together and then call the function once. *)
Theorem C53_combination : forall W A B C order (m : asyncm W A) (n : asyncm W B) (f : A -> B -> eff W C)
    (mf : asyncm W (A -> eff W B)) env w,
  let both := fun T (k : A -> T -> eff W C) (n : asyncm W T) =>
    followed_by (await env (fut_join order (am_try_get m) (am_try_get n)) w)
      (fun '(a, b) rest w' => let '(o, w'') := k a b w' in Ended o w'' rest) in
  await_built env (am_zip_with order m n f) w = both B f n /\
  await_built env (am_zip order m n) w = await env (fut_join order (am_try_get m) (am_try_get n)) w /\
  await_built env (am_apply order m mf) w =
    followed_by (await env (fut_join order (am_try_get m) (am_try_get mf)) w)
      (fun '(a, g) rest w' => let '(o, w'') := g a w' in Ended o w'' rest) /\
  await env (am_try_get (am_apply_owned order m mf)) w =
    followed_by (await env (fut_join order (am_try_get m) (am_try_get mf)) w)
      (fun '(a, g) rest w' => let '(o, w'') := g a w' in Ended o w'' rest).
Proof.
  intros W A B C order m n f mf env w both.
  assert (R : forall T U (a : T) (b : U) v, await env (fut_join order (fut_ready a) (fut_ready b)) v = Ended (Ret (a, b)) v env).
  { intros. rewrite await_unfold. unfold fut_join. rewrite poll_join. unfold join_step, branch_step. cbn. now destruct (order 0). }
  assert (Z : forall T U V (m : asyncm W T) (n : asyncm W U) (f : T -> U -> eff W V),
    await_built env (am_zip_with order m n f) w =
    followed_by (await env (fut_join order (am_try_get m) (am_try_get n)) w)
      (fun '(a, b) rest w' => let '(o, w'') := f a b w' in Ended o w'' rest)).
  { intros T U V m' n' f'. unfold await_built, am_zip_with.
    assert (G : await env (am_try_get (AEffect (eff_ret (fut_bind (fut_join order (am_try_get m') (am_try_get n')) (fun '(a, b) => fut_eff (f' a b)))))) w
      = followed_by (await env (fut_join order (am_try_get m') (am_try_get n')) w)
      (fun '(a, b) rest w' => let '(o, w'') := f' a b w' in Ended o w'' rest)).
    { cbn [am_try_get]. rewrite await_call. cbn [eff_ret]. rewrite await_bind. apply followed_by_ext. intros [a b] r v. apply await_eff. }
    destruct m' as [a|]; [destruct n' as [b|]|]; try exact G.
    cbn [am_try_get]. rewrite R. cbn [followed_by]. unfold eff_bind. destruct (f' a b w) as [[c|] w']; auto.
    cbn. apply await_ready. }
  split; [apply Z|]. split; [|split].
  - unfold am_zip. rewrite Z. erewrite followed_by_ext; [apply followed_by_ret|]. now intros [a b] r v.
  - unfold await_built, am_apply.
    assert (G : await env (am_try_get (AEffect (eff_ret (fut_bind (fut_join order (am_try_get m) (am_try_get mf)) (fun '(a, g) => fut_eff (g a)))))) w
      = followed_by (await env (fut_join order (am_try_get m) (am_try_get mf)) w)
      (fun '(a, g) rest w' => let '(o, w'') := g a w' in Ended o w'' rest)).
    { cbn [am_try_get]. rewrite await_call. cbn [eff_ret]. rewrite await_bind. apply followed_by_ext. intros [a b] r v. apply await_eff. }
    destruct m as [a|]; [destruct mf as [g|]|]; try exact G.
    cbn [am_try_get]. rewrite R. cbn [followed_by]. unfold eff_bind. destruct (g a w) as [[c|] w']; auto.
    cbn. apply await_ready.
  - unfold am_apply_owned. cbn [am_try_get]. rewrite await_call. cbn [eff_ret]. rewrite await_bind.
    apply followed_by_ext. intros [a b] r v. apply await_eff.
Qed.
(** Awaiting together with a value that is there already changes nothing. *)
Theorem C53_join_ready : forall W A B order (a : A) (x : fut W B),
  fut_eqv (fut_join order (fut_ready a) x) (fut_bind x (fun b => fut_ready (a, b))) /\
  fut_eqv (fut_join order x (fut_ready a)) (fut_bind x (fun b => fut_ready (b, a))).
Proof.
  intros. split; intros env w; rewrite await_bind, (await_unfold _ _ _ x), await_unfold; unfold fut_join;
    rewrite poll_join; unfold join_step, branch_step; cbn [poll fut_ready]; destruct (order 0);
    destruct (poll x w) as [[b| |y'] w']; cbn [followed_by]; rewrite ?await_ready; auto;
    destruct env as [|g env]; auto; try rewrite join_finished_left; try rewrite join_finished_right;
    apply followed_by_ext; intros; symmetry; apply await_ready.
Qed.
Theorem C53_apply_laws : forall W A B order (m : asyncm W A) (v : A) (g : A -> eff W B) (mf : asyncm W (A -> eff W B)) env w,
  await_built env (am_apply order m (am_pure (fun a => eff_ret a))) w = await env (am_try_get m) w /\
  await_built env (am_apply order m (am_pure g)) w = await env (am_try_get (am_fmap m (fun a => eff_ret (fut_eff (g a))))) w /\
  await_built env (am_apply order (am_pure v) mf) w = await env (am_try_get (am_fmap mf (fun f => eff_ret (fut_eff (f v))))) w.
Proof.
  intros W A B order m v g mf env w.
  assert (G : forall T (g : A -> eff W T), await_built env (am_apply order m (am_pure g)) w =
    followed_by (await env (am_try_get m) w) (fun a rest w' => let '(o, w'') := g a w' in Ended o w'' rest)).
  { intros T g'. destruct (C53_combination W A T T order m (AEffect (fun w => (Panic, w))) (fun _ _ => (fun w => (Panic, w))) (am_pure g') env w) as (_ & _ & -> & _).
    cbn [am_try_get am_pure]. rewrite (proj2 (C53_join_ready W _ _ order g' (am_try_get m))), await_bind, followed_by_assoc.
    apply followed_by_ext. intros. now rewrite await_ready. }
  split; [|split].
  - rewrite G. erewrite followed_by_ext; [apply followed_by_ret|]. reflexivity.
  - rewrite G, await_fmap. apply followed_by_ext. intros. rewrite await_call. cbn [eff_ret]. now rewrite await_eff.
  - destruct (C53_combination W A B B order (am_pure v) (AEffect (fun w => (Panic, w))) (fun _ _ => (fun w => (Panic, w))) mf env w) as (_ & _ & -> & _).
    cbn [am_try_get am_pure]. rewrite (proj1 (C53_join_ready W _ _ order v (am_try_get mf))), await_bind, followed_by_assoc, await_fmap.
    apply followed_by_ext. intros. rewrite await_ready, await_call. cbn [eff_ret followed_by]. now rewrite await_eff.
Qed.
(** In a shared world: the pair that comes out is made of results of the two sides. *)
Theorem C53_join_results : forall W A B order env (x : fut W A) (y : fut W B) w a b w' rest,
  await env (fut_join order x y) w = Ended (Ret (a, b)) w' rest ->
  (exists env1 v v' rest1, await env1 x v = Ended (Ret a) v' rest1) /\
  (exists env2 v v' rest2, await env2 y v = Ended (Ret b) v' rest2).
Proof.
  intros W A B order env x y w a b w' rest. unfold fut_join.
  assert (G : forall env order (x : branch W A) (y : branch W B) w,
    await env (join_branches order x y) w = Ended (Ret (a, b)) w' rest ->
    (match x with Finished a' => a' = a | Running x => exists env1 v v' rest1, await env1 x v = Ended (Ret a) v' rest1 end) /\
    (match y with Finished b' => b' = b | Running y => exists env1 v v' rest1, await env1 y v = Ended (Ret b) v' rest1 end));
    [|apply (G env order (Running x) (Running y) w)].
  assert (Sx : forall T (bx : branch W T) v bx' v' (t : T), branch_step bx v = (Some bx', v') ->
    (match bx' with Finished a' => a' = t | Running x => exists env1 v v' rest1, await env1 x v = Ended (Ret t) v' rest1 end) ->
    (match bx with Finished a' => a' = t | Running x => exists env1 v v' rest1, await env1 x v = Ended (Ret t) v' rest1 end)).
  { intros T [z|t'] v bx' v' t E K; cbn in E; [|injection E as <- <-; exact K].
    destruct (poll z v) as [[r| |z'] u] eqn:P; [| discriminate |]; injection E as <- <-.
    - subst. exists [], v, u, []. now rewrite await_unfold, P.
    - destruct K as (env1 & v1 & v2 & r1 & K). exists ((fun _ => v1) :: env1), v, v2, r1. now rewrite await_unfold, P. }
  clear x y w env order. induction env as [|g env IH]; intros order x y w H; rewrite await_unfold, poll_join in H;
    destruct (join_step (order 0) x y w) as [[[x' y']|] v] eqn:J; try discriminate.
  - assert (K : exists v1 v2 v3 v4, branch_step x v1 = (Some x', v2) /\ branch_step y v3 = (Some y', v4)).
    { unfold join_step in J. destruct (order 0).
      - destruct (branch_step x w) as [[x1|] w1] eqn:E1; [|discriminate]. destruct (branch_step y w1) as [[y1|] w2] eqn:E2; [|discriminate].
        injection J as -> -> ->. eauto 8.
      - destruct (branch_step y w) as [[x1|] w1] eqn:E1; [|discriminate]. destruct (branch_step x w1) as [[y1|] w2] eqn:E2; [|discriminate].
        injection J as -> -> ->. eauto 8. }
    destruct K as (v1 & v2 & v3 & v4 & K1 & K2).
    destruct x' as [x'|a']; [discriminate|]. destruct y' as [y'|b']; [discriminate|]. injection H as -> -> _ _.
    split; [eapply Sx in K1 | eapply Sx in K2]; eauto; reflexivity.
  - assert (K : exists v1 v2 v3 v4, branch_step x v1 = (Some x', v2) /\ branch_step y v3 = (Some y', v4)).
    { unfold join_step in J. destruct (order 0).
      - destruct (branch_step x w) as [[x1|] w1] eqn:E1; [|discriminate]. destruct (branch_step y w1) as [[y1|] w2] eqn:E2; [|discriminate].
        injection J as -> -> ->. eauto 8.
      - destruct (branch_step y w) as [[x1|] w1] eqn:E1; [|discriminate]. destruct (branch_step x w1) as [[y1|] w2] eqn:E2; [|discriminate].
        injection J as -> -> ->. eauto 8. }
    destruct K as (v1 & v2 & v3 & v4 & K1 & K2).
    assert (Q : (match x' with Finished a' => a' = a | Running x => exists env1 v v' rest1, await env1 x v = Ended (Ret a) v' rest1 end) /\
      (match y' with Finished b' => b' = b | Running y => exists env1 v v' rest1, await env1 y v = Ended (Ret b) v' rest1 end)).
    { destruct x' as [x'|a']; [exact (IH _ _ _ _ H)|]. destruct y' as [y'|b']; [exact (IH _ _ _ _ H)|]. injection H as -> -> _ _. auto. }
    destruct Q as [Q1 Q2]. split; [eapply Sx in K1 | eapply Sx in K2]; eauto.
Qed.

Lemma poll_fst : forall V W A (x : fut V A) (w : V * W), poll (on_fst x) w =
  match poll x (fst w) with
  | (Ready a, v) => (Ready a, (v, snd w))
  | (Panicked, v) => (Panicked, (v, snd w))
  | (Pending x', v) => (Pending (on_fst x'), (v, snd w))
  end.
Proof. reflexivity. Qed.
Lemma poll_snd : forall V W A (x : fut W A) (w : V * W), poll (on_snd x) w =
  match poll x (snd w) with
  | (Ready a, v) => (Ready a, (fst w, v))
  | (Panicked, v) => (Panicked, (fst w, v))
  | (Pending x', v) => (Pending (on_snd x'), (fst w, v))
  end.
Proof. reflexivity. Qed.
Lemma await_rest : forall W A env (x : fut W A) w o w' rest, await env x w = Ended o w' rest ->
  exists used, env = used ++ rest.
Proof.
  intros W A env. induction env as [|g env IH]; intros x w o w' rest H; rewrite await_unfold in H;
    destruct (poll x w) as [[a| |x'] v]; try discriminate; try (injection H as <- <- <-; exists []; reflexivity).
  apply IH in H as [used ->]. exists (g :: used). reflexivity.
Qed.

Lemma await_rest_length : forall W A env (x : fut W A) w o w' rest, await env x w = Ended o w' rest ->
  length rest <= length env.
Proof. intros * H. apply await_rest in H as [used ->]. rewrite app_length. lia. Qed.
(** The world of a future that uses one half only. *)
Lemma await_snd : forall V W A (env : list ((V -> V) * (W -> W))) (y : fut W A) v w,
  await (map on_both env) (on_snd y) (v, w) =
  match await (map snd env) y w with
  | Ended o w' rest => let n := length env - length rest in
      Ended o (steps (firstn n (map fst env)) v, w') (skipn n (map on_both env))
  | Stopped w' => Stopped (steps (map fst env) v, w')
  end.
Proof.
  intros V W A env. induction env as [|[g h] env IH]; intros y v w; rewrite (await_unfold _ _ _ y), (await_unfold _ _ _ (on_snd y)), poll_snd;
    cbn [fst snd]; destruct (poll y w) as [[a| |y'] w']; cbn [map]; rewrite ?Nat.sub_diag; auto.
  - cbn [length map]. rewrite map_length, Nat.sub_diag. reflexivity.
  - cbn [length map]. rewrite map_length, Nat.sub_diag. reflexivity.
  - unfold on_both at 2. cbn [fst snd]. rewrite IH. destruct (await (map snd env) y' (h w')) as [o u rest|u] eqn:E.
    + apply await_rest_length in E. rewrite map_length in E. cbn [length].
      replace (S (length env) - length rest) with (S (length env - length rest)) by lia. reflexivity.
    + reflexivity.
Qed.
Lemma await_fst : forall V W A (env : list ((V -> V) * (W -> W))) (x : fut V A) v w,
  await (map on_both env) (on_fst x) (v, w) =
  match await (map fst env) x v with
  | Ended o v' rest => let n := length env - length rest in
      Ended o (v', steps (firstn n (map snd env)) w) (skipn n (map on_both env))
  | Stopped v' => Stopped (v', steps (map snd env) w)
  end.
Proof.
  intros V W A env. induction env as [|[g h] env IH]; intros y v w; rewrite (await_unfold _ _ _ y), (await_unfold _ _ _ (on_fst y)), poll_fst;
    cbn [fst snd]; destruct (poll y v) as [[a| |y'] w']; cbn [map]; rewrite ?Nat.sub_diag; auto.
  - cbn [length map]. rewrite map_length, Nat.sub_diag. reflexivity.
  - cbn [length map]. rewrite map_length, Nat.sub_diag. reflexivity.
  - unfold on_both at 2. cbn [fst snd]. rewrite IH. destruct (await (map fst env) y' (g w')) as [o u rest|u] eqn:E.
    + apply await_rest_length in E. rewrite map_length in E. cbn [length].
      replace (S (length env) - length rest) with (S (length env - length rest)) by lia. reflexivity.
    + reflexivity.
Qed.
(** Two futures that do not share anything: awaiting both gives both results, after
    as many polls as the slower one needs, each side seeing what it sees alone. *)
Theorem C53_join_independent : forall V W A B order (env : list ((V -> V) * (W -> W))) (x : fut V A) (y : fut W B) v w a b v' w' r1 r2,
  await (map fst env) x v = Ended (Ret a) v' r1 -> await (map snd env) y w = Ended (Ret b) w' r2 ->
  let n := Nat.max (length env - length r1) (length env - length r2) in
  await (map on_both env) (fut_join order (on_fst x) (on_snd y)) (v, w) =
  Ended (Ret (a, b)) (steps (firstn (n - (length env - length r1)) r1) v', steps (firstn (n - (length env - length r2)) r2) w')
    (skipn n (map on_both env)).
Proof.
  intros V W A B order env. revert order. induction env as [|[g h] env IH]; intros order x y v w a b v' w' r1 r2 Hx Hy.
  - cbn [map] in *. rewrite await_unfold in Hx, Hy |- *. unfold fut_join. rewrite poll_join. unfold join_step, branch_step.
    rewrite poll_fst, poll_snd. cbn [fst snd].
    destruct (poll x v) as [[a'| |x'] v1] eqn:Px; try discriminate. destruct (poll y w) as [[b'| |y'] w1] eqn:Py; try discriminate.
    injection Hx as -> -> <-. injection Hy as -> -> <-.
    destruct (order 0); rewrite ?poll_snd, ?poll_fst; cbn [fst snd]; rewrite ?Px, ?Py; reflexivity.
  - pose proof (await_rest_length _ _ _ _ _ _ _ _ Hx) as Lx. pose proof (await_rest_length _ _ _ _ _ _ _ _ Hy) as Ly.
    rewrite map_length in Lx, Ly. cbn zeta.
    cbn [map] in Hx, Hy |- *. rewrite await_unfold in Hx, Hy |- *. unfold fut_join. rewrite poll_join. unfold join_step, branch_step.
    assert (P : forall T (r : T),
      (if order 0 then r else r) = r) by (intros; now destruct (order 0)).
    destruct (poll x v) as [[a'| |x'] v1] eqn:Px; try discriminate; destruct (poll y w) as [[b'| |y'] w1] eqn:Py; try discriminate.
    + injection Hx as -> -> <-. injection Hy as -> -> <-. cbn [fst length map].
      rewrite !map_length, !Nat.sub_diag. cbn.
      destruct (order 0); rewrite ?poll_snd, ?poll_fst; cbn [fst snd]; rewrite ?Px, ?Py; cbn [fst snd]; rewrite ?poll_snd, ?poll_fst; cbn [fst snd]; rewrite ?Px, ?Py; reflexivity.
    + injection Hx as -> -> <-. cbn [fst length map] in *. rewrite !map_length, Nat.sub_diag, Nat.max_0_l, Nat.sub_0_r.
      pose proof (await_rest_length _ _ _ _ _ _ _ _ Hy) as Ly'. rewrite map_length in Ly'.
      replace (S (length env) - length r2) with (S (length env - length r2)) by lia. rewrite Nat.sub_diag. cbn [firstn skipn].
      transitivity (await (map on_both env) (join_branches (fun n => order (S n)) (Finished a) (Running (on_snd y'))) (g v', h w1)).
      { destruct (order 0); rewrite ?poll_snd, ?poll_fst; cbn [fst snd]; rewrite ?Px, ?Py; cbn [fst snd]; rewrite ?poll_snd, ?poll_fst; cbn [fst snd]; rewrite ?Px, ?Py; reflexivity. }
      rewrite join_finished_left, await_snd. cbn [snd] in Hy. rewrite Hy. cbn zeta. cbn [followed_by]. reflexivity.
    + injection Hy as -> -> <-. cbn [snd length map] in *. rewrite !map_length, Nat.sub_diag, Nat.max_0_r, Nat.sub_0_r.
      pose proof (await_rest_length _ _ _ _ _ _ _ _ Hx) as Lx'. rewrite map_length in Lx'.
      replace (S (length env) - length r1) with (S (length env - length r1)) by lia. rewrite Nat.sub_diag. cbn [firstn skipn].
      transitivity (await (map on_both env) (join_branches (fun n => order (S n)) (Running (on_fst x')) (Finished b)) (g v1, h w')).
      { destruct (order 0); rewrite ?poll_snd, ?poll_fst; cbn [fst snd]; rewrite ?Px, ?Py; cbn [fst snd]; rewrite ?poll_snd, ?poll_fst; cbn [fst snd]; rewrite ?Px, ?Py; reflexivity. }
      rewrite join_finished_right, await_fst. cbn [fst] in Hx. rewrite Hx. cbn zeta. cbn [followed_by]. reflexivity.
    + transitivity (await (map on_both env) (fut_join (fun n => order (S n)) (on_fst x') (on_snd y')) (g v1, h w1)).
      { destruct (order 0); rewrite ?poll_snd, ?poll_fst; cbn [fst snd]; rewrite ?Px, ?Py; cbn [fst snd]; rewrite ?poll_snd, ?poll_fst; cbn [fst snd]; rewrite ?Px, ?Py; reflexivity. }
      cbn [fst] in Hx. cbn [snd] in Hy.
      pose proof (await_rest_length _ _ _ _ _ _ _ _ Hx) as Lx'. pose proof (await_rest_length _ _ _ _ _ _ _ _ Hy) as Ly'.
      rewrite map_length in Lx', Ly'. rewrite (IH _ _ _ _ _ _ _ _ _ _ _ Hx Hy). cbn [length].
      replace (S (length env) - length r1) with (S (length env - length r1)) by lia.
      replace (S (length env) - length r2) with (S (length env - length r2)) by lia.
      cbn [Nat.max Nat.sub]. reflexivity.
Qed.
(** A panic on one side ends the whole, whatever the other side does. *)
Theorem C53_join_panic : forall V W A B order (env : list ((V -> V) * (W -> W))) (x : fut V A) (y : fut W B) v w,
  (exists v' r, await (map fst env) x v = Ended Panic v' r) \/ (exists w' r, await (map snd env) y w = Ended Panic w' r) ->
  exists z rest, await (map on_both env) (fut_join order (on_fst x) (on_snd y)) (v, w) = Ended Panic z rest.
Proof.
  intros V W A B order env. revert order. induction env as [|[g h] env IH]; intros order x y v w H.
  - cbn [map] in *. rewrite await_unfold. unfold fut_join. rewrite poll_join. unfold join_step, branch_step.
    rewrite poll_fst, poll_snd. cbn [fst snd].
    destruct H as [(v' & r & H)|(v' & r & H)]; rewrite await_unfold in H.
    + destruct (poll x v) as [[a'| |x'] v1] eqn:Px; try discriminate. destruct (order 0); [eauto|].
      destruct (poll y w) as [[b'| |y'] w1]; rewrite ?poll_fst; cbn [fst]; rewrite ?Px; eauto.
    + destruct (poll y w) as [[a'| |x'] v1] eqn:Px; try discriminate. destruct (order 0); [|eauto].
      destruct (poll x v) as [[b'| |y'] w1]; rewrite ?poll_snd; cbn [snd]; rewrite ?Px; eauto.
  - cbn [map] in *. rewrite await_unfold. unfold fut_join. rewrite poll_join. unfold join_step, branch_step.
    rewrite poll_fst, poll_snd. cbn [fst snd].
    destruct H as [(v' & r & H)|(v' & r & H)]; rewrite await_unfold in H; cbn [fst snd] in H.
    + destruct (poll x v) as [[a'| |x'] v1] eqn:Px; try discriminate.
      * destruct (order 0); [eauto|]. destruct (poll y w) as [[b'| |y'] w1]; rewrite ?poll_fst; cbn [fst]; rewrite ?Px; eauto.
      * destruct (poll y w) as [[b'| |y'] w1] eqn:Py.
        -- assert (G : exists z rest, await (map on_both env) (join_branches (fun n => order (S n)) (Running (on_fst x')) (Finished b')) (g v1, h w1) = Ended Panic z rest).
           { rewrite join_finished_right, await_fst, H. cbn. eauto. }
           destruct (order 0); rewrite ?poll_snd, ?poll_fst; cbn [fst snd]; rewrite ?Px, ?Py; exact G.
        -- destruct (order 0); rewrite ?poll_snd, ?poll_fst; cbn [fst snd]; rewrite ?Px, ?Py; eauto.
        -- assert (G := IH (fun n => order (S n)) x' y' (g v1) (h w1) (or_introl (ex_intro _ v' (ex_intro _ r H)))).
           destruct (order 0); rewrite ?poll_snd, ?poll_fst; cbn [fst snd]; rewrite ?Px, ?Py; exact G.
    + destruct (poll y w) as [[a'| |y'] w1] eqn:Py; try discriminate.
      * destruct (order 0); [|eauto]. destruct (poll x v) as [[b'| |x'] v1]; rewrite ?poll_snd; cbn [snd]; rewrite ?Py; eauto.
      * destruct (poll x v) as [[b'| |x'] v1] eqn:Px.
        -- assert (G : exists z rest, await (map on_both env) (join_branches (fun n => order (S n)) (Finished b') (Running (on_snd y'))) (g v1, h w1) = Ended Panic z rest).
           { rewrite join_finished_left, await_snd, H. cbn. eauto. }
           destruct (order 0); rewrite ?poll_snd, ?poll_fst; cbn [fst snd]; rewrite ?Px, ?Py; exact G.
        -- destruct (order 0); rewrite ?poll_snd, ?poll_fst; cbn [fst snd]; rewrite ?Px, ?Py; eauto.
        -- assert (G := IH (fun n => order (S n)) x' y' (g v1) (h w1) (or_intror (ex_intro _ v' (ex_intro _ r H)))).
           destruct (order 0); rewrite ?poll_snd, ?poll_fst; cbn [fst snd]; rewrite ?Px, ?Py; exact G.
Qed.
(** [apply] and [zip_with] on two pure values call the function while building:
    a panic there is outside the asynchronous value, so [recover_with] misses it,
    while [apply_owned] leaves it inside. *)
Theorem C53_recover_eager_refuted : exists W A B order (v : A) (f : A -> eff W B) d env w,
  await_built env (eff_bind (am_apply order (am_pure v) (am_pure f)) (fun m => eff_ret (am_recover_with m d))) w = Ended Panic w env /\
  await env (am_try_get (am_recover_with (am_apply_owned order (am_pure v) (am_pure f)) d)) w = Ended (Ret d) w env.
Proof.
  exists unit, nat, nat, (fun _ => true), 1, (fun _ w => (Panic, w)), 7, [], tt. split; reflexivity.
Qed.
(** A future that is pending [n] times, adding [e] to the trace at each poll. *)
Fixpoint ticks {A} (e : nat) (n : nat) (r : outcome A) : fut (list nat) A :=
  Fut (fun w => match n with
    | 0 => (match r with Ret a => Ready a | Panic => Panicked end, w ++ [e])
    | S n' => (Pending (ticks e n' r), w ++ [e])
    end).
Example C53_case :
  let m := am_new (eff_ret (ticks 1 2 (Ret 10))) in
  let n := am_new (eff_ret (ticks 2 1 (Ret 5))) in
  let idle := repeat (fun w : list nat => w) 5 in
  await idle (am_try_get (am_bind m (fun a => eff_ret (ticks 3 0 (Ret (am_pure (a + 1))))))) [] = Ended (Ret 11) [1; 1; 1; 3] (repeat (fun w => w) 3) /\
  await_built idle (am_zip Nat.even m n) [] = Ended (Ret (10, 5)) [1; 2; 2; 1; 1] (repeat (fun w => w) 3) /\
  await idle (am_try_get (am_recover_with (am_new (eff_ret (ticks 4 1 Panic))) 0)) [] = Ended (Ret 0) [4; 4] (repeat (fun w => w) 4) /\
  await [] (am_try_get m) [] = Stopped [1].
Proof. vm_compute. repeat split. Qed.
Print Assumptions C53_sequencing.
Print Assumptions C53_async_laws.
Print Assumptions C53_laws.
Print Assumptions C53_owned_agree.
Print Assumptions C53_recover_with.
Print Assumptions C53_from_result_or_default.
Print Assumptions C53_combination.
Print Assumptions C53_join_ready.
Print Assumptions C53_apply_laws.
Print Assumptions C53_join_results.
Print Assumptions C53_join_independent.
Print Assumptions C53_join_panic.
Print Assumptions C53_recover_eager_refuted.

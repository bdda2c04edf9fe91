(** C92: how often, when and in which order closures are called. *)
From Coq Require Import List Arith Bool Lia.
From Verif Require Import Base Types PvecModel PvecSpec PvecFacts PvecComb ChoiceModel ChoiceFacts SumModel ValidatedModel SemiModel
  UtilModel ErrModel WrapModel WalkSpec WalkProps CallModel CallSpec.
Import ListNotations.
Open Scope list_scope.

Section Run.
Context {W : Type}.
Notation eff := (eff W).
Lemma bindw {A B} (m : eff A) (k : A -> eff B) w :
  eff_bind m k w = match m w with (Ret a, w') => k a w' | (Panic, w') => (Panic, w') end.
Proof. reflexivity. Qed.
Fixpoint run_until {A B} (stop : B -> bool) (f : A -> eff B) (l : list A) : eff (list B) :=
  match l with
  | [] => eff_ret []
  | x :: l' => eff_bind (f x) (fun y =>
      if stop y then eff_ret [y] else eff_bind (run_until stop f l') (fun ys => eff_ret (y :: ys)))
  end.
Definition run {A B} (f : A -> eff B) (l : list A) : eff (list B) := run_until (fun _ => false) f l.

Lemma run_until_calls {A B} (stop : B -> bool) (f : A -> eff B) l : forall w,
  calls_until stop f l w (fst (run_until stop f l w)) (snd (run_until stop f l w)).
Proof.
  induction l as [|x l IH]; intros w; cbn; [constructor|].
  rewrite !bindw. destruct (f x w) as [[y|] w1] eqn:E; [|now constructor].
  destruct (stop y) eqn:Es; [now apply calls_stop with (y := y)|].
  rewrite !bindw. specialize (IH w1). destruct (run_until stop f l w1) as [r w2]. cbn in IH.
  assert (H : calls_until stop f (x :: l) w (omap (cons y) r) w2) by now apply calls_next with w1.
  now destruct r.
Qed.
Lemma run_calls {A B} (f : A -> eff B) l w : calls f l w (fst (run f l w)) (snd (run f l w)).
Proof. apply run_until_calls. Qed.
Lemma run_until_unique {A B} (stop : B -> bool) (f : A -> eff B) l w r w' :
  calls_until stop f l w r w' -> run_until stop f l w = (r, w').
Proof.
  induction 1 as [|x l w y w1 Hf Hs|x l w y w1 r w2 Hf Hs _ IH|x l w w1 Hf]; cbn; auto;
    unfold eff_bind at 1; rewrite Hf; auto; rewrite Hs; auto.
  rewrite !bindw. rewrite IH. now destruct r.
Qed.
Lemma for_in_threads {S A} (f : S -> A -> eff S) l : forall s w,
  threads f s l w (fst (for_in f s l w)) (snd (for_in f s l w)).
Proof.
  induction l as [|x l IH]; intros s w; cbn; [constructor|].
  rewrite !bindw. destruct (f s x w) as [[s1|] w1] eqn:E; [|now constructor].
  econstructor; [exact E|apply IH].
Qed.
Lemma threads_unique {S A} (f : S -> A -> eff S) s l w r w' :
  threads f s l w r w' -> for_in f s l w = (r, w').
Proof.
  induction 1 as [|s x l w s1 w1 r w2 Hf _ IH|s x l w w1 Hf]; cbn; auto; unfold eff_bind; now rewrite Hf.
Qed.
(** A loop that calls [f] once per element and updates a state. *)
Lemma for_in_run {S A B} (f : A -> eff B) (upd : S -> A -> B -> S) l : forall s w,
  for_in (fun s x => eff_bind (f x) (fun y => eff_ret (upd s x y))) s l w =
  (omap (fun ys => fold_left (fun s p => upd s (fst p) (snd p)) (combine l ys) s) (fst (run f l w)), snd (run f l w)).
Proof.
  unfold run. induction l as [|x l IH]; intros s w; cbn; [reflexivity|].
  rewrite !bindw. destruct (f x w) as [[y|] w1]; [|reflexivity]. cbn.
  rewrite IH, !bindw. now destruct (run_until _ f l w1) as [[ys|] w2].
Qed.
Lemma for_in_ext {S A} (f g : S -> A -> eff S) l : (forall s x w, f s x w = g s x w) ->
  forall s w, for_in f s l w = for_in g s l w.
Proof.
  intros H. induction l as [|x l IH]; intros s w; cbn; auto. rewrite !bindw. rewrite H.
  destruct (g s x w) as [[s1|] w1]; auto.
Qed.
Lemma for_in_app {S A} (f : S -> A -> eff S) l m : forall s w,
  for_in f s (l ++ m) w = eff_bind (for_in f s l) (fun s' => for_in f s' m) w.
Proof.
  induction l as [|x l IH]; intros s w; cbn; [reflexivity|].
  unfold eff_bind in *. destruct (f s x w) as [[s1|] w1]; auto.
Qed.
Lemma run_length {A B} (f : A -> eff B) l : forall w ys w', run f l w = (Ret ys, w') -> length ys = length l.
Proof.
  unfold run. induction l as [|x l IH]; intros w ys w'; cbn; [intros [= <- _]; auto|].
  rewrite !bindw. destruct (f x w) as [[y|] w1]; [|discriminate]. cbn. rewrite !bindw.
  destruct (run_until _ f l w1) as [[zs|] w2] eqn:E; [|discriminate]. intros [= <- _]. cbn.
  f_equal. eauto.
Qed.
(** What the updates used in the models add up to. *)
Lemma upd_map {A B} (l : list A) : forall (ys acc : list B), length ys = length l ->
  fold_left (fun s p => s ++ [snd p]) (combine l ys) acc = acc ++ ys.
Proof.
  induction l as [|x l IH]; intros [|y ys] acc H; try discriminate H; cbn; [now rewrite app_nil_r|].
  rewrite IH by (cbn in H; congruence). now rewrite <- app_assoc.
Qed.
Lemma upd_flat {A B} (g : A -> B -> list B) (l : list A) : forall (ys : list B) acc,
  fold_left (fun s p => s ++ g (fst p) (snd p)) (combine l ys) acc = acc ++ flat_map (fun p => g (fst p) (snd p)) (combine l ys).
Proof.
  induction l as [|x l IH]; intros [|y ys] acc; cbn; try now rewrite app_nil_r.
  now rewrite IH, <- app_assoc.
Qed.
Lemma map_collect_run {A B} (f : A -> eff B) l w : map_collect f l w = run f l w.
Proof.
  unfold map_collect. rewrite (for_in_run f (fun acc _ y => acc ++ [y])).
  destruct (run f l w) as [[ys|] w'] eqn:E; cbn; auto. apply run_length in E. now rewrite upd_map.
Qed.
Lemma fold_filter {A} (l : list A) : forall bs acc,
  fold_left (fun s p => if snd p : bool then s ++ [fst p] else s) (combine l bs) acc = acc ++ yes l bs.
Proof.
  unfold yes. induction l as [|x l IH]; intros [|b bs] acc; cbn; try now rewrite app_nil_r.
  rewrite IH. destruct b; cbn; auto. now rewrite <- app_assoc.
Qed.
Lemma filter_collect_run {A} (p : A -> eff bool) l w :
  filter_collect p l w = (omap (yes l) (fst (run p l w)), snd (run p l w)).
Proof.
  unfold filter_collect. rewrite (for_in_run p (fun acc x b => if b : bool then acc ++ [x] else acc)).
  destruct (run p l w) as [[bs|] w']; cbn; auto. f_equal. f_equal. apply (fold_filter l bs []).
Qed.
Lemma fold_somes {A B} (l : list A) : forall (os : list (option B)) acc, length os = length l ->
  fold_left (fun s p => match snd p with Some y => s ++ [y] | None => s end) (combine l os) acc = acc ++ somes os.
Proof.
  unfold somes. induction l as [|x l IH]; intros [|o os] acc H; try discriminate H; cbn; [now rewrite app_nil_r|].
  rewrite IH by (cbn in H; congruence). destruct o; cbn; auto. now rewrite <- app_assoc.
Qed.
Lemma fold_concat {A B} (l : list A) : forall (yss : list (list B)) acc, length yss = length l ->
  fold_left (fun s p => s ++ snd p) (combine l yss) acc = acc ++ concat yss.
Proof.
  induction l as [|x l IH]; intros [|o os] acc H; try discriminate H; cbn; [now rewrite app_nil_r|].
  rewrite IH by (cbn in H; congruence). now rewrite <- app_assoc.
Qed.
Lemma fold_partition {A} (l : list A) : forall bs a b,
  fold_left (fun s p => if snd p : bool then (fst s ++ [fst p], snd s) else (fst s, snd s ++ [fst p])) (combine l bs) (a, b)
  = (a ++ yes l bs, b ++ no l bs).
Proof.
  unfold yes, no. induction l as [|x l IH]; intros [|b bs] a a'; cbn; try now rewrite !app_nil_r.
  destruct b; cbn; rewrite IH, <- app_assoc; reflexivity.
Qed.

(** ** The vector's loop *)
Lemma pv_for_from_front {S T} (v : pvec T) (body : S -> T -> eff S) p l t : front v p l t ->
  forall fuel s w, length l < fuel ->
  pv_for_from fuel v p body s w =
    (obind (fst (for_in body s l w)) (fun r => upto t r), snd (for_in body s l w)).
Proof.
  induction 1 as [p E|p x l t E F IH|p E]; intros [|fuel] s w Hf; try (cbn in Hf; lia); cbn [pv_for_from];
    rewrite next_get, E; cbn [obind for_in fst snd upto]; auto.
  rewrite (proj2 (Nat.ltb_lt _ _) (get_some_lt E)), !bindw.
  destruct (body s x w) as [[s1|] w1]; auto. apply IH. cbn in Hf. lia.
Qed.
Lemma pv_for_list {S T} (v : pvec T) l t (body : S -> T -> eff S) s w : front v 0 l t ->
  pv_for v body s w = (obind (fst (for_in body s l w)) (fun r => upto t r), snd (for_in body s l w)).
Proof. intros H. apply (pv_for_from_front v body 0 l t H). pose proof (front_len H). lia. Qed.

(** Vector operations call their closure once per element, front to back: for the elements that asking the vector for
    position 0, 1, ... finds, up to the first position with nothing or the first panic of reading. *)
Theorem C92_vector : forall T U (v : pvec T) l s, front v 0 l s -> forall w,
  (forall f : T -> eff U, exists r w', calls f l w r w' /\
     pv_map_e f v w = (obind r (fun ys => upto s (pv_from_iter ys)), w')) /\
  (forall p : T -> eff bool, exists r w', calls p l w r w' /\
     pv_filter_e p v w = (obind r (fun bs => upto s (pv_from_iter (yes l bs))), w') /\
     pv_partition_e p v w = (obind r (fun bs => upto s (pv_from_iter (yes l bs), pv_from_iter (no l bs))), w')) /\
  (forall f : T -> eff (option U), exists r w', calls f l w r w' /\
     pv_filter_map_e f v w = (obind r (fun os => upto s (pv_from_iter (somes os))), w')) /\
  (forall f : T -> eff (list U), exists r w', calls f l w r w' /\
     pv_flat_map_e f v w = (obind r (fun ls => upto s (pv_from_iter (concat ls))), w')).
Proof.
  intros T U v l s H w. split; [|split; [|split]].
  - intros f. do 2 eexists. split; [apply run_calls|]. unfold pv_map_e. rewrite !bindw.
    rewrite (pv_for_list v l _ _ _ _ H).
    rewrite (for_in_run f (fun acc _ y => acc ++ [y])).
    destruct (run f l w) as [[ys|] w'] eqn:E; cbn; auto. apply run_length in E. rewrite upd_map by exact E.
    now destruct s.
  - intros p. do 2 eexists. split; [apply run_calls|]. split.
    + unfold pv_filter_e. rewrite !bindw. rewrite (pv_for_list v l _ _ _ _ H).
      rewrite (for_in_run p (fun acc x b => if b : bool then acc ++ [x] else acc)).
      destruct (run p l w) as [[bs|] w']; cbn; auto. rewrite fold_filter. now destruct s.
    + unfold pv_partition_e. rewrite !bindw. rewrite (pv_for_list v l _ _ _ _ H).
      rewrite (for_in_run p (fun s x b => if b : bool then (fst s ++ [x], snd s) else (fst s, snd s ++ [x]))).
      destruct (run p l w) as [[bs|] w']; cbn; auto. rewrite fold_partition. now destruct s.
  - intros f. do 2 eexists. split; [apply run_calls|]. unfold pv_filter_map_e. rewrite !bindw.
    rewrite (pv_for_list v l _ _ _ _ H).
    rewrite (for_in_run f (fun acc _ o => match o with Some y => acc ++ [y] | None => acc end)).
    destruct (run f l w) as [[ys|] w'] eqn:E; cbn; auto. apply run_length in E. rewrite fold_somes by exact E.
    now destruct s.
  - intros f. do 2 eexists. split; [apply run_calls|]. unfold pv_flat_map_e. rewrite !bindw.
    rewrite (pv_for_list v l _ _ _ _ H).
    rewrite (for_in_run f (fun acc _ ys => acc ++ ys)).
    destruct (run f l w) as [[ys|] w'] eqn:E; cbn; auto. apply run_length in E. rewrite fold_concat by exact E.
    now destruct s.
Qed.

(** Folds pass the accumulator along, front to back and back to front; from the back, positions with nothing are passed
    over. *)
Lemma fold_right_back_e {T B} (v : pvec T) (f : T -> B -> eff B) p l t : back v p l t -> forall b w,
  pv_fold_right_from_e p f b v w =
    (obind (fst (for_in (fun b x => f x b) b l w)) (fun r => upto t r), snd (for_in (fun b x => f x b) b l w)).
Proof.
  induction 1 as [|p x l t E _ IH|p l t E _ IH|p E]; intros b w; cbn [pv_fold_right_from_e]; rewrite ?E; auto.
  cbn [for_in]. rewrite !bindw. destruct (f x b w) as [[b1|] w1]; auto.
Qed.
Theorem C92_vector_folds : forall T B (v : pvec T) l s l' s', front v 0 l s -> back v (pv_len v) l' s' ->
  forall (init : B) w,
  (forall f, exists r w', threads f init l w r w' /\ pv_fold_e f init v w = (obind r (fun b => upto s b), w')) /\
  (forall f : T -> B -> eff B, exists r w', threads (fun b x => f x b) init l' w r w' /\
     pv_fold_right_e f init v w = (obind r (fun b => upto s' b), w')).
Proof.
  intros T B v l s l' s' H K init w. split; intros f; do 2 eexists; (split; [apply for_in_threads|]).
  - apply (pv_for_list v l _ _ _ _ H).
  - apply (fold_right_back_e v f _ _ _ K).
Qed.

(** Vectors that are observed as a list are walked through from end to end. *)
Theorem C92_walk_list : forall T (v : pvec T) l, represents v l ->
  front v 0 l (Ret tt) /\ back v (pv_len v) (rev l) (Ret tt).
Proof.
  intros T v l H. split; [now apply represents_front|]. destruct H as (Hl & Hg & _). rewrite Hl.
  rewrite <- (firstn_all l) at 2. apply back_full; auto. intros i x Hi. now rewrite Hg, Hi.
Qed.

(** ** Choice *)
Theorem C92_choice : forall T U (l : list T) w,
  (forall f : T -> eff U, exists r w', calls f l w r w' /\ ch_fmap_e f (mkChoice l) w = (omap mkChoice r, w')) /\
  (forall p : T -> eff bool, exists r w', calls p l w r w' /\
     ch_filter_values_e p (mkChoice l) w = (omap (fun bs => mkChoice (yes l bs)) r, w')) /\
  (forall p : T -> eff bool, exists r w', calls_until (fun b => b) p l w r w' /\
     ch_find_first_e p (mkChoice l) w = (omap (fun bs => hd_error (yes l bs)) r, w')) /\
  (forall K (keq : K -> K -> bool) (key : T -> eff K), exists r w', calls key l w r w' /\
     ch_dedup_by_key_e keq key (mkChoice l) w =
       (omap (fun ks => mkChoice (map fst (values (ch_dedup_by_key keq snd (mkChoice (combine l ks)))))) r, w') /\
     ch_to_map_with_key_e keq key (mkChoice l) w =
       (omap (fun ks => map (fun kx => (fst kx, fst (snd kx)))
                          (ch_to_map_with_key keq snd (mkChoice (combine l ks)))) r, w')).
Proof.
  intros T U l w. split; [|split; [|split]].
  - intros f. do 2 eexists. split; [apply run_calls|]. unfold ch_fmap_e. cbn [values].
    destruct l as [|x l]; [reflexivity|]. unfold run. cbn [run_until]. rewrite !bindw.
    destruct (f x w) as [[y|] w1]; cbn; auto. rewrite !bindw, map_collect_run. unfold run.
    now destruct (run_until _ f l w1) as [[ys|] w2].
  - intros p. do 2 eexists. split; [apply run_calls|]. unfold ch_filter_values_e. cbn [values]. rewrite !bindw.
    rewrite filter_collect_run. destruct (run p l w) as [[bs|] w']; cbn; auto.
    unfold eff_ret. f_equal. now destruct (yes l bs).
  - intros p. do 2 eexists. split; [apply run_until_calls|]. unfold ch_find_first_e. cbn [values].
    revert w. induction l as [|x l IH]; intros w; cbn; [reflexivity|].
    rewrite !bindw. destruct (p x w) as [[[]|] w1]; cbn; auto. rewrite IH, !bindw.
    now destruct (run_until (fun b : bool => b) p l w1) as [[bs|] w2].
  - intros K keq key. do 2 eexists. split; [apply run_calls|]. split.
    + unfold ch_dedup_by_key_e. cbn [values].
      transitivity (eff_bind (for_in (fun '(result, seen) x => eff_bind (key x) (fun k =>
             eff_ret (if existsb (keq k) seen then (result, seen) else (result ++ [x], k :: seen))))
             ([], []) l) (fun s => eff_ret (mkChoice (fst s))) w); [now destruct l|].
      rewrite !bindw.
      rewrite (for_in_ext _ (fun s x => eff_bind (key x) (fun k =>
        eff_ret (if existsb (keq k) (snd s) then s else (fst s ++ [x], k :: snd s)))))
        by (intros [a b] x w0; reflexivity).
      rewrite (for_in_run key (fun s x k => if existsb (keq k) (snd s) then s else (fst s ++ [x], k :: snd s))).
      destruct (run key l w) as [[ks|] w']; cbn; auto. unfold eff_ret. f_equal. f_equal. f_equal.
      unfold ch_dedup_by_key, ch_is_empty, ch_iter. cbn [values].
      assert (H : forall acc seen, fst (fold_left (fun s p => if existsb (keq (snd p)) (snd s) then s else (fst s ++ [fst p], snd p :: snd s)) (combine l ks) (acc, seen))
                  = acc ++ map fst (dedup_loop keq snd seen (combine l ks))).
      { generalize (combine l ks) as ps. induction ps as [|[x k] ps IH]; intros acc seen; cbn; [now rewrite app_nil_r|].
        destruct (existsb (keq k) seen); [apply IH|]. rewrite IH. cbn. now rewrite <- app_assoc. }
      rewrite H. now destruct (combine l ks).
    + unfold ch_to_map_with_key_e. cbn [values].
      rewrite (for_in_run key (fun m x k => if existsb (fun kv => keq k (fst kv)) m then m else m ++ [(k, x)])).
      destruct (run key l w) as [[ks|] w']; cbn; auto. f_equal. f_equal.
      unfold ch_to_map_with_key, ch_iter. cbn [values]. generalize (combine l ks) as ps. intros ps.
      enough (H : forall m, fold_left (fun s p => if existsb (fun kv => keq (snd p) (fst kv)) s then s else s ++ [(snd p, fst p)]) ps
        (map (fun kx : K * (T * K) => (fst kx, fst (snd kx))) m) =
        map (fun kx : K * (T * K) => (fst kx, fst (snd kx))) (to_map_loop keq snd m ps)) by exact (H []).
      induction ps as [|[x k] ps IH]; intros m; cbn; [reflexivity|].
      rewrite <- IH. f_equal.
      assert (E : existsb (fun kv => keq k (fst kv)) (map (fun kx : K * (T * K) => (fst kx, fst (snd kx))) m) =
                  existsb (fun kv => keq k (fst kv)) m).
      { induction m as [|q m IHm]; cbn; auto. now rewrite IHm. }
      rewrite E. destruct (existsb _ m); auto. now rewrite map_app.
Qed.
(** The first value is not offered to [filter] and [fmap_alternatives]. *)
Theorem C92_choice_alternatives : forall T (x : T) l w,
  (forall p : T -> eff bool, exists r w', calls p l w r w' /\
     ch_filter_e p (mkChoice (x :: l)) w = (omap (fun bs => mkChoice (x :: yes l bs)) r, w')) /\
  (forall f : T -> eff T, exists r w', calls f l w r w' /\
     ch_fmap_alternatives_e f (mkChoice (x :: l)) w = (omap (fun ys => mkChoice (x :: ys)) r, w')) /\
  (forall p, ch_filter_e p (mkChoice []) w = (Ret (mkChoice (@nil T)), w)) /\
  (forall f, ch_fmap_alternatives_e f (mkChoice []) w = (Ret (mkChoice (@nil T)), w)).
Proof.
  intros T x l w. split; [|split; [|split]]; try reflexivity.
  - intros p. do 2 eexists. split; [apply run_calls|]. unfold ch_filter_e. cbn [values skipn]. rewrite !bindw.
    rewrite filter_collect_run. now destruct (run p l w) as [[bs|] w'].
  - intros f. do 2 eexists. split; [apply run_calls|]. unfold ch_fmap_alternatives_e. cbn [values]. rewrite !bindw.
    rewrite map_collect_run. now destruct (run f l w) as [[bs|] w'].
Qed.
(** [bind] calls its closure on every value in order, unless the first call
    gives nothing: then there is no second call. *)
Theorem C92_choice_bind : forall T U (f : T -> eff (choice U)) x l w,
  (exists r w', calls f (x :: l) w r w' /\ (forall w1, f x w <> (Ret (mkChoice []), w1)) /\
     ch_bind_e f (mkChoice (x :: l)) w = (omap (fun cs => mkChoice (flat_map values cs)) r, w')) \/
  (exists w1, f x w = (Ret (mkChoice []), w1) /\
     ch_bind_e f (mkChoice (x :: l)) w = (Ret (mkChoice []), w1)).
Proof.
  intros T U f x l w. destruct (f x w) as [[[[|y ys]]|] w1] eqn:E.
  - right. exists w1. split; auto. unfold ch_bind_e. cbn [values]. rewrite !bindw. now rewrite E.
  - left. do 2 eexists. split; [apply run_calls|]. split; [congruence|].
    unfold ch_bind_e. cbn [values]. rewrite !bindw. rewrite E. cbn [values].
    rewrite !bindw. rewrite (for_in_run f (fun acc _ c => acc ++ values c)).
    unfold run. cbn [run_until]. rewrite !bindw. rewrite E. cbn. rewrite !bindw.
    destruct (run_until _ f l w1) as [[cs|] w2] eqn:F; cbn; auto.
    apply run_length in F. unfold eff_ret, ch_new. f_equal. f_equal. f_equal. cbn. f_equal.
    clear - F. revert cs ys F. induction l as [|x l IH]; intros [|c cs] ys F; try discriminate F; cbn; [now rewrite app_nil_r|].
    rewrite IH by (cbn in F; congruence). now rewrite app_assoc.
  - left. do 2 eexists. split; [apply run_calls|]. split; [congruence|].
    unfold ch_bind_e. cbn [values]. unfold run. cbn [run_until]. rewrite !bindw. now rewrite E.
Qed.
Theorem C92_choice_bind_empty : forall T U (f : T -> eff (choice U)) w,
  ch_bind_e f (mkChoice []) w = (Ret (mkChoice []), w).
Proof. reflexivity. Qed.
(** [bind_lazy] calls nothing until it is asked; each item asked for costs the
    calls up to the next value that gives something; taking everything calls the
    closure once per value. *)
Theorem C92_choice_bind_lazy : forall T U (f : T -> eff (choice U)) (outer : list T) w,
  (forall y inner, flat_next f outer (y :: inner) w = (Ret (Some y, (outer, inner)), w)) /\
  (exists r w', calls_until (fun c => match values c with [] => false | _ => true end) f outer w r w' /\
     flat_next f outer [] w =
       (omap (fun cs => (hd_error (flat_map values cs), (skipn (length cs) outer, tl (flat_map values cs)))) r, w')) /\
  (exists r w', calls f outer w r w' /\
     drains (fun s => flat_next f (fst s) (snd s)) (ch_bind_lazy_e (mkChoice outer)) w (omap (flat_map values) r) w').
Proof.
  intros T U f outer w. split; [now destruct outer|]. split.
  - do 2 eexists. split; [apply run_until_calls|]. revert w. induction outer as [|x outer IH]; intros w; cbn; [reflexivity|].
    rewrite !bindw. destruct (f x w) as [[[[|y ys]]|] w1]; cbn; auto.
    + rewrite IH, !bindw. destruct (run_until _ f outer w1) as [[cs|] w2]; reflexivity.
    + now rewrite app_nil_r.
  - do 2 eexists. split; [apply run_calls|]. unfold ch_bind_lazy_e. cbn [values]. unfold run.
    assert (Hin : forall inner outer w r w',
      drains (fun s => flat_next f (fst s) (snd s)) (outer, []) w r w' ->
      drains (fun s => flat_next f (fst s) (snd s)) (outer, inner) w (omap (app inner) r) w').
    { induction inner as [|y inner IH]; intros o w0 r w' H; [now destruct r|].
      replace (omap (app (y :: inner)) r) with (omap (cons y) (omap (app inner) r)) by now destruct r.
      eapply drains_item; [now destruct o|]. now apply IH. }
    assert (Hstep : forall x outer w w1, f x w = (Ret (mkChoice []), w1) -> forall r w',
      drains (fun s => flat_next f (fst s) (snd s)) (outer, []) w1 r w' ->
      drains (fun s => flat_next f (fst s) (snd s)) (x :: outer, []) w r w').
    { intros x o w0 w1 E r w' H.
      assert (F : flat_next f (x :: o) [] w0 = flat_next f o [] w1) by (cbn; unfold eff_bind; now rewrite E).
      inversion H as [? ? s1 ? N|? ? y s1 ? ? ? N D|? ? ? N]; subst; cbn [fst snd] in N; rewrite <- F in N.
      - eapply drains_end; exact N.
      - eapply drains_item; [exact N|exact D].
      - eapply drains_panic; exact N. }
    revert w. induction outer as [|x outer IH]; intros w.
    { cbn. eapply drains_end. reflexivity. }
    cbn [run_until]. rewrite !bindw. destruct (f x w) as [[[ys]|] w1] eqn:E.
    2:{ apply drains_panic. cbn. rewrite !bindw. now rewrite E. }
    cbn. rewrite !bindw. specialize (IH w1). destruct (run_until _ f outer w1) as [r w2] eqn:R. cbn [fst snd] in IH.
    destruct ys as [|y ys].
    + destruct r; (eapply Hstep; [exact E|]); exact IH.
    + assert (G : drains (fun s => flat_next f (fst s) (snd s)) (x :: outer, []) w
                    (omap (cons y) (omap (app ys) (omap (flat_map values) r))) w2).
      { eapply drains_item; [cbn; unfold eff_bind; now rewrite E|]. now apply Hin. }
      now destruct r.
Qed.

(** Products: every pair (or triple) once; the order is part of the claim. *)
Lemma for_in_prod {S A B} (f : S -> A -> B -> eff S) (la : list A) (lb : list B) : forall s w,
  for_in (fun s a => for_in (fun s b => f s a b) s lb) s la w =
  for_in (fun s p => f s (fst p) (snd p)) s (list_prod la lb) w.
Proof.
  induction la as [|a la IH]; intros s w; cbn; [reflexivity|].
  rewrite for_in_app. rewrite !bindw.
  assert (E : forall s w, for_in (fun s b => f s a b) s lb w = for_in (fun s p => f s (fst p) (snd p)) s (map (fun b => (a, b)) lb) w).
  { clear. induction lb as [|b lb IH]; intros s w; cbn; [reflexivity|]. rewrite !bindw.
    destruct (f s a b w) as [[s1|] w1]; auto. }
  rewrite E. destruct (for_in _ s (map _ lb) w) as [[s1|] w1]; auto.
Qed.
Lemma run_cons {A B} (f : A -> eff B) x l w :
  run f (x :: l) w = eff_bind (f x) (fun y => eff_bind (run f l) (fun ys => eff_ret (y :: ys))) w.
Proof. reflexivity. Qed.
Lemma run_app {A B} (f : A -> eff B) l m : forall w,
  run f (l ++ m) w = eff_bind (run f l) (fun ys => eff_bind (run f m) (fun zs => eff_ret (ys ++ zs))) w.
Proof.
  induction l as [|x l IH]; intros w.
  - unfold run at 2. cbn [run_until app]. unfold eff_bind, eff_ret. now destruct (run f m w) as [[zs|] w'].
  - cbn [app]. rewrite !run_cons. unfold eff_bind, eff_ret in *. rewrite run_cons. unfold eff_bind, eff_ret.
    destruct (f x w) as [[y|] w1]; auto. rewrite IH.
    destruct (run f l w1) as [[ys|] w2]; auto. now destruct (run f m w2) as [[zs|] w3].
Qed.
Lemma run_map {A B C} (f : B -> eff C) (g : A -> B) l : forall w, run f (map g l) w = run (fun x => f (g x)) l w.
Proof.
  induction l as [|x l IH]; intros w; [reflexivity|]. cbn [map]. rewrite !run_cons. unfold eff_bind, eff_ret.
  destruct (f (g x) w) as [[y|] w1]; auto. now rewrite IH.
Qed.
Lemma run_ext {A B} (f g : A -> eff B) l : (forall x w, f x w = g x w) -> forall w, run f l w = run g l w.
Proof.
  intros H. induction l as [|x l IH]; intros w; [reflexivity|]. rewrite !run_cons. unfold eff_bind, eff_ret.
  rewrite H. destruct (g x w) as [[y|] w1]; auto. now rewrite IH.
Qed.
(** Pushing results, starting from what is there. *)
Lemma for_in_push {A B} (f : A -> eff B) l : forall acc w,
  for_in (fun acc x => eff_bind (f x) (fun y => eff_ret (acc ++ [y]))) acc l w =
  eff_bind (run f l) (fun ys => eff_ret (acc ++ ys)) w.
Proof.
  intros acc w. rewrite (for_in_run f (fun acc _ y => acc ++ [y])). rewrite !bindw.
  destruct (run f l w) as [[ys|] w'] eqn:E; cbn; auto. apply run_length in E. now rewrite upd_map.
Qed.
(** The loops over positions that skip the very first one. *)
Lemma for_in_map {S A B} (f : S -> B -> eff S) (g : A -> B) l : forall s w,
  for_in f s (map g l) w = for_in (fun s x => f s (g x)) s l w.
Proof.
  induction l as [|x l IH]; intros s w; cbn; auto. rewrite !bindw.
  destruct (f s (g x) w) as [[s1|] w1]; auto.
Qed.
Lemma enumerate_cons {A} (x : A) l : enumerate (x :: l) = (0, x) :: map (fun p => (Datatypes.S (fst p), snd p)) (enumerate l).
Proof.
  unfold enumerate. cbn [length seq combine]. f_equal. rewrite <- seq_shift.
  generalize (seq 0 (length l)) as ns. induction l as [|y l IH]; intros [|n ns]; cbn; auto. now rewrite IH.
Qed.
Lemma map_snd_enumerate {A} (l : list A) : map snd (enumerate l) = l.
Proof.
  unfold enumerate. generalize 0. induction l as [|x l IH]; intros n; cbn; auto. now rewrite IH.
Qed.
Lemma for_in_enumerate {S A} (f : S -> A -> eff S) l s w :
  for_in (fun s p => f s (snd p)) s (enumerate l) w = for_in f s l w.
Proof. rewrite <- (for_in_map f snd). now rewrite map_snd_enumerate. Qed.
Lemma flat_map_prod {A B} (la : list A) (lb : list B) :
  flat_map (fun a => map (fun b => (a, b)) lb) la = list_prod la lb.
Proof. induction la as [|a la IH]; cbn; auto. now rewrite IH. Qed.
Lemma list_prod_map {A B A' B'} (f : A -> A') (g : B -> B') la lb :
  list_prod (map f la) (map g lb) = map (fun p => (f (fst p), g (snd p))) (list_prod la lb).
Proof.
  induction la as [|a la IH]; cbn; auto. rewrite map_app, IH, !map_map. reflexivity.
Qed.
Lemma skip_push {X Y} (first : X -> bool) (g : X -> eff Y) l : Forall (fun p => first p = false) l -> forall acc w,
  for_in (fun acc p => if first p then eff_ret acc else eff_bind (g p) (fun y => eff_ret (acc ++ [y]))) acc l w =
  eff_bind (run g l) (fun ys => eff_ret (acc ++ ys)) w.
Proof.
  intros H acc w. rewrite <- for_in_push. revert acc w. induction H as [|x l Hx _ IH]; intros acc w; cbn; auto.
  rewrite Hx, !bindw. destruct (g x w) as [[y|] w1]; cbn; auto.
Qed.
Lemma in_enumerate_tl {A} (l : list A) p : In p (map (fun p => (Datatypes.S (fst p), snd p)) (enumerate l)) -> (fst p =? 0) = false.
Proof. intros H. apply in_map_iff in H as (q & <- & _). reflexivity. Qed.
Lemma skip_first2 {A B C} (f : A -> B -> eff C) a la b lb acc w :
  for_in (fun acc '(i, x) => for_in (fun acc '(j, y) =>
      if (i =? 0) && (j =? 0) then eff_ret acc else eff_bind (f x y) (fun c => eff_ret (acc ++ [c])))
      acc (enumerate (b :: lb))) acc (enumerate (a :: la)) w =
  eff_bind (run (fun p => f (fst p) (snd p)) (tl (list_prod (a :: la) (b :: lb))))
           (fun ys => eff_ret (acc ++ ys)) w.
Proof.
  pose (first := fun p : nat * A * (nat * B) => (fst (fst p) =? 0) && (fst (snd p) =? 0)).
  pose (val := fun p : nat * A * (nat * B) => (snd (fst p), snd (snd p))).
  pose (F := fun p : A * B => f (fst p) (snd p)).
  transitivity (for_in (fun acc p => if first p then eff_ret acc else eff_bind (F (val p)) (fun y => eff_ret (acc ++ [y]))) acc
    (list_prod (enumerate (a :: la)) (enumerate (b :: lb))) w).
  { rewrite (for_in_ext _ (fun acc p => if first (fst p, snd p) then eff_ret acc
                  else eff_bind (F (val (fst p, snd p))) (fun y => eff_ret (acc ++ [y])))) by (intros s [x y] w0; reflexivity).
    rewrite <- (for_in_prod (fun acc x y => if first (x, y) then eff_ret acc
                  else eff_bind (F (val (x, y))) (fun y => eff_ret (acc ++ [y])))).
    apply for_in_ext. intros s [i x] w0. apply for_in_ext. intros s' [j y] w1. reflexivity. }
  assert (Hv : list_prod (a :: la) (b :: lb) = map val (list_prod (enumerate (a :: la)) (enumerate (b :: lb)))).
  { rewrite <- (map_snd_enumerate (a :: la)) at 1. rewrite <- (map_snd_enumerate (b :: lb)) at 1.
    rewrite !list_prod_map. reflexivity. }
  rewrite Hv. rewrite !enumerate_cons. cbn [list_prod map app tl for_in]. rewrite bindw.
  unfold first at 1. cbn [fst snd Nat.eqb andb]. unfold eff_ret at 1.
  fold F. rewrite (skip_push first (fun p => F (val p))).
  - rewrite !bindw. now rewrite (run_map F val).
  - apply Forall_forall. intros p Hp. unfold first.
    rewrite in_app_iff, in_map_iff in Hp. destruct Hp as [(q & <- & Hq)|Hp].
    + cbn. now apply in_enumerate_tl in Hq.
    + destruct p as [p q]. apply in_prod_iff in Hp as [Hp _]. apply in_enumerate_tl in Hp. cbn in *. now rewrite Hp.
Qed.
Lemma skip_first3 {A B C D} (f : A -> B -> C -> eff D) a la b lb c lc acc w :
  for_in (fun acc '(i, x) => for_in (fun acc '(j, y) => for_in (fun acc '(k, z) =>
      if (i =? 0) && (j =? 0) && (k =? 0) then eff_ret acc else eff_bind (f x y z) (fun c => eff_ret (acc ++ [c])))
      acc (enumerate (c :: lc))) acc (enumerate (b :: lb))) acc (enumerate (a :: la)) w =
  eff_bind (run (fun p => f (fst (fst p)) (snd (fst p)) (snd p)) (tl (list_prod (list_prod (a :: la) (b :: lb)) (c :: lc))))
           (fun ys => eff_ret (acc ++ ys)) w.
Proof.
  pose (first := fun p : nat * A * (nat * B) * (nat * C) =>
    (fst (fst (fst p)) =? 0) && (fst (snd (fst p)) =? 0) && (fst (snd p) =? 0)).
  pose (val := fun p : nat * A * (nat * B) * (nat * C) => (snd (fst (fst p)), snd (snd (fst p)), snd (snd p))).
  pose (F := fun p : A * B * C => f (fst (fst p)) (snd (fst p)) (snd p)).
  transitivity (for_in (fun acc p => if first p then eff_ret acc else eff_bind (F (val p)) (fun y => eff_ret (acc ++ [y]))) acc
    (list_prod (list_prod (enumerate (a :: la)) (enumerate (b :: lb))) (enumerate (c :: lc))) w).
  { rewrite (for_in_ext _ (fun acc p => if first (fst p, snd p) then eff_ret acc
                  else eff_bind (F (val (fst p, snd p))) (fun y => eff_ret (acc ++ [y])))) by (intros s [x y] w0; reflexivity).
    rewrite <- (for_in_prod (fun acc p q => if first (p, q) then eff_ret acc else eff_bind (F (val (p, q))) (fun y => eff_ret (acc ++ [y])))).
    rewrite (for_in_ext _ (fun acc p => for_in (fun acc z => if first ((fst p, snd p), z) then eff_ret acc
                  else eff_bind (F (val ((fst p, snd p), z))) (fun y => eff_ret (acc ++ [y]))) acc (enumerate (c :: lc))))
      by (intros s [x y] w0; reflexivity).
    rewrite <- (for_in_prod (fun acc x y => for_in (fun acc z => if first ((x, y), z) then eff_ret acc
                  else eff_bind (F (val ((x, y), z))) (fun y => eff_ret (acc ++ [y]))) acc (enumerate (c :: lc)))).
    apply for_in_ext. intros s [i x] w0. apply for_in_ext. intros s' [j y] w1. apply for_in_ext. intros s'' [k z] w2.
    reflexivity. }
  assert (Hv : list_prod (list_prod (a :: la) (b :: lb)) (c :: lc) =
    map val (list_prod (list_prod (enumerate (a :: la)) (enumerate (b :: lb))) (enumerate (c :: lc)))).
  { rewrite <- (map_snd_enumerate (a :: la)) at 1. rewrite <- (map_snd_enumerate (b :: lb)) at 1.
    rewrite <- (map_snd_enumerate (c :: lc)) at 1. rewrite !list_prod_map. reflexivity. }
  rewrite Hv. rewrite !enumerate_cons. cbn [list_prod map app tl for_in]. rewrite bindw.
  unfold first at 1. cbn [fst snd Nat.eqb andb]. unfold eff_ret at 1.
  fold F. rewrite (skip_push first (fun p => F (val p))).
  - rewrite !bindw. now rewrite (run_map F val).
  - apply Forall_forall. intros p Hp. unfold first.
    rewrite in_app_iff, in_map_iff in Hp. destruct Hp as [(q & <- & Hq)|Hp].
    + cbn. now apply in_enumerate_tl in Hq.
    + destruct p as [p q]. apply in_prod_iff in Hp as [Hp _]. cbn [fst snd].
      rewrite in_app_iff, in_map_iff in Hp. destruct Hp as [(y & <- & Hy)|Hp].
      * apply in_enumerate_tl in Hy. cbn [fst snd]. now rewrite Hy.
      * destruct p as [x y]. apply in_prod_iff in Hp as [Hp _]. apply in_enumerate_tl in Hp. cbn [fst snd]. now rewrite Hp.
Qed.
Theorem C92_choice_products : forall A B C D w (la : list A) (lb : list B) (lc : list C),
  (forall fs : list (A -> eff B), exists r w',
     calls (fun p => snd p (fst p)) (list_prod la fs) w r w' /\
     ch_apply_e (mkChoice fs) (mkChoice la) w = (omap mkChoice r, w') /\
     ch_apply_owned_e (mkChoice fs) (mkChoice la) w = (omap mkChoice r, w')) /\
  (forall f : A -> B -> eff C, exists r w',
     calls (fun p => f (fst p) (snd p)) (list_prod la lb) w r w' /\
     ch_lift2_e f (mkChoice la) (mkChoice lb) w = (omap mkChoice r, w')) /\
  (forall f : A -> B -> C -> eff D, exists r w',
     calls (fun p => f (fst (fst p)) (snd (fst p)) (snd p)) (list_prod (list_prod la lb) lc) w r w' /\
     ch_lift3_e f (mkChoice la) (mkChoice lb) (mkChoice lc) w = (omap mkChoice r, w')).
Proof.
  intros A B C D w la lb lc. split; [|split].
  - intros fs. exists (fst (run (fun p => snd p (fst p)) (list_prod la fs) w)), (snd (run (fun p => snd p (fst p)) (list_prod la fs) w)).
    split; [apply run_calls|]. destruct fs as [|f fs].
    { replace (list_prod la []) with (@nil (A * (A -> eff B))); [split; reflexivity|].
      induction la; cbn; auto. }
    destruct la as [|a la]; [split; reflexivity|]. split.
    + unfold ch_apply_e. cbn [values list_prod map app]. rewrite run_cons. cbn [fst snd]. rewrite !bindw.
      destruct (f a w) as [[y|] w1]; auto. rewrite !bindw, map_collect_run, run_app, !bindw, run_map.
      cbn [fst snd]. destruct (run (fun f_alt : A -> eff B => f_alt a) fs w1) as [[ys|] w2]; auto.
      assert (H : forall acc w, for_in (fun acc val_alt => eff_bind (f val_alt) (fun y => eff_bind
          (map_collect (fun f_alt : A -> eff B => f_alt val_alt) fs) (fun ys => eff_ret (acc ++ y :: ys)))) acc la w =
        eff_bind (run (fun p => snd p (fst p)) (list_prod la (f :: fs))) (fun ys => eff_ret (acc ++ ys)) w).
      { clear. induction la as [|a la IH]; intros acc w.
        - cbn. unfold eff_bind, eff_ret. cbn. unfold eff_ret. now rewrite app_nil_r.
        - cbn [for_in list_prod map app]. rewrite bindw, bindw, (bindw (run _ _)). rewrite run_cons, bindw. cbn [fst snd].
          destruct (f a w) as [[y|] w1]; auto. rewrite !bindw, map_collect_run, run_app, !bindw, run_map.
          cbn [fst snd]. destruct (run (fun f_alt : A -> eff B => f_alt a) fs w1) as [[ys|] w2]; auto.
          unfold eff_ret at 1. rewrite IH, !bindw.
          destruct (run _ (list_prod la (f :: fs)) w2) as [[zs|] w3]; auto. unfold eff_ret.
          now rewrite <- app_assoc. }
      rewrite bindw, H, !bindw. now destruct (run _ (list_prod la (f :: fs)) w2) as [[zs|] w3].
    + unfold ch_apply_owned_e. cbn [values]. rewrite bindw. cbn [list_prod map app]. rewrite run_cons, bindw.
      cbn [fst snd]. destruct (f a w) as [[y|] w1]; auto.
      rewrite bindw. rewrite (skip_first2 (fun a (g : A -> eff B) => g a)). cbn [list_prod map app tl].
      rewrite !bindw. now destruct (run _ (map _ fs ++ _) w1) as [[ys|] w2].
  - intros f. do 2 eexists. split; [apply run_calls|].
    destruct la as [|a la]; [reflexivity|]. destruct lb as [|b lb].
    { replace (list_prod (a :: la) []) with (@nil (A * B)); [reflexivity|]. cbn. induction la; cbn; auto. }
    unfold ch_lift2_e. cbn [values]. rewrite bindw. cbn [list_prod map app]. rewrite run_cons, bindw.
    cbn [fst snd]. destruct (f a b w) as [[y|] w1]; auto.
    rewrite bindw. rewrite (skip_first2 f). cbn [list_prod map app tl].
    rewrite !bindw. now destruct (run _ (map _ lb ++ _) w1) as [[ys|] w2].
  - intros f. do 2 eexists. split; [apply run_calls|].
    destruct la as [|a la]; [reflexivity|]. destruct lb as [|b lb].
    { replace (list_prod (list_prod (a :: la) []) lc) with (@nil (A * B * C)); [reflexivity|]. cbn. induction la; cbn; auto. }
    destruct lc as [|c lc].
    { replace (list_prod (list_prod (a :: la) (b :: lb)) []) with (@nil (A * B * C)); [reflexivity|].
      generalize (list_prod (a :: la) (b :: lb)) as l. induction l; cbn; auto. }
    unfold ch_lift3_e. cbn [values]. rewrite bindw.
    replace (list_prod (list_prod (a :: la) (b :: lb)) (c :: lc))
      with (((a, b), c) :: tl (list_prod (list_prod (a :: la) (b :: lb)) (c :: lc))) by reflexivity.
    rewrite run_cons, bindw. cbn [fst snd]. destruct (f a b c w) as [[y|] w1]; auto.
    rewrite bindw, (skip_first3 f), !bindw.
    now destruct (run _ (tl _) w1) as [[ys|] w2].
Qed.

(** ** [Vec] *)
Theorem C92_vec : forall A B E w (l : list A),
  (forall f : A -> eff B, exists r w', calls f l w r w' /\ vec_fmap_e f l w = (r, w')) /\
  (forall f : A -> eff (option B), exists r w', calls f l w r w' /\ vec_filter_map_e f l w = (omap somes r, w')) /\
  (forall (f : A -> eff (result B E)) d, exists r w', calls f l w r w' /\
     vec_try_map_or_e d f l w = (omap (map (fun q => match q with Ok b => b | Err _ => d end)) r, w')) /\
  (forall (f : A -> eff (result B E)) (df : E -> eff B), exists r w',
     calls (fun x => eff_bind (f x) (fun q => match q with Ok b => eff_ret b | Err e => df e end)) l w r w' /\
     vec_try_map_or_else_e df f l w = (r, w')).
Proof.
  intros A B E w l. split; [|split; [|split]].
  - intros f. do 2 eexists. split; [apply run_calls|]. unfold vec_fmap_e. rewrite map_collect_run. now destruct (run f l w).
  - intros f. do 2 eexists. split; [apply run_calls|]. unfold vec_filter_map_e.
    rewrite (for_in_run f (fun acc _ o => match o with Some y => acc ++ [y] | None => acc end)).
    destruct (run f l w) as [[ys|] w'] eqn:F; cbn; auto. apply run_length in F. now rewrite fold_somes.
  - intros f d. do 2 eexists. split; [apply run_calls|]. unfold vec_try_map_or_e. rewrite map_collect_run.
    revert w. induction l as [|x l IH]; intros w; [reflexivity|]. rewrite !run_cons, !bindw.
    destruct (f x w) as [[q|] w1]; auto.
    replace ((match q with Ok b => eff_ret b | Err _ => eff_ret d end) w1)
      with (@Ret B (match q with Ok b => b | Err _ => d end), w1) by now destruct q.
    rewrite !bindw, IH. now destruct (run f l w1) as [[ys|] w2].
  - intros f df. do 2 eexists. split; [apply run_calls|]. unfold vec_try_map_or_else_e. rewrite map_collect_run.
    now destruct (run _ l w).
Qed.
(** [apply] goes function by function, unlike that of [Choice]. *)
Theorem C92_vec_products : forall A B C D w (la : list A) (lb : list B) (lc : list C),
  (forall fs : list (A -> eff B), exists r w',
     calls (fun p => fst p (snd p)) (list_prod fs la) w r w' /\ vec_apply_e fs la w = (r, w')) /\
  (forall f : A -> B -> eff C, exists r w',
     calls (fun p => f (fst p) (snd p)) (list_prod la lb) w r w' /\ vec_lift2_e f la lb w = (r, w')) /\
  (forall f : A -> B -> C -> eff D, exists r w',
     calls (fun p => f (fst (fst p)) (snd (fst p)) (snd p)) (list_prod (list_prod la lb) lc) w r w' /\
     vec_lift3_e f la lb lc w = (r, w') /\ vec_lift3_owned_e f la lb lc w = (r, w')).
Proof.
  intros A B C D w la lb lc. split; [|split].
  - intros fs. do 2 eexists. split; [apply run_calls|]. unfold vec_apply_e.
    rewrite (for_in_prod (fun acc (g : A -> eff B) x => eff_bind (g x) (fun y => eff_ret (acc ++ [y])))).
    rewrite (for_in_push (fun p : (A -> eff B) * A => fst p (snd p))), bindw.
    rewrite <- surjective_pairing. destruct (run _ (list_prod fs la) w) as [[ys|] w'] eqn:H; exact (eq_sym H).
  - intros f. do 2 eexists. split; [apply run_calls|]. unfold vec_lift2_e.
    rewrite (for_in_prod (fun acc a b => eff_bind (f a b) (fun y => eff_ret (acc ++ [y])))).
    rewrite (for_in_push (fun p : A * B => f (fst p) (snd p))), bindw.
    now destruct (run _ (list_prod la lb) w) as [[ys|] w'].
  - intros f. do 2 eexists. split; [apply run_calls|]. split.
    + unfold vec_lift3_e. rewrite !flat_map_prod.
      rewrite (for_in_ext _ (fun acc p => eff_bind (f (fst (fst p)) (snd (fst p)) (snd p)) (fun y => eff_ret (acc ++ [y]))))
        by (intros s [[a b] c] w0; reflexivity).
      rewrite (for_in_push (fun p : A * B * C => f (fst (fst p)) (snd (fst p)) (snd p))), bindw.
      now destruct (run _ (list_prod (list_prod la lb) lc) w) as [[ys|] w'].
    + unfold vec_lift3_owned_e.
      rewrite (for_in_prod (fun acc a b => for_in (fun acc c => eff_bind (f a b c) (fun y => eff_ret (acc ++ [y]))) acc lc)).
      rewrite (for_in_prod (fun acc (p : A * B) c => eff_bind (f (fst p) (snd p) c) (fun y => eff_ret (acc ++ [y])))).
      rewrite (for_in_push (fun p : A * B * C => f (fst (fst p)) (snd (fst p)) (snd p))), bindw.
      now destruct (run _ (list_prod (list_prod la lb) lc) w) as [[ys|] w'].
Qed.

(** ** [Foldable] *)
Theorem C92_foldable : forall A (fold : forall U, (U -> A -> eff U) -> U -> eff U) l, folds fold l -> forall w,
  (forall M (mult : M -> M -> M) unit (f : A -> eff M), exists r w', calls f l w r w' /\
     fo_fold_map_e fold mult unit f w = (omap (fun ys => fold_left mult ys unit) r, w')) /\
  (forall M (mult : M -> M -> M) unit (f : A -> eff (option M)), exists r w', calls f l w r w' /\
     fo_fold_option_e fold mult unit f w =
       (omap (fun os => if existsb (fun o => match o with None => true | _ => false end) os then None
                        else Some (fold_left mult (somes os) unit)) r, w')) /\
  (forall p : A -> eff bool, exists r w', calls_until (fun b => b) p l w r w' /\
     fo_find_e fold p w = (omap (fun bs => hd_error (yes l bs)) r, w') /\
     fo_any_e fold p w = (omap (existsb (fun b => b)) r, w')) /\
  (forall p : A -> eff bool, exists r w', calls_until negb p l w r w' /\
     fo_all_e fold p w = (omap (forallb (fun b => b)) r, w')) /\
  (forall f : A -> A -> eff A,
     match l with
     | [] => fo_reduce_e fold f w = (Ret None, w)
     | x :: l' => exists r w', threads f x l' w r w' /\ fo_reduce_e fold f w = (omap Some r, w')
     end).
Proof.
  intros A fold l H w.
  assert (F : forall U (f : U -> A -> eff U) s w, fold U f s w = for_in f s l w).
  { intros U f s w0. destruct (H U f s w0) as (r & w' & Ht & ->). apply threads_unique in Ht. now rewrite Ht. }
  split; [|split; [|split; [|split]]].
  - intros M mult unit f. do 2 eexists. split; [apply run_calls|]. unfold fo_fold_map_e. rewrite F.
    rewrite (for_in_run f (fun acc _ y => mult acc y)).
    destruct (run f l w) as [[ys|] w'] eqn:E; cbn; auto. apply run_length in E. f_equal. f_equal.
    clear - E. revert l E unit. induction ys as [|y ys IH]; intros [|x l] E u; try discriminate E; cbn; auto.
  - intros M mult unit f. do 2 eexists. split; [apply run_calls|]. unfold fo_fold_option_e. rewrite F.
    rewrite (for_in_run f (fun acc _ o => match acc, o with Some a, Some b => Some (mult a b) | _, _ => None end)).
    destruct (run f l w) as [[ys|] w'] eqn:E; cbn; auto. apply run_length in E. f_equal. f_equal.
    clear - E. revert l E unit. induction ys as [|[y|] ys IH]; intros [|x l] E u; try discriminate E; cbn; auto.
    clear. revert ys. induction l as [|x' l IH]; intros [|y ys]; cbn; auto.
  - intros p. do 2 eexists. split; [apply run_until_calls|]. split.
    + unfold fo_find_e. rewrite F. revert w. clear. 
      assert (S : forall l (o : A) w, for_in (fun acc x => match acc with Some _ => eff_ret acc
          | None => eff_bind (p x) (fun b : bool => if b then eff_ret (Some x) else eff_ret None) end) (Some o) l w = (Ret (Some o), w)).
      { intros m; induction m as [|x m IH]; intros o w; [reflexivity|apply IH]. }
      induction l as [|x l IH]; intros w; cbn; [reflexivity|].
      rewrite !bindw. destruct (p x w) as [[[]|] w1]; cbn; auto.
      rewrite IH, !bindw. now destruct (run_until (fun b : bool => b) p l w1) as [[bs|] w2].
    + unfold fo_any_e. rewrite F. revert w. clear.
      assert (S : forall l w, for_in (fun (acc : bool) x => if acc then eff_ret true else p x) true l w = (Ret true, w)).
      { intros m; induction m as [|x m IH]; intros w; [reflexivity|apply IH]. }
      induction l as [|x l IH]; intros w; cbn; [reflexivity|].
      rewrite !bindw. destruct (p x w) as [[[]|] w1]; cbn; auto.
      rewrite IH, !bindw. now destruct (run_until (fun b : bool => b) p l w1) as [[bs|] w2].
  - intros p. do 2 eexists. split; [apply run_until_calls|].
    unfold fo_all_e. rewrite F. revert w. clear.
    assert (S : forall l w, for_in (fun (acc : bool) x => if acc then p x else eff_ret false) false l w = (Ret false, w)).
    { intros m; induction m as [|x m IH]; intros w; [reflexivity|apply IH]. }
    induction l as [|x l IH]; intros w; cbn; [reflexivity|].
    rewrite !bindw. destruct (p x w) as [[[]|] w1]; cbn; auto.
    rewrite IH, !bindw. now destruct (run_until negb p l w1) as [[bs|] w2].
  - intros f. unfold fo_reduce_e. destruct l as [|x l]; rewrite F; [reflexivity|].
    do 2 eexists. split; [apply for_in_threads|]. cbn. clear H F. revert x w.
    induction l as [|y l IH]; intros x w; cbn; [reflexivity|].
    unfold eff_bind, eff_ret in *. destruct (f x y w) as [[z|] w1]; cbn; auto.
Qed.
Theorem C92_foldable_instances :
  (forall A (l : list A), folds (fun U f s => vec_fold_left_e (W := W) l f s) l /\
     folds (fun U f s => vec_fold_right_e (W := W) l (fun x u => f u x) s) (rev l)) /\
  (forall A (o : option A), folds (fun U f s => option_fold_left_e (W := W) o f s) (somes [o]) /\
     folds (fun U f s => option_fold_right_e (W := W) o (fun x u => f u x) s) (somes [o])) /\
  (forall A E (x : A), folds (fun U f s => result_fold_left_e (W := W) (@Ok A E x) f s) [x] /\
     folds (fun U f s => result_fold_right_e (W := W) (@Ok A E x) (fun x u => f u x) s) [x] /\
     folds (fun U f s => va_fold_left_e (W := W) (@Valid E A x) f s) [x] /\
     folds (fun U f s => va_fold_right_e (W := W) (@Valid E A x) (fun x u => f u x) s) [x]) /\
  (forall A E (e : E) es, folds (fun U f s => result_fold_left_e (W := W) (@Err A E e) f s) [] /\
     folds (fun U f s => result_fold_right_e (W := W) (@Err A E e) (fun x u => f u x) s) [] /\
     folds (fun U f s => va_fold_left_e (W := W) (@Invalid E A es) f s) [] /\
     folds (fun U f s => va_fold_right_e (W := W) (@Invalid E A es) (fun x u => f u x) s) []) /\
  (forall A (l : list A), folds (fun U f s => ch_fold_left_e (W := W) s f (mkChoice l)) l /\
     folds (fun U f s => ch_fold_right_e (W := W) s (fun x u => f u x) (mkChoice l)) (rev l)) /\
  (forall A (v : pvec A) l, front v 0 l (Ret tt) -> folds (fun U f s => pv_fold_e (W := W) f s v) l) /\
  (forall A (v : pvec A) l, back v (pv_len v) l (Ret tt) ->
     folds (fun U f s => pv_fold_right_e (W := W) (fun x u => f u x) s v) l).
Proof.
  assert (One : forall A (x : A) (fold : forall U, (U -> A -> eff U) -> U -> eff U),
    (forall U f s w, fold U f s w = f s x w) -> folds fold [x]).
  { intros A x fold H U f s w. rewrite H. exists (fst (f s x w)), (snd (f s x w)).
    split; [|apply surjective_pairing]. destruct (f s x w) as [[u|] w1] eqn:E; [|now apply threads_panic].
    eapply threads_next; [exact E|constructor]. }
  assert (None' : forall A (fold : forall U, (U -> A -> eff U) -> U -> eff U),
    (forall U f s w, fold U f s w = (Ret s, w)) -> folds fold []).
  { intros A fold H U f s w. rewrite H. do 2 eexists. split; [constructor|reflexivity]. }
  assert (L : forall A (l : list A) (fold : forall U, (U -> A -> eff U) -> U -> eff U),
    (forall U f s w, fold U f s w = for_in f s l w) -> folds fold l).
  { intros A l fold H U f s w. rewrite H. do 2 eexists. split; [apply for_in_threads|apply surjective_pairing]. }
  split; [|split; [|split; [|split; [|split; [|split]]]]].
  - intros A l. split; apply L; reflexivity.
  - intros A [x|]; split; (apply One || apply None'); reflexivity.
  - intros A E x. repeat split; apply One; reflexivity.
  - intros A E e es. repeat split; apply None'; reflexivity.
  - intros A l. split; apply L; reflexivity.
  - intros A v l H. apply L. intros U f s w. unfold pv_fold_e. rewrite (pv_for_list v l _ _ _ _ H).
    now destruct (for_in f s l w) as [[u|] w1].
  - intros A v l H. apply L. intros U f s w. unfold pv_fold_right_e. rewrite (fold_right_back_e v _ _ _ _ H).
    now destruct (for_in f s l w) as [[u|] w1].
Qed.

(** ** Helpers *)
Theorem C92_traverse : forall A B E (f : A -> eff (result B E)) l w,
  (exists r w', calls_until (fun q => match q with Err _ => true | Ok _ => false end) f l w r w' /\
     eu_traverse_e f l w = (omap cu_sequence_results r, w')) /\
  (exists r w', calls f l w r w' /\
     eu_traverse_validated_e f l w =
       (omap (fun qs =>
          match flat_map (fun q => match q with Err e => [e] | Ok _ => [] end) qs with
          | [] => Valid (flat_map (fun q => match q with Ok b => [b] | Err _ => [] end) qs)
          | errors => Invalid errors
          end) r, w')).
Proof.
  intros A B E f l w. split.
  - do 2 eexists. split; [apply run_until_calls|]. unfold eu_traverse_e.
    set (stop := fun q : result B E => match q with Err _ => true | Ok _ => false end).
    enough (H : forall l acc w, traverse_loop_e f acc l w =
      (omap (fun qs => match cu_sequence_results qs with Ok ys => Ok (acc ++ ys) | Err e => Err e end)
         (fst (run_until stop f l w)), snd (run_until stop f l w))).
    { rewrite H. destruct (run_until stop f l w) as [[qs|] w']; cbn; auto. now destruct (cu_sequence_results qs). }
    clear. induction l as [|x l IH]; intros acc w; cbn; [now rewrite app_nil_r|].
    rewrite !bindw. destruct (f x w) as [[[y|e]|] w1]; cbn; auto. rewrite IH, !bindw.
    destruct (run_until stop f l w1) as [[qs|] w2]; cbn; auto.
    destruct (cu_sequence_results qs); auto. now rewrite <- app_assoc.
  - do 2 eexists. split; [apply run_calls|]. unfold eu_traverse_validated_e. rewrite bindw.
    rewrite (for_in_ext _ (fun s x => eff_bind (f x) (fun q => eff_ret (match q with
        | Ok value => (fst (fst s) ++ [value], snd (fst s), snd s)
        | Err error => (fst (fst s), snd (fst s) ++ [error], true) end))))
      by (intros [[a b] c] x w0; reflexivity).
    rewrite (for_in_run f (fun s _ q => match q with
        | Ok value => (fst (fst s) ++ [value], snd (fst s), snd s)
        | Err error => (fst (fst s), snd (fst s) ++ [error], true) end)).
    destruct (run f l w) as [[qs|] w'] eqn:R; cbn [fst snd omap]; auto. apply run_length in R. unfold eff_ret. f_equal. f_equal.
    assert (H : forall vs es b, fold_left (fun s p => match snd p with
        | Ok value => (fst (fst s) ++ [value], snd (fst s), snd s)
        | Err error => (fst (fst s), snd (fst s) ++ [error], true) end) (combine l qs) (vs, es, b) =
      (vs ++ flat_map (fun q => match q with Ok b => [b] | Err _ => [] end) qs,
       es ++ flat_map (fun q => match q with Err e => [e] | Ok _ => [] end) qs,
       b || match flat_map (fun q : result B E => match q with Err e => [e] | Ok _ => [] end) qs with [] => false | _ => true end)).
    { clear - R. revert l R. induction qs as [|[y|e] qs IH]; intros [|x l] R vs es b; try discriminate R; cbn.
      - now rewrite !app_nil_r, orb_false_r.
      - rewrite IH by (cbn in R; congruence). now rewrite <- app_assoc.
      - rewrite IH by (cbn in R; congruence). rewrite <- app_assoc. cbn. now rewrite orb_true_r. }
    rewrite H. cbn [app orb fst snd]. now destruct (flat_map (fun q : result B E => match q with Err e => [e] | Ok _ => [] end) qs).
Qed.
(** The items kept are mapped as soon as they are tested; [zip_with] stops with
    the shorter list. *)
Theorem C92_filter_map_zip : forall A B C w (l : list A) (m : list B),
  (forall (p : A -> eff bool) (f : A -> eff C), exists r w',
     calls (fun x => eff_bind (p x) (fun b : bool =>
              if b then eff_bind (f x) (fun y => eff_ret (Some y)) else eff_ret None)) l w r w' /\
     hu_filter_map_e l p f w = (omap somes r, w')) /\
  (forall f : A -> B -> eff C, exists r w', calls (fun p => f (fst p) (snd p)) (combine l m) w r w' /\
     hu_zip_with_e l m f w = (r, w')).
Proof.
  intros A B C w l m. split.
  - intros p f. do 2 eexists. split; [apply run_calls|]. unfold hu_filter_map_e.
    set (g := fun x => eff_bind (p x) (fun b : bool => if b then eff_bind (f x) (fun y => eff_ret (Some y)) else eff_ret None)).
    rewrite (for_in_ext _ (fun acc x => eff_bind (g x) (fun o => eff_ret (match o with Some y => acc ++ [y] | None => acc end)))).
    2:{ intros acc x w0. unfold g. rewrite !bindw. destruct (p x w0) as [[[]|] w1]; cbn; auto.
        rewrite !bindw. now destruct (f x w1) as [[y|] w2]. }
    rewrite (for_in_run g (fun acc _ o => match o with Some y => acc ++ [y] | None => acc end)).
    destruct (run g l w) as [[ys|] w'] eqn:E; cbn; auto. apply run_length in E. now rewrite fold_somes.
  - intros f. do 2 eexists. split; [apply run_calls|]. unfold hu_zip_with_e. rewrite map_collect_run.
    rewrite (run_ext _ (fun p => f (fst p) (snd p))) by (intros [x y] w0; reflexivity). apply surjective_pairing.
Qed.
Theorem C92_pipelines : forall B E (b : B) w,
  (forall ops : list (B -> eff (option B)), exists r w', pipes (fun o => o) Some b ops w r w' /\
     try_fold_e b ops w = (r, w')) /\
  (forall ops : list (B -> eff (result B E)), exists r w',
     pipes (fun q => match q with Ok b => Some b | Err _ => None end) (fun b => Ok b) b ops w r w' /\
     hu_pipeline_result_e b ops w = (r, w')).
Proof.
  intros B E b w. split; intros ops.
  - exists (fst (try_fold_e b ops w)), (snd (try_fold_e b ops w)). split; [|apply surjective_pairing].
    revert b w. induction ops as [|op ops IH]; intros b w; cbn; [constructor|].
    rewrite bindw. destruct (op b w) as [[[b1|]|] w1] eqn:F; cbn.
    + eapply pipes_next; [exact F|reflexivity|apply IH].
    + eapply pipes_stop; [exact F|reflexivity].
    + now apply pipes_panic.
  - exists (fst (hu_pipeline_result_e b ops w)), (snd (hu_pipeline_result_e b ops w)). split; [|apply surjective_pairing].
    unfold hu_pipeline_result_e. rewrite bindw. destruct ops as [|op ops]; cbn [tl for_in]; [constructor|].
    set (body := fun (acc : result B E) (op : B -> eff (result B E)) =>
      match acc with Ok value => op value | Err e => eff_ret (Err e) end).
    assert (S : forall ops e w, for_in body (Err e) ops w = (Ret (Err e), w)).
    { clear. induction ops as [|op ops IH]; intros e w; [reflexivity|apply IH]. }
    assert (H : forall ops b w, pipes (fun q : result B E => match q with Ok b => Some b | Err _ => None end) (fun b => Ok b) b ops w
      (fst (for_in body (Ok b) ops w)) (snd (for_in body (Ok b) ops w))).
    { clear - S. induction ops as [|op ops IH]; intros b w; cbn; [constructor|].
      rewrite bindw. destruct (op b w) as [[[b1|e]|] w1] eqn:F; cbn.
      - eapply pipes_next; [exact F|reflexivity|apply IH].
      - rewrite S. eapply pipes_stop; [exact F|reflexivity].
      - now apply pipes_panic. }
    destruct (op b w) as [[[b1|e]|] w1] eqn:F.
    + eapply pipes_next; [exact F|reflexivity|apply H].
    + rewrite S. eapply pipes_stop; [exact F|reflexivity].
    + now apply pipes_panic.
Qed.

(** ** Validated: the closures see every error in order, or the value; recovery
    stops at the first error it turns into a value. *)
Theorem C92_validated : forall A E G w (es : list E) (x : A),
  (forall f : E -> eff G, exists r w', calls f es w r w' /\
     va_fmap_invalid_e f (@Invalid E A es) w = (omap (@Invalid G A) r, w') /\
     (forall g : A -> eff A, va_bimap_e g f (Invalid es) w = (omap (@Invalid G A) r, w')) /\
     va_fmap_invalid_e f (@Valid E A x) w = (Ret (Valid x), w)) /\
  (forall (f : A -> eff G) (g : E -> eff E), va_bimap_e f g (Valid x) w = (omap (@Valid E G) (fst (f x w)), snd (f x w))) /\
  (forall f : E -> eff (validated E A), exists r w',
     calls_until (fun v => match v with Valid _ => true | Invalid _ => false end) f es w r w' /\
     va_recover_all_e f (Invalid es) w =
       (omap (fun vs => match somes (map (fun v => match v with Valid a => Some a | Invalid _ => None end) vs) with
                        | a :: _ => Valid a
                        | [] => Invalid (flat_map (fun v => match v with Invalid more => more | Valid _ => [] end) vs)
                        end) r, w') /\
     va_recover_all_e f (Valid x) w = (Ret (Valid x), w)).
Proof.
  intros A E G w es x. split; [|split].
  - intros f. do 2 eexists. split; [apply run_calls|]. split; [|split; [|reflexivity]].
    + unfold va_fmap_invalid_e. rewrite bindw, map_collect_run. now destruct (run f es w) as [[ys|] w'].
    + intros g. unfold va_bimap_e. rewrite bindw, map_collect_run. now destruct (run f es w) as [[ys|] w'].
  - intros f g. unfold va_bimap_e. rewrite bindw. now destruct (f x w) as [[y|] w'].
  - intros f. do 2 eexists. split; [apply run_until_calls|]. split; [|reflexivity]. unfold va_recover_all_e.
    set (stop := fun v : validated E A => match v with Valid _ => true | Invalid _ => false end).
    enough (H : forall es acc w, recover_loop_e f acc es w =
      (omap (fun vs => match somes (map (fun v => match v with Valid a => Some a | Invalid _ => None end) vs) with
                       | a :: _ => Valid a
                       | [] => Invalid (acc ++ flat_map (fun v => match v with Invalid more => more | Valid _ => [] end) vs)
                       end) (fst (run_until stop f es w)), snd (run_until stop f es w))) by apply H.
    clear. induction es as [|e es IH]; intros acc w; cbn; [now rewrite app_nil_r|].
    rewrite !bindw. destruct (f e w) as [[[a|more]|] w1]; cbn; auto. rewrite IH, !bindw.
    destruct (run_until stop f es w1) as [[vs|] w2]; cbn; auto.
    now rewrite <- app_assoc.
Qed.

Lemma mkChoice_values {A} (c : choice A) : mkChoice (values c) = c.
Proof. now destruct c. Qed.
(** ** Closures without effects: the models used by the other properties *)
Lemma run_pure {A B} (f : A -> B) l (w : W) : run (fun x => eff_ret (f x)) l w = (Ret (map f l), w).
Proof. induction l as [|x l IH]; [reflexivity|]. rewrite run_cons, bindw. unfold eff_ret at 1. rewrite bindw. now rewrite IH. Qed.
Lemma yes_map {A} (p : A -> bool) l : yes l (map p l) = filter p l.
Proof. unfold yes. induction l as [|x l IH]; cbn; auto. destruct (p x); cbn; now rewrite IH. Qed.
Lemma no_map {A} (p : A -> bool) l : no l (map p l) = filter (fun x => negb (p x)) l.
Proof. unfold no. induction l as [|x l IH]; cbn; auto. destruct (p x); cbn; now rewrite IH. Qed.
Lemma calls_pure {A B} (f : A -> B) l (w : W) r w' :
  calls (fun x => eff_ret (f x)) l w r w' -> r = Ret (map f l) /\ w' = w.
Proof.
  intros H. apply run_until_unique in H. change (run (fun x => eff_ret (f x)) l w = (r, w')) in H.
  rewrite run_pure in H. injection H as <- <-. auto.
Qed.
Lemma for_in_pure {S A} (f : S -> A -> S) l : forall s (w : W),
  for_in (fun s x => eff_ret (f s x)) s l w = (Ret (fold_left f l s), w).
Proof. induction l as [|x l IH]; intros s w; [reflexivity|apply IH]. Qed.
Lemma somes_filter_map {A B} (f : A -> option B) l : somes (map f l) = list_filter_map f l.
Proof. unfold somes. induction l as [|x l IH]; cbn; auto. destruct (f x); cbn; now rewrite IH. Qed.
Theorem C92_pure_vector : forall T U B (v : pvec T) (w : W),
  (forall f : T -> U, pv_map_e (fun x => eff_ret (f x)) v w = (pv_map f v, w)) /\
  (forall p, pv_filter_e (fun x => eff_ret (p x)) v w = (pv_filter p v, w)) /\
  (forall p, pv_partition_e (fun x => eff_ret (p x)) v w = (pv_partition p v, w)) /\
  (forall f : T -> option U, pv_filter_map_e (fun x => eff_ret (f x)) v w = (pv_filter_map f v, w)) /\
  (forall f : T -> list U, pv_flat_map_e (fun x => eff_ret (f x)) v w = (pv_flat_map f v, w)) /\
  (forall (f : B -> T -> B) b, pv_fold_e (fun b x => eff_ret (f b x)) b v w = (pv_fold f b v, w)) /\
  (forall (f : T -> B -> B) b, pv_fold_right_e (fun x b => eff_ret (f x b)) b v w = (pv_fold_right f b v, w)).
Proof.
  intros T U B v w. destruct (@front_exists _ v (pv_len v - 0) 0 (le_n _)) as (l & s & H).
  destruct (C92_vector T U v l s H w) as (H1 & H2 & H3 & H4).
  pose proof (iter_front H) as Hi.
  repeat split.
  - intros f. destruct (H1 (fun x => eff_ret (f x))) as (r & w' & Hc & ->). apply calls_pure in Hc as [-> ->].
    unfold pv_map. rewrite Hi. now destruct s.
  - intros p. destruct (H2 (fun x => eff_ret (p x))) as (r & w' & Hc & -> & _). apply calls_pure in Hc as [-> ->].
    unfold pv_filter. rewrite Hi. cbn. rewrite yes_map. now destruct s.
  - intros p. destruct (H2 (fun x => eff_ret (p x))) as (r & w' & Hc & _ & ->). apply calls_pure in Hc as [-> ->].
    unfold pv_partition. rewrite Hi. cbn. rewrite yes_map, no_map. destruct s; cbn; [|reflexivity].
    now rewrite partition_fold.
  - intros f. destruct (H3 (fun x => eff_ret (f x))) as (r & w' & Hc & ->). apply calls_pure in Hc as [-> ->].
    unfold pv_filter_map. rewrite Hi. cbn. rewrite somes_filter_map. now destruct s.
  - intros f. destruct (H4 (fun x => eff_ret (f x))) as (r & w' & Hc & ->). apply calls_pure in Hc as [-> ->].
    unfold pv_flat_map. rewrite Hi. destruct s; cbn; [now rewrite flat_map_concat_map|reflexivity].
  - intros f b. unfold pv_fold_e, pv_fold. rewrite (pv_for_list v l _ _ _ _ H), Hi, for_in_pure. now destruct s.
  - intros f b. unfold pv_fold_right_e, pv_fold_right. revert b.
    induction (pv_len v) as [|n IH]; intros b; [reflexivity|].
    cbn [pv_fold_right_from_e pv_fold_right_from]. destruct (pv_get v n) as [[x|]|]; cbn [obind]; auto.
    rewrite bindw. unfold eff_ret at 1. apply IH.
Qed.
Theorem C92_pure_choice : forall T U B (c : choice T) (w : W),
  (forall f : T -> U, ch_fmap_e (fun x => eff_ret (f x)) c w = (Ret (ch_fmap f c), w)) /\
  (forall p, ch_filter_e (fun x => eff_ret (p x)) c w = (Ret (ch_filter p c), w)) /\
  (forall p, ch_filter_values_e (fun x => eff_ret (p x)) c w = (Ret (ch_filter_values p c), w)) /\
  (forall f, ch_fmap_alternatives_e (fun x => eff_ret (f x)) c w = (Ret (ch_fmap_alternatives f c), w)) /\
  (forall p, ch_find_first_e (fun x => eff_ret (p x)) c w = (Ret (ch_find_first p c), w)) /\
  (forall (f : B -> T -> B) b, ch_fold_left_e b (fun b x => eff_ret (f b x)) c w = (Ret (ch_fold_left b f c), w)) /\
  (forall (f : T -> B -> B) b, ch_fold_right_e b (fun x b => eff_ret (f x b)) c w = (Ret (ch_fold_right b f c), w)) /\
  (forall f : T -> choice U, ch_bind_e (fun x => eff_ret (f x)) c w = (Ret (ch_bind c f), w)).
Proof.
  intros T U B [l] w. repeat split.
  - intros f. unfold ch_fmap_e, ch_fmap. cbn [values]. destruct l as [|x l]; [reflexivity|].
    rewrite bindw. cbn. rewrite bindw, map_collect_run, run_pure. reflexivity.
  - intros p. unfold ch_filter_e, ch_filter. destruct l as [|x l]; [reflexivity|]. cbn [values skipn].
    rewrite bindw, filter_collect_run, run_pure. cbn [omap fst snd]. now rewrite yes_map.
  - intros p. unfold ch_filter_values_e, ch_filter_values. cbn [values].
    rewrite bindw, filter_collect_run, run_pure. cbn [omap fst snd]. now rewrite yes_map.
  - intros f. unfold ch_fmap_alternatives_e, ch_fmap_alternatives. cbn [values]. destruct l as [|x l]; [reflexivity|].
    rewrite bindw, map_collect_run, run_pure. reflexivity.
  - intros p. unfold ch_find_first_e, ch_find_first, ch_iter. cbn [values]. induction l as [|x l IH]; cbn; auto.
    unfold eff_bind, eff_ret in *. cbn. destruct (p x); auto.
  - intros f b. apply (for_in_pure f).
  - intros f b. unfold ch_fold_right_e. rewrite (for_in_pure (fun b x => f x b)).
    unfold ch_fold_right, ch_iter. cbn [values]. reflexivity.
  - intros f. unfold ch_bind_e, ch_bind. cbn [values]. destruct l as [|x l]; [reflexivity|].
    rewrite bindw. unfold eff_ret at 1. destruct (values (f x)) as [|y ys]; [reflexivity|].
    rewrite bindw. rewrite (for_in_ext _ (fun acc alt => eff_ret (acc ++ values (f alt)))) by reflexivity.
    now rewrite (for_in_pure (fun acc alt => acc ++ values (f alt))).
Qed.
Lemma map_list_prod {A B C} (f : A -> B -> C) la lb :
  map (fun p => f (fst p) (snd p)) (list_prod la lb) = flat_map (fun a => map (f a) lb) la.
Proof. induction la as [|a la IH]; cbn; auto. now rewrite map_app, IH, map_map. Qed.
Theorem C92_pure_products : forall A B C D (w : W) (la : list A) (lb : list B) (lc : list C),
  (forall fs : list (A -> B),
     ch_apply_e (mkChoice (map (fun f x => eff_ret (f x)) fs)) (mkChoice la) w = (Ret (ch_apply (mkChoice fs) (mkChoice la)), w) /\
     ch_apply_owned_e (mkChoice (map (fun f x => eff_ret (f x)) fs)) (mkChoice la) w =
       (Ret (ch_apply_owned (mkChoice fs) (mkChoice la)), w) /\
     vec_apply_e (map (fun f x => eff_ret (f x)) fs) la w = (Ret (vec_apply fs la), w)) /\
  (forall f : A -> B -> C,
     ch_lift2_e (fun x y => eff_ret (f x y)) (mkChoice la) (mkChoice lb) w = (Ret (ch_lift2 f (mkChoice la) (mkChoice lb)), w) /\
     vec_lift2_e (fun x y => eff_ret (f x y)) la lb w = (Ret (vec_lift2 f la lb), w)) /\
  (forall f : A -> B -> C -> D,
     ch_lift3_e (fun x y z => eff_ret (f x y z)) (mkChoice la) (mkChoice lb) (mkChoice lc) w =
       (Ret (ch_lift3 f (mkChoice la) (mkChoice lb) (mkChoice lc)), w) /\
     vec_lift3_e (fun x y z => eff_ret (f x y z)) la lb lc w = (Ret (vec_lift3 f la lb lc), w) /\
     vec_lift3_owned_e (fun x y z => eff_ret (f x y z)) la lb lc w = (Ret (vec_lift3_owned f la lb lc), w)).
Proof.
  intros A B C D w la lb lc. split; [|split].
  - intros fs. assert (R : forall r w', calls (fun p => snd p (fst p)) (list_prod la (map (fun f x => @eff_ret W B (f x)) fs)) w r w' ->
      r = Ret (values (ch_apply (mkChoice fs) (mkChoice la))) /\ w' = w).
    { intros r w' H. apply run_until_unique in H.
      assert (E : list_prod la (map (fun f x => @eff_ret W B (f x)) fs) =
                  map (fun p => (fst p, fun x => eff_ret (snd p x))) (list_prod la fs)).
      { rewrite <- (map_id la) at 1. now rewrite list_prod_map. }
      rewrite E in H. change (run (fun p : A * (A -> eff B) => snd p (fst p)) (map (fun p => (fst p, fun x => eff_ret (snd p x))) (list_prod la fs)) w = (r, w')) in H.
      rewrite run_map in H. cbn [fst snd] in H. rewrite (run_pure (fun p : A * (A -> B) => snd p (fst p))) in H.
      injection H as <- <-. split; auto. f_equal. rewrite ch_apply_values. cbn [values].
      apply (map_list_prod (fun (a : A) (g : A -> B) => g a)). }
    destruct (C92_choice_products A B C D w la lb lc) as (H & _).
    destruct (H (map (fun f x => eff_ret (f x)) fs)) as (r & w' & Hc & -> & ->). apply R in Hc as [-> ->]. cbn [omap].
    split; [now rewrite mkChoice_values|]. split; [rewrite <- ch_apply_owned_values; now rewrite mkChoice_values|].
    unfold vec_apply_e, vec_apply. rewrite for_in_map.
    rewrite (for_in_ext _ (fun acc g => eff_ret (fold_left (fun acc v => acc ++ [g v]) la acc))).
    + apply (for_in_pure (fun acc g => fold_left (fun acc v => acc ++ [g v]) la acc)).
    + intros s g w0. rewrite (for_in_ext _ (fun acc v => eff_ret (acc ++ [g v]))) by reflexivity.
      apply (for_in_pure (fun acc v => acc ++ [g v])).
  - intros f. destruct (C92_choice_products A B C D w la lb lc) as (_ & H & _).
    destruct (H (fun x y => eff_ret (f x y))) as (r & w' & Hc & ->).
    apply (calls_pure (fun p => f (fst p) (snd p))) in Hc as [-> ->]. cbn [omap]. split.
    + rewrite <- (mkChoice_values (ch_lift2 f _ _)), ch_lift2_values. cbn [values]. now rewrite (map_list_prod f).
    + unfold vec_lift2_e, vec_lift2.
      rewrite (for_in_ext _ (fun acc a => eff_ret (fold_left (fun acc b => acc ++ [f a b]) lb acc))).
      * apply (for_in_pure (fun acc a => fold_left (fun acc b => acc ++ [f a b]) lb acc)).
      * intros s a w0. rewrite (for_in_ext _ (fun acc b => eff_ret (acc ++ [f a b]))) by reflexivity.
        apply (for_in_pure (fun acc b => acc ++ [f a b])).
  - intros f. destruct (C92_choice_products A B C D w la lb lc) as (_ & _ & H).
    destruct (H (fun x y z => eff_ret (f x y z))) as (r & w' & Hc & ->).
    apply (calls_pure (fun p => f (fst (fst p)) (snd (fst p)) (snd p))) in Hc as [-> ->]. cbn [omap]. split; [|split].
    + rewrite <- (mkChoice_values (ch_lift3 f _ _ _)), ch_lift3_values. cbn [values]. clear H. do 3 f_equal.
      rewrite (map_list_prod (fun (ab : A * B) c => f (fst ab) (snd ab) c)).
      induction la as [|a la' IH]; cbn [list_prod flat_map map app]; auto.
      rewrite flat_map_app, IH. f_equal. clear. induction lb as [|b lb IH]; cbn; auto. now rewrite IH.
    + unfold vec_lift3_e, vec_lift3.
      rewrite (for_in_ext _ (fun acc t => eff_ret (acc ++ [f (fst (fst t)) (snd (fst t)) (snd t)])))
        by (intros s [[a b] c] w0; reflexivity).
      apply (for_in_pure (fun acc (t : A * B * C) => acc ++ [f (fst (fst t)) (snd (fst t)) (snd t)])).
    + unfold vec_lift3_owned_e, vec_lift3_owned.
      rewrite (for_in_ext _ (fun acc a => eff_ret (fold_left (fun acc b => fold_left (fun acc c => acc ++ [f a b c]) lc acc) lb acc))).
      * apply (for_in_pure (fun acc a => fold_left (fun acc b => fold_left (fun acc c => acc ++ [f a b c]) lc acc) lb acc)).
      * intros s a w0. rewrite (for_in_ext _ (fun acc b => eff_ret (fold_left (fun acc c => acc ++ [f a b c]) lc acc))).
        -- apply (for_in_pure (fun acc b => fold_left (fun acc c => acc ++ [f a b c]) lc acc)).
        -- intros s' b w1. rewrite (for_in_ext _ (fun acc c => eff_ret (acc ++ [f a b c]))) by reflexivity.
           apply (for_in_pure (fun acc c => acc ++ [f a b c])).
Qed.
Theorem C92_pure_helpers : forall A B C E (w : W) (l : list A) (m : list B),
  (forall f : A -> B, vec_fmap_e (fun x => eff_ret (f x)) l w = (Ret (vec_fmap f l), w)) /\
  (forall f : A -> option B, vec_filter_map_e (fun x => eff_ret (f x)) l w = (Ret (vec_filter_map l f), w)) /\
  (forall (f : A -> result B E) d, vec_try_map_or_e d (fun x => eff_ret (f x)) l w = (Ret (vec_try_map_or l d f), w)) /\
  (forall (f : A -> result B E) g, vec_try_map_or_else_e (fun e => eff_ret (g e)) (fun x => eff_ret (f x)) l w =
     (Ret (vec_try_map_or_else l g f), w)) /\
  (forall p (f : A -> B), hu_filter_map_e l (fun x => eff_ret (p x)) (fun x => eff_ret (f x)) w = (Ret (hu_filter_map l p f), w)) /\
  (forall f : A -> B -> C, hu_zip_with_e l m (fun x y => eff_ret (f x y)) w = (Ret (hu_zip_with l m f), w)) /\
  (forall (b : B) ops, try_fold_e b (map (fun op x => eff_ret (op x)) ops) w = (Ret (hu_pipeline_option (fun b => b) b ops), w)) /\
  (forall (b : B) (ops : list (B -> result B E)), hu_pipeline_result_e b (map (fun op x => eff_ret (op x)) ops) w =
     (Ret (hu_pipeline_result (fun b => b) b ops), w)) /\
  (forall (f : A -> B) (v : validated A C), va_fmap_invalid_e (fun x => eff_ret (f x)) v w = (Ret (va_fmap_invalid f v), w)) /\
  (forall (f : A -> validated A C) v, va_recover_all_e (fun x => eff_ret (f x)) v w = (Ret (va_recover_all v f), w)).
Proof.
  intros A B C E w l m. repeat split.
  - intros f. unfold vec_fmap_e. rewrite map_collect_run. apply run_pure.
  - intros f. unfold vec_filter_map_e.
    rewrite (for_in_run (fun x => eff_ret (f x)) (fun acc _ o => match o with Some y => acc ++ [y] | None => acc end)).
    rewrite run_pure. cbn. rewrite fold_somes by apply map_length. f_equal. f_equal. cbn.
    unfold somes. induction l as [|x l IH]; cbn; auto. destruct (f x); cbn; now rewrite IH.
  - intros f d. unfold vec_try_map_or_e. rewrite map_collect_run.
    rewrite (run_ext _ (fun x => eff_ret (match f x with Ok b => b | Err _ => d end))).
    + apply run_pure.
    + intros x w0. rewrite bindw. cbn. now destruct (f x).
  - intros f g. unfold vec_try_map_or_else_e. rewrite map_collect_run.
    rewrite (run_ext _ (fun x => eff_ret (match f x with Ok b => b | Err e => g e end))).
    + apply run_pure.
    + intros x w0. rewrite bindw. cbn. now destruct (f x).
  - intros p f. unfold hu_filter_map_e, hu_filter_map.
    rewrite (for_in_ext _ (fun acc x => eff_ret (if p x then acc ++ [f x] else acc))).
    + rewrite (for_in_pure (fun acc x => if p x then acc ++ [f x] else acc)). f_equal. f_equal.
      enough (G : forall acc, fold_left (fun acc x => if p x then acc ++ [f x] else acc) l acc = fm_loop p f acc l) by apply G.
      induction l as [|x l IH]; intros acc; cbn; auto.
    + intros s x w0. rewrite bindw. cbn. now destruct (p x).
  - intros f. unfold hu_zip_with_e, hu_zip_with. rewrite map_collect_run.
    rewrite (run_ext _ (fun p => eff_ret (f (fst p) (snd p)))) by (intros [x y] w0; reflexivity). apply run_pure.
  - intros b ops. unfold hu_pipeline_option. revert b. induction ops as [|op ops IH]; intros b; cbn; auto.
    unfold eff_bind, eff_ret in *. cbn. destruct (op b); auto.
  - intros b ops. unfold hu_pipeline_result_e, hu_pipeline_result. rewrite bindw.
    destruct ops as [|op ops]; cbn [map tl]; [reflexivity|]. unfold eff_ret at 1. rewrite for_in_map.
    rewrite (for_in_ext _ (fun (acc : result B E) op => eff_ret (match acc with Ok value => op value | Err e => Err e end))).
    + apply (for_in_pure (fun (acc : result B E) op => match acc with Ok value => op value | Err e => Err e end)).
    + now intros [v|e] op' w0.
  - intros f [x|es]; cbn; auto. rewrite bindw, map_collect_run, run_pure. reflexivity.
  - intros f [x|es]; cbn; auto. generalize (@nil A) as acc. induction es as [|e es IH]; intros acc; cbn; auto.
    unfold eff_bind, eff_ret in *. cbn. destruct (f e); auto.
Qed.
End Run.

(** What [calls] says about a closure that writes down its argument: the log is
    the elements in order, up to and including the first accepted result. *)
Theorem C92_log : forall A B (stop : B -> bool) (g : A -> B) l log r log',
  calls_until stop (fun x log => (Ret (g x), log ++ [x])) l log r log' ->
  exists done rest, l = done ++ rest /\ log' = log ++ done /\ r = Ret (map g done) /\
    (rest <> [] -> exists d x, done = d ++ [x] /\ stop (g x) = true) /\
    (forall d x e, done = d ++ x :: e -> e <> [] -> stop (g x) = false).
Proof.
  intros A B stop g l log r log' H. induction H as [log|x l log y log1 Hf Hs|x l log y log1 r log2 Hf Hs _ IH|x l log log1 Hf].
  - exists [], []. split; [reflexivity|]. split; [symmetry; apply app_nil_r|]. split; [reflexivity|].
    split; [intros K; now destruct K|]. intros [|? ?] x e K; discriminate K.
  - injection Hf as <- <-. exists [x], l. repeat split; auto.
    + intros _. exists [], x. auto.
    + intros [|? [|? ?]] x' [|? ?] K; cbn in K; congruence.
  - injection Hf as <- <-. destruct IH as (done & rest & -> & -> & -> & H1 & H2).
    exists (x :: done), rest. rewrite <- app_assoc. repeat split; auto.
    + intros K. destruct (H1 K) as (d & z & -> & Hz). exists (x :: d), z. auto.
    + intros [|d0 d] z e K Ke; injection K as -> K; [exact Hs|]. now apply (H2 d z e).
  - discriminate Hf.
Qed.
Theorem C92_log_all : forall A B (g : A -> B) l log r log',
  calls (fun x log => (Ret (g x), log ++ [x])) l log r log' -> r = Ret (map g l) /\ log' = log ++ l.
Proof.
  intros A B g l log r log' H. destruct (C92_log _ _ _ _ _ _ _ _ H) as (done & rest & -> & -> & -> & H1 & _).
  destruct rest as [|z rest]; [rewrite app_nil_r; auto|].
  destruct H1 as (d & x & _ & K); discriminate.
Qed.

(** ** Cases *)
Definition logging {A B} (g : A -> B) (x : A) (log : list A) : outcome B * list A := (Ret (g x), log ++ [x]).
Example C92_vector_case :
  snd (pv_filter_e (logging Nat.even) (pv_from_iter [3; 4; 5; 6]) []) = [3; 4; 5; 6] /\
  snd (pv_map_e (fun x log => if x =? 5 then (Panic, log ++ [x]) else (Ret x, log ++ [x])) (pv_from_iter [3; 4; 5; 6]) [])
    = [3; 4; 5].
Proof. vm_compute. auto. Qed.
(** Elements are missing in the middle of the first vector, and reading the second panics at position 5. *)
Example C92_vector_walk_case :
  snd (pv_map_e (logging S) C14_short []) = [3; 3] /\
  snd (pv_fold_right_e (fun x b log => (Ret (x + b), log ++ [x])) 0 C14_short []) = [4; 3; 3] /\
  pv_filter_map_e (logging Some) PvecPanicProps.C15_bad [] = (Panic, [2; 2; 2; 2; 2]) /\
  pv_fold_right_e (fun x b log => (Ret (x + b), log ++ [x])) 0 PvecPanicProps.C15_bad [] = (Panic, []).
Proof. vm_compute. auto. Qed.
Example C92_vector_folds_case :
  pv_fold_right_e (fun x b log => (Ret (x + b), log ++ [x])) 0 (pv_from_iter [3; 4; 5]) [] = (Ret 12, [5; 4; 3]).
Proof. reflexivity. Qed.
Example C92_choice_case :
  ch_find_first_e (logging Nat.even) (mkChoice [3; 4; 5; 6]) [] = (Ret (Some 4), [3; 4]) /\
  snd (ch_filter_e (logging Nat.even) (mkChoice [3; 4; 5; 6]) []) = [4; 5; 6] /\
  snd (ch_bind_e (logging (fun x => mkChoice (repeat x (x - 3)))) (mkChoice [3; 4; 5]) []) = [3] /\
  snd (ch_bind_e (logging (fun x => mkChoice (repeat x (x - 3)))) (mkChoice [4; 3; 5]) []) = [4; 3; 5].
Proof. vm_compute. auto. Qed.
Example C92_choice_bind_lazy_case :
  flat_next (logging (fun x => mkChoice (repeat x (x - 3)))) [2; 3; 5; 4] [] [] = (Ret (Some 5, ([4], [5])), [2; 3; 5]).
Proof. reflexivity. Qed.
Example C92_products_case :
  ch_lift2_e (fun x y log => (Ret (x + y), log ++ [(x, y)])) (mkChoice [1; 2]) (mkChoice [10; 20]) [] =
    (Ret (mkChoice [11; 21; 12; 22]), [(1, 10); (1, 20); (2, 10); (2, 20)]) /\
  ch_apply_e (mkChoice [fun x log => (Ret (x + 1), log ++ [(1, x)]); fun x log => (Ret (x + 2), log ++ [(2, x)])])
    (mkChoice [10; 20]) [] = (Ret (mkChoice [11; 12; 21; 22]), [(1, 10); (2, 10); (1, 20); (2, 20)]) /\
  vec_apply_e [fun x log => (Ret (x + 1), log ++ [(1, x)]); fun x log => (Ret (x + 2), log ++ [(2, x)])]
    [10; 20] [] = (Ret [11; 21; 12; 22], [(1, 10); (1, 20); (2, 10); (2, 20)]).
Proof. vm_compute. auto. Qed.
Example C92_foldable_case :
  let fold U f s := vec_fold_left_e (W := list nat) (U := U) [3; 4; 5; 6] f s in
  fo_any_e fold (logging Nat.even) [] = (Ret true, [3; 4]) /\
  fo_all_e fold (logging Nat.even) [] = (Ret false, [3]) /\
  fo_fold_option_e fold Nat.add 0 (logging (fun x => if x =? 4 then None else Some x)) [] = (Ret None, [3; 4; 5; 6]) /\
  fo_reduce_e fold (fun a x log => (Ret (a + x), log ++ [x])) [] = (Ret (Some 18), [4; 5; 6]).
Proof. vm_compute. auto. Qed.
Example C92_traverse_case :
  let f := logging (fun x => if Nat.even x then @Err nat nat x else Ok x) in
  eu_traverse_e f [3; 4; 5; 6] [] = (Ret (Err 4), [3; 4]) /\
  eu_traverse_validated_e f [3; 4; 5; 6] [] = (Ret (Invalid [4; 6]), [3; 4; 5; 6]).
Proof. vm_compute. auto. Qed.
Example C92_pipelines_case :
  let op n := fun b log => (Ret (if b =? 7 then @Err nat nat n else Ok (b + 1)), log ++ [n]) in
  hu_pipeline_result_e 6 [op 1; op 2; op 3] [] = (Ret (Err 2), [1; 2]).
Proof. reflexivity. Qed.
Example C92_validated_case :
  va_recover_all_e (logging (fun e => if e =? 4 then Valid true else Invalid [e; e])) (Invalid [3; 4; 5]) [] =
    (Ret (Valid true), [3; 4]).
Proof. reflexivity. Qed.

Print Assumptions C92_vector.
Print Assumptions C92_vector_folds.
Print Assumptions C92_walk_list.
Print Assumptions C92_choice.
Print Assumptions C92_choice_alternatives.
Print Assumptions C92_choice_bind.
Print Assumptions C92_choice_bind_empty.
Print Assumptions C92_choice_bind_lazy.
Print Assumptions C92_choice_products.
Print Assumptions C92_vec.
Print Assumptions C92_vec_products.
Print Assumptions C92_foldable.
Print Assumptions C92_foldable_instances.
Print Assumptions C92_traverse.
Print Assumptions C92_filter_map_zip.
Print Assumptions C92_pipelines.
Print Assumptions C92_validated.
Print Assumptions C92_pure_vector.
Print Assumptions C92_pure_choice.
Print Assumptions C92_pure_products.
Print Assumptions C92_pure_helpers.
Print Assumptions C92_log.
Print Assumptions C92_log_all.

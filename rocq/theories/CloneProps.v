(** Theorems for C106 (by-value operations copy nothing, borrowing ones what they keep). *)
From Coq Require Import List Arith Bool Sorted Lia.
From Verif Require Import Base Types SumModel ValidatedModel ChoiceModel WrapModel EffModel CallModel SemiModel WrapSpec SemiProps OnceSpec OnceProps
  CloneModel CloneSpec.
Import ListNotations.
Open Scope list_scope.

(** ** Loops *)
Lemma asks_ext : forall W A B (m m' : action W A) (k k' : A -> action W B) w,
  m w = m' w -> (forall a w, k a w = k' a w) -> asks m k w = asks m' k' w.
Proof. intros W A B m m' k k' w H K. unfold asks. rewrite H. destruct (m' w) as [[a|] w']; auto. Qed.
Lemma gives_ext : forall W A B (m m' : action W A) (k k' : A -> B) w, m w = m' w -> (forall a, k a = k' a) -> gives m k w = gives m' k' w.
Proof. intros. apply asks_ext; auto. intros a w'. unfold silent. now rewrite H0. Qed.
Lemma asks_asks : forall W A B C (m : action W A) (k : A -> action W B) (h : B -> action W C) w,
  asks (asks m k) h w = asks m (fun a => asks (k a) h) w.
Proof. intros. unfold asks. destruct (m w) as [[a|] w']; auto. Qed.
Lemma asks_silent : forall W A (m : action W A) w, asks m silent w = m w.
Proof. intros. unfold asks, silent. destruct (m w) as [[a|] w']; auto. Qed.
Lemma for_each_ext : forall W A B (f g : A -> action W B) l w, (forall a w, f a w = g a w) -> for_each f l w = for_each g l w.
Proof.
  intros W A B f g l w H. revert w. induction l as [|x l IH]; intros w; cbn; auto.
  apply asks_ext; auto. intros a w'. apply gives_ext; auto.
Qed.
Lemma for_each_app : forall W A B (f : A -> action W B) a b w,
  for_each f (a ++ b) w = asks (for_each f a) (fun x => gives (for_each f b) (app x)) w.
Proof.
  intros W A B f a b. induction a as [|x a IH]; intros w.
  - unfold asks. cbn. unfold gives, asks, silent. cbn. destruct (for_each f b w) as [[l|] w']; auto.
  - cbn [app for_each]. rewrite asks_asks. apply asks_ext; auto. intros y w'. unfold gives. rewrite asks_asks.
    transitivity (asks (asks (for_each f a) (fun x0 => gives (for_each f b) (app x0))) (fun ys => silent (y :: ys)) w').
    + now apply asks_ext.
    + rewrite asks_asks. apply asks_ext; auto. intros ys w2. unfold gives. rewrite asks_asks. unfold asks, silent.
      destruct (for_each f b w2) as [[l|] w3]; auto.
Qed.
Lemma seen_bind : forall W A B C (view : B -> C) (m : eff W A) (k : A -> eff W B) w,
  seen view (eff_bind m k) w = asks m (fun a => seen view (k a)) w.
Proof. intros. unfold seen, eff_bind, asks. destruct (m w) as [[a|] w']; reflexivity. Qed.
(** A loop that appends *)
Lemma loop_lists : forall W A B (body : list B -> A -> eff W (list B)) (g : A -> action W (list B)) l acc w,
  (forall acc x w, body acc x w = gives (g x) (app acc) w) ->
  for_in body acc l w = gives (for_each_list g l) (app acc) w.
Proof.
  intros W A B body g l acc w H. revert acc w. induction l as [|x l IH]; intros acc w.
  - unfold for_each_list, gives, asks, silent. cbn. now rewrite app_nil_r.
  - cbn [for_in]. unfold eff_bind. rewrite H. unfold for_each_list. cbn [for_each]. unfold gives, asks, silent.
    destruct (g x w) as [[ys|] w1]; [|reflexivity]. rewrite IH. unfold for_each_list, gives, asks, silent.
    destruct (for_each g l w1) as [[yss|] w2]; [cbn; now rewrite app_assoc|reflexivity].
Qed.
Lemma loop_push : forall W A B (f : A -> action W B) l acc w,
  for_in (fun acc x => eff_bind (f x) (fun y => eff_ret (acc ++ [y]))) acc l w = gives (for_each f l) (app acc) w.
Proof.
  intros W A B f l. induction l as [|x l IH]; intros acc w.
  - unfold gives, asks, silent. cbn. now rewrite app_nil_r.
  - cbn [for_in for_each]. unfold eff_bind at 1 2. unfold gives, asks, silent. destruct (f x w) as [[y|] w1]; [|reflexivity].
    cbn. rewrite IH. unfold gives, asks, silent. destruct (for_each f l w1) as [[ys|] w2]; [now rewrite <- app_assoc|reflexivity].
Qed.
Lemma loop_running : forall W S A (body : S -> A -> eff W S) l s w, for_in body s l w = running body s l w.
Proof. intros W S A body l. induction l as [|x l IH]; intros s w; [reflexivity|]. cbn [for_in running]. rewrite bind_asks. apply asks_ext; auto. Qed.
Lemma running_ext : forall W S A (f g : S -> A -> action W S) l s w, (forall s x w, f s x w = g s x w) -> running f s l w = running g s l w.
Proof. intros W S A f g l s w H. revert s w. induction l as [|x l IH]; intros s w; cbn; auto. apply asks_ext; auto. Qed.
Lemma for_each_silent : forall W A (l : list A) (w : W), for_each silent l w = (Ret l, w).
Proof. intros W A l w. revert w. induction l as [|x l IH]; intros w; cbn; auto. unfold asks, silent, gives, asks. cbn. now rewrite IH. Qed.
Lemma for_each_noting : forall A N (name : A -> N) l log, for_each (noting name) l log = (Ret l, log ++ map name l).
Proof.
  intros A N name l. induction l as [|x l IH]; intros log; cbn; [now rewrite app_nil_r|].
  unfold asks, noting. unfold gives, asks, silent. rewrite IH. now rewrite <- app_assoc.
Qed.

(** ** By value: nothing is copied, whatever [clone] would do *)
Ltac parts := repeat match goal with |- _ /\ _ => split end.
Theorem C106_owned_maps : forall W A B E F w (ca : A -> eff W A) (cb : B -> eff W B) (ce : E -> eff W E) (cf : F -> eff W F),
  (forall (e : either E A) f, seen of_either (ei_fmap_owned_c (B := B) ce ca e f) w = on_value f (of_either e) w) /\
  (forall (v : validated E A) f, seen of_validated (va_fmap_owned_c (B := B) ce ca v f) w = on_value f (of_validated v) w) /\
  (forall (v : validated E A) f, seen of_validated (va_map_second_owned_c ce ca cf v f) w = on_failure (for_each f) (of_validated v) w) /\
  (forall (m : writer E A) f, wr_fmap_owned_c (B := B) ce ca m f w = gives (f (w_value m)) (mkWriter (w_log m)) w) /\
  (forall (c : choice A) f, seen values (ch_fmap_owned_c (B := B) ca f c) w = for_each f (values c) w).
Proof.
  intros; parts; try (each; fail).
  - intros [a|es] f; see; try reflexivity. rewrite for_each_run. destruct (for_each f es w) as [[?|] ?]; reflexivity.
  - intros [[|x l]] f; [reflexivity|]. cbn. unfold seen, ch_fmap_owned_c. cbn. unfold eff_bind, asks, gives, asks, silent, eff_ret.
    destruct (f x w) as [[y|] w1]; auto. rewrite for_each_run. destruct (for_each f l w1) as [[ys|] w2]; auto.
Qed.
Theorem C106_owned_applying : forall W A B E w (ca : A -> eff W A) (cb : B -> eff W B) (ce : E -> eff W E),
  (forall m a, seen of_maybe (mb_apply_owned_c ca cb m a) w = on_two only (fun f x => f x) (of_maybe m) (of_maybe a) w) /\
  (forall m a, seen of_option (op_apply_owned_c ca cb m a) w = on_two only (fun f x => f x) (of_option m) (of_option a) w) /\
  (forall m a, seen of_result (re_apply_owned_c ca cb ce m a) w = on_two only (fun f x => f x) (of_result m) (of_result a) w) /\
  (forall m a, seen of_either (ei_apply_owned_c ce ca cb m a) w = on_two only (fun f x => f x) (of_either m) (of_either a) w) /\
  (forall m a, seen of_validated (va_apply_owned_c ce ca cb m a) w = on_two (@app E) (fun f x => f x) (of_validated m) (of_validated a) w) /\
  (forall m a, seen of_id (id_apply_owned_c ca cb m a) w = on_two only (fun f x => f x) (of_id m) (of_id a) w) /\
  (forall op m a, wr_apply_owned_c ce ca cb op m a w = asks (op (w_log m) (w_log a)) (fun l => gives (w_value m (w_value a)) (mkWriter l)) w).
Proof. intros; parts; each. Qed.
Theorem C106_owned_two : forall W A B C E w (ca : A -> eff W A) (cb : B -> eff W B) (cc : C -> eff W C) (ce : E -> eff W E) (f : A -> B -> eff W C),
  (forall a b, seen of_maybe (mb_lift2_owned_c ca cb cc f a b) w = on_two only f (of_maybe a) (of_maybe b) w) /\
  (forall a b, seen of_option (op_lift2_owned_c ca cb cc f a b) w = on_two only f (of_option a) (of_option b) w) /\
  (forall a b, seen of_result (re_lift2_owned_c ca cb cc ce f a b) w = on_two only f (of_result a) (of_result b) w) /\
  (forall a b, seen of_either (ei_lift2_owned_c ce ca cb cc f a b) w = on_two only f (of_either a) (of_either b) w) /\
  (forall a b, seen of_validated (va_lift2_owned_c ce ca cb cc f a b) w = on_two (@app E) f (of_validated a) (of_validated b) w) /\
  (forall a b, seen of_id (id_lift2_owned_c ca cb cc f a b) w = on_two only f (of_id a) (of_id b) w) /\
  (forall op a b, wr_lift2_owned_c ce ca cb cc op f a b w = asks (op (w_log a) (w_log b)) (fun l => gives (f (w_value a) (w_value b)) (mkWriter l)) w).
Proof. intros; parts; each. Qed.
Theorem C106_owned_three : forall W A B C D E w (ca : A -> eff W A) (cb : B -> eff W B) (cc : C -> eff W C) (cd : D -> eff W D) (ce : E -> eff W E)
    (f : A -> B -> C -> eff W D),
  (forall a b c, seen of_maybe (mb_lift3_owned_c ca cb cc cd f a b c) w = on_three only f (of_maybe a) (of_maybe b) (of_maybe c) w) /\
  (forall a b c, seen of_option (op_lift3_owned_c ca cb cc cd f a b c) w = on_three only f (of_option a) (of_option b) (of_option c) w) /\
  (forall a b c, seen of_result (re_lift3_owned_c ca cb cc cd ce f a b c) w = on_three only f (of_result a) (of_result b) (of_result c) w) /\
  (forall a b c, seen of_either (ei_lift3_owned_c ce ca cb cc cd f a b c) w = on_three only f (of_either a) (of_either b) (of_either c) w) /\
  (forall a b c, seen of_validated (va_lift3_owned_c ce ca cb cc cd f a b c) w =
     on_three (@app E) f (of_validated a) (of_validated b) (of_validated c) w) /\
  (forall a b c, seen of_id (id_lift3_owned_c ca cb cc cd f a b c) w = on_three only f (of_id a) (of_id b) (of_id c) w) /\
  (forall op a b c, wr_lift3_owned_c ce ca cb cc cd op f a b c w =
     asks (asks (op (w_log a) (w_log b)) (fun l => op l (w_log c))) (fun l => gives (f (w_value a) (w_value b) (w_value c)) (mkWriter l)) w).
Proof. intros; parts; each. Qed.
Theorem C106_owned_chains : forall W A B E w (ca : A -> eff W A) (cb : B -> eff W B) (ce : E -> eff W E),
  (forall o (f : A -> eff W (option B)), seen of_option (op_bind_owned_c ca o f) w = and_then (fun a => seen of_option (f a)) (of_option o) w) /\
  (forall r (f : A -> eff W (result B E)), seen of_result (re_bind_owned_c ca ce r f) w = and_then (fun a => seen of_result (f a)) (of_result r) w) /\
  (forall e (f : A -> eff W (either E B)), seen of_either (ei_bind_owned_c ce ca e f) w = and_then (fun a => seen of_either (f a)) (of_either e) w) /\
  (forall v (f : A -> eff W (validated E B)), seen of_validated (va_bind_owned_c ce ca cb v f) w =
     and_then (fun a => seen of_validated (f a)) (of_validated v) w) /\
  (forall i (f : A -> eff W (id_ B)), seen of_id (id_bind_owned_c ca cb i f) w = and_then (fun a => seen of_id (f a)) (of_id i) w) /\
  (forall op m (f : A -> eff W (writer E B)), wr_bind_owned_c ce ca op m f w =
     asks (f (w_value m)) (fun n => gives (op (w_log m) (w_log n)) (fun l => mkWriter l (w_value n))) w).
Proof. intros; parts; each. Qed.
Theorem C106_owned_flat : forall W A E (w : W) (ca : A -> eff W A) (ce : E -> eff W E),
  (forall m, seen of_option (op_join_owned_c ca m) w = silent (flat (within of_option (of_option m))) w) /\
  (forall m, seen of_result (re_join_owned_c ca ce m) w = silent (flat (within of_result (of_result m))) w) /\
  (forall m, seen of_either (ei_join_owned_c ce ca m) w = silent (flat (within of_either (of_either m))) w) /\
  (forall m, seen of_validated (va_join_owned_c ce ca m) w = silent (flat (within of_validated (of_validated m))) w) /\
  (forall m, seen of_id (id_join_owned_c ca m) w = silent (flat (within of_id (of_id m))) w) /\
  (forall op m, wr_join_owned_c ce ca op m w = gives (op (w_log m) (w_log (w_value m))) (fun l => mkWriter l (w_value (w_value m))) w).
Proof. intros; parts; each. Qed.
Theorem C106_owned_recoveries : forall W A E F w (ca : A -> eff W A) (ce : E -> eff W E),
  (forall o f, seen of_option (op_catch_owned_c ca o f) w = or_else (fun e => seen of_option (f e)) (of_option o) w) /\
  (forall o (f : unit -> eff W F), seen of_result (op_map_error_to_owned_c ca o f) w = on_failure f (of_option o) w) /\
  (forall r f, seen of_result (re_catch_owned_c ca ce r f) w = or_else (fun e => seen of_result (f e)) (of_result r) w) /\
  (forall (r : result A E) (f : E -> eff W F), seen of_result (re_map_error_to_owned_c ca r f) w = on_failure f (of_result r) w).
Proof. intros; parts; each. Qed.
Theorem C106_owned_alternatives : forall W A E (w : W) (ca : A -> eff W A) (ce : E -> eff W E),
  (forall a b, seen of_maybe (mb_mplus_owned_c ca a b) w = silent (choose only (of_maybe a) (of_maybe b)) w) /\
  (forall a b, seen of_option (op_mplus_owned_c ca a b) w = silent (choose only (of_option a) (of_option b)) w) /\
  (forall a b, seen of_result (re_mplus_owned_c ca ce a b) w = silent (choose later (of_result a) (of_result b)) w) /\
  (forall a b, seen of_either (ei_mplus_owned_c ce ca a b) w = silent (choose only (of_either a) (of_either b)) w) /\
  (forall a b, seen of_validated (va_mplus_owned_c ce ca a b) w = silent (choose (@app E) (of_validated a) (of_validated b)) w) /\
  (forall a b, seen of_option (first_combine_owned_c ca a b) w = silent (choose only (of_option a) (of_option b)) w) /\
  (forall a b, seen of_option (last_combine_owned_c ca a b) w = silent (choose only (of_option b) (of_option a)) w) /\
  (forall a b, seen values (ch_mplus_owned_c ca a b) w = silent (values a ++ values b) w /\
               seen values (ch_combine_owned_c ca a b) w = silent (values a ++ values b) w) /\
  (forall a b, vec_combine_owned_c ca a b w = silent (a ++ b) w).
Proof.
  intros; parts; try (each; fail); try reflexivity. intros [[|x a]] [[|y b]]; split; cbn; auto; try now rewrite app_nil_r.
Qed.
(** Values that are compared or added are given to the comparison or the addition themselves. *)
Theorem C106_owned_wrappers : forall W A w (ca : A -> eff W A),
  (forall cmp (a b : A), min_combine_owned_c ca cmp a b w = gives (cmp a b) (fun o => match o with Gt => b | _ => a end) w) /\
  (forall cmp (a b : A), max_combine_owned_c ca cmp a b w = gives (cmp a b) (fun o => match o with Lt => b | _ => a end) w) /\
  (forall op (a b : A), sum_combine_owned_c ca op a b w = op a b w) /\
  (forall op a b, seen of_option (op_combine_owned_c ca op a b) w =
     match a, b with Some x, Some y => gives (op x y) Has w | _, _ => silent (choose only (of_option a) (of_option b)) w end).
Proof.
  intros; parts; try (each; fail).
  - intros. unfold min_combine_owned_c, gives. rewrite bind_asks. apply asks_ext; auto. intros [] ?; auto.
  - intros. unfold max_combine_owned_c, gives. rewrite bind_asks. apply asks_ext; auto. intros [] ?; auto.
Qed.
Lemma collect_loop : forall W E A (vs : list (validated E A)) acc errs (w : W),
  for_in (fun '(values, errors) item =>
    match item with Valid a => eff_ret (values ++ [a], errors) | Invalid es => eff_ret (values, errors ++ es) end) (acc, errs) vs w =
  (Ret (acc ++ flat_map (fun v => match v with Valid a => [a] | Invalid _ => [] end) vs,
        errs ++ flat_map (fun v => match v with Invalid es => es | Valid _ => [] end) vs), w).
Proof.
  intros W E A vs. induction vs as [|[a|es] vs IH]; intros acc errs w; cbn.
  - unfold eff_ret. now rewrite !app_nil_r.
  - unfold eff_bind, eff_ret. rewrite IH. now rewrite <- app_assoc.
  - unfold eff_bind, eff_ret. rewrite IH. now rewrite <- app_assoc.
Qed.
Lemma all_of_spec : forall E A (vs : list (validated E A)), all_of (map of_validated vs) =
  if forallb (fun v => match v with Valid _ => true | _ => false end) vs
  then Has (flat_map (fun v => match v with Valid a => [a] | Invalid _ => [] end) vs)
  else Lacks (flat_map (fun v => match v with Invalid es => es | Valid _ => [] end) vs).
Proof.
  intros E A vs. induction vs as [|[a|es] vs IH]; auto; cbn; rewrite IH.
  - now destruct (forallb _ vs).
  - destruct (forallb _ vs) eqn:F; auto. f_equal.
    assert (H : flat_map (fun v : validated E A => match v with Invalid es => es | Valid _ => [] end) vs = []).
    { clear IH. induction vs as [|[b|fs] vs IH]; cbn in *; auto; discriminate. }
    rewrite H. now rewrite app_nil_r.
Qed.
Lemma errors_loop : forall W E A (vs : list (validated E A)) acc (w : W),
  for_in (fun acc v => match v with Invalid es => eff_ret (acc ++ es) | Valid _ => eff_ret acc end) acc vs w =
  (Ret (acc ++ flat_map (fun v => match v with Invalid es => es | Valid _ => [] end) vs), w).
Proof.
  intros W E A vs. induction vs as [|[a|es] vs IH]; intros acc w; cbn; unfold eff_bind, eff_ret; [now rewrite app_nil_r| |].
  - apply IH.
  - rewrite IH. now rewrite <- app_assoc.
Qed.
Theorem C106_owned_validated : forall W A B E w (ca : A -> eff W A) (cb : B -> eff W B) (ce : E -> eff W E),
  (forall vs f, seen of_validated (va_sequence_owned_c ce ca cb vs f) w = on_value f (all_of (map of_validated vs)) w) /\
  (forall vs, Forall (fun v => of_validated v <> Lacks []) vs ->
     seen of_validated (va_collect_c ce ca vs) w = silent (all_of (map of_validated vs)) w) /\
  (forall r, seen of_validated (va_from_result_owned_c ce ca r) w = on_failure (fun e => silent [e]) (of_result r) w) /\
  (forall v, va_to_result_owned_c ce ca v w =
     match of_validated v with Has a => (Ret (Ok a), w) | Lacks (e :: _) => (Ret (Err e), w) | Lacks [] => (Panic, w) end) /\
  (forall o e, seen of_validated (va_from_option_owned_c ce ca o e) w = on_failure (fun _ => silent [e]) (of_option o) w) /\
  (forall o f, seen of_validated (va_from_option_with_owned_c ce ca o f) w = on_failure (fun _ => gives f (fun e => [e])) (of_option o) w) /\
  (forall a b, va_combine_errors_owned_c ce ca a b w =
     match a, b with
     | Valid _, Valid _ => (Panic, w)
     | _, _ => (Ret (Invalid (flat_map (fun v => match v with Invalid es => es | Valid _ => [] end) [a; b])), w)
     end).
Proof.
  intros; parts; try (each; fail).
  - intros vs f. rewrite all_of_spec. destruct vs as [|v vs].
    + cbn. unfold seen, gives, asks, silent, eff_bind, eff_ret. destruct (f [] w) as [[?|] ?]; auto.
    + unfold va_sequence_owned_c. set (l := v :: vs). clearbody l. destruct (forallb _ l).
      * unfold on_value, gives, asks, seen, eff_bind, eff_ret, silent. destruct (f _ w) as [[?|] ?]; auto.
      * unfold on_value, seen, eff_bind. rewrite errors_loop. reflexivity.
  - intros vs H. unfold va_collect_c, seen, eff_bind. rewrite collect_loop. cbn [app fst snd]. rewrite all_of_spec.
    assert (K : match flat_map (fun v : validated E A => match v with Invalid es => es | Valid _ => [] end) vs with
      [] => forallb (fun v => match v with Valid _ => true | _ => false end) vs = true
      | _ :: _ => forallb (fun v : validated E A => match v with Valid _ => true | _ => false end) vs = false end).
    { clear w. induction H as [|[a|es] vs Hv H IH]; cbn; auto. destruct es as [|e es]; [now contradiction Hv|]. reflexivity. }
    destruct (flat_map (fun v : validated E A => match v with Invalid es => es | Valid _ => [] end) vs); rewrite K; reflexivity.
  - intros [a|[|e es]]; reflexivity.
  - intros [a|es] [b|fs]; cbn; unfold eff_ret; now rewrite ?app_nil_r.
Qed.
(** Choices made of vectors and choices, and given away as iterators *)
Theorem C106_owned_choices : forall W A (w : W) (ca : A -> eff W A),
  (forall c, ch_into_iter_c ca c w = silent (values c) w) /\
  (forall l, seen values (ch_from_vec_c ca l) w = silent l w) /\
  (forall cs, seen values (ch_from_choices_c ca cs) w = silent (concat (map values cs)) w) /\
  (forall c l, seen values (ch_add_alternatives_c ca c l) w = silent (values c ++ l) w).
Proof.
  intros; parts; try reflexivity.
  - intros [|x l]; reflexivity.
  - intros cs. unfold ch_from_choices_c. rewrite <- flat_map_concat_map. destruct (flat_map values cs); reflexivity.
Qed.
Theorem C106_owned_pure : forall W A M (ca : A -> eff W A) (wrap : A -> M) a w, pure_owned_c ca wrap a w = (Ret (wrap a), w).
Proof. reflexivity. Qed.

(** ** By reference: what is kept is copied, once *)
Ltac lists := repeat first
  [ rewrite for_each_run
  | rewrite for_each_app; unfold asks, gives, asks, silent
  | match goal with |- context [for_each ?f ?l ?w] => destruct (for_each f l w) as [[?|] ?]; cbn end ]; try reflexivity.
Theorem C106_borrowed_maps : forall W A B E F w (ca : A -> eff W A) (ce : E -> eff W E),
  (forall (r : result A E) (f : A -> eff W B), seen of_result (re_fmap_c ce r f) w = fmap_ref ce f (of_result r) w) /\
  (forall (e : either E A) (f : A -> eff W B), seen of_either (ei_fmap_c ce ca e f) w = fmap_ref ce f (of_either e) w) /\
  (forall (v : validated E A) (f : A -> eff W B), seen of_validated (va_fmap_c ce ca v f) w = fmap_ref (for_each ce) f (of_validated v) w) /\
  (forall (e : either E A) (f : E -> eff W F), seen of_either (ei_map_second_c ca e f) w = on_either ca f (of_either e) w) /\
  (forall (v : validated E A) (f : E -> eff W F), seen of_validated (va_map_second_c ce ca v f) w = on_either ca (for_each f) (of_validated v) w) /\
  (forall (m : writer E A) (f : A -> eff W B), wr_fmap_c ce ca m f w = asks (ce (w_log m)) (fun l => gives (f (w_value m)) (mkWriter l)) w).
Proof. intros; parts; each; lists. Qed.
Theorem C106_borrowed_applying : forall W A B E w (ce : E -> eff W E),
  (forall (m : result (A -> eff W B) E) a, seen of_result (re_apply_c ce m a) w = two_ref only ce (fun f x => f x) (of_result m) (of_result a) w) /\
  (forall (m : either E (A -> eff W B)) a, seen of_either (ei_apply_c ce m a) w = two_ref only ce (fun f x => f x) (of_either m) (of_either a) w) /\
  (forall (m : validated E (A -> eff W B)) a, seen of_validated (va_apply_c ce m a) w =
     two_ref (@app E) (for_each ce) (fun f x => f x) (of_validated m) (of_validated a) w).
Proof. intros; parts; each; lists. Qed.
Lemma extend_cloned_run : forall W E A (ce : E -> eff W E) acc (v : validated E A) w, extend_cloned_if_invalid ce acc v w =
  gives (for_each ce (match v with Invalid es => es | Valid _ => [] end)) (app acc) w.
Proof.
  intros W E A ce acc [a|es] w; cbn.
  - unfold gives, asks, silent, eff_ret. now rewrite app_nil_r.
  - apply loop_push.
Qed.
Ltac still := cbn -[extend_cloned_if_invalid for_each app].
Ltac errs := unfold eff_bind, eff_ret; unfold gives, asks, silent; still;
  repeat first
  [ rewrite extend_cloned_run; unfold gives, asks, silent; still
  | rewrite for_each_app; unfold gives, asks, silent; still
  | match goal with H : for_each ?f ?l ?w = _ |- context [for_each ?f ?l ?w] => rewrite H; still end
  | match goal with |- context [for_each ?f ?l ?w] => is_var l; destruct (for_each f l w) as [[?|] ?] eqn:?; still end
  | progress (cbn [for_each]; unfold silent; still) ];
  cbn [app]; rewrite ?app_nil_r, ?app_assoc; try reflexivity.
Theorem C106_borrowed_two : forall W A B C E w (ca : A -> eff W A) (cb : B -> eff W B) (ce : E -> eff W E) (f : A -> B -> eff W C),
  (forall a b, seen of_result (re_lift2_c ca cb ce f a b) w = two_ref only ce f (of_result a) (of_result b) w) /\
  (forall a b, seen of_either (ei_lift2_c ce ca cb f a b) w = two_ref only ce f (of_either a) (of_either b) w) /\
  (forall a b, seen of_validated (va_lift2_c ce ca cb f a b) w = two_ref (@app E) (for_each ce) f (of_validated a) (of_validated b) w).
Proof.
  intros; parts; try (each; fail).
  intros [a|e1] [b|e2]; unfold seen, va_lift2_c, two_ref, on_either, pair, of_validated; still; try (see; reflexivity); errs.
Qed.
Theorem C106_borrowed_three : forall W A B C D E w (ca : A -> eff W A) (cb : B -> eff W B) (cc : C -> eff W C) (ce : E -> eff W E)
    (f : A -> B -> C -> eff W D),
  (forall a b c, seen of_result (re_lift3_c ca cb cc ce f a b c) w = three_ref only ce f (of_result a) (of_result b) (of_result c) w) /\
  (forall a b c, seen of_either (ei_lift3_c ce ca cb cc f a b c) w = three_ref only ce f (of_either a) (of_either b) (of_either c) w) /\
  (forall a b c, seen of_validated (va_lift3_c ce ca cb cc f a b c) w =
     three_ref (@app E) (for_each ce) f (of_validated a) (of_validated b) (of_validated c) w).
Proof.
  intros; parts; try (each; fail).
  intros [a|e1] [b|e2] [c|e3]; unfold seen, va_lift3_c, three_ref, on_either, pair, of_validated; still; try (see; reflexivity); errs.
Qed.
Theorem C106_borrowed_chains : forall W A B E w (ca : A -> eff W A) (ce : E -> eff W E),
  (forall r (f : A -> eff W (result B E)), seen of_result (re_bind_c ca ce r f) w = bind_ref ce (fun a => seen of_result (f a)) (of_result r) w) /\
  (forall e (f : A -> eff W (either E B)), seen of_either (ei_bind_c ce ca e f) w = bind_ref ce (fun a => seen of_either (f a)) (of_either e) w) /\
  (forall v (f : A -> eff W (validated E B)), seen of_validated (va_bind_c ce ca v f) w =
     bind_ref (for_each ce) (fun a => seen of_validated (f a)) (of_validated v) w).
Proof. intros; parts; each; lists. Qed.
Theorem C106_borrowed_flat : forall W A E w (ca : A -> eff W A) (ce : E -> eff W E),
  (forall m, seen of_maybe (mb_join_c ca m) w = copied ca silent (flat (within of_maybe (of_maybe m))) w) /\
  (forall m, seen of_option (op_join_c ca m) w = copied ca silent (flat (within of_option (of_option m))) w) /\
  (forall m, seen of_result (re_join_c ca ce m) w = copied ca ce (flat (within of_result (of_result m))) w) /\
  (forall m, seen of_either (ei_join_c ce ca m) w = copied ca ce (flat (within of_either (of_either m))) w) /\
  (forall m, seen of_validated (va_join_c ce ca m) w = copied ca (for_each ce) (flat (within of_validated (of_validated m))) w) /\
  (forall m, seen of_id (id_join_c ca m) w = copied ca silent (flat (within of_id (of_id m))) w) /\
  (forall m, seen of_id (id_duplicate_c ca m) w = copied ca silent (of_id m) w) /\
  (forall m, id_extract_c ca m w = ca (id_value m) w).
Proof. intros; parts; each; lists. Qed.
Theorem C106_borrowed_recoveries : forall W A E F w (ca : A -> eff W A) (ce : E -> eff W E),
  (forall o f, seen of_option (op_catch_c ca o f) w = catch_ref ca (fun e => seen of_option (f e)) (of_option o) w) /\
  (forall r f, seen of_result (re_catch_c ca ce r f) w = catch_ref ca (fun e => seen of_result (f e)) (of_result r) w) /\
  (forall o (f : unit -> eff W F), seen of_result (op_map_error_to_c ca o f) w = on_either ca f (of_option o) w) /\
  (forall (r : result A E) (f : E -> eff W F), seen of_result (re_map_error_to_c ca r f) w = on_either ca f (of_result r) w).
Proof. intros; parts; each. Qed.
(** Of two alternatives only the one that is chosen is copied. *)
Theorem C106_borrowed_alternatives : forall W A E w (ca : A -> eff W A) (ce : E -> eff W E),
  (forall a b, seen of_maybe (mb_mplus_c ca a b) w = copied ca silent (choose only (of_maybe a) (of_maybe b)) w /\
               seen of_maybe (mb_alt_c ca a b) w = copied ca silent (choose only (of_maybe a) (of_maybe b)) w) /\
  (forall a b, seen of_option (op_mplus_c ca a b) w = copied ca silent (choose only (of_option a) (of_option b)) w /\
               seen of_option (op_alt_c ca a b) w = copied ca silent (choose only (of_option a) (of_option b)) w) /\
  (forall a b, seen of_result (re_mplus_c ca ce a b) w = copied ca ce (choose later (of_result a) (of_result b)) w) /\
  (forall a b, seen of_either (ei_mplus_c ce ca a b) w = copied ca ce (choose only (of_either a) (of_either b)) w) /\
  (forall a b, seen of_validated (va_mplus_c ce ca a b) w = copied ca (for_each ce) (choose (@app E) (of_validated a) (of_validated b)) w) /\
  (forall a b, seen of_option (first_combine_c ca a b) w = copied ca silent (choose only (of_option a) (of_option b)) w) /\
  (forall a b, seen of_option (last_combine_c ca a b) w = copied ca silent (choose only (of_option b) (of_option a)) w) /\
  (forall a b, seen values (ch_mplus_c ca a b) w = for_each ca (values a ++ values b) w /\
               seen values (ch_combine_c ca a b) w = for_each ca (values a ++ values b) w) /\
  (forall a b, vec_combine_c ca a b w = for_each ca (a ++ b) w) /\
  (forall a b, vec_alt_c ca a b w = for_each ca (match a with [] => b | _ => a end) w).
Proof.
  intros; parts; try (each; lists; fail).
  - intros; split; each.
  - intros; split; each.
  - assert (H : forall a b, seen values (ch_combine_c ca a b) w = for_each ca (values a ++ values b) w).
    { intros [[|x a]] [[|y b]]; cbn [values app]; unfold seen, ch_combine_c, clone_choice, clone_vec; cbn [values].
      - reflexivity.
      - unfold eff_bind. rewrite for_each_run. destruct (for_each ca (y :: b) w) as [[?|] ?]; reflexivity.
      - rewrite app_nil_r. unfold eff_bind. rewrite for_each_run. destruct (for_each ca (x :: a) w) as [[?|] ?]; reflexivity.
      - cbn [for_each]. unfold eff_bind, gives, asks, silent. destruct (ca x w) as [[x'|] w1]; auto. rewrite for_each_run.
        destruct (for_each ca (a ++ y :: b) w1) as [[?|] ?]; reflexivity. }
    intros a b. split; [|apply H]. destruct a as [[|x a]], b as [[|y b]]; try (rewrite <- H; reflexivity).
  - intros a b. unfold vec_combine_c, clone_vec. unfold eff_bind at 1. rewrite for_each_run, for_each_app. unfold asks.
    destruct (for_each ca a w) as [[a'|] w1]; auto. apply loop_push.
  - intros [|x a] b; unfold vec_alt_c, clone_vec; now rewrite for_each_run.
Qed.
Theorem C106_borrowed_wrappers : forall W A w (ca : A -> eff W A),
  (forall cmp (a b : A), min_combine_c ca cmp a b w = asks (cmp a b) (fun o => ca (match o with Gt => b | _ => a end)) w) /\
  (forall cmp (a b : A), max_combine_c ca cmp a b w = asks (cmp a b) (fun o => ca (match o with Lt => b | _ => a end)) w) /\
  (forall op (a b : A), sum_combine_c ca op a b w = asks (for_each ca [a; b]) (fun l => match l with [x; y] => op x y | _ => op a b end) w) /\
  (forall op a b, seen of_option (op_combine_c ca op a b) w =
     match a, b with Some x, Some y => gives (op x y) Has w | _, _ => copied ca silent (choose only (of_option a) (of_option b)) w end) /\
  (forall o d, first_unwrap_or_c ca o d w = match of_option o with Has a => ca a w | Lacks _ => silent d w end) /\
  (forall o, first_unwrap_c ca o w = match of_option o with Has a => ca a w | Lacks _ => (Panic, w) end).
Proof.
  intros; parts; try (each; fail).
  - intros. unfold min_combine_c. rewrite bind_asks. apply asks_ext; auto. intros [] ?; auto.
  - intros. unfold max_combine_c. rewrite bind_asks. apply asks_ext; auto. intros [] ?; auto.
  - intros. unfold sum_combine_c, eff_bind. cbn [for_each]. unfold gives, asks, silent. destruct (ca a w) as [[x|] w1]; auto.
    destruct (ca b w1) as [[y|] w2]; auto.
Qed.
Theorem C106_borrowed_many : forall W A w (ca : A -> eff W A),
  (forall m, seen of_maybe (mb_many_c ca m) w = on_value (fun a => gives (ca a) (fun x => [x])) (of_maybe m) w) /\
  (forall o, seen of_option (op_many_c ca o) w = on_value (fun a => gives (ca a) (fun x => [x])) (of_option o) w) /\
  (forall l, vec_many_c ca l w = match l with [] => silent [] w | _ => gives (for_each ca l) (fun l' => [l']) w end) /\
  (forall c, seen values (ch_many_c ca c) w = gives (for_each ca (firstn 1 (values c))) (map (fun x => [x])) w).
Proof.
  intros; parts; try (each; fail).
  - intros [|x l]; auto. unfold vec_many_c, clone_vec, gives. rewrite bind_asks. apply asks_ext; auto. apply for_each_run.
  - intros [[|x l]]; [reflexivity|]. unfold seen, ch_many_c, eff_bind. cbn. unfold gives, asks, silent. destruct (ca x w) as [[?|] ?]; reflexivity.
Qed.
Theorem C106_borrowed_validated : forall W A B E w (ca : A -> eff W A) (ce : E -> eff W E),
  (forall vs (f : list A -> eff W B), seen of_validated (va_sequence_c ce ca vs f) w =
     match all_of (map of_validated vs) with
     | Has l => asks (for_each ca l) (fun l' => gives (f l') Has) w
     | Lacks es => gives (for_each ce es) Lacks w
     end) /\
  (forall r, seen of_validated (va_from_result_c ce ca r) w = on_either ca (fun e => gives (ce e) (fun x => [x])) (of_result r) w) /\
  (forall o e, seen of_validated (va_from_option_c ce ca o e) w = on_either ca (fun _ => gives (ce e) (fun x => [x])) (of_option o) w) /\
  (forall o f, seen of_validated (va_from_option_with_c ce ca o f) w = on_either ca (fun _ => gives f (fun x => [x])) (of_option o) w) /\
  (forall v : validated E A, va_errors_c ce v w = for_each ce (match of_validated v with Lacks es => es | Has _ => [] end) w) /\
  (forall v : validated E A, va_unwrap_invalid_c ce v w = match of_validated v with Lacks es => for_each ce es w | Has _ => (Panic, w) end) /\
  (forall v : validated E A, va_unwrap_c ca v w = match of_validated v with Has a => ca a w | Lacks _ => (Panic, w) end) /\
  (forall (v : validated E A) d, va_unwrap_or_c ca v d w = ca (match of_validated v with Has a => a | Lacks _ => d end) w) /\
  (forall v : validated E A, va_to_option_c ca v w = match of_validated v with Has a => gives (ca a) Some w | Lacks _ => silent None w end) /\
  (forall a b, va_combine_errors_c ce ca a b w =
     match a, b with
     | Valid _, Valid _ => (Panic, w)
     | _, _ => gives (for_each ce (flat_map (fun v => match v with Invalid es => es | Valid _ => [] end) [a; b])) Invalid w
     end).
Proof.
  intros; parts; try (each; fail).
  - intros vs f. rewrite all_of_spec. destruct vs as [|v vs].
    + cbn. unfold seen, gives, asks, silent, eff_bind, eff_ret. destruct (f [] w) as [[?|] ?]; auto.
    + unfold va_sequence_c. set (l := v :: vs). clearbody l. destruct (forallb _ l).
      * rewrite seen_bind. unfold asks at 1. rewrite (loop_lists _ _ _ _ (fun v => for_each ca (match v with Valid a => [a] | Invalid _ => [] end))).
        -- assert (H : for_each_list (fun v : validated E A => for_each ca match v with Valid a => [a] | Invalid _ => [] end) l w =
             for_each ca (flat_map (fun v => match v with Valid a => [a] | Invalid _ => [] end) l) w).
           { clear. revert w. induction l as [|v l IH]; intros w; auto. cbn [flat_map]. rewrite for_each_app.
             unfold for_each_list, gives. cbn [for_each]. rewrite asks_asks. apply asks_ext; auto. intros x w1.
             specialize (IH w1). unfold for_each_list, gives in *. unfold asks, silent in *.
             destruct (for_each _ l w1) as [[ys|] w2]; rewrite <- IH; reflexivity. }
           unfold gives, asks. rewrite H. destruct (for_each ca _ w) as [[l'|] w1]; auto. cbn. unfold seen, silent, eff_bind, eff_ret.
           destruct (f l' w1) as [[?|] ?]; auto.
        -- intros acc [a|es] w'; cbn; unfold gives, asks, silent, eff_bind, eff_ret; cbn.
           ++ destruct (ca a w') as [[?|] ?]; auto.
           ++ now rewrite app_nil_r.
      * unfold seen, eff_bind. rewrite (loop_lists _ _ _ _ (fun v => for_each ce (match v with Invalid es => es | Valid _ => [] end))).
        -- assert (H : for_each_list (fun v : validated E A => for_each ce match v with Invalid es => es | Valid _ => [] end) l w =
             for_each ce (flat_map (fun v => match v with Invalid es => es | Valid _ => [] end) l) w).
           { clear. revert w. induction l as [|v l IH]; intros w; auto. cbn [flat_map]. rewrite for_each_app.
             unfold for_each_list, gives. cbn [for_each]. rewrite asks_asks. apply asks_ext; auto. intros x w1.
             specialize (IH w1). unfold for_each_list, gives in *. unfold asks, silent in *.
             destruct (for_each _ l w1) as [[ys|] w2]; rewrite <- IH; reflexivity. }
           unfold gives. unfold asks. rewrite H. destruct (for_each ce _ w) as [[l'|] w1]; reflexivity.
        -- intros acc v' w'. apply extend_cloned_run.
  - intros [a|es]; unfold va_errors_c; cbn; [reflexivity|apply for_each_run].
  - intros [a|es]; unfold va_unwrap_invalid_c; cbn; [reflexivity|apply for_each_run].
  - intros [a|es] [b|fs]; unfold va_combine_errors_c, clone_validated, clone_vec; cbn [flat_map app]; rewrite ?app_nil_r; auto.
    + unfold gives. rewrite bind_asks. apply asks_ext; auto. apply for_each_run.
    + unfold gives. rewrite bind_asks. apply asks_ext; auto. apply for_each_run.
    + errs.
Qed.
(** Choices made of borrowed values *)
Theorem C106_borrowed_choices : forall W A w (ca : A -> eff W A),
  (forall l, seen values (ch_from_slice_c ca l) w = for_each ca l w) /\
  (forall c p, seen values (ch_filter_c ca p c) w =
     match values c with [] => silent [] w | x :: r => asks (ca x) (fun y => gives (keeping p ca r) (cons y)) w end) /\
  (forall c p, seen values (ch_filter_values_c ca p c) w = keeping p ca (values c) w) /\
  (forall c f, seen values (ch_fmap_alternatives_c ca f c) w =
     match values c with [] => silent [] w | x :: r => asks (ca x) (fun y => gives (for_each f r) (cons y)) w end).
Proof.
  assert (K : forall W A (ca : A -> eff W A) p l acc w, filter_cloned ca p acc l w = gives (keeping p ca l) (app acc) w).
  { intros W A ca p l. unfold filter_cloned. induction l as [|x l IH]; intros acc w; cbn [for_in keeping].
    - unfold gives, asks, silent, eff_ret. now rewrite app_nil_r.
    - unfold eff_bind at 1 2. unfold gives, asks. destruct (p x w) as [[[|]|] w1]; [| |reflexivity].
      + unfold eff_bind. destruct (ca x w1) as [[y|] w2]; [|reflexivity]. cbn. rewrite IH. unfold gives, asks, silent.
        destruct (keeping p ca l w2) as [[?|] ?]; [now rewrite <- app_assoc|reflexivity].
      + cbn. rewrite IH. unfold gives, asks, silent. reflexivity. }
  intros; parts.
  - intros [|x l]; [reflexivity|]. unfold seen, ch_from_slice_c, clone_vec. cbn [skipn for_each]. unfold eff_bind, asks.
    destruct (ca x w) as [[y|] w1]; [|reflexivity]. rewrite for_each_run. unfold gives, asks, silent.
    destruct (for_each ca l w1) as [[?|] ?]; reflexivity.
  - intros [[|x l]] p; [reflexivity|]. unfold seen, ch_filter_c. cbn [values skipn]. unfold eff_bind, asks.
    destruct (ca x w) as [[y|] w1]; [|reflexivity]. rewrite K. unfold gives, asks, silent.
    destruct (keeping p ca l w1) as [[?|] ?]; reflexivity.
  - intros c p. unfold seen, ch_filter_values_c. unfold eff_bind. rewrite K. unfold gives, asks, silent.
    destruct (keeping p ca (values c) w) as [[[|? ?]|] ?]; reflexivity.
  - intros [[|x l]] p; [reflexivity|]. unfold seen, ch_fmap_alternatives_c. cbn [values]. unfold eff_bind, asks.
    destruct (ca x w) as [[y|] w1]; [|reflexivity]. rewrite for_each_run. unfold gives, asks, silent.
    destruct (for_each p l w1) as [[?|] ?]; reflexivity.
Qed.

(** ** Exactly what is copied where there are several values *)
(** A loop over numbered things that skips the very first one *)
Lemma loop_rows : forall W B X C (row : B -> list X) (F : X -> action W C) z (body : list C -> nat * B -> eff W (list C)),
  (forall b, row b <> []) \/ (forall b, row b = []) ->
  (forall acc j b w, body acc (j, b) w = gives (for_each F (if z && (j =? 0) then tl (row b) else row b)) (app acc) w) ->
  forall l acc w, for_in body acc (enumerate l) w =
    gives (for_each F (if z : bool then tl (flat_map row l) else flat_map row l)) (app acc) w.
Proof.
  intros W B X C row F z body R H.
  assert (G : forall l s acc w, for_in body acc (combine (seq (S s) (length l)) l) w = gives (for_each F (flat_map row l)) (app acc) w).
  { intros l. induction l as [|b l IH]; intros s acc w; cbn [length seq combine for_in flat_map].
    - unfold gives, asks, silent. cbn. unfold eff_ret. now rewrite app_nil_r.
    - unfold eff_bind. rewrite H. cbn [Nat.eqb]. rewrite andb_false_r. unfold gives, asks. rewrite for_each_app. unfold asks.
      destruct (for_each F (row b) w) as [[x|] w1]; auto. unfold silent at 1. rewrite IH. unfold gives, asks, silent.
      destruct (for_each F (flat_map row l) w1) as [[y|] w2]; auto. now rewrite app_assoc. }
  intros [|b l] acc w; unfold enumerate.
  - cbn. unfold gives, asks, silent, eff_ret. destruct z; cbn; now rewrite app_nil_r.
  - cbn [length seq combine for_in flat_map]. unfold eff_bind. rewrite H. cbn [Nat.eqb]. rewrite andb_true_r.
    assert (T : (if z then tl (row b ++ flat_map row l) else row b ++ flat_map row l) = (if z then tl (row b) else row b) ++ flat_map row l).
    { destruct z; auto. destruct R as [R|R].
      - specialize (R b). destruct (row b); [congruence|reflexivity].
      - rewrite R. cbn. assert (Z : flat_map row l = []) by (clear -R; induction l; cbn; rewrite ?R; auto). now rewrite Z. }
    rewrite T. unfold gives, asks. rewrite for_each_app. unfold asks.
    destruct (for_each F (if z then tl (row b) else row b) w) as [[x|] w1]; auto. unfold silent at 1. rewrite G. unfold gives, asks, silent.
    destruct (for_each F (flat_map row l) w1) as [[y|] w2]; auto. now rewrite app_assoc.
Qed.
Lemma list_prod_flat : forall A B (l : list A) (m : list B), flat_map (fun a => map (fun b => (a, b)) m) l = list_prod l m.
Proof. intros A B l m. induction l as [|a l IH]; auto. cbn. now rewrite IH. Qed.
Lemma for_each_map : forall W A B C (F : B -> action W C) (g : A -> B) l w, for_each F (map g l) w = for_each (fun a => F (g a)) l w.
Proof. intros W A B C F g l. induction l as [|a l IH]; intros w; auto. cbn. apply asks_ext; auto. intros. now apply gives_ext. Qed.
Lemma flat_map_single : forall A (l : list A), flat_map (fun x => [x]) l = l.
Proof. intros A l. induction l; cbn; congruence. Qed.
Lemma rows_empty : forall A B (m : list B), (forall a : A, map (fun b => (a, b)) m <> []) \/ (forall a : A, map (fun b => (a, b)) m = []).
Proof. intros A B [|b m]; [right|left]; cbn; congruence. Qed.
Lemma grid : forall W A B C (F : A -> B -> action W C) (la : list A) (lb : list B) z acc w,
  for_in (fun acc '(i, a) => for_in (fun acc '(j, b) =>
     if z && (i =? 0) && (j =? 0) then eff_ret acc else eff_bind (F a b) (fun y => eff_ret (acc ++ [y]))) acc (enumerate lb)) acc (enumerate la) w =
  gives (for_each (fun p => F (fst p) (snd p)) (if z : bool then tl (list_prod la lb) else list_prod la lb)) (app acc) w.
Proof.
  intros. rewrite <- list_prod_flat.
  apply (loop_rows _ _ _ _ (fun a => map (fun b => (a, b)) lb) (fun p => F (fst p) (snd p)) z); [apply rows_empty|].
  intros acc' i a w'.
  rewrite (loop_rows _ _ _ _ (fun b => [b]) (fun b => F a b) (z && (i =? 0))).
  - rewrite flat_map_single. apply gives_ext; auto. destruct (z && (i =? 0)); [|now rewrite for_each_map].
    destruct lb; auto. cbn [tl map]. now rewrite for_each_map.
  - left. discriminate.
  - intros acc2 j b w2. destruct (z && (i =? 0) && (j =? 0)).
    + cbn. unfold gives, asks, silent, eff_ret. now rewrite app_nil_r.
    + cbn [for_each]. unfold gives, asks, silent, eff_bind, eff_ret. destruct (F a b w2) as [[?|] ?]; auto.
Qed.
Lemma grid3 : forall W A B C D (F : A -> B -> C -> action W D) (la : list A) (lb : list B) (lc : list C) acc w,
  for_in (fun acc '(i, a) => for_in (fun acc '(j, b) => for_in (fun acc '(k, c) =>
     if (i =? 0) && (j =? 0) && (k =? 0) then eff_ret acc else eff_bind (F a b c) (fun y => eff_ret (acc ++ [y])))
     acc (enumerate lc)) acc (enumerate lb)) acc (enumerate la) w =
  gives (for_each (fun p => F (fst p) (fst (snd p)) (snd (snd p))) (tl (list_prod la (list_prod lb lc)))) (app acc) w.
Proof.
  intros. rewrite <- list_prod_flat.
  apply (loop_rows _ _ _ _ (fun a => map (fun b => (a, b)) (list_prod lb lc)) (fun p => F (fst p) (fst (snd p)) (snd (snd p))) true); [apply rows_empty|].
  intros acc' i a w'. cbn [andb]. rewrite (grid _ _ _ _ (fun b c => F a b c) lb lc (i =? 0)).
  apply gives_ext; auto. destruct (i =? 0); [|now rewrite for_each_map].
  destruct (list_prod lb lc); auto. cbn [tl map]. now rewrite for_each_map.
Qed.
(** [Vec]: for each function all values are copied; for each left value all right values, then the left value for each of them. *)
Theorem C106_vec_owned_copies : forall W A B C D w (ca : A -> eff W A) (cb : B -> eff W B) (cc : C -> eff W C) (cd : D -> eff W D),
  (forall (fs : list (A -> eff W B)) vs, vec_apply_owned_c ca cb fs vs w = for_each_list (fun f => asks (for_each ca vs) (for_each f)) fs w) /\
  (forall (f : A -> B -> eff W C) la lb, vec_lift2_owned_c ca cb cc f la lb w =
     for_each_list (fun a => asks (for_each cb lb) (for_each (fun b => asks (ca a) (fun a' => f a' b)))) la w) /\
  (forall (f : A -> B -> C -> eff W D) la lb lc, vec_lift3_owned_c ca cb cc cd f la lb lc w =
     for_each_list (fun a => asks (for_each cb lb) (for_each_list (fun b => asks (for_each cc lc) (for_each (fun c =>
       asks (ca a) (fun a' => asks (cb b) (fun b' => asks (cc c) (fun c' => f a' b' c')))))))) la w).
Proof.
  assert (N : forall W A B (g : A -> action W (list B)) l w, gives (for_each_list g l) (app []) w = for_each_list g l w).
  { intros. unfold gives, asks, silent. cbn. destruct (for_each_list g l w) as [[?|] ?]; auto. }
  intros; parts.
  - intros. unfold vec_apply_owned_c. rewrite (loop_lists _ _ _ _ (fun f : A -> eff W B => asks (for_each ca vs) (for_each f))); [apply N|].
    intros acc f w'. unfold clone_vec, gives. rewrite bind_asks, asks_asks. apply asks_ext; [apply for_each_run|]. intros l w2. apply loop_push.
  - intros. unfold vec_lift2_owned_c.
    rewrite (loop_lists _ _ _ _ (fun a => asks (for_each cb lb) (for_each (fun b => asks (ca a) (fun a' => f a' b))))); [apply N|].
    intros acc a w'. unfold clone_vec, gives. rewrite bind_asks, asks_asks. apply asks_ext; [apply for_each_run|]. intros l w2.
    transitivity (gives (for_each (fun b => asks (ca a) (fun a' => f a' b)) l) (app acc) w2); [|reflexivity].
    rewrite <- (loop_push _ _ _ (fun b => asks (ca a) (fun a' => f a' b))). rewrite !loop_running. apply running_ext. intros s x w3.
    rewrite !bind_asks. rewrite asks_asks. now apply asks_ext.
  - intros. unfold vec_lift3_owned_c.
    rewrite (loop_lists _ _ _ _ (fun a => asks (for_each cb lb) (for_each_list (fun b => asks (for_each cc lc) (for_each (fun c =>
       asks (ca a) (fun a' => asks (cb b) (fun b' => asks (cc c) (fun c' => f a' b' c'))))))))); [apply N|].
    intros acc a w'. unfold clone_vec, gives. rewrite bind_asks, asks_asks. apply asks_ext; [apply for_each_run|]. intros l w2.
    rewrite (loop_lists _ _ _ _ (fun b => asks (for_each cc lc) (for_each (fun c =>
       asks (ca a) (fun a' => asks (cb b) (fun b' => asks (cc c) (fun c' => f a' b' c'))))))); [reflexivity|].
    intros acc2 b w3. unfold gives. rewrite bind_asks, asks_asks. apply asks_ext; [apply for_each_run|]. intros l3 w4.
    transitivity (gives (for_each (fun c => asks (ca a) (fun a' => asks (cb b) (fun b' => asks (cc c) (fun c' => f a' b' c')))) l3) (app acc2) w4); [|reflexivity].
    rewrite <- (loop_push _ _ _ (fun c => asks (ca a) (fun a' => asks (cb b) (fun b' => asks (cc c) (fun c' => f a' b' c'))))).
    rewrite !loop_running. apply running_ext. intros s x w5.
    rewrite !bind_asks. rewrite asks_asks. apply asks_ext; auto. intros a' w6. rewrite !bind_asks, asks_asks. apply asks_ext; auto.
    intros b' w7. rewrite !bind_asks, asks_asks. now apply asks_ext.
Qed.
(** [Choice]: both sides are copied for every pair. *)
Theorem C106_choice_owned_copies : forall W A B C D w (ca : A -> eff W A) (cb : B -> eff W B) (cc : C -> eff W C) (cd : D -> eff W D),
  (forall fs vs, seen values (ch_apply_owned_c (B := B) ca fs vs) w =
     for_each (fun p : A * (A -> eff W B) => asks (ca (fst p)) (snd p)) (list_prod (values vs) (values fs)) w) /\
  (forall f a b, seen values (ch_lift2_owned_c ca cb cc f a b) w =
     for_each (fun p => asks (ca (fst p)) (fun x => asks (cb (snd p)) (fun y => f x y))) (list_prod (values a) (values b)) w) /\
  (forall f a b c, seen values (ch_lift3_owned_c ca cb cc cd f a b c) w =
     for_each (fun p => asks (ca (fst p)) (fun x => asks (cb (fst (snd p))) (fun y => asks (cc (snd (snd p))) (fun z => f x y z))))
       (list_prod (values a) (list_prod (values b) (values c))) w).
Proof.
  assert (N : forall W B C (m : action W B) (F : B -> action W C) (rest : action W (list C)) w,
    seen values (eff_bind m (fun b => eff_bind (F b) (fun p => eff_bind rest (fun l => eff_ret (ch_new p l))))) w =
    asks (asks m F) (fun p => gives rest (cons p)) w).
  { intros. rewrite seen_bind, asks_asks. apply asks_ext; auto. intros b w'. rewrite seen_bind. apply asks_ext; auto.
    intros p w2. rewrite seen_bind. apply asks_ext; auto. }
  assert (P : forall A B (l : list A), flat_map (fun _ => @nil B) l = []) by (intros A0 B0 l; induction l; auto).
  intros; parts.
  - intros [[|f fs]] [[|v vs]]; try reflexivity.
    { cbn. rewrite <- list_prod_flat. cbn. now rewrite P. }
    cbn [values]. unfold ch_apply_owned_c. cbn [values]. rewrite N. cbn [list_prod map app for_each fst snd]. apply asks_ext; auto.
    intros p w1. apply gives_ext; auto.
    pose proof (grid W A (A -> eff W B) B (fun a g => asks (ca a) g) (v :: vs) (f :: fs) true [] w1) as G.
    cbn [andb list_prod map app tl] in G.
    transitivity (gives (for_each (fun p => asks (ca (fst p)) (snd p)) (map (fun y => (v, y)) fs ++ list_prod vs (f :: fs))) (fun m => m) w1).
    + refine (eq_trans _ G). rewrite !loop_running. apply running_ext. intros s [i a] w2. rewrite !loop_running. apply running_ext.
      intros s2 [j g] w3. destruct ((i =? 0) && (j =? 0)); auto. rewrite !bind_asks. rewrite asks_asks. now apply asks_ext.
    + unfold gives, asks, silent. cbn. destruct (for_each _ _ w1) as [[?|] ?]; reflexivity.
  - intros f [[|v vs]] [[|u us]]; try reflexivity.
    { cbn. rewrite <- list_prod_flat. cbn. now rewrite P. }
    cbn [values]. unfold ch_lift2_owned_c. cbn [values].
    rewrite seen_bind. cbn [list_prod map app for_each fst snd]. rewrite asks_asks. apply asks_ext; auto. intros x w0. rewrite N. apply asks_ext; auto.
    intros p w1. apply gives_ext; auto.
    pose proof (grid W A B C (fun a b => asks (ca a) (fun x => asks (cb b) (fun y => f x y))) (v :: vs) (u :: us) true [] w1) as G.
    cbn [andb list_prod map app tl] in G.
    transitivity (gives (for_each (fun p => asks (ca (fst p)) (fun x => asks (cb (snd p)) (fun y => f x y)))
      (map (fun y => (v, y)) us ++ list_prod vs (u :: us))) (fun m => m) w1).
    + refine (eq_trans _ G). rewrite !loop_running. apply running_ext. intros s [i a] w2. rewrite !loop_running. apply running_ext.
      intros s2 [j g] w3. destruct ((i =? 0) && (j =? 0)); auto. rewrite !bind_asks. rewrite asks_asks. apply asks_ext; auto.
      intros a' w4. rewrite !bind_asks, asks_asks. now apply asks_ext.
    + unfold gives, asks, silent. cbn. destruct (for_each _ _ w1) as [[?|] ?]; reflexivity.
  - intros f [[|v vs]] [[|u us]] [[|t ts]]; try reflexivity.
    { cbn. rewrite <- list_prod_flat. cbn. now rewrite P. }
    { cbn. rewrite <- list_prod_flat. cbn. now rewrite P. }
    { cbn. rewrite <- !list_prod_flat. cbn. rewrite P. cbn. now rewrite P. }
    cbn [values]. unfold ch_lift3_owned_c. cbn [values].
    rewrite seen_bind. cbn [list_prod map app for_each fst snd]. rewrite asks_asks. apply asks_ext; auto. intros x w0.
    rewrite seen_bind, asks_asks. apply asks_ext; auto. intros y w01. rewrite N. apply asks_ext; auto.
    intros p w1. apply gives_ext; auto.
    pose proof (grid3 W A B C D (fun a b c => asks (ca a) (fun x => asks (cb b) (fun y => asks (cc c) (fun z => f x y z))))
      (v :: vs) (u :: us) (t :: ts) [] w1) as G.
    cbn [list_prod map app tl] in G.
    match type of G with _ = gives (for_each ?F ?l) _ _ => transitivity (gives (for_each F l) (fun m => m) w1) end.
    + refine (eq_trans _ G). rewrite !loop_running. apply running_ext. intros s [i a] w2. rewrite !loop_running. apply running_ext.
      intros s2 [j g] w3. rewrite !loop_running. apply running_ext. intros s3 [k h] w4.
      destruct ((i =? 0) && (j =? 0) && (k =? 0)); auto. rewrite !bind_asks. rewrite asks_asks. apply asks_ext; auto.
      intros a' w5. rewrite !bind_asks, asks_asks. apply asks_ext; auto. intros b' w6. rewrite !bind_asks, asks_asks. now apply asks_ext.
    + unfold gives, asks, silent. cbn. destruct (for_each _ _ w1) as [[?|] ?]; reflexivity.
Qed.
Lemma extend_run : forall W A (ca : A -> eff W A) v s w, extend_from_slice ca v s w = gives (for_each ca s) (app v) w.
Proof. intros. apply loop_push. Qed.
Lemma for_each_lists : forall W A B (f : A -> action W B) ls w, for_each_list (for_each f) ls w = for_each f (concat ls) w.
Proof.
  intros W A B f ls. induction ls as [|l ls IH]; intros w; auto. cbn [concat]. rewrite for_each_app.
  unfold for_each_list, gives. cbn [for_each]. rewrite asks_asks. apply asks_ext; auto. intros x w1. specialize (IH w1).
  unfold for_each_list, gives in *. unfold asks, silent in *. destruct (for_each (for_each f) ls w1) as [[ys|] w2]; rewrite <- IH; reflexivity.
Qed.
Lemma for_each_length : forall W A B (f : A -> action W B) l w l' w', for_each f l w = (Ret l', w') -> length l' = length l.
Proof.
  intros W A B f l. induction l as [|x l IH]; intros w l' w' H; cbn in *.
  - injection H as <- _. reflexivity.
  - unfold gives, asks, silent in H. destruct (f x w) as [[y|] w1]; [|discriminate].
    destruct (for_each f l w1) as [[ys|] w2] eqn:E; [|discriminate]. injection H as <- _. cbn. f_equal. eauto.
Qed.
(** [bind_owned] copies what the closure makes of the primary, [bind] all that the closure makes. *)
Theorem C106_choice_bind_copies : forall W A U (cu : U -> eff W U) (f : A -> eff W (choice U)) (c : choice A) w,
  seen values (ch_bind_owned_c cu f c) w =
    match values c with
    | [] => silent [] w
    | x :: r => asks (f x) (fun d => match values d with
        | [] => silent []
        | l => asks (for_each cu l) (fun l' => gives (for_each_list (fun y => gives (f y) values) r) (app l')) end) w
    end /\
  seen values (ch_bind_c cu f c) w =
    match values c with
    | [] => silent [] w
    | x :: r => asks (f x) (fun d => match values d with
        | [] => silent []
        | l => asks (for_each cu l) (fun l' => gives (for_each_list (fun y => asks (f y) (fun d => for_each cu (values d))) r) (app l')) end) w
    end.
Proof.
  intros W A U cu f [[|x r]] w; [split; reflexivity|]. cbn [values]. split.
  - unfold seen, ch_bind_owned_c, eff_bind. cbn [values]. unfold asks. destruct (f x w) as [[[[|y l]]|] w1]; try reflexivity. cbn [values for_each].
    unfold gives, asks. destruct (cu y w1) as [[y'|] w2]; [|reflexivity]. rewrite extend_run. unfold gives, asks, silent.
    destruct (for_each cu l w2) as [[l'|] w3]; [|reflexivity]. cbn [app].
    rewrite (loop_lists _ _ _ _ (fun y => gives (f y) values)).
    + unfold gives, asks, silent. destruct (for_each_list _ r w3) as [[?|] ?]; reflexivity.
    + intros acc z w4. unfold gives, asks, silent, eff_ret. destruct (f z w4) as [[?|] ?]; reflexivity.
  - unfold seen, ch_bind_c, eff_bind. cbn [values]. unfold asks. destruct (f x w) as [[[[|y l]]|] w1]; try reflexivity. cbn [values for_each].
    unfold gives, asks. destruct (cu y w1) as [[y'|] w2]; [|reflexivity]. rewrite extend_run. unfold gives, asks, silent.
    destruct (for_each cu l w2) as [[l'|] w3]; [|reflexivity]. cbn [app].
    rewrite (loop_lists _ _ _ _ (fun y => asks (f y) (fun d => for_each cu (values d)))).
    + unfold gives, asks, silent. destruct (for_each_list _ r w3) as [[?|] ?]; reflexivity.
    + intros acc z w4. unfold gives. rewrite asks_asks. unfold asks at 1. destruct (f z w4) as [[d|] w5]; [apply extend_run|reflexivity].
Qed.
Lemma alternatives_tl : forall A (y : A) l, ch_alternatives (mkChoice (y :: l)) = l.
Proof. intros A y [|z l]; reflexivity. Qed.
(** [join_owned] copies every value of the result once, [join] twice. *)
Theorem C106_choice_join_copies : forall W U (cu : U -> eff W U) (c : choice (choice U)) w,
  seen values (ch_join_owned_c cu c) w =
    for_each cu (match map values (values c) with [] :: _ => [] | ls => concat ls end) w /\
  seen values (ch_join_c cu c) w =
    match map values (values c) with
    | [] => silent [] w
    | [] :: _ => silent [] w
    | ls => for_each_list (fun l => asks (for_each cu l) (for_each cu)) ls w
    end.
Proof.
  intros W U cu [[|[[|y l]] r]] w; cbn [values map]; try (split; reflexivity). split.
  - unfold seen, ch_join_owned_c, eff_bind. cbn [values concat app for_each]. unfold gives, asks. destruct (cu y w) as [[y'|] w1]; [|reflexivity].
    rewrite extend_run, for_each_app. rewrite ?alternatives_tl. unfold gives, asks, silent.
    destruct (for_each cu l w1) as [[l'|] w2]; [|reflexivity]. cbn [app].
    rewrite (loop_lists _ _ _ _ (fun c => for_each cu (values c))) by (intros; apply extend_run).
    assert (H : for_each_list (fun c => for_each cu (values c)) r w2 = for_each cu (concat (map values r)) w2).
    { rewrite <- for_each_lists. unfold for_each_list. apply gives_ext; auto. now rewrite for_each_map. }
    unfold gives, asks, silent. rewrite H. destruct (for_each cu (concat (map values r)) w2) as [[?|] ?]; reflexivity.
  - assert (L0 : length (y :: l) <> 0) by discriminate. set (m := y :: l) in *. clearbody m.
    unfold for_each_list. unfold gives at 1. cbn [for_each]. rewrite !asks_asks. unfold seen, ch_join_c, clone_choice, clone_vec, eff_bind. cbn [values]. rewrite for_each_run. unfold asks at 1. unfold asks at 1.
    destruct (for_each cu m w) as [[ys|] w1] eqn:E; [|reflexivity]. pose proof (for_each_length _ _ _ _ _ _ _ _ E) as L.
    destruct ys as [|z zs]; [now rewrite <- L in L0|]. unfold eff_ret. cbn [values for_each]. unfold gives, asks, silent.
    destruct (cu z w1) as [[z'|] w2]; [|reflexivity]. rewrite extend_run. rewrite ?alternatives_tl. unfold gives, asks, silent.
    destruct (for_each cu zs w2) as [[l'|] w3]; [|reflexivity]. cbn [app].
    rewrite (loop_lists _ _ _ _ (fun c => asks (for_each cu (values c)) (for_each cu))).
    + unfold gives, for_each_list, gives.
      pose proof (for_each_map W (choice U) (list U) (list U) (fun l => asks (for_each cu l) (for_each cu)) values r w3) as M.
      unfold asks in M |- *. rewrite M. unfold silent. destruct (for_each _ r w3) as [[?|] ?]; reflexivity.
    + intros acc c w4. unfold gives. rewrite asks_asks. unfold asks at 1. rewrite for_each_run.
      destruct (for_each cu (values c) w4) as [[v|] w5]; [apply extend_run|reflexivity].
Qed.
(** Turning a choice into a vector copies all of it although it is given away; [sequence] copies up to the first [None]; [flatten]
    copies each inner vector once; adding up choices copies every running total again. *)
Lemma collect_run : forall W A (ca : A -> eff W A) l acc w, collect_options ca acc l w =
  gives (for_each ca (leading l)) (fun l' => if no_gap l then Some (acc ++ l') else None) w.
Proof.
  intros W A ca l. induction l as [|[a|] l IH]; intros acc w; cbn [collect_options leading for_each].
  - unfold gives, asks, silent. cbn. now rewrite app_nil_r.
  - cbn [clone_option]. unfold eff_bind at 1 2. unfold gives at 1. rewrite asks_asks. unfold asks. destruct (ca a w) as [[a'|] w1]; [|reflexivity].
    cbn. rewrite IH. unfold gives, asks, silent. destruct (for_each ca (leading l) w1) as [[l'|] w2]; [|reflexivity].
    unfold no_gap. cbn. now rewrite <- app_assoc.
  - reflexivity.
Qed.
Theorem C106_choice_conversion_copies : forall W A w (ca : A -> eff W A),
  (forall c, ch_into_vec_c ca c w = for_each ca (values c) w) /\
  (forall c, seen (option_map values) (ch_sequence_c ca c) w =
     gives (for_each ca (leading (values c))) (fun l => if no_gap (values c) then Some l else None) w) /\
  (forall c, seen values (ch_flatten_c ca c) w = match values c with [] :: _ => (Panic, w) | ls => for_each ca (concat ls) w end).
Proof.
  intros; parts.
  - intros c. apply for_each_run.
  - intros c. unfold ch_sequence_c. rewrite seen_bind. unfold asks. rewrite collect_run. unfold gives, asks, silent.
    destruct (for_each ca (leading (values c)) w) as [[l|] w1]; [|reflexivity]. destruct (no_gap (values c)); reflexivity.
  - intros [[|[|x p] r]]; [reflexivity|reflexivity|]. cbn [values concat]. rewrite for_each_app. unfold ch_flatten_c. cbn [values].
    unfold seen, eff_bind, asks, clone_vec. rewrite for_each_run. destruct (for_each ca (x :: p) w) as [[ys|] w1] eqn:E; [|reflexivity].
    apply for_each_length in E. destruct ys as [|y ys]; [discriminate|].
    rewrite (loop_lists _ _ _ _ (for_each ca)).
    + unfold gives, asks. rewrite for_each_lists. unfold silent. destruct (for_each ca (concat r) w1) as [[?|] ?]; reflexivity.
    + intros acc l w2. rewrite for_each_run. unfold gives, asks, silent. destruct (for_each ca l w2) as [[?|] ?]; reflexivity.
Qed.
Lemma beginnings_snoc : forall A (l : list A) x, beginnings (l ++ [x]) = beginnings l ++ [l ++ [x]].
Proof.
  intros A l x. unfold beginnings. rewrite app_length. cbn [length]. rewrite Nat.add_1_r, seq_S, map_app. f_equal.
  - apply map_ext_in. intros n I. apply in_seq in I. rewrite firstn_app. replace (n - length l) with 0 by lia. cbn. now rewrite app_nil_r.
  - cbn [map Nat.add]. rewrite firstn_all2; [reflexivity|]. rewrite app_length. cbn. lia.
Qed.
Theorem C106_choice_sum_copies : forall A (cs : list (choice A)) log,
  seen values (ch_sum_c copy_noted cs) log =
  (Ret (concat (map values cs)), log ++ concat (map (fun b => concat (map values b)) (beginnings cs))).
Proof.
  assert (M : forall A (a b : choice A) log, ch_mplus_c copy_noted a b log = (Ret (mkChoice (values a ++ values b)), log ++ values a ++ values b)).
  { intros A a b log. destruct (C106_borrowed_alternatives (list A) A unit log copy_noted silent) as (_ & _ & _ & _ & _ & _ & _ & H & _ & _).
    destruct (H a b) as [E _]. unfold copy_noted in E at 2. rewrite for_each_noting in E. rewrite map_id in E. unfold seen in E.
    destruct (ch_mplus_c copy_noted a b log) as [[[l]|] w1]; cbn in *; congruence. }
  intros A cs log. unfold ch_sum_c.
  assert (G : forall (done todo : list (choice A)) log, seen values (for_in (fun a b => ch_mplus_c copy_noted a b) (mkChoice (concat (map values done))) todo)
      (log ++ concat (map (fun b => concat (map values b)) (beginnings done))) =
    (Ret (concat (map values (done ++ todo))), log ++ concat (map (fun b => concat (map values b)) (beginnings (done ++ todo))))).
  { clear cs log. intros done todo. revert done. induction todo as [|c todo IH]; intros done log.
    - cbn. unfold seen, eff_ret. cbn. now rewrite app_nil_r.
    - cbn [for_in]. rewrite seen_bind. unfold asks. rewrite M. cbn [values].
      specialize (IH (done ++ [c]) log). rewrite <- !app_assoc in IH. cbn [app] in IH. rewrite <- IH.
      rewrite beginnings_snoc, !map_app, !concat_app. cbn [map concat]. rewrite !map_app, !concat_app. cbn [map concat].
      now rewrite !app_nil_r, <- !app_assoc. }
  specialize (G [] cs log). cbn in G. now rewrite app_nil_r in G.
Qed.

(** ** Folds *)
Theorem C106_fold_copies : forall W A w (ca : A -> eff W A),
  (forall U (cu : U -> eff W U) (l : list A) (init : U) f, vec_fold_left_c cu l init f w = asks (cu init) (fun u => running f u l) w) /\
  (forall f l, vec_reduce_c ca f l w = match l with [] => silent None w | x :: r => asks (ca x) (fun a => gives (running f a r) Some) w end) /\
  (forall cmp l, vec_maximum_c ca cmp l w =
     match l with
     | [] => silent None w
     | x :: r => asks (ca x) (fun a => gives (running (fun m y => ca (match cmp y m with Gt => y | _ => m end)) a r) Some) w
     end) /\
  (forall d add l, vec_sum_values_c ca d add l w =
     asks d (fun z => asks (ca z) (fun s => running (fun s x => asks (for_each ca [s; x]) (fun p => match p with [s'; x'] => add s' x' | _ => add s x end)) s l)) w).
Proof.
  intros; parts.
  - intros. unfold vec_fold_left_c. rewrite bind_asks. apply asks_ext; [reflexivity|]. intros. apply loop_running.
  - intros f [|x r]; [reflexivity|]. unfold vec_reduce_c, vec_fold_left_c. cbn [clone_option]. unfold eff_bind at 1, eff_ret at 1. cbn [for_in].
    unfold eff_bind at 1 2. unfold asks. destruct (ca x w) as [[a|] w1]; [|reflexivity]. unfold eff_ret at 1.
    revert a w1. induction r as [|y r IH]; intros a w1; [reflexivity|]. cbn [for_in running]. unfold eff_bind, gives, asks. destruct (f a y w1) as [[b|] w2]; [|reflexivity].
    apply IH.
  - intros cmp [|x r]; [reflexivity|]. unfold vec_maximum_c, vec_fold_left_c. cbn [clone_option]. unfold eff_bind at 1, eff_ret at 1. cbn [for_in].
    unfold eff_bind at 1 2. unfold asks. destruct (ca x w) as [[a|] w1]; [|reflexivity]. unfold eff_ret at 1.
    revert a w1. induction r as [|y r IH]; intros a w1; [reflexivity|]. cbn [for_in running]. unfold eff_bind, gives, asks.
    destruct (ca match cmp y a with Gt => y | _ => a end w1) as [[b|] w2]; [|reflexivity]. apply IH.
  - intros. unfold vec_sum_values_c, vec_fold_left_c. rewrite bind_asks. apply asks_ext; auto. intros z w1. rewrite bind_asks. apply asks_ext; auto.
    intros s w2. rewrite loop_running. apply running_ext. intros s2 x w3. cbn [for_each]. unfold eff_bind, gives, asks, silent.
    destruct (ca s2 w3) as [[?|] w4]; auto. destruct (ca x w4) as [[?|] w5]; auto.
Qed.
(** [to_vec] copies every beginning of the vector, [find] the value it found once more for every value behind it, [is_sorted] each value. *)
Theorem C106_fold_log : forall A log,
  (forall l : list A, vec_to_vec_c copy_noted l log = (Ret l, log ++ concat (beginnings l))) /\
  (forall (p : A -> bool) before x after, Forall (fun y => p y = false) before -> p x = true ->
     vec_find_c copy_noted (fun y => silent (p y)) (before ++ x :: after) log = (Ret (Some x), log ++ repeat x (S (length after)))) /\
  (forall (p : A -> bool) l, Forall (fun y => p y = false) l -> vec_find_c copy_noted (fun y => silent (p y)) l log = (Ret None, log)) /\
  (forall cmp (l : list A), vec_is_sorted_c copy_noted cmp l log =
     (Ret (forallb (fun p => match cmp (fst p) (snd p) with Gt => false | _ => true end) (combine l (tl l))), log ++ l)).
Proof.
  intros; parts.
  - intros l. unfold vec_to_vec_c, vec_fold_left_c. cbn. unfold eff_bind at 1. unfold clone_vec at 1. cbn.
    assert (G : forall todo done log, for_in (fun acc x => eff_bind (clone_vec copy_noted acc) (fun new_acc => eff_bind (copy_noted x) (fun x' => eff_ret (new_acc ++ [x']))))
        done todo (log ++ concat (beginnings done)) = (Ret (done ++ todo), log ++ concat (beginnings (done ++ todo)) : list A)).
    { clear. induction todo as [|x todo IH]; intros done log; cbn [for_in].
      - unfold eff_ret. now rewrite app_nil_r.
      - unfold eff_bind, clone_vec. rewrite for_each_run. unfold copy_noted at 1. rewrite for_each_noting, map_id. cbn.
        specialize (IH (done ++ [x]) log). rewrite <- app_assoc in IH. cbn [app] in IH. rewrite <- IH. rewrite beginnings_snoc, concat_app.
        cbn [concat]. rewrite app_nil_r. unfold eff_bind, clone_vec. now rewrite <- !app_assoc. }
    specialize (G l [] log). cbn in G. rewrite app_nil_r in G. exact G.
  - intros p before x after H P. unfold vec_find_c, vec_fold_left_c. cbn [clone_option]. unfold eff_bind at 1, eff_ret at 1.
    induction H as [|y before Hy H IH]; cbn [app for_in].
    + unfold eff_bind, silent. rewrite P. cbn. unfold eff_ret at 1.
      assert (G : forall after log, for_in (fun (acc : option A) (x : A) => match acc with
          | Some _ => clone_option copy_noted acc
          | None => fun w => let (o, w') := (Ret (p x), w) in match o with Ret a => (if a then fun w : list A => let (o0, w'0) := copy_noted x w in match o0 with Ret a0 => eff_ret (Some a0) w'0 | Panic => (Panic, w'0) end else eff_ret None) w' | Panic => (Panic, w') end end)
        (Some x) after log = (Ret (Some x), log ++ repeat x (length after))).
      { clear. induction after as [|z after IH]; intros log; cbn [for_in].
        - cbn. unfold eff_ret. now rewrite app_nil_r.
        - unfold eff_bind at 1. cbn [clone_option]. unfold eff_bind at 1. cbn. rewrite IH. now rewrite <- app_assoc. }
      rewrite G. cbn [repeat length]. now rewrite <- app_assoc.
    + unfold eff_bind at 1. unfold eff_bind at 1, silent at 1. rewrite Hy. exact IH.
  - intros p l H. unfold vec_find_c, vec_fold_left_c. cbn [clone_option]. unfold eff_bind at 1, eff_ret at 1.
    induction H as [|y l Hy H IH]; cbn [for_in]; [reflexivity|]. unfold eff_bind at 1. unfold eff_bind at 1, silent at 1. rewrite Hy. exact IH.
  - intros cmp l. unfold vec_is_sorted_c, vec_fold_left_c.
    assert (G : forall l b prev log, for_in (fun '(is_sorted, prev) curr => eff_bind (copy_noted curr) (fun c =>
        if negb is_sorted then eff_ret (false, Some c)
        else match prev with None => eff_ret (true, Some c) | Some p => eff_ret (match cmp p curr with Gt => false | _ => true end, Some c) end))
        (b, Some prev) l log =
      (Ret (b && forallb (fun p => match cmp (fst p) (snd p) with Gt => false | _ => true end) (combine (prev :: l) l), Some (List.last l prev)), log ++ l)).
    { clear. induction l as [|x l IH]; intros b prev log; cbn [for_in].
      - unfold eff_ret. cbn. now rewrite andb_true_r, app_nil_r.
      - unfold eff_bind at 1. unfold eff_bind at 1. cbn [copy_noted noting]. unfold copy_noted, noting.
        assert (LL : List.last (x :: l) prev = List.last l x) by (clear; revert x; induction l as [|y l IHl]; intros x; auto; cbn in *; destruct l; auto).
        destruct b; cbn [negb]; unfold eff_ret; rewrite IH; rewrite LL, <- app_assoc; cbn [combine forallb fst snd andb app]; reflexivity. }
    destruct l as [|x l]; [cbn; now rewrite app_nil_r|]. unfold eff_bind at 1. cbn [clone_pair fst snd clone_option]. unfold eff_bind at 1.
    unfold clone_pair, eff_bind at 1 2. cbn [fst snd clone_option]. unfold eff_ret at 1 2 3. cbn [for_in]. unfold eff_bind at 1 2.
    unfold copy_noted at 1, noting at 1. cbn [negb]. unfold eff_ret at 1. rewrite G. cbn [andb tl fst]. unfold eff_ret. now rewrite <- app_assoc.
Qed.

(** ** Repeated combination *)
Lemma running_seq : forall W S X (f : S -> X -> action W S) (x : X) k i s w, running (fun s _ => f s x) s (seq i k) w = running f s (repeat x k) w.
Proof. intros W S X f x k. induction k as [|k IH]; intros i s w; cbn; auto. apply asks_ext; auto. Qed.
Theorem C106_repetition : forall W A w (ca : A -> eff W A) (comb : A -> A -> eff W A),
  (forall a n, combine_n_c ca comb a n w = asks (ca a) (fun s => running comb s (repeat a (n - 1))) w) /\
  (forall e l, mconcat_c ca e comb l w = match l with [] => e w | x :: r => asks (ca x) (fun s => running comb s r) w end) /\
  (forall a n, combine_n_owned_c ca comb a n w = running (fun s _ => asks (ca s) (fun c => comb c s)) a (repeat tt (n - 1)) w) /\
  (forall e a n, repeat_c ca e comb a n w =
     match n with
     | 0 => e w
     | 1 => silent a w
     | _ => asks (ca a) (fun s => running (fun s x => asks (ca x) (fun y => comb s y)) s (repeat a (n - 1))) w
     end /\ power_c ca e comb a n w = repeat_c ca e comb a n w).
Proof.
  intros; parts.
  - intros a [|n]; unfold combine_n_c.
    + cbn. symmetry. apply asks_silent.
    + cbn [Nat.sub]. rewrite Nat.sub_0_r. rewrite bind_asks. apply asks_ext; [reflexivity|]. intros s w1. rewrite loop_running. apply (running_seq _ _ _ (fun s x => comb s x)).
  - intros e [|x r]; auto.
  - intros a [|n]; unfold combine_n_owned_c; auto. cbn [Nat.sub]. rewrite Nat.sub_0_r, loop_running.
    rewrite <- (running_seq _ _ _ (fun s (_ : unit) => asks (ca s) (fun c => comb c s)) tt n 1). apply running_ext. reflexivity.
  - intros e a [|[|n]]; try (split; reflexivity). split; [|reflexivity]. unfold repeat_c. cbn [Nat.eqb Nat.sub]. rewrite bind_asks.
    apply asks_ext; [reflexivity|]. intros s w1. rewrite loop_running.
    rewrite <- (running_seq _ _ _ (fun s x => asks (ca x) (fun y => comb s y)) a (S n) 1). apply running_ext. reflexivity.
Qed.
(** [combine_n] copies once; [repeat] of a value given away copies it as often as it is asked for, [combine_n_owned] once for each step. *)
Theorem C106_repetition_log : forall A (op : A -> A -> A) (a e : A) n log,
  snd (combine_n_c copy_noted (fun x y => silent (op x y)) a n log) = log ++ [a] /\
  snd (repeat_c copy_noted (silent e) (fun x y => silent (op x y)) a n log) = log ++ (if n <? 2 then [] else repeat a n) /\
  length (snd (combine_n_owned_c copy_noted (fun x y => silent (op x y)) a n log)) = length log + (n - 1).
Proof.
  intros A op a e n log. destruct (C106_repetition (list A) A log copy_noted (fun x y => silent (op x y))) as (H1 & _ & H3 & H4). parts.
  - rewrite H1. unfold asks, copy_noted, noting. generalize (n - 1), (log ++ [a]), a at 1. clear. intros k log s. revert log s.
    induction k as [|k IH]; intros log s; [reflexivity|apply IH].
  - rewrite (proj1 (H4 _ _ _)). destruct n as [|[|n]]; cbn [Nat.ltb Nat.leb]; try (cbn; now rewrite app_nil_r).
    unfold asks at 1, copy_noted at 1, noting at 1. cbn [Nat.sub repeat].
    assert (G : forall k s log, snd (running (fun s x => asks (copy_noted x) (fun y => silent (op s y))) s (repeat a k) log) = log ++ repeat a k).
    { clear. induction k as [|k IH]; intros s log; cbn [running repeat]; [cbn; now rewrite app_nil_r|]. rewrite asks_asks.
      unfold asks, copy_noted, noting, silent in *. cbn [repeat] in *. rewrite IH. now rewrite <- app_assoc. }
    change (a :: repeat a n) with (repeat a (S n)). rewrite G. now rewrite <- app_assoc.
  - rewrite H3. generalize (n - 1), a, log. clear. intros k. induction k as [|k IH]; intros s log; cbn [running repeat]; [cbn; lia|].
    rewrite asks_asks. unfold asks, copy_noted, noting, silent in *. rewrite IH, app_length. cbn. lia.
Qed.

(** ** Ordered maps: combining two maps that are given away copies the left value of every common key; combining borrowed maps copies every
    key and value of both, also the values that are only combined. *)
Theorem C106_map_copies : forall K V (cmp : K -> K -> comparison), total_order cmp -> forall (op : V -> V -> V) (self other : list (K * V)),
  sorted_map cmp self -> sorted_map cmp other ->
  (forall ck log, bt_combine_owned_c cmp ck copy_noted (fun a b => silent (op a b)) self other log =
     (Ret (bt_combine cmp op self other),
      log ++ flat_map (fun kv => match bt_get cmp self (fst kv) with Some v => [v] | None => [] end) other)) /\
  (forall log, bt_combine_c cmp (noting inl) (noting inr) (fun a b => silent (op a b)) self other log =
     (Ret (bt_combine cmp op self other), log ++ flat_map (fun kv => [inl (fst kv); inr (snd kv)]) (self ++ other))).
Proof.
  intros K V cmp O op self other S1 S2. split.
  - intros ck log. unfold bt_combine_owned_c, bt_combine. revert self S1 log. induction S2 as [|[k v] other S2 IH F]; intros self S1 log.
    + cbn. unfold eff_ret. now rewrite app_nil_r.
    + cbn [for_in fold_left flat_map fst snd].
      assert (G : forall x, flat_map (fun kv : K * V => match bt_get cmp (bt_insert cmp self k x) (fst kv) with Some v => [v] | None => [] end) other =
        flat_map (fun kv : K * V => match bt_get cmp self (fst kv) with Some v => [v] | None => [] end) other).
      { intros x. rewrite !flat_map_concat_map. f_equal. apply map_ext_in. intros [k2 v2] I. rewrite Forall_forall in F. specialize (F _ I). cbn in *.
        rewrite (bt_get_insert cmp O) by auto. rewrite (cmp_op cmp O), F. reflexivity. }
      unfold eff_bind at 1. destruct (bt_get cmp self k) as [e|] eqn:B.
      * unfold eff_bind at 1 2. unfold copy_noted at 1, noting at 1. unfold silent at 1. unfold eff_ret at 1.
        rewrite IH by now apply bt_insert_sorted. rewrite G. now rewrite <- app_assoc.
      * unfold eff_ret at 1. rewrite IH by now apply bt_insert_sorted. rewrite G. reflexivity.
  - intros log. unfold bt_combine_c. unfold eff_bind at 1. unfold clone_vec. rewrite for_each_run.
    assert (P : forall (m : list (K * V)) log, for_each (clone_pair (noting inl) (noting inr)) m log =
      (Ret m, log ++ flat_map (fun kv => [inl (fst kv); inr (snd kv)]) m)).
    { clear. induction m as [|[k v] m IH]; intros log; cbn [for_each]; [cbn; unfold silent; now rewrite app_nil_r|].
      unfold asks, clone_pair, eff_bind, noting at 1 2, eff_ret. unfold gives, asks. rewrite IH. unfold silent. cbn. now rewrite <- !app_assoc. }
    rewrite P. rewrite flat_map_app, app_assoc. generalize (log ++ flat_map (fun kv : K * V => [inl (fst kv); inr (snd kv)]) self). clear log P.
    intros log. unfold bt_combine. revert self S1 log. induction S2 as [|[k v] other S2 IH F]; intros self S1 log.
    + cbn. unfold eff_ret. now rewrite app_nil_r.
    + cbn [for_in fold_left flat_map fst snd]. unfold eff_bind at 1. unfold eff_bind at 1. unfold noting at 1.
      destruct (bt_get cmp self k) as [e|] eqn:B.
      * unfold eff_bind at 1 2. unfold silent at 1, noting at 1, eff_ret at 1.
        rewrite IH by now apply bt_insert_sorted. cbn. now rewrite <- !app_assoc.
      * unfold eff_bind at 1. unfold noting at 1, eff_ret at 1. rewrite IH by now apply bt_insert_sorted. cbn. now rewrite <- !app_assoc.
Qed.

(** ** [pure] and what is built on it *)
Theorem C106_pure : forall W A B U E M (ca : A -> eff W A) (cb : B -> eff W B) (cu : U -> eff W U) w,
  (forall (wrap : A -> M) a, pure_c ca wrap a w = gives (ca a) wrap w) /\
  (forall (wrap : U -> M) (f : A -> B -> eff W U) a b, combine_with_c cu wrap f a b w = asks (f a b) (fun u => gives (cu u) wrap) w) /\
  (forall (wrap : A * B -> M) a b, pair_with_c ca cb wrap a b w =
     asks (ca a) (fun a1 => asks (cb b) (fun b1 => asks (ca a1) (fun a2 => gives (cb b1) (fun b2 => wrap (a2, b2))))) w) /\
  (forall (wrap : U -> M) (f : A -> eff W U) a, map_and_pure_c cu wrap (fun k => k a) f w = asks (f a) (fun u => gives (cu u) wrap) w) /\
  (forall (wrap : U -> M) d (f : A -> eff W (result M E)) a, try_bind_c cu wrap (fun k => k a) d f w =
     asks (f a) (fun r => match of_result r with Has m => silent m | Lacks _ => gives (cu d) wrap end) w) /\
  (forall (l : list A) b, replace_owned_c cb (fun g => for_each g l) b w = for_each cb (repeat b (length l)) w) /\
  (forall (ops : list (A -> eff W B)) a, fan_out_c ca a ops w = for_each (fun op => asks (ca a) op) ops w) /\
  (forall comb m, wr_join_c cb ca comb m w =
     asks (cb (w_log (w_value m))) (fun l => asks (ca (w_value (w_value m))) (fun v => gives (comb (w_log m) l) (fun l' => mkWriter l' v))) w).
Proof.
  intros; parts; try reflexivity.
  - intros. unfold pair_with_c. rewrite bind_asks. apply asks_ext; [reflexivity|]. intros a1 w1. rewrite bind_asks. apply asks_ext; auto. intros b1 w2.
    unfold pure_c, clone_pair, eff_bind, gives, asks, silent, eff_ret. cbn [fst snd]. destruct (ca a1 w2) as [[a2|] w3]; auto.
    destruct (cb b1 w3) as [[b2|] w4]; auto.
  - intros. unfold try_bind_c. rewrite bind_asks. apply asks_ext; [reflexivity|]. intros [m|e] w1; reflexivity.
  - intros l b. unfold replace_owned_c. revert w. induction l as [|x l IH]; intros w; cbn; auto. apply asks_ext; [reflexivity|]. intros. now apply gives_ext.
  - intros. unfold fan_out_c. rewrite for_each_run. now apply for_each_ext.
Qed.
(** [Validated::to_result] copies the whole value although it keeps only the first error. *)
Theorem C106_to_result_copies : forall W A E w (ca : A -> eff W A) (ce : E -> eff W E) (v : validated E A),
  va_to_result_c ce ca v w = match of_validated v with
    | Has a => gives (ca a) Ok w
    | Lacks es => asks (for_each ce es) (fun l w' => match l with e :: _ => (Ret (Err e), w') | [] => (Panic, w') end) w
    end.
Proof.
  intros W A E w ca ce [a|es]; unfold va_to_result_c, clone_validated, eff_bind, asks, gives, asks, silent; cbn [of_validated].
  - destruct (ca a w) as [[?|] ?]; reflexivity.
  - unfold clone_vec. rewrite for_each_run. destruct (for_each ce es w) as [[[|? ?]|] ?]; reflexivity.
Qed.

(** ** A [clone] that has no effect and answers the same changes nothing: the functions are those of the other models. *)
Lemma clone_vec_silent : forall W A (l : list A) (w : W), clone_vec silent l w = (Ret l, w).
Proof. intros. unfold clone_vec. rewrite for_each_run. apply for_each_silent. Qed.
Lemma loop_ext : forall W S A (f g : S -> A -> eff W S) l s w, (forall s x w, f s x w = g s x w) -> for_in f s l w = for_in g s l w.
Proof. intros. rewrite !loop_running. now apply running_ext. Qed.
Lemma ebind_ext : forall W A B (m m' : eff W A) (k k' : A -> eff W B) w, m w = m' w -> (forall a w, k a w = k' a w) -> eff_bind m k w = eff_bind m' k' w.
Proof. intros. rewrite !bind_asks. now apply asks_ext. Qed.
Theorem C106_faithful_lists : forall W A B C D (w : W),
  (forall (fs : list (A -> eff W B)) l, vec_apply_owned_c silent silent fs l w = vec_apply_e fs l w) /\
  (forall (f : A -> B -> eff W C) a b, vec_lift2_owned_c silent silent silent f a b w = vec_lift2_e f a b w) /\
  (forall (f : A -> B -> C -> eff W D) a b c, vec_lift3_owned_c silent silent silent silent f a b c w = vec_lift3_owned_e f a b c w) /\
  (forall p (l : list A), vec_find_c silent p l w = fo_find_e (fun U g u => for_in g u l) p w) /\
  (forall f (l : list A), vec_reduce_c silent f l w = fo_reduce_e (fun U g u => for_in g u l) f w) /\
  (forall (l : list A), vec_to_vec_c silent l w = (Ret (fo_to_vec (vec_fold_left l)), w)) /\
  (forall cmp (l : list A), vec_maximum_c silent cmp l w = (Ret (fo_maximum (vec_fold_left l) cmp), w)) /\
  (forall add d (l : list A), vec_sum_values_c silent (silent d) (fun a b => silent (add a b)) l w = (Ret (fo_sum_values (vec_fold_left l) add d), w)).
Proof.
  assert (L : forall W S A (f : S -> A -> eff W S) (g : S -> A -> S) l s w, (forall s x w, f s x w = (Ret (g s x), w)) ->
    for_in f s l w = (Ret (fold_left g l s), w)).
  { intros W S A f g l. induction l as [|x l IH]; intros s w H; [reflexivity|]. cbn [for_in fold_left]. unfold eff_bind. now rewrite H, IH. }
  assert (VL : forall S A (l : list A) (s : S) g, vec_loop l s g = fold_left g l s) by (intros S A l; induction l; cbn; auto).
  intros; parts.
  - intros. apply loop_ext. intros s g w1. unfold eff_bind at 1. now rewrite clone_vec_silent.
  - intros. apply loop_ext. intros s g w1. unfold eff_bind at 1. now rewrite clone_vec_silent.
  - intros. apply loop_ext. intros s g w1. unfold eff_bind at 1. rewrite clone_vec_silent. apply loop_ext. intros s2 h w2.
    unfold eff_bind at 1. now rewrite clone_vec_silent.
  - intros. apply loop_ext. intros [s|] g w1; reflexivity.
  - intros. apply loop_ext. intros [s|] g w1; reflexivity.
  - intros. unfold vec_to_vec_c, vec_fold_left_c. unfold eff_bind at 1. rewrite clone_vec_silent. unfold fo_to_vec, vec_fold_left. rewrite VL. apply L.
    intros. unfold eff_bind. now rewrite clone_vec_silent.
  - intros. unfold fo_maximum, vec_fold_left. rewrite VL. apply L. intros [s|] x w1; [|reflexivity]. cbn. unfold eff_bind, silent. now destruct (cmp x s).
  - intros. unfold fo_sum_values, vec_fold_left. rewrite VL. apply L. reflexivity.
Qed.
Theorem C106_faithful_choices : forall W A B C D (w : W),
  (forall fs vs, ch_apply_owned_c (A := A) (B := B) silent fs vs w = ch_apply_owned_e fs vs w) /\
  (forall (f : A -> B -> eff W C) a b, ch_lift2_owned_c silent silent silent f a b w = ch_lift2_e f a b w) /\
  (forall (f : A -> B -> C -> eff W D) a b c, ch_lift3_owned_c silent silent silent silent f a b c w = ch_lift3_e f a b c w) /\
  (forall (f : A -> eff W (choice B)) c, ch_bind_owned_c silent f c w = ch_bind_e f c w /\ ch_bind_c silent f c w = ch_bind_e f c w) /\
  (forall p (c : choice A), ch_filter_values_c silent p c w = ch_filter_values_e p c w) /\
  (forall p (c : choice A), ch_filter_c silent p c w = ch_filter_e p c w) /\
  (forall f (c : choice A), ch_fmap_alternatives_c silent f c w = ch_fmap_alternatives_e f c w) /\
  (forall (c : choice (choice A)), ch_join_c silent c w = (ch_join (fun d => d) c, w) /\ ch_join_owned_c silent c w = (ch_join (fun d => d) c, w)) /\
  (forall a b : choice A, ch_combine_c silent a b w = (Ret (ch_combine a b), w)).
Proof.
  assert (V : forall W A (m : eff W (choice A)) c w, seen values m w = (Ret (values c), w) -> m w = (Ret c, w)).
  { intros W A m [l] w H. unfold seen in H. destruct (m w) as [[[l']|] w']; cbn in *; congruence. }
  assert (F : forall W A p (l acc : list A) (w : W), filter_cloned silent p acc l w =
    for_in (fun acc x => eff_bind (p x) (fun b : bool => eff_ret (if b then acc ++ [x] else acc))) acc l w).
  { intros. apply loop_ext. intros s x w1. apply ebind_ext; [reflexivity|]. intros [|] w2; reflexivity. }
  intros; parts.
  - intros [[|f fs]] [[|v vs]]; reflexivity.
  - intros f [[|a la]] [[|b lb]]; reflexivity.
  - intros f [[|a la]] [[|b lb]] [[|c lc]]; reflexivity.
  - intros f [[|x r]]; [split; reflexivity|]. unfold ch_bind_owned_c, ch_bind_c, ch_bind_e. cbn [values].
    split; (apply ebind_ext; [reflexivity|]); intros [[|y l]] w1; try reflexivity; cbn [values]; unfold eff_bind at 1; cbn [silent];
      unfold silent at 1; unfold eff_bind at 1; rewrite extend_run; unfold gives, asks; rewrite for_each_silent; unfold silent at 1; cbn [app].
    + reflexivity.
    + apply ebind_ext; [|reflexivity]. apply loop_ext. intros s z w2. apply ebind_ext; [reflexivity|]. intros d w3. rewrite extend_run.
      unfold gives, asks. now rewrite for_each_silent.
  - intros. apply ebind_ext; [apply F|reflexivity].
  - intros p [[|x l]]; [reflexivity|]. unfold ch_filter_c, ch_filter_e. cbn [values skipn]. unfold eff_bind at 1. unfold silent at 1.
    unfold filter_collect. unfold eff_bind. rewrite F.
    assert (G : forall l acc w, for_in (fun acc x => eff_bind (p x) (fun b : bool => eff_ret (if b then acc ++ [x] else acc))) (x :: acc) l w =
      eff_bind (for_in (fun acc x => eff_bind (p x) (fun b : bool => eff_ret (if b then acc ++ [x] else acc))) acc l) (fun l => eff_ret (x :: l)) w).
    { clear. intros l. induction l as [|y l IH]; intros acc w; [reflexivity|]. cbn [for_in]. unfold eff_bind, eff_ret in *.
      destruct (p y w) as [[[|]|] w1]; [| |reflexivity]; apply IH. }
    rewrite G. unfold eff_bind. destruct (for_in _ [] l w) as [[?|] ?]; reflexivity.
  - intros f [[|x l]]; reflexivity.
  - assert (FL : forall (r : list (choice A)) acc, fold_left (fun acc alt => acc ++ values alt) r acc = acc ++ concat (map values r)).
    { induction r as [|d r IH]; intros acc; cbn; [now rewrite app_nil_r|]. rewrite IH. now rewrite app_assoc. }
    assert (J : forall y l (r : list (choice A)), ch_join (fun d => d) (mkChoice (mkChoice (y :: l) :: r)) = Ret (mkChoice (y :: l ++ concat (map values r)))).
    { intros. unfold ch_join. cbn -[ch_alternatives concat map]. rewrite FL, !alternatives_tl. reflexivity. }
    intros [[|[[|y l]] r]]; try (split; reflexivity). rewrite J. split; apply V.
    + rewrite (proj2 (C106_choice_join_copies _ _ silent _ w)). cbn [values map].
      assert (G : forall ls, for_each (fun l => asks (for_each silent l) (for_each silent)) ls w = (Ret ls, w) :> outcome (list (list A)) * W).
      { induction ls as [|l0 ls IH]; [reflexivity|]. cbn [for_each]. unfold asks at 1 2. rewrite !for_each_silent. unfold gives. unfold asks at 1. now rewrite IH. }
      unfold for_each_list, gives. unfold asks at 1. rewrite G. reflexivity.
    + rewrite (proj1 (C106_choice_join_copies _ _ silent _ w)). rewrite for_each_silent. reflexivity.
  - intros a b. apply V. destruct (C106_borrowed_alternatives W A unit w silent silent) as (_ & _ & _ & _ & _ & _ & _ & H & _ & _).
    rewrite (proj2 (H a b)). rewrite for_each_silent. destruct a as [[|x a]], b as [[|y b]]; cbn; rewrite ?app_nil_r; reflexivity.
Qed.

(** ** By value but not without copies *)
(** [Result::fmap_owned] copies the error it hands on, and the default [pure_owned] (that of [Maybe], [Either] and [Id]) the value. *)
Theorem C106_result_fmap_owned_refuted : exists (r : result nat nat) (ce : nat -> eff unit nat),
  re_fmap_owned_c ce r silent tt <> gives (silent r) (fun x => x) tt.
Proof. exists (Err 1), faulty. discriminate. Qed.
Theorem C106_result_fmap_owned : forall W A B E (ce : E -> eff W E) (r : result A E) (f : A -> eff W B) w,
  seen of_result (re_fmap_owned_c ce r f) w = fmap_ref ce f (of_result r) w.
Proof. each. Qed.
Theorem C106_pure_owned_refuted : exists (a : nat) (ca : nat -> eff unit nat), pure_owned_default_c ca Just a tt <> (Ret (Just a), tt).
Proof. exists 1, faulty. discriminate. Qed.
Theorem C106_pure_owned_default : forall W A M (ca : A -> eff W A) (wrap : A -> M) a w, pure_owned_default_c ca wrap a w = gives (ca a) wrap w.
Proof. reflexivity. Qed.
(** One function and one value are enough for [Vec] and [Choice] to copy. *)
Theorem C106_vec_owned_refuted : exists (f : nat -> eff unit nat) (g : nat -> nat -> eff unit nat) (h : nat -> nat -> nat -> eff unit nat),
  vec_apply_owned_c faulty silent [f] [1] tt <> gives (f 1) (fun x => [x]) tt /\
  vec_lift2_owned_c faulty silent silent g [1] [2] tt <> gives (g 1 2) (fun x => [x]) tt /\
  vec_lift3_owned_c faulty silent silent silent h [1] [2] [3] tt <> gives (h 1 2 3) (fun x => [x]) tt.
Proof. exists silent, (fun x y => silent (x + y)), (fun x y z => silent (x + y + z)). repeat split; discriminate. Qed.
Theorem C106_choice_owned_refuted : exists (c : choice nat) (f : nat -> eff unit nat) (g : nat -> nat -> eff unit nat) (h : nat -> nat -> nat -> eff unit nat),
  ch_apply_owned_c faulty (mkChoice [f]) c tt <> ch_apply_owned_c silent (mkChoice [f]) c tt /\
  ch_lift2_owned_c faulty silent silent g c c tt <> ch_lift2_owned_c silent silent silent g c c tt /\
  ch_lift3_owned_c faulty silent silent silent h c c c tt <> ch_lift3_owned_c silent silent silent silent h c c c tt /\
  ch_bind_owned_c faulty (fun x => silent (mkChoice [x])) c tt <> ch_bind_owned_c silent (fun x => silent (mkChoice [x])) c tt /\
  ch_join_owned_c faulty (mkChoice [c]) tt <> ch_join_owned_c silent (mkChoice [c]) tt /\
  ch_into_vec_c faulty c tt <> ch_into_vec_c silent c tt /\
  ch_sequence_c faulty (mkChoice [Some 1; None]) tt <> ch_sequence_c silent (mkChoice [Some 1; None]) tt.
Proof.
  exists (mkChoice [1]), silent, (fun x y => silent (x + y)), (fun x y z => silent (x + y + z)). repeat split; discriminate.
Qed.
Theorem C106_combined_owned_refuted : exists (self other : list (nat * nat)),
  bt_combine_owned_c Nat.compare faulty faulty (fun a b => silent (a + b)) self other tt <>
  bt_combine_owned_c Nat.compare silent silent (fun a b => silent (a + b)) self other tt /\
  repeat_c faulty (silent 0) (fun a b => silent (a + b)) 5 2 tt <> repeat_c silent (silent 0) (fun a b => silent (a + b)) 5 2 tt /\
  power_c faulty (silent 0) (fun a b => silent (a + b)) 5 2 tt <> power_c silent (silent 0) (fun a b => silent (a + b)) 5 2 tt /\
  combine_n_owned_c faulty (fun a b => silent (a + b)) 5 2 tt <> combine_n_owned_c silent (fun a b => silent (a + b)) 5 2 tt.
Proof. exists [(1, 10)], [(1, 20)]. repeat split; discriminate. Qed.
(** ** Borrowed, but copied more than once or without being kept *)
Theorem C106_each_once_refuted : exists (l : list nat) (p : nat -> bool),
  vec_to_vec_c copy_noted l [] = (Ret l, [1; 1; 2; 1; 2; 3]) /\
  vec_find_c copy_noted (fun x => silent (p x)) l [] = (Ret (Some 1), [1; 1; 1]) /\
  seen values (ch_sum_c copy_noted [mkChoice [1; 2]; mkChoice [3]]) [] = (Ret l, [1; 2; 1; 2; 3]) /\
  seen values (ch_join_c copy_noted (mkChoice [mkChoice [1; 2]; mkChoice [3]])) [] = (Ret l, [1; 2; 1; 2; 3; 3]) /\
  pair_with_c copy_noted copy_noted Just 1 2 [] = (Ret (Just (1, 2)), [1; 2; 1; 2]).
Proof. exists [1; 2; 3], (fun x => Nat.odd x). repeat split. Qed.
Theorem C106_kept_only_refuted : exists (v : validated nat nat) (a b : list (nat * nat)),
  va_to_result_c copy_noted copy_noted v [] = (Ret (Err 1), [1; 2; 3]) /\
  bt_combine_c Nat.compare copy_noted copy_noted (fun x y => silent (x + y)) a b [] = (Ret [(1, 30)], [1; 10; 1; 20]).
Proof. exists (Invalid [1; 2; 3]), [(1, 10)], [(1, 20)]. repeat split. Qed.

(** ** Cases *)
Example C106_case_owned : (* a panicking [clone] is not noticed *)
  va_lift2_owned_c faulty faulty faulty faulty (fun a b => noted 1 (Ret (a + b))) (Invalid [1; 2]) (@Invalid nat nat [3]) [] = (Ret (Invalid [1; 2; 3]), []) /\
  re_lift2_owned_c faulty faulty faulty faulty (fun a b => noted 1 (Ret (a + b))) (Ok 1) (@Ok nat nat 2) [] = (Ret (Ok 3), [1]).
Proof. repeat split. Qed.
Example C106_case_borrowed :
  va_lift2_c copy_noted copy_noted copy_noted (fun a b => silent (a + b)) (Invalid [1; 2]) (Invalid [3]) [] = (Ret (Invalid [1; 2; 3]), [1; 2; 3]) /\
  ei_mplus_c copy_noted copy_noted (Left 1) (Right 2) [] = (Ret (Right 2), [2]) /\
  re_lift2_c copy_noted copy_noted copy_noted (fun a b => silent (a + b)) (Err 1) (Err 2) [] = (Ret (Err 1), [1]) /\
  seen values (ch_combine_c copy_noted (mkChoice [1; 2]) (mkChoice [3])) [] = (Ret [1; 2; 3], [1; 2; 3]).
Proof. repeat split. Qed.
Example C106_case_vec :
  vec_lift2_owned_c (noting inl) (noting inr) silent (fun a b => silent (a + b)) [1; 2] [10; 20] [] =
  (Ret [11; 21; 12; 22], [inr 10; inr 20; inl 1; inl 1; inr 10; inr 20; inl 2; inl 2]).
Proof. reflexivity. Qed.
Example C106_case_choice :
  seen values (ch_bind_owned_c copy_noted (fun x => silent (mkChoice [x; x + 10])) (mkChoice [1; 2])) [] = (Ret [1; 11; 2; 12], [1; 11]) /\
  seen values (ch_bind_c copy_noted (fun x => silent (mkChoice [x; x + 10])) (mkChoice [1; 2])) [] = (Ret [1; 11; 2; 12], [1; 11; 2; 12]).
Proof. repeat split. Qed.
Example C106_case_find : Forall (fun y => Nat.even y = false) [1; 3] /\ Nat.even 4 = true /\
  vec_find_c copy_noted (fun y => silent (Nat.even y)) ([1; 3] ++ 4 :: [5; 6]) [] = (Ret (Some 4), [4; 4; 4]).
Proof. repeat split; auto. Qed.
Lemma nat_total_order : total_order Nat.compare.
Proof.
  split; [split; [|split]|].
  - intros. apply Nat.compare_refl.
  - intros x y. apply Nat.compare_antisym.
  - intros x y z H1 H2. rewrite Nat.compare_ngt_iff in *. lia.
  - intros x y. apply Nat.compare_eq.
Qed.
Example C106_case_map : total_order Nat.compare /\ sorted_map (V := nat) Nat.compare [(1, 10); (3, 30)] /\ sorted_map (V := nat) Nat.compare [(2, 2); (3, 3)] /\
  bt_combine_owned_c Nat.compare faulty copy_noted (fun a b => silent (a + b)) [(1, 10); (3, 30)] [(2, 2); (3, 3)] [] =
  (Ret [(1, 10); (2, 2); (3, 33)], [30]).
Proof. split; [apply nat_total_order|]. repeat split; repeat constructor. Qed.
Example C106_case_collect : Forall (fun v => of_validated v <> Lacks []) [@Valid nat nat 1; Invalid [2]; Invalid [3; 4]] /\
  va_collect_c faulty faulty [@Valid nat nat 1; Invalid [2]; Invalid [3; 4]] tt = (Ret (Invalid [2; 3; 4]), tt).
Proof. repeat split. repeat constructor; discriminate. Qed.

Print Assumptions C106_owned_maps.
Print Assumptions C106_owned_applying.
Print Assumptions C106_owned_two.
Print Assumptions C106_owned_three.
Print Assumptions C106_owned_chains.
Print Assumptions C106_owned_flat.
Print Assumptions C106_owned_recoveries.
Print Assumptions C106_owned_alternatives.
Print Assumptions C106_owned_wrappers.
Print Assumptions C106_owned_validated.
Print Assumptions C106_owned_choices.
Print Assumptions C106_owned_pure.
Print Assumptions C106_borrowed_maps.
Print Assumptions C106_borrowed_applying.
Print Assumptions C106_borrowed_two.
Print Assumptions C106_borrowed_three.
Print Assumptions C106_borrowed_chains.
Print Assumptions C106_borrowed_flat.
Print Assumptions C106_borrowed_recoveries.
Print Assumptions C106_borrowed_alternatives.
Print Assumptions C106_borrowed_wrappers.
Print Assumptions C106_borrowed_many.
Print Assumptions C106_borrowed_validated.
Print Assumptions C106_borrowed_choices.
Print Assumptions C106_vec_owned_copies.
Print Assumptions C106_choice_owned_copies.
Print Assumptions C106_choice_bind_copies.
Print Assumptions C106_choice_join_copies.
Print Assumptions C106_choice_conversion_copies.
Print Assumptions C106_choice_sum_copies.
Print Assumptions C106_fold_copies.
Print Assumptions C106_fold_log.
Print Assumptions C106_repetition.
Print Assumptions C106_repetition_log.
Print Assumptions C106_map_copies.
Print Assumptions C106_pure.
Print Assumptions C106_to_result_copies.
Print Assumptions C106_result_fmap_owned_refuted.
Print Assumptions C106_result_fmap_owned.
Print Assumptions C106_pure_owned_refuted.
Print Assumptions C106_pure_owned_default.
Print Assumptions C106_vec_owned_refuted.
Print Assumptions C106_choice_owned_refuted.
Print Assumptions C106_combined_owned_refuted.
Print Assumptions C106_each_once_refuted.
Print Assumptions C106_kept_only_refuted.
Print Assumptions C106_faithful_lists.
Print Assumptions C106_faithful_choices.

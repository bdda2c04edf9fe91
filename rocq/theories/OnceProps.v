(** Theorems for C105 (closures of single values are called when needed, once). *)
From Coq Require Import List String Lia.
From Verif Require Import Base Types SumModel ValidatedModel WrapModel EffModel ErrModel CallModel OnceModel OnceSpec.
Import ListNotations.
Open Scope list_scope.

Lemma bind_asks : forall W A B (m : eff W A) (k : A -> eff W B) w, eff_bind m k w = asks m k w.
Proof. reflexivity. Qed.
Ltac head_var t := match t with ?f _ => head_var f | _ => is_var t end.
Ltac opened := cbv beta iota zeta delta -[for_each map_collect app]; cbn.
Ltac see := opened;
  repeat match goal with
  | |- context [match ?m ?w with (_, _) => _ end] => is_var w; head_var m; destruct (m w) as [[?|] ?]; cbn
  end.
Ltac each := intros; repeat match goal with x : maybe _ |- _ => destruct x | x : option _ |- _ => destruct x | x : result _ _ |- _ => destruct x
  | x : either _ _ |- _ => destruct x | x : validated _ _ |- _ => destruct x | x : id_ _ |- _ => destruct x
  | x : epipe _ _ |- _ => destruct x end; see; try reflexivity.

(** ** The closure of [fmap], [bind], [apply], [lift2] and [lift3] *)
Theorem C105_fmap : forall W A B E (f : A -> eff W B) w,
  (forall m, seen of_maybe (mb_fmap_e m f) w = on_value f (of_maybe m) w) /\
  (forall o, seen of_option (op_fmap_e o f) w = on_value f (of_option o) w) /\
  (forall r : result A E, seen of_result (re_fmap_e r f) w = on_value f (of_result r) w) /\
  (forall e : either E A, seen of_either (ei_fmap_e e f) w = on_value f (of_either e) w) /\
  (forall v : validated E A, seen of_validated (va_fmap_e v f) w = on_value f (of_validated v) w) /\
  (forall i, seen of_id (id_fmap_e i f) w = on_value f (of_id i) w) /\
  (forall p : epipe A E, seen of_pipe (ep_map_e p f) w = gives (on_value f (fst (of_pipe p))) (fun h => (h, snd (of_pipe p))) w).
Proof. intros; split; [|split; [|split; [|split; [|split; [|split]]]]]; each. Qed.

Theorem C105_bind : forall W A B E w,
  (forall m (f : A -> eff W (maybe B)), seen of_maybe (mb_bind_e m f) w = and_then (fun a => seen of_maybe (f a)) (of_maybe m) w) /\
  (forall o (f : A -> eff W (option B)), seen of_option (op_bind_e o f) w = and_then (fun a => seen of_option (f a)) (of_option o) w) /\
  (forall r (f : A -> eff W (result B E)), seen of_result (re_bind_e r f) w = and_then (fun a => seen of_result (f a)) (of_result r) w) /\
  (forall e (f : A -> eff W (either E B)), seen of_either (ei_bind_e e f) w = and_then (fun a => seen of_either (f a)) (of_either e) w) /\
  (forall v (f : A -> eff W (validated E B)), seen of_validated (va_bind_e v f) w = and_then (fun a => seen of_validated (f a)) (of_validated v) w) /\
  (forall i (f : A -> eff W (id_ B)), seen of_id (id_bind_e i f) w = and_then (fun a => seen of_id (f a)) (of_id i) w) /\
  (forall p (f : A -> eff W (result B E)), seen of_pipe (ep_and_then_e p f) w =
     gives (and_then (fun a => seen of_result (f a)) (fst (of_pipe p))) (fun h => (h, snd (of_pipe p))) w).
Proof. intros; split; [|split; [|split; [|split; [|split; [|split]]]]]; each. Qed.

Theorem C105_apply : forall W A B E w,
  (forall m a, seen of_maybe (@mb_apply_e W A B m a) w = on_two only (fun f x => f x) (of_maybe m) (of_maybe a) w) /\
  (forall m a, seen of_option (@op_apply_e W A B m a) w = on_two only (fun f x => f x) (of_option m) (of_option a) w) /\
  (forall m a, seen of_result (@re_apply_e W A B E m a) w = on_two only (fun f x => f x) (of_result m) (of_result a) w) /\
  (forall m a, seen of_either (@ei_apply_e W E A B m a) w = on_two only (fun f x => f x) (of_either m) (of_either a) w) /\
  (forall m a, seen of_validated (@va_apply_e W E A B m a) w = on_two (@app E) (fun f x => f x) (of_validated m) (of_validated a) w /\
               seen of_validated (@va_apply_owned_e W E A B m a) w = on_two (@app E) (fun f x => f x) (of_validated m) (of_validated a) w) /\
  (forall m a, seen of_id (@id_apply_e W A B m a) w = on_two only (fun f x => f x) (of_id m) (of_id a) w).
Proof. intros; split; [|split; [|split; [|split; [|split]]]]; each; split; each. Qed.

Theorem C105_lift2 : forall W A B C E (f : A -> B -> eff W C) w,
  (forall a b, seen of_maybe (mb_lift2_e f a b) w = on_two only f (of_maybe a) (of_maybe b) w) /\
  (forall a b, seen of_option (op_lift2_e f a b) w = on_two only f (of_option a) (of_option b) w) /\
  (forall a b, seen of_result (re_lift2_e (E := E) f a b) w = on_two only f (of_result a) (of_result b) w) /\
  (forall a b, seen of_either (ei_lift2_e (L := E) f a b) w = on_two only f (of_either a) (of_either b) w) /\
  (forall a b, seen of_validated (va_lift2_e (E := E) f a b) w = on_two (@app E) f (of_validated a) (of_validated b) w) /\
  (forall a b, seen of_id (id_lift2_e f a b) w = on_two only f (of_id a) (of_id b) w).
Proof. intros; split; [|split; [|split; [|split; [|split]]]]; each. Qed.

Theorem C105_lift3 : forall W A B C D E (f : A -> B -> C -> eff W D) w,
  (forall a b c, seen of_maybe (mb_lift3_e f a b c) w = on_three only f (of_maybe a) (of_maybe b) (of_maybe c) w) /\
  (forall a b c, seen of_option (op_lift3_e f a b c) w = on_three only f (of_option a) (of_option b) (of_option c) w) /\
  (forall a b c, seen of_result (re_lift3_e (E := E) f a b c) w = on_three only f (of_result a) (of_result b) (of_result c) w) /\
  (forall a b c, seen of_either (ei_lift3_e (L := E) f a b c) w = on_three only f (of_either a) (of_either b) (of_either c) w) /\
  (forall a b c, seen of_validated (va_lift3_e (E := E) f a b c) w = on_three (@app E) f (of_validated a) (of_validated b) (of_validated c) w /\
                 seen of_validated (va_lift3_owned_e (E := E) f a b c) w = on_three (@app E) f (of_validated a) (of_validated b) (of_validated c) w) /\
  (forall a b c, seen of_id (id_lift3_e f a b c) w = on_three only f (of_id a) (of_id b) (of_id c) w).
Proof. intros; split; [|split; [|split; [|split; [|split]]]]; each; split; each. Qed.

(** ** Closures for failures *)
Lemma for_each_run : forall W A B (f : A -> eff W B) l w, map_collect f l w = for_each f l w.
Proof.
  intros W A B f l. unfold map_collect.
  enough (H : forall acc w, for_in (fun acc x => eff_bind (f x) (fun y => eff_ret (acc ++ [y]))) acc l w =
    gives (for_each f l) (fun ys => acc ++ ys) w).
  { intros w. rewrite H. unfold gives, asks, silent. cbn. destruct (for_each f l w) as [[?|] ?]; reflexivity. }
  induction l as [|x l IH]; intros acc w; cbn.
  - unfold gives, asks, silent, eff_ret. now rewrite app_nil_r.
  - unfold eff_bind at 1 2. unfold gives at 1. unfold asks at 1 2. destruct (f x w) as [[y|] w1]; [|reflexivity].
    cbn. rewrite IH. unfold gives, asks, silent. destruct (for_each f l w1) as [[ys|] w2]; [|reflexivity].
    now rewrite <- app_assoc.
Qed.
Theorem C105_failures : forall W A E F (f : E -> eff W F) w,
  (forall e : either E A, seen of_either (ei_fmap_left_e e f) w = on_failure f (of_either e) w) /\
  (forall r : result A E, seen of_result (re_fmap_error_e r f) w = on_failure f (of_result r) w) /\
  (forall (o : option A) (g : unit -> eff W F), seen of_result (op_map_error_to_e o g) w = on_failure g (of_option o) w) /\
  (forall v : validated E A, seen of_validated (va_fmap_error_e v f) w = on_failure (for_each f) (of_validated v) w /\
                             seen of_validated (va_fmap_invalid_e f v) w = on_failure (for_each f) (of_validated v) w) /\
  (forall p : epipe A E, seen of_pipe (ep_map_error_e p f) w = gives (on_failure f (fst (of_pipe p))) (fun h => (h, snd (of_pipe p))) w).
Proof.
  intros; split; [each|split; [each|split; [each|split; [|each]]]].
  intros [a|es]; split; see; try reflexivity; rewrite for_each_run; destruct (for_each f es w) as [[?|] ?]; reflexivity.
Qed.
Theorem C105_recoveries : forall W A E w,
  (forall m (f : eff W A), mb_unwrap_or_else_e m f w = match of_maybe m with Has a => silent a w | Lacks _ => f w end) /\
  (forall o (f : unit -> eff W (option A)), seen of_option (op_catch_e o f) w = or_else (fun e => seen of_option (f e)) (of_option o) w) /\
  (forall r (f : E -> eff W (result A E)), seen of_result (re_catch_e r f) w = or_else (fun e => seen of_result (f e)) (of_result r) w) /\
  (forall e (f : E -> eff W (either E A)), seen of_either (ei_recover_e e f) w = or_else (fun e => seen of_either (f e)) (of_either e) w) /\
  (forall v (f : list E -> eff W (validated E A)), seen of_validated (va_recover_all_at_once_e v f) w =
     or_else (fun e => seen of_validated (f e)) (of_validated v) w) /\
  (forall o (f : eff W E), seen of_validated (va_from_option_with_e (A := A) o f) w = on_failure (fun _ => gives f (fun e => [e])) (of_option o) w) /\
  (forall p (f : E -> eff W (result A E)), seen of_pipe (ep_recover_e p f) w =
     gives (or_else (fun e => seen of_result (f e)) (fst (of_pipe p))) (fun h => (h, snd (of_pipe p))) w).
Proof. intros; split; [|split; [|split; [|split; [|split; [|split]]]]]; each. Qed.
(** With a closure for each side only the one that is needed is called. *)
Theorem C105_both_sides : forall W A B E F (f : A -> eff W B) (g : E -> eff W F) w,
  (forall e, seen of_either (ei_bimap_e e f g) w = on_either f g (of_either e) w) /\
  (forall e, seen of_result (ei_bimap_result_e e f g) w = on_either f g (of_either e) w) /\
  (forall r, seen of_result (re_bimap_e r f g) w = on_either f g (of_result r) w) /\
  (forall v, seen of_validated (va_bimap_e f g v) w = on_either f (for_each g) (of_validated v) w).
Proof.
  intros; split; [each|split; [each|split; [each|]]].
  intros [a|es]; see; try reflexivity; rewrite for_each_run; destruct (for_each g es w) as [[?|] ?]; reflexivity.
Qed.

(** ** Closures that choose *)
Theorem C105_choosing : forall W A B E E2 w (d : B),
  (forall m (f : A -> eff W B), mb_fmap_or_e m d f w = match of_maybe m with Has a => f a w | Lacks _ => silent d w end) /\
  (forall m (p : A -> eff W bool), seen of_maybe (mb_filter_e m p) w =
     and_then (fun a => gives (p a) (fun b : bool => if b then Has a else Lacks tt)) (of_maybe m) w) /\
  (forall m (f : A -> eff W unit), seen of_maybe (mb_tap_e m f) w = and_then (fun a => gives (f a) (fun _ => Has a)) (of_maybe m) w) /\
  (forall o (f : A -> eff W (option B)), seen of_option (op_filter_map_e o f) w = and_then (fun a => gives (f a) of_option) (of_option o) w) /\
  (forall o (f : A -> eff W (result B E2)), seen of_option (op_try_map_or_e o d f) w =
     on_value (fun a => gives (f a) (fun r => match of_result r with Has b => b | Lacks _ => d end)) (of_option o) w) /\
  (forall o g (f : A -> eff W (result B E2)), seen of_option (op_try_map_or_else_e o g f) w =
     on_value (fun a => asks (f a) (fun r => match of_result r with Has b => silent b | Lacks e => g e end)) (of_option o) w) /\
  (forall r (c : eff W E) (f : A -> eff W (option B)), seen of_result (re_filter_map_e c r f) w =
     and_then (fun a => asks (f a) (fun o => match of_option o with Has b => silent (Has b) | Lacks _ => gives c Lacks end)) (of_result r) w) /\
  (forall (r : result A E) (f : A -> eff W (result B E2)), seen of_result (re_try_map_or_e r d f) w =
     on_value (fun a => gives (f a) (fun x => match of_result x with Has b => b | Lacks _ => d end)) (of_result r) w) /\
  (forall (r : result A E) g (f : A -> eff W (result B E2)), seen of_result (re_try_map_or_else_e r g f) w =
     on_value (fun a => asks (f a) (fun x => match of_result x with Has b => silent b | Lacks e => g e end)) (of_result r) w).
Proof.
  intros; do 8 (split; [each; repeat match goal with |- context [match ?x with _ => _ end] => is_var x; destruct x; see end; reflexivity|]).
  each; repeat match goal with |- context [match ?x with _ => _ end] => is_var x; destruct x; see end; reflexivity.
Qed.

(** ** Id's own operations, and the derived operations of monads *)
Theorem C105_id : forall W A B U (x : A) (u : U) w,
  (forall f : id_ A -> eff W B, seen of_id (id_extend_e (mkId x) f) w = gives (f (mkId x)) Has w) /\
  (forall f : U -> A -> eff W U, id_fold_left_e (mkId x) u f w = f u x w) /\
  (forall f : A -> U -> eff W U, id_fold_right_e (mkId x) u f w = f x u w).
Proof. intros; split; [|split]; each. Qed.
Theorem C105_derived : forall W A B E2 E (f : A -> eff W B) w,
  (forall m, seen of_maybe (default_map_and_pure_e (mb_bind_e m) mb_pure f) w = on_value f (of_maybe m) w) /\
  (forall m, seen of_option (default_map_and_pure_e (op_bind_e m) Some f) w = on_value f (of_option m) w) /\
  (forall m : result A E, seen of_result (default_map_and_pure_e (re_bind_e m) re_pure f) w = on_value f (of_result m) w) /\
  (forall m : either E A, seen of_either (default_map_and_pure_e (ei_bind_e m) ei_pure f) w = on_value f (of_either m) w) /\
  (forall m : validated E A, seen of_validated (default_map_and_pure_e (va_bind_e m) va_pure f) w = on_value f (of_validated m) w) /\
  (forall m, seen of_id (default_map_and_pure_e (id_bind_e m) id_pure f) w = on_value f (of_id m) w) /\
  (forall (d : B) m (g : A -> eff W (result (maybe B) E2)), seen of_maybe (default_try_bind_e (mb_bind_e m) mb_pure d g) w =
     and_then (fun a => gives (g a) (fun r => match of_result r with Has x => of_maybe x | Lacks _ => Has d end)) (of_maybe m) w) /\
  (forall (d : B) m (g : A -> eff W (result (either E B) E2)), seen of_either (default_try_bind_e (ei_bind_e m) ei_pure d g) w =
     and_then (fun a => gives (g a) (fun r => match of_result r with Has x => of_either x | Lacks _ => Has d end)) (of_either m) w).
Proof.
  intros; do 6 (split; [each|]).
  split; each; repeat match goal with |- context [match ?x with _ => _ end] => is_var x; destruct x; see end; reflexivity.
Qed.

(** ** The laws, effects included *)
Theorem C105_laws : forall W E,
  lawful (W := W) maybe (@mb_pure) (@mb_fmap_e W) (@mb_bind_e W) /\
  lawful (W := W) option (@Some) (@op_fmap_e W) (@op_bind_e W) /\
  lawful (W := W) (fun A => result A E) (fun A => @re_pure A E) (fun A B => @re_fmap_e W A B E) (fun A B => @re_bind_e W A B E) /\
  lawful (W := W) (either E) (fun A => @ei_pure E A) (fun A B => @ei_fmap_e W E A B) (fun A B => @ei_bind_e W E A B) /\
  lawful (W := W) (validated E) (fun A => @va_pure E A) (fun A B => @va_fmap_e W E A B) (fun A B => @va_bind_e W E A B) /\
  lawful (W := W) id_ (@id_pure) (@id_fmap_e W) (@id_bind_e W).
Proof.
  intros; split; [|split; [|split; [|split; [|split]]]]; intros A B C x m f g k h w;
    (split; [|split; [|split; [|split; [|split; [|split]]]]]); each;
    repeat match goal with |- context [match ?x with _ => _ end] => is_var x; destruct x; see end; reflexivity.
Qed.
(** [lift2] is [bind] and [fmap], and [apply] is [lift2] of calling, with the
    effects ([Validated] looks at both sides, see [C105_lift2]). *)
Theorem C105_lift2_by_bind : forall W A B C E (f : A -> B -> eff W C) w,
  (forall a b, mb_lift2_e f a b w = mb_bind_e a (fun x => mb_fmap_e b (f x)) w) /\
  (forall a b, op_lift2_e f a b w = op_bind_e a (fun x => op_fmap_e b (f x)) w) /\
  (forall a b, re_lift2_e (E := E) f a b w = re_bind_e a (fun x => re_fmap_e b (f x)) w) /\
  (forall a b, ei_lift2_e (L := E) f a b w = ei_bind_e a (fun x => ei_fmap_e b (f x)) w) /\
  (forall a b, id_lift2_e f a b w = id_bind_e a (fun x => id_fmap_e b (f x)) w) /\
  (forall a b, va_lift2_e (E := E) f a b w =
     eff_bind (va_fmap_e a (fun x => eff_ret (f x))) (fun g => va_apply_e g b) w).
Proof. intros; split; [|split; [|split; [|split; [|split]]]]; each. Qed.

(** ** Writer: the logs are combined before the function of [apply], [lift2] or
    [lift3] is called, and after the one of [bind] *)
Theorem C105_writer : forall L A B C D (log : list nat) (c : L -> L -> outcome L) (l1 l2 l3 : L) (a : A) (b : B) (d : D),
  let c' x y := noted 0 (c x y) in
  (forall f : A -> outcome C, wr_fmap_e (mkWriter l1 a) (fun x => noted 1 (f x)) log = gives (noted 1 (f a)) (mkWriter l1) log) /\
  (forall f : A -> outcome C, wr_apply_e c' (mkWriter l1 (fun x => noted 1 (f x))) (mkWriter l2 a) log =
     match c l1 l2, f a with
     | Panic, _ => (Panic, log ++ [0])
     | Ret _, Panic => (Panic, log ++ [0; 1])
     | Ret l, Ret r => (Ret (mkWriter l r), log ++ [0; 1])
     end) /\
  (forall f : A -> B -> outcome C, wr_lift2_e c' (fun x y => noted 1 (f x y)) (mkWriter l1 a) (mkWriter l2 b) log =
     match c l1 l2, f a b with
     | Panic, _ => (Panic, log ++ [0])
     | Ret _, Panic => (Panic, log ++ [0; 1])
     | Ret l, Ret r => (Ret (mkWriter l r), log ++ [0; 1])
     end) /\
  (forall f : A -> B -> D -> outcome C,
     wr_lift3_e c' (fun x y z => noted 1 (f x y z)) (mkWriter l1 a) (mkWriter l2 b) (mkWriter l3 d) log =
     match obind (c l1 l2) (fun l => c l l3), f a b d with
     | Ret l, Ret r => (Ret (mkWriter l r), log ++ [0; 0; 1])
     | Ret _, Panic => (Panic, log ++ [0; 0; 1])
     | Panic, _ => (Panic, log ++ match c l1 l2 with Ret _ => [0; 0] | Panic => [0] end)
     end) /\
  (forall f : A -> outcome (writer L C), wr_bind_e c' (mkWriter l1 a) (fun x => noted 1 (f x)) log =
     match f a with
     | Panic => (Panic, log ++ [1])
     | Ret r => match c l1 (w_log r) with
                | Ret l => (Ret (mkWriter l (w_value r)), log ++ [1; 0])
                | Panic => (Panic, log ++ [1; 0])
                end
     end).
Proof.
  intros. subst c'. unfold wr_fmap_e, wr_apply_e, wr_lift2_e, wr_lift3_e, wr_bind_e, noted, eff_bind, eff_ret, gives, asks, silent, obind.
  cbn. split; [|split; [|split; [|split]]]; intros.
  - destruct (f a); reflexivity.
  - destruct (c l1 l2); [|reflexivity]. cbn. rewrite <- app_assoc. destruct (f a); reflexivity.
  - destruct (c l1 l2); [|reflexivity]. cbn. rewrite <- app_assoc. destruct (f a b); reflexivity.
  - destruct (c l1 l2) as [l|]; [|reflexivity]. cbn.
    destruct (c l l3); cbn; rewrite <- !app_assoc; try destruct (f a b d); reflexivity.
  - destruct (f a) as [r|]; [|reflexivity]. rewrite <- app_assoc. destruct (c l1 (w_log r)); reflexivity.
Qed.
(** If combining has no effects the laws hold, for a monoid of logs. *)
Theorem C105_writer_laws : forall W L (c : L -> L -> L) (e : L),
  (forall x y z, c (c x y) z = c x (c y z)) -> (forall x, c e x = x) -> (forall x, c x e = x) ->
  lawful (W := W) (writer L) (fun A => @wr_pure L e A) (fun A B => @wr_fmap_e W L A B)
    (fun A B => @wr_bind_e W L (fun x y => eff_ret (c x y)) A B).
Proof.
  intros W L c e assoc left right A B C x [l a] f g k h w.
  unfold wr_fmap_e, wr_bind_e, wr_pure, gives, asks, silent, eff_bind, eff_ret. cbn.
  repeat split.
  - destruct (f a w) as [[b|] w1]; [|reflexivity]. cbn. now destruct (g b w1) as [[?|] ?].
  - destruct (k x w) as [[[l1 b]|] w1]; [|reflexivity]. cbn. now rewrite left.
  - now rewrite right.
  - destruct (k a w) as [[[l1 b]|] w1]; [|reflexivity]. cbn. destruct (h b w1) as [[[l2 d]|] w2]; [|reflexivity]. cbn. now rewrite assoc.
  - destruct (f a w) as [[b|] w1]; [|reflexivity]. cbn. now rewrite right.
Qed.
(** If combining can be seen, associativity fails: combining happens at other times. *)
Theorem C105_writer_order_shows : exists (w : writer nat nat) (k h : nat -> action (list nat) (writer nat nat)),
  let c x y := noted 0 (Ret (x + y)) in
  wr_bind_e c w (fun x => asks (k x) (fun n => wr_bind_e c n h)) [] <> asks (wr_bind_e c w k) (fun n => wr_bind_e c n h) [].
Proof.
  exists (mkWriter 1 2), (fun x => noted 1 (Ret (mkWriter 3 x))), (fun x => noted 2 (Ret (mkWriter 4 x))). cbv. discriminate.
Qed.

(** ** [Maybe::fmap_error] calls its closure for a value and not for a failure (see C32) *)
Theorem C105_maybe_errors : forall W A G (f : maybe_error -> eff W G) w,
  (forall a : A, seen of_maybe (mb_fmap_error_e (Just a) f) w = gives (f ValueNotPresent) Has w) /\
  mb_fmap_error_e (@Nothing A) f w = (Ret Nothing, w).
Proof. intros; split; each. Qed.

(** ** What the specification says about calls: a closure with a label is called
    at most once, and is called if and only if its side is there *)
Theorem C105_once : forall E F A B C D (log : list nat) (h : held E A) (h2 : held E B) (h3 : held E C) merge,
  (forall n (f : A -> outcome B), snd (on_value (fun a => noted n (f a)) h log) = log ++ match h with Has _ => [n] | Lacks _ => [] end) /\
  (forall n (f : A -> outcome (held E B)), snd (and_then (fun a => noted n (f a)) h log) = log ++ match h with Has _ => [n] | Lacks _ => [] end) /\
  (forall n (f : E -> outcome F), snd (on_failure (fun e => noted n (f e)) h log) = log ++ match h with Has _ => [] | Lacks _ => [n] end) /\
  (forall n (f : E -> outcome (held E A)), snd (or_else (fun e => noted n (f e)) h log) = log ++ match h with Has _ => [] | Lacks _ => [n] end) /\
  (forall n m (f : A -> outcome B) (g : E -> outcome F),
     snd (on_either (fun a => noted n (f a)) (fun e => noted m (g e)) h log) = log ++ match h with Has _ => [n] | Lacks _ => [m] end) /\
  (forall n (f : A -> B -> outcome D), snd (on_two merge (fun a b => noted n (f a b)) h h2 log) =
     log ++ match h, h2 with Has _, Has _ => [n] | _, _ => [] end) /\
  (forall n (f : A -> B -> C -> outcome D), snd (on_three merge (fun a b c => noted n (f a b c)) h h2 h3 log) =
     log ++ match h, h2, h3 with Has _, Has _, Has _ => [n] | _, _, _ => [] end).
Proof.
  intros; split; [|split; [|split; [|split; [|split; [|split]]]]]; intros;
    destruct h; try destruct h2; try destruct h3; cbn; unfold gives, asks, silent, noted; cbn; rewrite ?app_nil_r; try reflexivity;
    repeat match goal with |- context [match ?x with Ret _ => _ | Panic => _ end] => destruct x end; reflexivity.
Qed.

(** ** Closures without effects: the functions of the models with plain closures *)
Definition plain {W X Y} (f : X -> Y) : X -> eff W Y := fun x => eff_ret (f x).
Definition plain2 {W X Y Z} (f : X -> Y -> Z) : X -> Y -> eff W Z := fun x y => eff_ret (f x y).
Definition plain3 {W X Y Z V} (f : X -> Y -> Z -> V) : X -> Y -> Z -> eff W V := fun x y z => eff_ret (f x y z).
Ltac plainly := intros; repeat match goal with x : maybe _ |- _ => destruct x | x : option _ |- _ => destruct x | x : result _ _ |- _ => destruct x
  | x : either _ _ |- _ => destruct x | x : validated _ _ |- _ => destruct x | x : id_ _ |- _ => destruct x
  | x : epipe _ _ |- _ => destruct x | x : writer _ _ |- _ => destruct x end; cbn; try reflexivity.
Theorem C105_pure_sums : forall W A B C D E (f : A -> B) (f2 : A -> B -> C) (f3 : A -> B -> C -> D) (u : A) (w : W),
  (forall m, mb_fmap_e m (plain f) w = (Ret (mb_fmap f m), w)) /\
  (forall m a, mb_lift2_e (plain2 f2) m a w = (Ret (mb_lift2 f2 m a), w)) /\
  (forall m a b, mb_lift3_e (plain3 f3) m a b w = (Ret (mb_lift3 f3 m a b), w)) /\
  (forall m (k : A -> maybe B), mb_bind_e m (plain k) w = (Ret (mb_bind m k), w)) /\
  (forall m, mb_apply_e (mb_fmap (fun g : A -> B => plain g) m) (Just u) w = (Ret (mb_apply m (Just u)), w)) /\
  (forall m d, mb_fmap_or_e m d (plain f) w = (Ret (mb_fmap_or m d f), w)) /\
  (forall m p, mb_filter_e m (plain p) w = (Ret (@mb_filter A p m), w)) /\
  (forall (m : maybe A) (g : maybe_error -> B), mb_fmap_error_e m (plain g) w = (Ret (mb_fmap_error m g), w)) /\
  (forall m, op_fmap_e m (plain f) w = (Ret (option_map f m), w)) /\
  (forall m a, op_lift2_e (plain2 f2) m a w = (Ret (op_lift2 f2 m a), w)) /\
  (forall m a b, op_lift3_e (plain3 f3) m a b w = (Ret (op_lift3 f3 m a b), w)) /\
  (forall m (k : A -> option B), op_bind_e m (plain k) w = (Ret (op_bind m k), w)) /\
  (forall m k, op_catch_e m (plain k) w = (Ret (@op_catch A m k), w)) /\
  (forall (m : option A) (k : unit -> E), op_map_error_to_e m (plain k) w = (Ret (op_map_error_to m k), w)) /\
  (forall m d (k : A -> result B E), op_try_map_or_e m d (plain k) w = (Ret (op_try_map_or m d k), w)) /\
  (forall m g (k : A -> result B E), op_try_map_or_else_e m (plain g) (plain k) w = (Ret (op_try_map_or_else m g k), w)) /\
  (forall m : result A E, re_fmap_e m (plain f) w = (Ret (re_fmap f m), w)) /\
  (forall m a, re_lift2_e (E := E) (plain2 f2) m a w = (Ret (re_lift2 f2 m a), w)) /\
  (forall m a b, re_lift3_e (E := E) (plain3 f3) m a b w = (Ret (re_lift3 f3 m a b), w)) /\
  (forall m (k : A -> result B E), re_bind_e m (plain k) w = (Ret (re_bind m k), w)) /\
  (forall m k, re_catch_e m (plain k) w = (Ret (@re_catch A E m k), w)) /\
  (forall (m : result A E) (k : E -> D), re_fmap_error_e m (plain k) w = (Ret (re_map_error_to m k), w)) /\
  (forall (m : result A E) (k : E -> D), re_bimap_e m (plain f) (plain k) w = (Ret (res_bimap m f k), w)) /\
  (forall (e : E) m (k : A -> option B), re_filter_map_e (eff_ret e) m (plain k) w = (Ret (re_filter_map e m k), w)) /\
  (forall (m : result A E) d (k : A -> result B D), re_try_map_or_e m d (plain k) w = (Ret (re_try_map_or m d k), w)) /\
  (forall (m : result A E) g (k : A -> result B D), re_try_map_or_else_e m (plain g) (plain k) w = (Ret (re_try_map_or_else m g k), w)).
Proof.
  intros. do 25 (split; [plainly; try (unfold plain, plain2, plain3, eff_bind, eff_ret; cbn;
    repeat match goal with |- context [match ?x with _ => _ end] => destruct x end; reflexivity)|]).
  plainly; try (unfold plain, plain2, plain3, eff_bind, eff_ret; cbn;
    repeat match goal with |- context [match ?x with _ => _ end] => destruct x end; reflexivity).
Qed.
Theorem C105_pure_others : forall W A B C D E (f : A -> B) (f2 : A -> B -> C) (f3 : A -> B -> C -> D) (g : E -> D) (w : W),
  (forall m : either E A, ei_fmap_e m (plain f) w = (Ret (ei_fmap f m), w)) /\
  (forall m : either E A, ei_fmap_left_e m (plain g) w = (Ret (ei_fmap_left g m), w)) /\
  (forall m a, ei_lift2_e (L := E) (plain2 f2) m a w = (Ret (ei_lift2 f2 m a), w)) /\
  (forall m a b, ei_lift3_e (L := E) (plain3 f3) m a b w = (Ret (ei_lift3 f3 m a b), w)) /\
  (forall m (k : A -> either E B), ei_bind_e m (plain k) w = (Ret (ei_bind m k), w)) /\
  (forall m : either E A, ei_bimap_e m (plain f) (plain g) w = (Ret (ei_bimap f g m), w)) /\
  (forall m k, ei_recover_e m (plain k) w = (Ret (@ei_recover E A m k), w)) /\
  (forall m : either E A, ei_bimap_result_e m (plain f) (plain g) w = (Ret (ei_bimap_result m f g), w)) /\
  (forall m : validated E A, va_fmap_e m (plain f) w = (Ret (va_fmap f m), w)) /\
  (forall m a, va_lift2_e (E := E) (plain2 f2) m a w = (Ret (va_lift2 f2 m a), w)) /\
  (forall m a b, va_lift3_e (E := E) (plain3 f3) m a b w = (Ret (va_lift3 f3 m a b), w)) /\
  (forall m (k : A -> validated E B), va_bind_e m (plain k) w = (Ret (va_bind m k), w)) /\
  (forall m k, va_recover_all_at_once_e m (plain k) w = (Ret (@va_recover_all_at_once E A m k), w)) /\
  (forall (o : option A) (k : unit -> E), va_from_option_with_e o (fun w => eff_ret (k tt) w) w = (Ret (va_from_option_with o k), w)) /\
  (forall m, id_fmap_e m (plain f) w = (Ret (id_fmap f m), w)) /\
  (forall m a, id_lift2_e (plain2 f2) m a w = (Ret (id_lift2 f2 m a), w)) /\
  (forall m a b, id_lift3_e (plain3 f3) m a b w = (Ret (id_lift3 f3 m a b), w)) /\
  (forall m (k : A -> id_ B), id_bind_e m (plain k) w = (Ret (id_bind m k), w)) /\
  (forall m (k : id_ A -> B), id_extend_e m (plain k) w = (Ret (id_extend m k), w)) /\
  (forall m : writer E A, wr_fmap_e m (plain f) w = (Ret (wr_fmap f m), w)) /\
  (forall c m a, wr_lift2_e (plain2 c) (plain2 f2) m a w = (Ret (@wr_lift2 E c _ _ _ f2 m a), w)) /\
  (forall c m a b, wr_lift3_e (plain2 c) (plain3 f3) m a b w = (Ret (@wr_lift3 E c _ _ _ _ f3 m a b), w)) /\
  (forall c m (k : A -> writer E B), wr_bind_e (plain2 c) m (plain k) w = (Ret (wr_bind c m k), w)) /\
  (forall p : epipe A E, ep_map_e p (plain f) w = (Ret (ep_map p f), w) /\ ep_map_error_e p (plain g) w = (Ret (ep_map_error p g), w)) /\
  (forall p (k : A -> result B E) (r : E -> result A E),
     ep_and_then_e p (plain k) w = (Ret (ep_and_then p k), w) /\ ep_recover_e p (plain r) w = (Ret (ep_recover p r), w)).
Proof. intros. do 23 (split; [plainly|]). split; plainly; split; plainly. Qed.

(** ** Concrete cases *)
(** [fmap], two arguments of which one is missing, a recovery that is not needed
    and one that panics *)
Example C105_case_calls :
  mb_fmap_e (Just 3) (fun x => noted 1 (Ret (x + 1))) [] = (Ret (Just 4), [1]) /\
  mb_fmap_e (@Nothing nat) (fun x => noted 1 (Ret (x + 1))) [] = (Ret Nothing, []) /\
  va_lift2_e (fun x y => noted 1 (Ret (x + y))) (Invalid [true]) (@Invalid bool nat [false]) [] = (Ret (Invalid [true; false]), []) /\
  re_catch_e (@Err nat bool true) (fun _ => noted 1 Panic) [] = (Panic, [1]) /\
  re_catch_e (@Ok nat bool 5) (fun _ => noted 1 Panic) [] = (Ret (Ok 5), []) /\
  ei_bimap_e (@Left bool nat true) (fun x => noted 1 (Ret x)) (fun b => noted 2 (Ret (negb b))) [] = (Ret (Left false), [2]).
Proof. repeat split. Qed.
(** [try_map_or_else] with an error calls both closures, in order; a writer combines
    its logs before it calls the function of [lift2] *)
Example C105_case_order :
  op_try_map_or_else_e (Some 3) (fun e : bool => noted 2 (Ret 9)) (fun _ => noted 1 (Ret (Err true))) [] = (Ret (Some 9), [1; 2]) /\
  wr_lift2_e (fun a b => noted 0 (Ret (a + b))) (fun x y => noted 1 (Ret (x * y))) (mkWriter 1 2) (mkWriter 3 4) [] = (Ret (mkWriter 4 8), [0; 1]) /\
  va_fmap_error_e (@Invalid nat bool [5; 6; 7]) (fun e => noted e (if Nat.eqb e 6 then Panic else Ret e)) [] = (Panic, [5; 6]).
Proof. repeat split. Qed.
(** The hypotheses of [C105_writer_laws] are met by lists and appending. *)
Example C105_case_writer : lawful (W := list nat) (writer (list nat)) (fun A => @wr_pure (list nat) [] A)
    (fun A B => @wr_fmap_e (list nat) (list nat) A B) (fun A B => @wr_bind_e (list nat) (list nat) (fun x y => eff_ret (x ++ y)) A B).
Proof.
  apply C105_writer_laws; intros.
  - now rewrite app_assoc.
  - reflexivity.
  - apply app_nil_r.
Qed.

Print Assumptions C105_fmap.
Print Assumptions C105_bind.
Print Assumptions C105_apply.
Print Assumptions C105_lift2.
Print Assumptions C105_lift3.
Print Assumptions C105_failures.
Print Assumptions C105_recoveries.
Print Assumptions C105_both_sides.
Print Assumptions C105_choosing.
Print Assumptions C105_id.
Print Assumptions C105_derived.
Print Assumptions C105_laws.
Print Assumptions C105_lift2_by_bind.
Print Assumptions C105_writer.
Print Assumptions C105_writer_laws.
Print Assumptions C105_writer_order_shows.
Print Assumptions C105_maybe_errors.
Print Assumptions C105_once.
Print Assumptions C105_pure_sums.
Print Assumptions C105_pure_others.

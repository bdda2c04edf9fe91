(** C104: composite functions, predicates and isomorphisms call the closures they
    are made of in order, each as often as it is needed and not after a panic. *)
From Coq Require Import List Bool Arith Lia.
From Verif Require Import Base Types SumModel WrapModel UtilModel OpticModel DeferSpec ArrowModel ArrowSpec.
Import ListNotations.
Open Scope outcome_scope.
Local Arguments eff_bind : simpl never.

Lemma eff_bind_run : forall W A B (m : eff W A) (k : A -> eff W B) w, eff_bind m k w = after (m w) k.
Proof. intros. unfold eff_bind, after. destruct (m w) as [[a|] w1]; reflexivity. Qed.

(** ** Terms written with the library; every closure writes its label down *)
Notation log := (list nat).
Fixpoint f_build {A B} (t : fterm A B) : mor log A B :=
  match t in fterm A B return mor log A B with
  | FIdentity => am_identity
  | FArrow n f => am_arrow (labelled n f)
  | FThen t u => am_compose (f_build u) (f_build t)
  | FFirst t => am_first (f_build t)
  | FSecond t => am_second (f_build t)
  | FSplit t u => am_split (f_build t) (f_build u)
  | FCombine t u => am_combine (f_build t) (f_build u)
  | FBoth n f => am_both (labelled n f)
  | FWhen p c n f => am_when (labelled p c) (labelled n f)
  | FThenIf t u p c => am_then_if (f_build t) (f_build u) (labelled p c)
  | FSequence fs => am_sequence (map (fun nf => labelled (fst nf) (snd nf)) fs)
  end.
Fixpoint p_build {A} (t : pterm A) : apred log A :=
  match t with
  | PNew n f => labelled n f
  | PUnion p q => ap_union (p_build p) (p_build q)
  | PIntersection p q => ap_intersection (p_build p) (p_build q)
  | PDiff p q => ap_diff (p_build p) (p_build q)
  | PNegate p => ap_negate (p_build p)
  | PEmpty => ap_empty
  end.
Fixpoint i_build {A B} (t : iterm A B) : aiso log A B :=
  match t in iterm A B return aiso log A B with
  | INew n f m g => mkAiso (labelled n f) (labelled m g)
  | ICompose i j => ai_compose (i_build i) (i_build j)
  | IInverse i => ai_inverse (i_build i)
  end.

(** The log of a run is extended by the labels the run is expected to call. *)
Definition does {A} (m : eff log A) (r : run A) : Prop := forall w, m w = (snd r, w ++ fst r).

Lemma does_ret : forall A (a : A), does (eff_ret a) (answers a).
Proof. intros A a w. cbn. now rewrite app_nil_r. Qed.
Lemma does_call : forall A B n (f : A -> outcome B) a, does (labelled n f a) (call n f a).
Proof. intros A B n f a w. reflexivity. Qed.
Lemma does_bind : forall A B (m : eff log A) r (k : A -> eff log B) q,
  does m r -> (forall a, does (k a) (q a)) -> does (eff_bind m k) (followed_by r q).
Proof.
  intros A B m [l [a|]] k q Hm Hk w; rewrite eff_bind_run, Hm; cbn; [|reflexivity].
  rewrite Hk. now rewrite app_assoc.
Qed.
Lemma followed_assoc : forall A B C (m : run A) (k : A -> run B) (h : B -> run C),
  followed_by (followed_by m k) h = followed_by m (fun a => followed_by (k a) h).
Proof.
  intros A B C [l [a|]] k h; cbn; [|reflexivity].
  destruct (k a) as [l1 [b|]]; cbn; [|reflexivity]. now rewrite app_assoc.
Qed.
Lemma followed_ext : forall A B (m : run A) (k h : A -> run B), (forall a, k a = h a) -> followed_by m k = followed_by m h.
Proof. intros A B [l [a|]] k h H; cbn; [now rewrite H|reflexivity]. Qed.
Lemma followed_answers : forall A (m : run A), followed_by m answers = m.
Proof. intros A [l [a|]]; cbn; [now rewrite app_nil_r|reflexivity]. Qed.

Lemma fold_funs_does : forall A (fs : list (nat * (A -> outcome A))) a r,
  r = answers a -> does (fold_funs a (map (fun nf => labelled (fst nf) (snd nf)) fs))
    (fold_left (fun m nf => followed_by m (call (fst nf) (snd nf))) fs r).
Proof.
  assert (G : forall A (fs : list (nat * (A -> outcome A))) m,
    fold_left (fun m nf => followed_by m (call (fst nf) (snd nf))) fs m =
    followed_by m (fun a => fold_left (fun m nf => followed_by m (call (fst nf) (snd nf))) fs (answers a))).
  { induction fs as [|[n f] fs IH]; intros m; cbn; [symmetry; apply followed_answers|].
    rewrite IH, followed_assoc. apply followed_ext. intros a. symmetry. rewrite IH. cbn. unfold call.
    destruct (f a); reflexivity. }
  induction fs as [|[n f] fs IH]; intros a r ->; cbn; [apply does_ret|].
  rewrite G. replace (followed_by (answers a) (call n f)) with (call n f a) by reflexivity.
  apply does_bind; [apply does_call|]. intros b. now apply IH.
Qed.

(** ** Functions *)
(** Whatever is composed from closures that write down their labels: a run calls
    exactly the closures [f_run] lists, in that order, and ends as it says. *)
Theorem C104_functions : forall A B (t : fterm A B) a w,
  f_build t a w = (snd (f_run t a), w ++ fst (f_run t a)).
Proof.
  intros A B t a. change (does (f_build t a) (f_run t a)). revert a.
  induction t; intros x; cbn [f_build f_run].
  - apply does_ret.
  - apply does_call.
  - apply does_bind; auto.
  - destruct x as [b d]. apply does_bind; auto. intros; apply does_ret.
  - destruct x as [d b]. apply does_bind; auto. intros; apply does_ret.
  - apply does_bind; auto. intros. apply does_bind; auto. intros; apply does_ret.
  - destruct x as [b d]. apply does_bind; auto. intros. apply does_bind; auto. intros; apply does_ret.
  - destruct x as [b d]. apply does_bind; [apply does_call|]. intros. apply does_bind; [apply does_call|]. intros; apply does_ret.
  - apply does_bind; [apply does_call|]. intros [|]; [apply does_call|apply does_ret].
  - apply does_bind; auto. intros r. apply does_bind; [apply does_call|]. intros [|]; [auto|apply does_ret].
  - now apply fold_funs_does.
Qed.

(** A term without conditions calls each closure once ([both]: twice), in the
    order of reading, and stops only at a panic. *)
Lemma runs_prefix : forall A B (t : fterm A B) ls a, f_labels t = Some ls ->
  match f_run t a with
  | (l, Ret _) => l = ls
  | (l, Panic) => l <> [] /\ exists rest, ls = l ++ rest
  end.
Proof.
  assert (Two : forall A B (m : run A) (k : A -> run B) l1 l2,
    match m with (l, Ret _) => l = l1 | (l, Panic) => l <> [] /\ exists rest, l1 = l ++ rest end ->
    (forall a, match k a with (l, Ret _) => l = l2 | (l, Panic) => l <> [] /\ exists rest, l2 = l ++ rest end) ->
    match followed_by m k with (l, Ret _) => l = l1 ++ l2 | (l, Panic) => l <> [] /\ exists rest, l1 ++ l2 = l ++ rest end).
  { intros A B [l [a|]] k l1 l2 H1 H2; cbn.
    - subst l. specialize (H2 a). destruct (k a) as [l [b|]]; cbn; [now subst l|].
      destruct H2 as [Hn [rest ->]]. split; [|exists rest; apply app_assoc].
      intros E. apply app_eq_nil in E as [_ E]. contradiction.
    - destruct H1 as [Hn [rest ->]]. split; [exact Hn|]. exists (rest ++ l2). symmetry; apply app_assoc. }
  assert (One : forall A B n (f : A -> outcome B) a,
    match call n f a with (l, Ret _) => l = [n] | (l, Panic) => l <> [] /\ exists rest, [n] = l ++ rest end).
  { intros. unfold call. destruct (f a); [reflexivity|]. split; [discriminate|]. exists []; reflexivity. }
  assert (Pad : forall A B (m : run A) (g : A -> B) l1,
    match m with (l, Ret _) => l = l1 | (l, Panic) => l <> [] /\ exists rest, l1 = l ++ rest end ->
    match followed_by m (fun a => answers (g a)) with (l, Ret _) => l = l1 | (l, Panic) => l <> [] /\ exists rest, l1 = l ++ rest end).
  { intros A B m g l1 H. rewrite <- (app_nil_r l1). apply Two; [exact H|]. intros; reflexivity. }
  intros A B t. induction t; intros ls x Hl; cbn [f_labels f_run] in *; try discriminate.
  - injection Hl as <-; reflexivity.
  - injection Hl as <-. apply One.
  - destruct (f_labels t1) as [l1|]; [|discriminate]. destruct (f_labels t2) as [l2|]; [|discriminate]. injection Hl as <-.
    apply Two; [now apply IHt1|]. intros; now apply IHt2.
  - apply Pad. now apply IHt.
  - apply Pad. now apply IHt.
  - destruct (f_labels t1) as [l1|]; [|discriminate]. destruct (f_labels t2) as [l2|]; [|discriminate]. injection Hl as <-.
    apply Two; [now apply IHt1|]. intros. apply Pad. now apply IHt2.
  - destruct (f_labels t1) as [l1|]; [|discriminate]. destruct (f_labels t2) as [l2|]; [|discriminate]. injection Hl as <-.
    apply Two; [now apply IHt1|]. intros. apply Pad. now apply IHt2.
  - injection Hl as <-. change [n; n] with ([n] ++ [n]). apply Two; [apply One|]. intros. apply Pad, One.
  - injection Hl as <-.
    assert (G : forall gs l1 (m : run A),
      match m with (l, Ret _) => l = l1 | (l, Panic) => l <> [] /\ exists rest, l1 = l ++ rest end ->
      match fold_left (fun m nf => followed_by m (call (fst nf) (snd nf))) gs m with
      | (l, Ret _) => l = l1 ++ map fst gs | (l, Panic) => l <> [] /\ exists rest, l1 ++ map fst gs = l ++ rest end).
    { induction gs as [|[n f] gs IH]; intros l1 m H; cbn; [now rewrite app_nil_r|].
      change (n :: map fst gs) with ([n] ++ map fst gs). rewrite app_assoc. apply IH. apply Two; [exact H|]. intros; apply One. }
    apply (G fs []). reflexivity.
Qed.
Theorem C104_functions_once_each : forall A B (t : fterm A B) labels a w, f_labels t = Some labels ->
  logs labels w (f_build t a w).
Proof.
  intros A B t ls a w H. rewrite C104_functions. pose proof (runs_prefix _ _ t ls a H) as P.
  destruct (f_run t a) as [l [b|]]; cbn; [now subst|]. destruct P as [Hn [rest ->]]. exists l, rest. auto.
Qed.

(** The other spellings of composition, the default [split], and the helpers. *)
Theorem C104_same_by_other_names : forall W A B C D (f : A -> eff W B) (g : B -> eff W C) (h : A -> eff W D) a w,
  ah_compose g f a w = after (f a w) g /\ ah_pipe f g a w = after (f a w) g /\ am_compose g f a w = after (f a w) g /\
  am_split_default f h a w = am_split f h a w /\
  am_split f h a w = after (f a w) (fun b w1 => after (h a w1) (fun d w2 => (Ret (b, d), w2))).
Proof.
  intros. unfold ah_compose, ah_pipe, am_split_default, am_compose, am_split, am_arrow. rewrite !eff_bind_run.
  repeat split.
Qed.
Theorem C104_helpers : forall A B C (n : nat) (f : A -> B -> outcome C) (g : A -> outcome B) a b w
    (fs : list (nat * (A -> outcome A))) (gs : list (nat * (A -> outcome B))),
  ah_flip (fun a b => labelled n (f a) b) b a w = (f a b, w ++ [n]) /\
  ah_lift_option (labelled n g) (Some a) w = (omap Some (g a), w ++ [n]) /\
  ah_lift_option (labelled n g) None w = (Ret None, w) /\
  (* the functions, then the conversion *)
  ah_compose_all (labelled n g) (map (fun nf => labelled (fst nf) (snd nf)) fs) a w =
    (let r := f_run (FThen (FSequence fs) (FArrow n g)) a in (snd r, w ++ fst r)) /\
  (* fan_out gives every function the same input *)
  match ah_fan_out a (map (fun nf => labelled (fst nf) (snd nf)) gs) w with
  | (Ret bs, w') => w' = w ++ map fst gs /\ map Ret bs = map (fun nf => snd nf a) gs
  | (Panic, w') => exists before nf rest, gs = before ++ nf :: rest /\ snd nf a = Panic /\
      (forall x, In x before -> snd x a <> Panic) /\ w' = w ++ map fst before ++ [fst nf]
  end.
Proof.
  intros. split; [reflexivity|]. split; [unfold ah_lift_option, labelled; rewrite eff_bind_run; cbn; now destruct (g a)|].
  split; [reflexivity|]. split.
  { unfold ah_compose_all. cbn zeta. revert w.
    change (does (eff_bind (fold_funs a (map (fun nf => labelled (fst nf) (snd nf)) fs)) (labelled n g))
      (f_run (FThen (FSequence fs) (FArrow n g)) a)).
    cbn [f_run]. apply does_bind; [now apply fold_funs_does|]. intros; apply does_call. }
  revert w. induction gs as [|[m h] gs IH]; intros w; cbn; [split; [now rewrite app_nil_r|reflexivity]|].
  rewrite eff_bind_run. unfold labelled at 1. destruct (h a) as [b1|] eqn:E; cbn.
  - rewrite eff_bind_run. specialize (IH (w ++ [m])).
    destruct (ah_fan_out a (map (fun nf => labelled (fst nf) (snd nf)) gs) (w ++ [m])) as [[bs|] w']; cbn.
    + destruct IH as [-> H]. split; [now rewrite <- app_assoc|cbn; now rewrite H].
    + destruct IH as (before & nf & rest & -> & H1 & H2 & ->). exists ((m, h) :: before), nf, rest. repeat split; auto.
      * intros x [<-|Hx]; [cbn; congruence|auto].
      * cbn. now rewrite <- app_assoc.
  - exists [], (m, h), gs. repeat split; auto; try contradiction.
Qed.

(** The laws that hold although calls are observable. *)
Theorem C104_category_laws : forall W A B C D E F (f : mor W A B) (g : mor W B C) (h : mor W C D) (k : mor W E F),
  (forall a w, am_compose f am_identity a w = f a w /\ am_compose am_identity f a w = f a w) /\
  (forall a w, am_compose h (am_compose g f) a w = am_compose (am_compose h g) f a w) /\
  (forall x w, am_first (am_identity : mor W A A) x w = (am_identity : mor W (A * D) (A * D)) x w) /\
  (forall (x : A * E) w, am_first (am_compose g f) x w = am_compose (am_first g) (am_first f) x w) /\
  (forall (x : E * A) w, am_second (am_compose g f) x w = am_compose (am_second g) (am_second f) x w) /\
  (forall x w, am_combine f k x w = am_compose (am_second k) (am_first f) x w) /\
  (forall x w, am_both f x w = am_combine f f x w) /\
  (forall x w, am_second f x w =
     am_compose (fun y : B * D => eff_ret (snd y, fst y)) (am_compose (am_first f) (fun y : D * A => eff_ret (snd y, fst y))) x w) /\
  (forall (x : A * D) w, am_compose (fun y => eff_ret (fst y)) (am_first f) x w = am_compose f (fun y => eff_ret (fst y)) x w).
Proof.
  intros. unfold am_compose, am_identity, am_first, am_second, am_combine, am_both.
  assert (R : forall X Y (m : eff W X) (q : X -> eff W Y) w, eff_bind m q w = after (m w) q) by (intros; apply eff_bind_run).
  repeat split; intros; repeat match goal with x : (_ * _)%type |- _ => destruct x end; repeat (rewrite !R; cbn);
    try reflexivity;
    repeat match goal with |- context [after (?m ?x ?w) _] =>
      is_var m; destruct (m x w) as [[?|] ?]; cbn; repeat (rewrite !R; cbn); try reflexivity end.
Qed.

(** Laws of arrows that move calls past each other fail. *)
Theorem C104_reordering_shows : exists (f g h k : nat -> eff log nat) w,
  (* first f then second g; second g then first f *)
  am_compose (am_second g) (am_first f) (0, 0) w <> am_compose (am_first f) (am_second g) (0, 0) w /\
  (* combine (h . f) (k . g); combine h k . combine f g *)
  am_combine (am_compose h f) (am_compose k g) (0, 0) w <> am_compose (am_combine h k) (am_combine f g) (0, 0) w /\
  (* split f g, swapped; split g f *)
  am_compose (fun y => eff_ret (snd y, fst y)) (am_split f g) 0 w <> am_split g f 0 w /\
  (* f after copying; copying after f *)
  am_compose (am_combine f f) (fun x => eff_ret (x, x)) 0 w <> am_compose (fun x => eff_ret (x, x)) f 0 w.
Proof.
  exists (labelled 1 Ret), (labelled 2 Ret), (labelled 3 Ret), (labelled 4 Ret), []. repeat split; cbv; discriminate.
Qed.

(** ** [pipe!] and [compose!]: the expressions are evaluated once, in the order
    written; the functions run in the order of the data. *)
Inductive pchain : Type -> Type -> Type :=
| PcOne {A B} (e : nat) (o : outcome (nat * (A -> outcome B))) : pchain A B
| PcMore {A B C} (e : nat) (o : outcome (nat * (A -> outcome B))) (rest : pchain B C) : pchain A C.
Inductive cchain : Type -> Type -> Type :=
| CcOne {A B} (e : nat) (o : outcome (nat * (A -> outcome B))) : cchain A B
| CcMore {A B C} (e : nat) (o : outcome (nat * (B -> outcome C))) (rest : cchain A B) : cchain A C.
Definition expr {A B} (e : nat) (o : outcome (nat * (A -> outcome B))) : eff log (A -> eff log B) :=
  fun w => (omap (fun nf => labelled (fst nf) (snd nf)) o, w ++ [e]).
Fixpoint p_exprs {A B} (c : pchain A B) : pipe_exprs log A B :=
  match c in pchain A B return pipe_exprs log A B with
  | PcOne e o => PeOne (expr e o)
  | PcMore e o rest => PeMore (expr e o) (p_exprs rest)
  end.
Fixpoint c_exprs {A B} (c : cchain A B) : compose_exprs log A B :=
  match c in cchain A B return compose_exprs log A B with
  | CcOne e o => CeOne (expr e o)
  | CcMore e o rest => CeMore (expr e o) (c_exprs rest)
  end.
(** what building calls, and the function built *)
Fixpoint p_term {A B} (c : pchain A B) : run (fterm A B) :=
  match c in pchain A B return list nat * outcome (fterm A B) with
  | PcOne e o => ([e], omap (fun nf => FArrow (fst nf) (snd nf)) o)
  | PcMore e o rest =>
      match o with
      | Ret nf => (e :: fst (p_term rest), omap (fun t => FThen (FArrow (fst nf) (snd nf)) t) (snd (p_term rest)))
      | Panic => ([e], Panic)
      end
  end.
Fixpoint c_term {A B} (c : cchain A B) : run (fterm A B) :=
  match c in cchain A B return list nat * outcome (fterm A B) with
  | CcOne e o => ([e], omap (fun nf => FArrow (fst nf) (snd nf)) o)
  | CcMore e o rest =>
      match o with
      | Ret nf => (e :: fst (c_term rest), omap (fun t => FThen t (FArrow (fst nf) (snd nf))) (snd (c_term rest)))
      | Panic => ([e], Panic)
      end
  end.
Definition builds {A B} (m : eff log (mor log A B)) (r : run (fterm A B)) : Prop :=
  forall w, snd (m w) = w ++ fst r /\
    match fst (m w), snd r with
    | Ret f, Ret t => forall a w', f a w' = (snd (f_run t a), w' ++ fst (f_run t a))
    | Panic, Panic => True
    | _, _ => False
    end.
Theorem C104_macros :
  (forall A B (c : pchain A B), builds (am_pipe_macro (p_exprs c)) (p_term c)) /\
  (forall A B (c : cchain A B), builds (am_compose_macro (c_exprs c)) (c_term c)).
Proof.
  split; intros A B c; induction c as [A B e o|A B C e o rest IH]; intros w; cbn [p_exprs c_exprs am_pipe_macro am_compose_macro p_term c_term];
    rewrite eff_bind_run; unfold expr; destruct o as [[n f]|]; cbn; auto.
  - rewrite eff_bind_run. destruct (IH (w ++ [e])) as [I1 I2].
    destruct (am_pipe_macro (p_exprs rest) (w ++ [e])) as [[m|] w1]; cbn in *; subst w1; destruct (snd (p_term rest)) as [t|]; cbn; try contradiction;
      (split; [now rewrite <- app_assoc|]); auto.
    intros a w'. unfold am_compose, am_arrow. rewrite eff_bind_run. unfold labelled, call. cbn. destruct (f a) as [b|]; cbn; [|reflexivity].
    rewrite I2, <- app_assoc. reflexivity.
  - rewrite eff_bind_run. destruct (IH (w ++ [e])) as [I1 I2].
    destruct (am_compose_macro (c_exprs rest) (w ++ [e])) as [[m|] w1]; cbn in *; subst w1; destruct (snd (c_term rest)) as [t|]; cbn; try contradiction;
      (split; [now rewrite <- app_assoc|]); auto.
    intros a w'. unfold am_compose, am_arrow. rewrite eff_bind_run, I2. destruct (f_run t a) as [l [b|]]; cbn; [|reflexivity].
    now rewrite app_assoc.
Qed.

(** ** Predicates *)
(** A predicate asks its parts from left to right; a part is skipped exactly if
    the answer is known without it. *)
Theorem C104_predicates : forall A (t : pterm A) a w,
  ap_contains (p_build t) a w = (snd (p_run t a), w ++ fst (p_run t a)).
Proof.
  intros A t a. unfold ap_contains. change (does (p_build t a) (p_run t a)).
  induction t; cbn [p_build p_run].
  - apply does_call.
  - apply does_bind; auto. intros [|]; [apply does_ret|auto].
  - apply does_bind; auto. intros [|]; [auto|apply does_ret].
  - apply does_bind; auto. intros [|]; [apply does_bind; auto; intros; apply does_ret|apply does_ret].
  - apply does_bind; auto. intros; apply does_ret.
  - apply does_ret.
Qed.

Lemma within_app : forall A (a b c d : list A), within a c -> within b d -> within (a ++ b) (c ++ d).
Proof.
  intros A a b c d H; revert b d. induction H; intros b d Hd; cbn.
  - induction l; cbn; [exact Hd|now apply within_skip].
  - apply within_take; auto.
  - apply within_skip; auto.
Qed.
Lemma within_weak : forall A (a c d : list A), within a c -> within a (c ++ d).
Proof. intros A a c d H. rewrite <- (app_nil_r a). apply within_app; [exact H|constructor]. Qed.
(** Every part is asked at most once per question, in the order of reading. *)
Theorem C104_predicates_at_most_once : forall A (t : pterm A) a,
  exists asked, within asked (p_labels t) /\ forall w, snd (ap_contains (p_build t) a w) = w ++ asked.
Proof.
  intros A t a. exists (fst (p_run t a)). split; [|intros; now rewrite C104_predicates].
  induction t; cbn [p_run p_labels].
  - cbn. repeat constructor.
  - destruct (p_run t1 a) as [l1 [[|]|]]; cbn in *; [rewrite app_nil_r; now apply within_weak|now apply within_app|now apply within_weak].
  - destruct (p_run t1 a) as [l1 [[|]|]]; cbn in *; [now apply within_app|rewrite app_nil_r; now apply within_weak|now apply within_weak].
  - destruct (p_run t1 a) as [l1 [[|]|]]; cbn in *; [|rewrite app_nil_r; now apply within_weak|now apply within_weak].
    destruct (p_run t2 a) as [l2 [b|]]; cbn in *; [rewrite app_nil_r|]; now apply within_app.
  - destruct (p_run t a) as [l1 [b|]]; cbn in *; [now rewrite app_nil_r|assumption].
  - constructor.
Qed.

Theorem C104_predicate_laws : forall W A (p q r : apred W A) a w,
  ap_union (ap_union p q) r a w = ap_union p (ap_union q r) a w /\
  ap_union ap_empty p a w = p a w /\ ap_union p ap_empty a w = p a w /\
  ap_intersection (ap_intersection p q) r a w = ap_intersection p (ap_intersection q r) a w /\
  ap_negate (ap_negate p) a w = p a w /\
  ap_negate (ap_union p q) a w = ap_intersection (ap_negate p) (ap_negate q) a w /\
  ap_negate (ap_intersection p q) a w = ap_union (ap_negate p) (ap_negate q) a w /\
  ap_diff p q a w = ap_intersection p (ap_negate q) a w /\
  ap_combine_owned p q a w = ap_union p q a w /\
  (forall w', p a w = (Ret true, w') -> ap_union p q a w = (Ret true, w')) /\
  (forall w', p a w = (Ret false, w') -> ap_intersection p q a w = (Ret false, w') /\ ap_diff p q a w = (Ret false, w')).
Proof.
  intros. unfold ap_union, ap_intersection, ap_negate, ap_diff, ap_combine_owned, ap_empty.
  repeat split; intros; rewrite ?eff_bind_run;
    try match goal with H : p a w = _ |- _ => rewrite H; cbn; reflexivity end; cbn; rewrite ?eff_bind_run;
    destruct (p a w) as [[[|]|] w1]; cbn; rewrite ?eff_bind_run; try reflexivity;
    destruct (q a w1) as [[[|]|] w2]; cbn; rewrite ?eff_bind_run; reflexivity.
Qed.
(** Laws of sets that ask more, less or in another order fail. *)
Theorem C104_predicate_reordering_shows : exists (p q r : apred log nat) w,
  ap_union p q 0 w <> ap_union q p 0 w /\ ap_union p p 0 w <> p 0 w /\
  ap_intersection q r 0 w <> ap_intersection r q 0 w /\
  ap_intersection q (ap_union p r) 0 w <> ap_union (ap_intersection q p) (ap_intersection q r) 0 w.
Proof.
  exists (labelled 1 (fun _ => Ret false)), (labelled 2 (fun _ => Ret true)), (labelled 3 (fun _ => Ret false)), [].
  repeat split; cbv; discriminate.
Qed.

(** ** Isomorphisms *)
Lemma iso_does : forall A B (t : iterm A B),
  (forall a, does (ai_forward (i_build t) a) (i_there t a)) /\ (forall b, does (ai_backward (i_build t) b) (i_back t b)).
Proof.
  induction t as [A B n f m g|A B C i [I1 I2] j [J1 J2]|A B i [I1 I2]]; cbn.
  - split; intros; apply does_call.
  - split; intros; apply does_bind; auto.
  - split; auto.
Qed.
Theorem C104_isos : forall A B (t : iterm A B) w,
  (forall a, ai_forward (i_build t) a w = (snd (i_there t a), w ++ fst (i_there t a)) /\
             ai_convert_forward (i_build t) a w = (snd (i_there t a), w ++ fst (i_there t a))) /\
  (forall b, ai_backward (i_build t) b w = (snd (i_back t b), w ++ fst (i_back t b)) /\
             ai_convert_backward (i_build t) b w = (snd (i_back t b), w ++ fst (i_back t b))) /\
  (* there, the change, and back *)
  (forall a n f, let r := followed_by (i_there t a) (fun b => followed_by (call n f b) (i_back t)) in
     ai_modify (i_build t) a (labelled n f) w = (snd r, w ++ fst r)) /\
  (forall R a n (f : B -> outcome R), let r := followed_by (i_there t a) (call n f) in
     ai_map_from_target (i_build t) (labelled n f) a w = (snd r, w ++ fst r)) /\
  (forall R b n (f : A -> outcome R), let r := followed_by (i_back t b) (call n f) in
     ai_map_from_source (i_build t) (labelled n f) b w = (snd r, w ++ fst r)) /\
  (* both round trips are made before anything is compared *)
  (forall eqa eqb a b,
     let r := followed_by (followed_by (i_there t a) (i_back t)) (fun a' =>
              followed_by (followed_by (i_back t b) (i_there t)) (fun b' => answers (eqa a' a && eqb b' b))) in
     ai_verify_laws eqa eqb (i_build t) a b w = (snd r, w ++ fst r)).
Proof.
  intros A B t w. destruct (iso_does A B t) as [F G].
  split; [intros; split; apply F|]. split; [intros; split; apply G|].
  split; [|split; [|split]]; intros.
  - revert w. change (does (ai_modify (i_build t) a (labelled n f)) r). unfold r, ai_modify.
    apply does_bind; auto. intros. apply does_bind; [apply does_call|auto].
  - revert w. change (does (ai_map_from_target (i_build t) (labelled n f) a) r). unfold r. apply does_bind; auto. intros; apply does_call.
  - revert w. change (does (ai_map_from_source (i_build t) (labelled n f) b) r). unfold r. apply does_bind; auto. intros; apply does_call.
  - revert w. change (does (ai_verify_laws eqa eqb (i_build t) a b) r). unfold r, ai_verify_laws. rewrite followed_assoc.
    apply does_bind; auto. intros. apply does_bind; auto. intros. rewrite followed_assoc.
    apply does_bind; auto. intros. apply does_bind; auto. intros. apply does_ret.
Qed.
(** With effects of any kind, composition is associative and inverses turn it around. *)
Theorem C104_iso_laws : forall W A B C D (i : aiso W A B) (j : aiso W B C) (k : aiso W C D) w,
  (forall a, ai_forward (ai_compose i (ai_compose j k)) a w = ai_forward (ai_compose (ai_compose i j) k) a w) /\
  (forall d, ai_backward (ai_compose i (ai_compose j k)) d w = ai_backward (ai_compose (ai_compose i j) k) d w) /\
  (forall c, ai_forward (ai_inverse (ai_compose i j)) c w = ai_forward (ai_compose (ai_inverse j) (ai_inverse i)) c w) /\
  (forall a, ai_backward (ai_inverse (ai_compose i j)) a w = ai_backward (ai_compose (ai_inverse j) (ai_inverse i)) a w) /\
  (forall a, ai_forward (ai_inverse (ai_inverse i)) a w = ai_forward i a w).
Proof.
  intros. repeat split; intros; cbn; rewrite ?eff_bind_run; try reflexivity.
  - destruct (ai_forward i a w) as [[b|] w1]; cbn; rewrite ?eff_bind_run; reflexivity.
  - destruct (ai_backward k d w) as [[c|] w1]; cbn; rewrite ?eff_bind_run; reflexivity.
Qed.

(** ** Without effects: the functions of the models with plain closures *)
Definition quiet {W X Y} (f : X -> Y) : mor W X Y := fun x => eff_ret (f x).
Theorem C104_pure : forall W A B C D (f : A -> B) (g : B -> C) (h : A -> D) (k : C -> D) (c : A -> bool) (t u : A -> A) ts (w : W),
  (forall a, am_compose (quiet g) (quiet f) a w = (Ret (fc_compose g f a), w)) /\
  (forall x : A * D, am_first (quiet f) x w = (Ret (fc_first f x), w)) /\
  (forall x : D * A, am_second (quiet f) x w = (Ret (fc_second f x), w)) /\
  (forall a, am_split (quiet f) (quiet h) a w = (Ret (fc_split f h a), w)) /\
  (forall x, am_combine (quiet f) (quiet k) x w = (Ret (fc_combine f k x), w)) /\
  (forall x, am_both (quiet f) x w = (Ret (fc_both f x), w)) /\
  (forall a, am_when (quiet c) (quiet t) a w = (Ret (fc_when c t a), w)) /\
  (forall a, am_then_if (quiet t) (quiet u) (quiet c) a w = (Ret (fc_then_if t u c a), w)) /\
  (forall a, am_sequence (map quiet ts) a w = (Ret (fc_sequence ts a), w)) /\
  (forall a, ah_compose_all (quiet f) (map quiet ts) a w = (Ret (hu_compose_all f ts a), w)) /\
  (forall (a : A) (fs : list (A -> B)), ah_fan_out a (map quiet fs) w = (Ret (hu_fan_out a fs), w)).
Proof.
  intros. assert (S : forall a, fold_funs a (map quiet ts) w = (Ret (fold_left (fun acc f => f acc) ts a), w)).
  { induction ts as [|x ts IH]; intros a; cbn; [reflexivity|]. rewrite eff_bind_run. cbn. apply IH. }
  repeat split; intros; try destruct x; unfold quiet, am_compose, am_first, am_second, am_split, am_combine, am_both, am_when, am_then_if, am_sequence, ah_compose_all;
    repeat (rewrite ?eff_bind_run; cbn); try reflexivity.
  - unfold fc_when. now destruct (c a).
  - unfold fc_then_if. cbn. now destruct (c (t a)).
  - apply S.
  - rewrite S. reflexivity.
  - induction fs as [|x fs IH]; cbn; [reflexivity|]. rewrite eff_bind_run. cbn. rewrite eff_bind_run, IH. reflexivity.
Qed.

(** Predicates that can only panic, and isomorphisms without effects. *)
Theorem C104_pure_predicates_and_isos : forall W A B C (p q : predicate A) (i : iso A B) (j : iso B C) (w : W),
  let e (p : predicate A) : apred W A := fun a w => (p a, w) in
  let l {X Y} (i : iso X Y) : aiso W X Y := mkAiso (fun a => eff_ret (is_forward i a)) (fun b => eff_ret (is_backward i b)) in
  (forall a, ap_contains (e p) a w = (pd_contains p a, w) /\
     ap_union (e p) (e q) a w = (pd_union p q a, w) /\ ap_intersection (e p) (e q) a w = (pd_intersection p q a, w) /\
     ap_diff (e p) (e q) a w = (pd_diff p q a, w) /\ ap_negate (e p) a w = (pd_negate p a, w) /\
     ap_empty a w = (pd_empty a, w)) /\
  (forall a : A, ai_forward (ai_compose (l i) (l j)) a w = (Ret (is_forward (is_compose i j) a), w)) /\
  (forall c, ai_backward (ai_compose (l i) (l j)) c w = (Ret (is_backward (is_compose i j) c), w)) /\
  (forall b, ai_forward (ai_inverse (l i)) b w = (Ret (is_forward (is_inverse i) b), w)) /\
  (forall a f, ai_modify (l i) a (fun b => eff_ret (f b)) w = (Ret (is_modify i a f), w)) /\
  (forall eqa eqb a b, ai_verify_laws eqa eqb (l i) a b w = (Ret (is_verify_laws eqa eqb i a b), w)).
Proof.
  intros. split.
  - intros a. unfold ap_contains, ap_union, ap_intersection, ap_diff, ap_negate, ap_empty, e,
      pd_contains, pd_union, pd_intersection, pd_diff, pd_negate, pd_empty, orelse, andalso, onegb.
    repeat split; rewrite ?eff_bind_run; destruct (p a) as [[|]|]; cbn; rewrite ?eff_bind_run; try reflexivity;
      destruct (q a) as [[|]|]; reflexivity.
  - repeat split; intros; cbn; unfold ai_modify, ai_verify_laws; repeat (rewrite ?eff_bind_run; cbn); reflexivity.
Qed.

(** ** Concrete cases *)
Example C104_case_functions :
  let t := FThen (FSplit (FArrow 1 (fun n => Ret (n + 1))) (FWhen 2 (fun n => Ret (3 <? n)) 3 (fun n => Ret (2 * n))))
                 (FBoth 4 (fun n => if n =? 5 then Panic else Ret n)) in
  f_build t 2 [] = (Ret (3, 2), [1; 2; 4; 4]) /\ f_build t 4 [] = (Panic, [1; 2; 3; 4]) /\ f_build t 6 [] = (Ret (7, 12), [1; 2; 3; 4; 4]).
Proof. repeat split. Qed.
Example C104_case_then_if :
  let t := FThenIf (FArrow 1 (fun n => Ret (n + 1))) (FSequence [(2, fun n => Ret (n * 2)); (3, fun n => Ret (n - 1))]) 9 (fun n => Ret (Nat.even n)) in
  f_build t 1 [] = (Ret 3, [1; 9; 2; 3]) /\ f_build t 2 [] = (Ret 3, [1; 9]).
Proof. repeat split. Qed.
Example C104_case_labels :
  let t := FThen (FFirst (FArrow 1 (fun n => Ret (n + 1)))) (FCombine (FArrow 2 Ret) (FSequence [(3, fun b => Ret (negb b)); (4, fun _ => Panic)])) in
  f_labels t = Some [1; 2; 3; 4] /\ f_build t (0, true) [7] = (Panic, [7; 1; 2; 3; 4]).
Proof. repeat split. Qed.
Example C104_case_macros :
  let add n e := Ret (n, fun x => Ret (x + e)) in
  let '(r, w) := am_compose_macro (c_exprs (CcMore 1 (add 11 1) (CcMore 2 (add 12 2) (CcOne 3 (add 13 3))))) [] in
  let '(q, v) := am_pipe_macro (p_exprs (PcMore 1 (add 11 1) (PcMore 2 (add 12 2) (PcOne 3 (add 13 3))))) [] in
  w = [1; 2; 3] /\ v = [1; 2; 3] /\
  match r, q with Ret f, Ret g => f 0 [] = (Ret 6, [13; 12; 11]) /\ g 0 [] = (Ret 6, [11; 12; 13]) | _, _ => False end /\
  fst (am_pipe_macro (p_exprs (PcMore 1 (add 11 1) (PcMore 2 (Panic : outcome (nat * (nat -> outcome nat))) (PcOne 3 (add 13 3))))) []) = Panic.
Proof. repeat split. Qed.
Example C104_case_predicates :
  let t := PUnion (PNew 1 (fun n => Ret (n <? 3))) (PDiff (PNew 2 (fun n => Ret (Nat.even n))) (PNew 3 (fun n => if n =? 8 then Panic else Ret (5 <? n)))) in
  p_build t 2 [] = (Ret true, [1]) /\ p_build t 5 [] = (Ret false, [1; 2]) /\ p_build t 4 [] = (Ret true, [1; 2; 3]) /\
  p_build t 8 [] = (Panic, [1; 2; 3]).
Proof. repeat split. Qed.
Example C104_case_isos :
  let i := INew 1 (fun n => Ret (n + 1)) 2 (fun n => if n =? 0 then Panic else Ret (n - 1)) in
  let t := ICompose i (IInverse (IInverse i)) in
  ai_forward (i_build t) 3 [] = (Ret 5, [1; 1]) /\ ai_backward (i_build t) 1 [] = (Panic, [2; 2]) /\
  ai_verify_laws Nat.eqb Nat.eqb (i_build t) 3 2 [] = (Ret true, [1; 1; 2; 2; 2; 2; 1; 1]) /\
  ai_verify_laws (fun _ _ => false) Nat.eqb (i_build t) 3 2 [] = (Ret false, [1; 1; 2; 2; 2; 2; 1; 1]).
Proof. repeat split. Qed.

Print Assumptions C104_functions.
Print Assumptions C104_functions_once_each.
Print Assumptions C104_same_by_other_names.
Print Assumptions C104_helpers.
Print Assumptions C104_category_laws.
Print Assumptions C104_reordering_shows.
Print Assumptions C104_macros.
Print Assumptions C104_predicates.
Print Assumptions C104_predicates_at_most_once.
Print Assumptions C104_predicate_laws.
Print Assumptions C104_predicate_reordering_shows.
Print Assumptions C104_isos.
Print Assumptions C104_iso_laws.
Print Assumptions C104_pure.
Print Assumptions C104_pure_predicates_and_isos.

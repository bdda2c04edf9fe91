(** What deferred computations are expected to do when they are run, said without
    closures that wait: scripts, and interpreters that carry out a script step by
    step from a state of the world.  [fun w => (Panic, w')] is a closure that
    panics after having left the world in [w'].  Independent of [DeferModel]. *)
From Coq Require Import List.
From Verif Require Import Base Types.
Import ListNotations.

Section Spec.
Context {W : Type}.
Notation act A := (W -> outcome A * W).

(** Do [m]; if it panics, that is the end; otherwise go on with [k]. *)
Definition after {A B} (m : outcome A * W) (k : A -> act B) : outcome B * W :=
  match m with
  | (Ret a, w) => k a w
  | (Panic, w) => (Panic, w)
  end.

(** ** State *)
Inductive sscript (S : Type) : Type -> Type :=
| SNew : forall A, (S -> act (A * S)) -> sscript S A
| SPure : forall A, A -> sscript S A
| SGet : sscript S S
| SPut : S -> sscript S unit
| SModify : (S -> act S) -> sscript S unit
| SFmap : forall A B, sscript S A -> (A -> act B) -> sscript S B
| SBind : forall A B, sscript S A -> (A -> act (sscript S B)) -> sscript S B
| SApply : forall A B, sscript S (A -> act B) -> sscript S A -> sscript S B.

Fixpoint s_does {S A} (p : sscript S A) : S -> act (A * S) :=
  match p in sscript _ A return S -> act (A * S) with
  | SNew _ _ f => f
  | SPure _ _ a => fun s w => (Ret (a, s), w)
  | SGet _ => fun s w => (Ret (s, s), w)
  | SPut _ s' => fun _ w => (Ret (tt, s'), w)
  | SModify _ f => fun s w => match f s w with (Ret s', w') => (Ret (tt, s'), w') | (Panic, w') => (Panic, w') end
  | SFmap _ _ _ p f => fun s w =>
      match s_does p s w with
      | (Ret (a, s'), w1) => match f a w1 with (Ret b, w2) => (Ret (b, s'), w2) | (Panic, w2) => (Panic, w2) end
      | (Panic, w1) => (Panic, w1)
      end
  | SBind _ _ _ p f => fun s w =>
      match s_does p s w with
      | (Ret (a, s'), w1) => match f a w1 with (Ret q, w2) => s_does q s' w2 | (Panic, w2) => (Panic, w2) end
      | (Panic, w1) => (Panic, w1)
      end
  | SApply _ _ _ p q => fun s w =>
      match s_does p s w with
      | (Ret (f, s1), w1) =>
          match s_does q s1 w1 with
          | (Ret (a, s2), w2) => match f a w2 with (Ret b, w3) => (Ret (b, s2), w3) | (Panic, w3) => (Panic, w3) end
          | (Panic, w2) => (Panic, w2)
          end
      | (Panic, w1) => (Panic, w1)
      end
  end.

(** ** Reader *)
Inductive rscript (E : Type) : Type -> Type :=
| RNew : forall A, (E -> act A) -> rscript E A
| RFmap : forall A B, rscript E A -> (A -> act B) -> rscript E B
| RBind : forall A B, rscript E A -> (A -> act (rscript E B)) -> rscript E B
| RLocal : forall A, rscript E A -> (E -> act E) -> rscript E A
| RCombine : forall A B C, rscript E A -> rscript E B -> (A -> B -> act C) -> rscript E C.

Fixpoint r_does {E A} (p : rscript E A) : E -> act A :=
  match p in rscript _ A return E -> act A with
  | RNew _ _ f => f
  | RFmap _ _ _ p f => fun e w => after (r_does p e w) f
  | RBind _ _ _ p f => fun e w =>
      match r_does p e w with
      | (Ret a, w1) => match f a w1 with (Ret q, w2) => r_does q e w2 | (Panic, w2) => (Panic, w2) end
      | (Panic, w1) => (Panic, w1)
      end
  | RLocal _ _ p f => fun e w => after (f e w) (r_does p)
  | RCombine _ _ _ _ p q f => fun e w => after (r_does p e w) (fun a w1 => after (r_does q e w1) (f a))
  end.

(** ** Cont: a script either ends with a value for the rest of the program or, at
    an [KAbort], with the final answer. *)
Inductive kscript (R : Type) : Type -> Type :=
| KPure : forall A, A -> kscript R A
| KAbort : forall A, act R -> kscript R A
| KFmap : forall A B, kscript R A -> (A -> act B) -> kscript R B
| KBind : forall A B, kscript R A -> (A -> act (kscript R B)) -> kscript R B
| KApply : forall A B, kscript R A -> kscript R (A -> act B) -> kscript R B.

Definition lift_act {R A} (m : act A) : act (A + R) :=
  fun w => match m w with (Ret a, w') => (Ret (inl a), w') | (Panic, w') => (Panic, w') end.
Definition after_or_abort {R A B} (m : outcome (A + R) * W) (k : A -> act (B + R)) : outcome (B + R) * W :=
  after m (fun ar => match ar with inl a => k a | inr r => fun w => (Ret (inr r), w) end).
Fixpoint k_does {R A} (p : kscript R A) : act (A + R) :=
  match p in kscript _ A return act (A + R) with
  | KPure _ _ a => fun w => (Ret (inl a), w)
  | KAbort _ _ r => fun w => match r w with (Ret x, w') => (Ret (inr x), w') | (Panic, w') => (Panic, w') end
  | KFmap _ _ _ p f => fun w => after_or_abort (k_does p w) (fun a => lift_act (f a))
  | KBind _ _ _ p f => fun w =>
      after_or_abort (k_does p w)
        (fun a w1 => match f a w1 with (Ret q, w2) => k_does q w2 | (Panic, w2) => (Panic, w2) end)
  | KApply _ _ _ p pf => fun w =>
      after_or_abort (k_does pf w) (fun f w1 => after_or_abort (k_does p w1) (fun a => lift_act (f a)))
  end.

(** ** StateT over [Result], all of it built from [new], [pure], [get], [put], [modify], [lift] *)
Inductive tscript (S Er : Type) : Type -> Type :=
| TNew : forall A, (S -> act (result (S * A) Er)) -> tscript S Er A
| TPure : forall A, A -> tscript S Er A
| TGet : tscript S Er S
| TPut : S -> tscript S Er S
| TModify : (S -> act S) -> tscript S Er unit
| TLift : forall A, result (S * A) Er -> tscript S Er A
| TFmap : forall A B, tscript S Er A -> (A -> act B) -> tscript S Er B
| TBind : forall A B, tscript S Er A -> (A -> act (tscript S Er B)) -> tscript S Er B.

(** An error ends the script as a panic does, but as an ordinary answer. *)
Definition after_ok {Er A B} (m : outcome (result A Er) * W) (k : A -> act (result B Er)) : outcome (result B Er) * W :=
  after m (fun r => match r with Ok a => k a | Err e => fun w => (Ret (Err e), w) end).
Fixpoint t_does {S Er A} (p : tscript S Er A) : S -> act (result (S * A) Er) :=
  match p in tscript _ _ A return S -> act (result (S * A) Er) with
  | TNew _ _ _ f => f
  | TPure _ _ _ a => fun s w => (Ret (Ok (s, a)), w)
  | TGet _ _ => fun s w => (Ret (Ok (s, s)), w)
  | TPut _ _ s' => fun s w => (Ret (Ok (s', s)), w)
  | TModify _ _ f => fun s w => after (f s w) (fun s' w' => (Ret (Ok (s', tt)), w'))
  | TLift _ _ _ r => fun _ w => (Ret r, w)
  | TFmap _ _ _ _ p f => fun s w =>
      after_ok (t_does p s w) (fun sa w1 => after (f (snd sa) w1) (fun b w2 => (Ret (Ok (fst sa, b)), w2)))
  | TBind _ _ _ _ p f => fun s w =>
      after_ok (t_does p s w)
        (fun sa w1 => match f (snd sa) w1 with (Ret q, w2) => t_does q (fst sa) w2 | (Panic, w2) => (Panic, w2) end)
  end.

(** ** ReaderT over [Result] *)
Inductive escript (E Er : Type) : Type -> Type :=
| ENew : forall A, (E -> act (result A Er)) -> escript E Er A
| EPure : forall A, A -> escript E Er A
| ELift : forall A, result A Er -> escript E Er A
| EAsks : forall A, (E -> act A) -> escript E Er A
| ELocal : forall A, escript E Er A -> (E -> act E) -> escript E Er A
| EFmap : forall A B, escript E Er A -> (A -> act B) -> escript E Er B
| EBind : forall A B, escript E Er A -> (A -> act (escript E Er B)) -> escript E Er B
| ECombine : forall A B C, escript E Er A -> escript E Er B -> (A -> B -> act C) -> escript E Er C
| EApply : forall A B, escript E Er A -> escript E Er (A -> act B) -> escript E Er B.

(** [ECombine]: both sides are run, whatever the first answers; then the first
    error, else the function.  [EApply]: the value's side is run first. *)
Definition both_ok {Er A B C} (ra : result A Er) (rb : result B Er) (f : A -> B -> act C) : act (result C Er) :=
  fun w => match ra, rb with
           | Ok a, Ok b => after (f a b w) (fun c w' => (Ret (Ok c), w'))
           | Err e, _ => (Ret (Err e), w)
           | Ok _, Err e => (Ret (Err e), w)
           end.
Fixpoint e_does {E Er A} (p : escript E Er A) : E -> act (result A Er) :=
  match p in escript _ _ A return E -> act (result A Er) with
  | ENew _ _ _ f => f
  | EPure _ _ _ a => fun _ w => (Ret (Ok a), w)
  | ELift _ _ _ r => fun _ w => (Ret r, w)
  | EAsks _ _ _ f => fun e w => after (f e w) (fun a w' => (Ret (Ok a), w'))
  | ELocal _ _ _ p f => fun e w => after (f e w) (e_does p)
  | EFmap _ _ _ _ p f => fun e w => after_ok (e_does p e w) (fun a w1 => after (f a w1) (fun b w2 => (Ret (Ok b), w2)))
  | EBind _ _ _ _ p f => fun e w =>
      after_ok (e_does p e w)
        (fun a w1 => match f a w1 with (Ret q, w2) => e_does q e w2 | (Panic, w2) => (Panic, w2) end)
  | ECombine _ _ _ _ _ p q f => fun e w =>
      after (e_does p e w) (fun ra w1 => after (e_does q e w1) (fun rb => both_ok ra rb f))
  | EApply _ _ _ _ p q => fun e w =>
      after (e_does p e w) (fun ra w1 => after (e_does q e w1) (fun rf => both_ok ra rf (fun a f => f a)))
  end.
End Spec.
Arguments sscript W S _ : clear implicits.
Arguments rscript W E _ : clear implicits.
Arguments kscript W R _ : clear implicits.
Arguments tscript W S Er _ : clear implicits.
Arguments escript W E Er _ : clear implicits.
Arguments SNew {W S A} _. Arguments SPure {W S A} _. Arguments SGet {W S}. Arguments SPut {W S} _.
Arguments SModify {W S} _. Arguments SFmap {W S A B} _ _. Arguments SBind {W S A B} _ _. Arguments SApply {W S A B} _ _.
Arguments RNew {W E A} _. Arguments RFmap {W E A B} _ _. Arguments RBind {W E A B} _ _. Arguments RLocal {W E A} _ _.
Arguments RCombine {W E A B C} _ _ _.
Arguments KPure {W R A} _. Arguments KAbort {W R A} _. Arguments KFmap {W R A B} _ _. Arguments KBind {W R A B} _ _.
Arguments KApply {W R A B} _ _.
Arguments TNew {W S Er A} _. Arguments TPure {W S Er A} _. Arguments TGet {W S Er}. Arguments TPut {W S Er} _.
Arguments TModify {W S Er} _. Arguments TLift {W S Er A} _. Arguments TFmap {W S Er A B} _ _. Arguments TBind {W S Er A B} _ _.
Arguments ENew {W E Er A} _. Arguments EPure {W E Er A} _. Arguments ELift {W E Er A} _. Arguments EAsks {W E Er A} _.
Arguments ELocal {W E Er A} _ _. Arguments EFmap {W E Er A B} _ _. Arguments EBind {W E Er A B} _ _.
Arguments ECombine {W E Er A B C} _ _ _. Arguments EApply {W E Er A B} _ _.

(** ** A log of the calls: straight-line scripts whose closures carry a label *)
Section Log.
Notation log := (list nat).
Notation act A := (log -> outcome A * log).
(** the closure [f] under the label [n] writes [n] down whenever it is called *)
Definition labelled {A B} (n : nat) (f : A -> outcome B) : A -> act B := fun a w => (f a, w ++ [n]).

Inductive sline (S : Type) : Type -> Type :=
| LsNew : forall A, nat -> (S -> outcome (A * S)) -> sline S A
| LsPure : forall A, A -> sline S A
| LsGet : sline S S
| LsPut : S -> sline S unit
| LsModify : nat -> (S -> outcome S) -> sline S unit
| LsFmap : forall A B, sline S A -> nat -> (A -> outcome B) -> sline S B
| LsThen : forall A B, sline S A -> nat -> sline S B -> sline S B
| LsApply : forall A B, sline S (A -> outcome B) -> sline S A -> nat -> sline S B.
(** the closures in the order in which the script is read; the function's side
    of an [apply] comes before the value's *)
Fixpoint sline_labels {S A} (p : sline S A) : list nat :=
  match p with
  | LsNew _ _ n _ | LsModify _ n _ => [n]
  | LsPure _ _ _ | LsGet _ | LsPut _ _ => []
  | LsFmap _ _ _ p n _ => sline_labels p ++ [n]
  | LsThen _ _ _ p n q => sline_labels p ++ [n] ++ sline_labels q
  | LsApply _ _ _ p q n => sline_labels p ++ sline_labels q ++ [n]
  end.
Fixpoint sline_script {S A} (p : sline S A) : sscript log S A :=
  match p in sline _ A return sscript log S A with
  | LsNew _ _ n f => SNew (labelled n f)
  | LsPure _ _ a => SPure a
  | LsGet _ => SGet
  | LsPut _ s => SPut s
  | LsModify _ n f => SModify (labelled n f)
  | LsFmap _ _ _ p n f => SFmap (sline_script p) (labelled n f)
  | LsThen _ _ _ p n q => SBind (sline_script p) (labelled n (fun _ => Ret (sline_script q)))
  | LsApply _ _ _ p q n => SApply (SFmap (sline_script p) (fun f w => (Ret (labelled n f), w))) (sline_script q)
  end.

Inductive rline (E : Type) : Type -> Type :=
| LrNew : forall A, nat -> (E -> outcome A) -> rline E A
| LrFmap : forall A B, rline E A -> nat -> (A -> outcome B) -> rline E B
| LrThen : forall A B, rline E A -> nat -> rline E B -> rline E B
| LrLocal : forall A, nat -> (E -> outcome E) -> rline E A -> rline E A
| LrCombine : forall A B C, rline E A -> rline E B -> nat -> (A -> B -> outcome C) -> rline E C.
Fixpoint rline_labels {E A} (p : rline E A) : list nat :=
  match p with
  | LrNew _ _ n _ => [n]
  | LrFmap _ _ _ p n _ => rline_labels p ++ [n]
  | LrThen _ _ _ p n q => rline_labels p ++ [n] ++ rline_labels q
  | LrLocal _ _ n _ p => [n] ++ rline_labels p
  | LrCombine _ _ _ _ p q n _ => rline_labels p ++ rline_labels q ++ [n]
  end.
Fixpoint rline_script {E A} (p : rline E A) : rscript log E A :=
  match p in rline _ A return rscript log E A with
  | LrNew _ _ n f => RNew (labelled n f)
  | LrFmap _ _ _ p n f => RFmap (rline_script p) (labelled n f)
  | LrThen _ _ _ p n q => RBind (rline_script p) (labelled n (fun _ => Ret (rline_script q)))
  | LrLocal _ _ n f p => RLocal (rline_script p) (labelled n f)
  | LrCombine _ _ _ _ p q n f => RCombine (rline_script p) (rline_script q) (fun a => labelled n (f a))
  end.

Inductive kline : Type -> Type :=
| LkPure : forall A, A -> kline A
| LkFmap : forall A B, kline A -> nat -> (A -> outcome B) -> kline B
| LkThen : forall A B, kline A -> nat -> kline B -> kline B
| LkApply : forall A B, kline A -> kline (A -> outcome B) -> nat -> kline B.
Fixpoint kline_labels {A} (p : kline A) : list nat :=
  match p with
  | LkPure _ _ => []
  | LkFmap _ _ p n _ => kline_labels p ++ [n]
  | LkThen _ _ p n q => kline_labels p ++ [n] ++ kline_labels q
  | LkApply _ _ p pf n => kline_labels pf ++ kline_labels p ++ [n]
  end.
Fixpoint kline_script {R A} (p : kline A) : kscript log R A :=
  match p in kline A return kscript log R A with
  | LkPure _ a => KPure a
  | LkFmap _ _ p n f => KFmap (kline_script p) (labelled n f)
  | LkThen _ _ p n q => KBind (kline_script p) (labelled n (fun _ => Ret (kline_script q)))
  | LkApply _ _ p pf n => KApply (kline_script p) (KFmap (kline_script pf) (fun f w => (Ret (labelled n f), w)))
  end.
End Log.

(** a run leaves behind its labels, all of them if it ends with a value and the
    first so many if a closure panics *)
Definition logs {A} (labels : list nat) (w : list nat) (r : outcome A * list nat) : Prop :=
  match r with
  | (Ret _, w') => w' = w ++ labels
  | (Panic, w') => exists done rest, labels = done ++ rest /\ done <> [] /\ w' = w ++ done
  end.

(** [n] runs, one after the other *)
Fixpoint again {W A} (n : nat) (m : W -> outcome A * W) : W -> outcome (list A) * W :=
  match n with
  | O => fun w => (Ret [], w)
  | S n => fun w => after (m w) (fun a w1 => after (again n m w1) (fun l w2 => (Ret (a :: l), w2)))
  end.

(** Independent specification of the effect types: small languages of programs
    with direct interpreters over lists of log entries, state-passing functions
    and environments. *)
From Coq Require Import List.
From Verif Require Import Base.
Import ListNotations.
Open Scope outcome_scope.

(** Programs that write log entries; the meaning is the list of entries in the
    order they were told, and the value. *)
Inductive wprog (W : Type) : Type -> Type :=
| WRet : forall A, A -> wprog W A
| WTell : W -> wprog W unit
| WMap : forall A B, (A -> B) -> wprog W A -> wprog W B
| WBind : forall A B, wprog W A -> (A -> wprog W B) -> wprog W B
| WApply : forall A B, wprog W (A -> B) -> wprog W A -> wprog W B.
Arguments WRet {W A}.
Arguments WTell {W}.
Arguments WMap {W A B}.
Arguments WBind {W A B}.
Arguments WApply {W A B}.
Fixpoint wmeaning {W A} (p : wprog W A) : list W * A :=
  match p with
  | WRet a => ([], a)
  | WTell w => ([w], tt)
  | WMap f p => (fst (wmeaning p), f (snd (wmeaning p)))
  | WBind p k =>
      let (l1, a) := wmeaning p in
      let (l2, b) := wmeaning (k a) in (l1 ++ l2, b)
  | WApply pf pa =>
      let (l1, f) := wmeaning pf in
      let (l2, a) := wmeaning pa in (l1 ++ l2, f a)
  end.

(** Programs that read and write one cell. *)
Inductive sprog (S : Type) : Type -> Type :=
| SRet : forall A, A -> sprog S A
| SGet : sprog S S
| SPut : S -> sprog S unit
| SModify : (S -> S) -> sprog S unit
| SMap : forall A B, (A -> B) -> sprog S A -> sprog S B
| SBind : forall A B, sprog S A -> (A -> sprog S B) -> sprog S B
| SApply : forall A B, sprog S (A -> B) -> sprog S A -> sprog S B.
Arguments SRet {S A}.
Arguments SGet {S}.
Arguments SPut {S}.
Arguments SModify {S}.
Arguments SMap {S A B}.
Arguments SBind {S A B}.
Arguments SApply {S A B}.
Fixpoint smeaning {S A} (p : sprog S A) : S -> A * S :=
  match p with
  | SRet a => fun s => (a, s)
  | SGet => fun s => (s, s)
  | SPut s => fun _ => (tt, s)
  | SModify f => fun s => (tt, f s)
  | SMap f p => fun s => let (a, s1) := smeaning p s in (f a, s1)
  | SBind p k => fun s => let (a, s1) := smeaning p s in smeaning (k a) s1
  | SApply pf pa => fun s => let (f, s1) := smeaning pf s in
                             let (a, s2) := smeaning pa s1 in (f a, s2)
  end.

(** Programs that read an environment. *)
Inductive rprog (E : Type) : Type -> Type :=
| RRet : forall A, A -> rprog E A
| RAsk : rprog E E
| RAsks : forall A, (E -> A) -> rprog E A
| RLocal : forall A, (E -> E) -> rprog E A -> rprog E A
| RMap : forall A B, (A -> B) -> rprog E A -> rprog E B
| RBind : forall A B, rprog E A -> (A -> rprog E B) -> rprog E B
| RCombine : forall A B C, (A -> B -> C) -> rprog E A -> rprog E B -> rprog E C.
Arguments RRet {E A}.
Arguments RAsk {E}.
Arguments RAsks {E A}.
Arguments RLocal {E A}.
Arguments RMap {E A B}.
Arguments RBind {E A B}.
Arguments RCombine {E A B C}.
Fixpoint rmeaning {E A} (p : rprog E A) : E -> A :=
  match p with
  | RRet a => fun _ => a
  | RAsk => fun e => e
  | RAsks f => f
  | RLocal f p => fun e => rmeaning p (f e)
  | RMap f p => fun e => f (rmeaning p e)
  | RBind p k => fun e => rmeaning (k (rmeaning p e)) e
  | RCombine f p q => fun e => f (rmeaning p e) (rmeaning q e)
  end.

(** A base monad whose continuations may panic: [bindo m k] is the Rust
    [m.bind(k)] where running [k] may unwind.  The laws are the usual three,
    plus dependence of [bindo] on the values of [k] only. *)
Section PartialBase.
Variable F : Type -> Type.
Variable pure : forall X, X -> F X.
Variable bindo : forall X Y, F X -> (X -> outcome (F Y)) -> outcome (F Y).
Definition partial_monad_laws : Prop :=
  (forall X Y (x : X) (k : X -> outcome (F Y)), bindo X Y (pure X x) k = k x) /\
  (forall X (m : F X), bindo X X m (fun x => Ret (pure X x)) = Ret m) /\
  (forall X Y Z (m : F X) (k : X -> outcome (F Y)) (h : Y -> outcome (F Z)),
     (do n <- bindo X Y m k; bindo Y Z n h) = bindo X Z m (fun x => do n <- k x; bindo Y Z n h)) /\
  (forall X Y (m : F X) (k k' : X -> outcome (F Y)),
     (forall x, k x = k' x) -> bindo X Y m k = bindo X Y m k').
End PartialBase.

(** Programs with a cell over a base monad [F]; [TPut] returns the old state. *)
Inductive tprog (S : Type) (F : Type -> Type) : Type -> Type :=
| TRet : forall A, A -> tprog S F A
| TGet : tprog S F S
| TPut : S -> tprog S F S
| TModify : (S -> S) -> tprog S F unit
| TEffect : forall A, (S -> F (S * A)%type) -> tprog S F A
| TBind : forall A B, tprog S F A -> (A -> tprog S F B) -> tprog S F B.
Arguments TRet {S F A}.
Arguments TGet {S F}.
Arguments TPut {S F}.
Arguments TModify {S F}.
Arguments TEffect {S F A}.
Arguments TBind {S F A B}.
Section TMeaning.
Variables (S : Type) (F : Type -> Type).
Variable pure : forall X, X -> F X.
Variable bind : forall X Y, F X -> (X -> F Y) -> F Y.
Fixpoint tmeaning {A} (p : tprog S F A) : S -> F (S * A)%type :=
  match p with
  | TRet a => fun s => pure _ (s, a)
  | TGet => fun s => pure _ (s, s)
  | TPut s' => fun s => pure _ (s', s)
  | TModify f => fun s => pure _ (f s, tt)
  | TEffect f => f
  | TBind p k => fun s => bind _ _ (tmeaning p s) (fun q => tmeaning (k (snd q)) (fst q))
  end.
End TMeaning.

(** How many calls are active at once, told without the model's operations: a forest of calls has [n] nested ones when
    [n] calls can be picked, the first from the forest and each next one from those made before the previous one
    returned. *)
From Coq Require Import List.
From Verif Require Import DepthModel.
Import ListNotations.

Inductive nested : nat -> list call -> Prop :=
| nested_none cs : nested 0 cs
| nested_in n inside cs : In (Call inside) cs -> nested n inside -> nested (S n) cs.

(** The calls of a run *)
Definition calls_of {A} (m : tr A) : list call := fst m.
Definition value_of {A} (m : tr A) : A := snd m.

(** Never more than [d] calls at once *)
Definition within {A} (d : nat) (m : tr A) : Prop := forall n, nested n (calls_of m) -> n <= d.

(** ** Chains of operations, each applied to the result of the one before *)
Inductive sstep (S A : Type) :=
| SMap (f : A -> tr A)
| SBind (f : A -> tr (hstate S A))
| SApply (fs : hstate S (A -> tr A)).
Arguments SMap {S A} _. Arguments SBind {S A} _. Arguments SApply {S A} _.
Definition sdo {S A} (x : hstate S A) (op : sstep S A) : hstate S A :=
  match op with SMap f => hs_fmap x f | SBind f => hs_bind x f | SApply fs => hs_apply fs x end.
Definition sstep_within {S A} (d : nat) (op : sstep S A) : Prop :=
  match op with
  | SMap f => forall a, within d (f a)
  | SBind f => forall a, within d (f a) /\ forall s, within d (hs_run (value_of (f a)) s)
  | SApply fs => forall s, within d (hs_run fs s) /\ forall a, within d (fst (value_of (hs_run fs s)) a)
  end.

Inductive rstep (E A : Type) :=
| RMap (f : A -> tr A)
| RBind (f : A -> tr (hreader E A))
| RLocal (f : E -> tr E)
| RCombine (y : hreader E A) (f : A -> A -> tr A).
Arguments RMap {E A} _. Arguments RBind {E A} _. Arguments RLocal {E A} _. Arguments RCombine {E A} _ _.
Definition rdo {E A} (x : hreader E A) (op : rstep E A) : hreader E A :=
  match op with
  | RMap f => hr_fmap x f | RBind f => hr_bind x f | RLocal f => hr_local x f | RCombine y f => hr_combine x y f
  end.
Definition rstep_within {E A} (d : nat) (op : rstep E A) : Prop :=
  match op with
  | RMap f => forall a, within d (f a)
  | RBind f => forall a, within d (f a) /\ forall e, within d (hr_run (value_of (f a)) e)
  | RLocal f => forall e, within d (f e)
  | RCombine y f => (forall e, within d (hr_run y e)) /\ forall a b, within d (f a b)
  end.

Inductive istep (A : Type) := IMap (f : A -> tr A) | IBind (f : A -> tr (hio A)).
Arguments IMap {A} _. Arguments IBind {A} _.
Definition ido {A} (x : hio A) (op : istep A) : tr (hio A) :=
  match op with IMap f => hi_fmap x f | IBind f => hi_bind x f end.
(** Building the chain may itself make calls *)
Fixpoint ichain {A} (x : hio A) (ops : list (istep A)) : tr (hio A) :=
  match ops with
  | [] => tret x
  | op :: ops' => tbind (ido x op) (fun y => ichain y ops')
  end.
Definition istep_within {A} (d : nat) (op : istep A) : Prop :=
  match op with
  | IMap f => forall a, within d (f a)
  | IBind f => forall a, within d (f a) /\ within d (hi_run (value_of (f a)))
  end.

(** Functions that make no calls *)
Inductive kstep (A : Type) := KMap (f : A -> A) | KBind (f : A -> A).
Arguments KMap {A} _. Arguments KBind {A} _.
Definition kdo {R A} (x : hcont R A) (op : kstep A) : hcont R A :=
  match op with
  | KMap f => hc_fmap x (fun a => tret (f a))
  | KBind f => hc_bind x (fun a => tret (hc_pure (f a)))
  end.
Definition kfun {A} (op : kstep A) : A -> A := match op with KMap f => f | KBind f => f end.
Definition kcost {A} (op : kstep A) : nat := match op with KMap _ => 2 | KBind _ => 3 end.

(** ** Composition trees *)
Inductive mtree (A : Type) := MLeaf (f : hmor A A) | MComp (g f : mtree A).
Arguments MLeaf {A} _. Arguments MComp {A} _ _.
Fixpoint mbuild {A} (t : mtree A) : hmor A A :=
  match t with MLeaf f => f | MComp g f => hm_compose (mbuild g) (mbuild f) end.
Fixpoint mheight {A} (t : mtree A) : nat :=
  match t with MLeaf _ => 0 | MComp g f => S (Nat.max (mheight g) (mheight f)) end.
Fixpoint mleaves {A} (t : mtree A) : list (hmor A A) :=
  match t with MLeaf f => [f] | MComp g f => mleaves g ++ mleaves f end.

Inductive ptree (A : Type) :=
| PLeaf (p : hpred A) | PUnion (p q : ptree A) | PInter (p q : ptree A) | PDiff (p q : ptree A) | PNot (p : ptree A).
Arguments PLeaf {A} _. Arguments PUnion {A} _ _. Arguments PInter {A} _ _. Arguments PDiff {A} _ _. Arguments PNot {A} _.
Fixpoint pbuild {A} (t : ptree A) : hpred A :=
  match t with
  | PLeaf p => p
  | PUnion p q => hp_union (pbuild p) (pbuild q)
  | PInter p q => hp_intersection (pbuild p) (pbuild q)
  | PDiff p q => hp_diff (pbuild p) (pbuild q)
  | PNot p => hp_negate (pbuild p)
  end.
Fixpoint pheight {A} (t : ptree A) : nat :=
  match t with
  | PLeaf _ => 0
  | PUnion p q | PInter p q | PDiff p q => S (Nat.max (pheight p) (pheight q))
  | PNot p => S (pheight p)
  end.
(** How many operators are above the leftmost leaf *)
Fixpoint pspine {A} (t : ptree A) : nat :=
  match t with PLeaf _ => 0 | PUnion p _ | PInter p _ | PDiff p _ | PNot p => S (pspine p) end.
Fixpoint pleaves {A} (t : ptree A) : list (hpred A) :=
  match t with
  | PLeaf p => [p]
  | PUnion p q | PInter p q | PDiff p q => pleaves p ++ pleaves q
  | PNot p => pleaves p
  end.

(** ** Chains of the types that hold a value *)
Inductive wstep (W A : Type) := WMap (f : A -> tr A) | WBind (f : A -> tr (W * A)).
Arguments WMap {W A} _. Arguments WBind {W A} _.
Fixpoint wchain {W A} (combine : W -> W -> tr W) (w : W * A) (ops : list (wstep W A)) : tr (W * A) :=
  match ops with
  | [] => tret w
  | WMap f :: ops' => tbind (hw_fmap w f) (fun w' => wchain combine w' ops')
  | WBind f :: ops' => tbind (hw_bind combine w f) (fun w' => wchain combine w' ops')
  end.
Definition wstep_within {W A} (d : nat) (op : wstep W A) : Prop :=
  match op with WMap f => forall a, within d (f a) | WBind f => forall a, within d (f a) end.

Inductive estep (T E : Type) :=
| EMapError (f : E -> tr E) | ERecover (f : E -> tr (Types.result T E)) | EAndThen (f : T -> tr (Types.result T E))
| EMap (f : T -> tr T) | EContext (c : tr String.string).
Arguments EMapError {T E} _. Arguments ERecover {T E} _. Arguments EAndThen {T E} _. Arguments EMap {T E} _.
Arguments EContext {T E} _.
Definition edo {T E} (p : ErrModel.epipe T E) (op : estep T E) : tr (ErrModel.epipe T E) :=
  match op with
  | EMapError f => he_map_error p f | ERecover f => he_recover p f | EAndThen f => he_and_then p f
  | EMap f => he_map p f | EContext c => he_with_context p c
  end.
Fixpoint echain {T E} (p : ErrModel.epipe T E) (ops : list (estep T E)) : tr (ErrModel.epipe T E) :=
  match ops with [] => tret p | op :: ops' => tbind (edo p op) (fun q => echain q ops') end.
Definition estep_within {T E} (d : nat) (op : estep T E) : Prop :=
  match op with
  | EMapError f => forall e, within d (f e) | ERecover f => forall e, within d (f e)
  | EAndThen f => forall t, within d (f t) | EMap f => forall t, within d (f t) | EContext c => within d c
  end.

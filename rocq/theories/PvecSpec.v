(** Specification vocabulary for the persistent vector: what a user observes,
    and what the operations mean on plain lists.  The list side mentions
    nothing of the model. *)
From Coq Require Import List Arith Bool.
From Verif Require Import Base PvecModel.
Import ListNotations.
Open Scope outcome_scope.
Set Implicit Arguments.

(** [v] is observed as the list [l] by every reading interface: [len], [get]
    at every index (also out of range) and [to_vec]; none of them panics. *)
Definition represents {T} (v : pvec T) (l : list T) : Prop :=
  pv_len v = length l /\
  (forall i, pv_get v i = Ret (nth_error l i)) /\
  pv_to_vec v = Ret l.

(** The calls that can make up a history. *)
Inductive op (T : Type) : Type :=
| PushBack (x : T) | PushFront (x : T)
| PopBack | PopFront
| Update (i : nat) (x : T)
| Extend (xs : list T)
| Map (f : T -> T) | Filter (p : T -> bool)
| Take (n : nat) | Skip (n : nat)
| SplitLeft (i : nat) | SplitRight (i : nat)
| Insert (i : nat) (x : T) | Remove (i : nat)
| ConcatSlice (xs : list T) | SliceConcat (xs : list T).
Arguments PopBack {T}.
Arguments PopFront {T}.
Arguments Take {T} n.
Arguments Skip {T} n.
Arguments SplitLeft {T} i.
Arguments SplitRight {T} i.
Arguments Remove {T} i.

(** What each call should do to a list; the second component is the element
    handed back by the pops. *)
Definition list_step {T} (o : op T) (l : list T) : list T * option T :=
  match o with
  | PushBack x => (l ++ [x], None)
  | PushFront x => (x :: l, None)
  | PopBack =>
      match rev l with [] => (l, None) | x :: r => (rev r, Some x) end
  | PopFront =>
      match l with [] => ([], None) | x :: r => (r, Some x) end
  | Update i x =>
      (if i <? length l then firstn i l ++ x :: skipn (S i) l else l, None)
  | Extend xs => (l ++ xs, None)
  | Map f => (map f l, None)
  | Filter p => (filter p l, None)
  | Take n | SplitLeft n => (firstn n l, None)
  | Skip n | SplitRight n => (skipn n l, None)
  | Insert i x => (firstn i l ++ x :: skipn i l, None)
  | Remove i => (firstn i l ++ skipn (S i) l, None)
  | ConcatSlice xs => (l ++ xs, None)
  | SliceConcat xs => (xs ++ l, None)
  end.

(** The same call on the model. *)
Definition vec_step {T} (o : op T) (v : pvec T) : outcome (pvec T * option T) :=
  match o with
  | PushBack x => Ret (pv_push_back v x, None)
  | PushFront x => Ret (pv_push_front v x, None)
  | PopBack =>
      do r <- pv_pop_back v;
      Ret (match r with Some (v', x) => (v', Some x) | None => (v, None) end)
  | PopFront =>
      do r <- pv_pop_front v;
      Ret (match r with Some (v', x) => (v', Some x) | None => (v, None) end)
  | Update i x => do v' <- pv_update v i x; Ret (v', None)
  | Extend xs => Ret (pv_extend v xs, None)
  | Map f => do v' <- pv_map f v; Ret (v', None)
  | Filter p => do v' <- pv_filter p v; Ret (v', None)
  | Take n => do v' <- pv_take v n; Ret (v', None)
  | Skip n => do v' <- pv_skip v n; Ret (v', None)
  | SplitLeft i => do lr <- pv_split_at v i; Ret (fst lr, None)
  | SplitRight i => do lr <- pv_split_at v i; Ret (snd lr, None)
  | Insert i x => do v' <- pv_insert v i x; Ret (v', None)
  | Remove i =>
      do r <- pv_remove v i;
      Ret (match r with Some v' => (v', None) | None => (v, None) end)
  | ConcatSlice xs => Ret (pv_concat v (pv_from_iter xs), None)
  | SliceConcat xs => Ret (pv_concat (pv_from_iter xs) v, None)
  end.

Fixpoint list_run {T} (ops : list (op T)) (l : list T) : list T * list (option T) :=
  match ops with
  | [] => (l, [])
  | o :: ops' =>
      let '(l', r) := list_step o l in
      let '(l'', rs) := list_run ops' l' in (l'', r :: rs)
  end.

Fixpoint vec_run {T} (ops : list (op T)) (v : pvec T) : outcome (pvec T * list (option T)) :=
  match ops with
  | [] => Ret (v, [])
  | o :: ops' =>
      do vr <- vec_step o v;
      do vs <- vec_run ops' (fst vr);
      Ret (fst vs, snd vr :: snd vs)
  end.

(** The history [ops] started on [v0] is indistinguishable from the same
    history on the list [l0]: no panic, the same popped elements, and the
    final vector is observed as the final list. *)
Definition faithful {T} (v0 : pvec T) (l0 : list T) (ops : list (op T)) : Prop :=
  exists v, vec_run ops v0 = Ret (v, snd (list_run ops l0)) /\
            represents v (fst (list_run ops l0)).

(** Public ways to start a history. *)
Inductive starts {T} : pvec T -> list T -> Prop :=
| starts_new : starts pv_new []
| starts_unit x : starts (pv_unit x) [x]
| starts_slice l : starts (pv_from_iter l) l.

Definition is_grow {T} (o : op T) : bool :=
  match o with
  | PushBack _ | PushFront _ | Update _ _ | Extend _ | Map _ => true
  | _ => false
  end.

Definition is_stack {T} (o : op T) : bool :=
  match o with PushBack _ | PopBack | Update _ _ => true | _ => false end.

Definition is_deque {T} (o : op T) : bool :=
  match o with
  | PushBack _ | PushFront _ | PopBack | PopFront => true
  | _ => false
  end.

Definition is_front_stack {T} (o : op T) : bool :=
  match o with PushFront _ | PopFront | Update _ _ => true | _ => false end.

Definition is_split_view {T} (o : op T) : bool :=
  match o with
  | Take _ | Skip _ | SplitLeft _ | SplitRight _ => true
  | _ => false
  end.

(** Everything that works at the back end plus every operation that shortens
    from either side by splitting. *)
Definition is_back {T} (o : op T) : bool :=
  match o with
  | PushBack _ | PopBack | Update _ _ | Extend _ | Map _ | Filter _
  | Take _ | Skip _ | SplitLeft _ | SplitRight _ => true
  | _ => false
  end.

Definition is_edit {T} (o : op T) : bool :=
  match o with Insert _ _ | Remove _ => true | _ => false end.

Definition is_pop_back {T} (o : op T) : bool :=
  match o with PopBack => true | _ => false end.

(** The list never grows beyond [n] during the history. *)
Fixpoint stays_within {T} (n : nat) (ops : list (op T)) (l : list T) : Prop :=
  length l <= n /\
  match ops with
  | [] => True
  | o :: ops' => stays_within n ops' (fst (list_step o l))
  end.

(** Growth at both ends and removal at the front. *)
Definition is_feed {T} (o : op T) : bool := match o with PopFront => true | _ => is_grow o end.
(** Every [pop_front] of the history finds at least [n] elements. *)
Fixpoint fed {T} (n : nat) (ops : list (op T)) (l : list T) : Prop :=
  match ops with
  | [] => True
  | o :: ops' => (o = PopFront -> n <= length l) /\ fed n ops' (fst (list_step o l))
  end.

(** ** Vectors a program can assemble

    Every public construction whose result is proved to be consistent: start
    values, any history working at the back end, then any mixture of growing
    calls, [filter], and [concat] of two such vectors, and one [insert] or
    [remove] applied to a back-end vector. *)
Inductive assembled {T} : pvec T -> Prop :=
| asm_back v0 l0 ops v rs :
    starts v0 l0 -> Forall (fun o => is_back o = true) ops ->
    vec_run ops v0 = Ret (v, rs) -> assembled v
| asm_edit v0 l0 ops v rs e v' r :
    starts v0 l0 -> Forall (fun o => is_back o = true) ops ->
    vec_run ops v0 = Ret (v, rs) ->
    is_edit e = true -> vec_step e v = Ret (v', r) -> assembled v'
| asm_grow o v v' r :
    is_grow o = true -> assembled v -> vec_step o v = Ret (v', r) -> assembled v'
| asm_filter p v v' :
    assembled v -> pv_filter p v = Ret v' -> assembled v'
| asm_concat a b : assembled a -> assembled b -> assembled (pv_concat a b).

(** Vectors reachable without [pop_back] (including wrong ones). *)
Inductive reached {T} : pvec T -> Prop :=
| rch_asm v : assembled v -> reached v
| rch_step o v v' r :
    is_pop_back o = false -> reached v -> vec_step o v = Ret (v', r) -> reached v'
| rch_concat a b : reached a -> reached b -> reached (pv_concat a b)
| rch_split v i l r : reached v -> pv_split_at v i = Ret (l, r) -> reached l
| rch_split_r v i l r : reached v -> pv_split_at v i = Ret (l, r) -> reached r
| rch_sorted leb v v' : reached v -> pv_sorted leb v = Ret v' -> reached v'
| rch_dedup eqb v v' : reached v -> pv_dedup eqb v = Ret v' -> reached v'.

(** ** List-side specifications of the combinators *)

(** [r] is [l] with every run of equal neighbours replaced by its first
    element. *)
Inductive runs_collapsed {T} (eqb : T -> T -> bool) : list T -> list T -> Prop :=
| rc_nil : runs_collapsed eqb [] []
| rc_run x ys rest r :
    Forall (fun y => eqb x y = true) ys ->
    match rest with [] => True | z :: _ => eqb x z = false end ->
    runs_collapsed eqb rest r ->
    runs_collapsed eqb (x :: ys ++ rest) (x :: r).

(** [leb] is a total preorder, as [Ord] demands. *)
Definition total_preorder {T} (leb : T -> T -> bool) : Prop :=
  (forall x y, leb x y = true \/ leb y x = true) /\
  (forall x y z, leb x y = true -> leb y z = true -> leb x z = true).

(** Elements that compare equal keep their order. *)
Definition same_class {T} (leb : T -> T -> bool) (x y : T) : bool := leb x y && leb y x.

(** [pieces] cuts [l] into blocks of exactly [size] elements, the last one
    possibly shorter but not empty. *)
Definition cut_into {T} (size : nat) (l : list T) (pieces : list (list T)) : Prop :=
  concat pieces = l /\
  (forall j p, nth_error pieces j = Some p ->
     1 <= length p <= size /\ (S j < length pieces -> length p = size)).

(** [k] successive [next] calls on a fresh iterator: yielded items and the
    final position. *)
Fixpoint next_times {T} (k : nat) (v : pvec T) (pos : nat) : outcome (list (option T) * nat) :=
  match k with
  | 0 => Ret ([], pos)
  | S k' =>
      do np <- iter_next v pos;
      do r <- next_times k' v (snd np);
      Ret (fst np :: fst r, snd r)
  end.

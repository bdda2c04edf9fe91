(** Building values from an iterator whose length is only estimated
    ([Iterator::size_hint]), with the memory each function asks for in advance:
    [/repo/src/datatypes/validated/core.rs] ("core"), [datatypes/choice.rs],
    [utils/categorical_utils.rs], [utils/hkt_utils.rs], [traits/applicative.rs].
    Definitions only.  The other models take the items as a plain list; here
    the estimates and the reservations are kept.

    [limit] is the largest number of items a buffer may be asked to hold
    ([isize::MAX] bytes divided by the item's size); asking for more panics
    ("capacity overflow").  Simplified: rounding a growing buffer up to a power
    of two is not modelled, and a request within [limit] that the allocator
    cannot serve (which aborts the program) is taken to succeed. *)
From Coq Require Import List Arith Bool.
From Verif Require Import Base Types ChoiceModel.
Import ListNotations.
Open Scope outcome_scope.

(** An iterator: at every point a lower and an optional upper estimate of the
    items left, then the answer of [next]. *)
Inductive source (A : Type) : Type :=
| Stop (lower : nat) (upper : option nat)
| More (lower : nat) (upper : option nat) (item : A) (rest : source A).
Arguments Stop {A} lower upper.
Arguments More {A} lower upper item rest.

(** [Iterator::size_hint] *)
Definition size_hint {A} (s : source A) : nat * option nat :=
  match s with Stop l u => (l, u) | More l u _ _ => (l, u) end.
(** [Iterator::next] *)
Definition src_next {A} (s : source A) : option (A * source A) :=
  match s with Stop _ _ => None | More _ _ x r => Some (x, r) end.

Section Limit.
Variable limit : nat.

(** [Vec::with_capacity]: only the request matters *)
Definition vec_with_capacity {A} (capacity : nat) : outcome (list A) :=
  if capacity <=? limit then Ret [] else Panic.
(** [SmallVec::<[_; 8]>::with_capacity]: up to eight items need no request *)
Definition sv_with_capacity {A} (capacity : nat) : outcome (list A) :=
  if capacity <=? 8 then Ret [] else if capacity <=? limit then Ret [] else Panic.
(** room for [n] items in a [SmallVec::<[_; 8]>] *)
Definition sv_fits (n : nat) : bool := (n <=? 8) || (n <=? limit).
(** one [push] *)
Definition sv_push {A} (v : list A) (x : A) : outcome (list A) :=
  if sv_fits (S (length v)) then Ret (v ++ [x]) else Panic.
Definition vec_push {A} (v : list A) (x : A) : outcome (list A) :=
  if S (length v) <=? limit then Ret (v ++ [x]) else Panic.
(** [SmallVec::extend]: room for the lower estimate, then item by item *)
Fixpoint sv_extend_items {A} (v : list A) (s : source A) : outcome (list A) :=
  match s with
  | Stop _ _ => Ret v
  | More _ _ x r => do v' <- sv_push v x; sv_extend_items v' r
  end.
Definition sv_extend {A} (v : list A) (s : source A) : outcome (list A) :=
  if sv_fits (length v + fst (size_hint s)) then sv_extend_items v s else Panic.
(** [SmallVec::from_iter] *)
Definition sv_collect {A} (s : source A) : outcome (list A) := sv_extend [] s.

(** validated/core.rs 697-738 [invalid_many]: three cases on the upper estimate *)
Definition invalid_many_from {E A} (s : source E) : outcome (validated E A) :=
  let '(lower, upper) := size_hint s in
  match upper with
  | Some exact =>
      if exact =? lower then
        if exact <=? 4 then omap Invalid (sv_collect s)
        else do vec <- sv_with_capacity exact; omap Invalid (sv_extend vec s)
      else
        if exact <=? 4 then omap Invalid (sv_collect s)
        else do vec <- sv_with_capacity exact; omap Invalid (sv_extend vec s)
  | None =>
      if lower <=? 4 then omap Invalid (sv_collect s)
      else do vec <- sv_with_capacity lower; omap Invalid (sv_extend vec s)
  end.

(** validated/core.rs 774-789 [invalid_vec] ([saturating_add] by one cannot
    saturate below [limit]) *)
Definition invalid_vec_from {E A} (s : source E) : outcome (validated E A) :=
  match src_next s with
  | Some (first, rest) =>
      let lower := fst (size_hint rest) in
      do vec <- sv_with_capacity (lower + 1);
      do vec1 <- sv_push vec first;
      omap Invalid (sv_extend vec1 rest)
  | None => Panic
  end.

(** choice.rs 251-255: the capacity asked for by [new] *)
Definition new_capacity (lower : nat) (upper : option nat) : nat :=
  match upper with
  | Some exact =>
      if exact =? lower then exact + 1
      else if exact <=? 8 then exact + 1
      else Nat.max (lower + 1) 8
  | None => Nat.max (lower + 1) 8
  end.
(** choice.rs 242-262 [new] *)
Definition choice_new_from {A} (item : A) (s : source A) : outcome (choice A) :=
  let '(lower, upper) := size_hint s in
  do values <- sv_with_capacity (new_capacity lower upper);
  do values1 <- sv_push values item;
  omap mkChoice (sv_extend values1 s).

(** categorical_utils.rs 473-477: the loop of [filter_map_collect] *)
Fixpoint fmc_from_loop {T U} (f : T -> option U) (result : list U) (s : source T)
  : outcome (list U) :=
  match s with
  | Stop _ _ => Ret result
  | More _ _ item r =>
      match f item with
      | Some value => do result' <- vec_push result value; fmc_from_loop f result' r
      | None => fmc_from_loop f result r
      end
  end.
(** categorical_utils.rs 461-480 [filter_map_collect] *)
Definition filter_map_collect_from {T U} (s : source T) (f : T -> option U) : outcome (list U) :=
  let lower := fst (size_hint s) in
  do result <- vec_with_capacity (Nat.max (lower / 2) 8);
  fmc_from_loop f result s.

(** hkt_utils.rs 72-76: the loop of [filter_map] *)
Fixpoint fm_from_loop {A B} (p : A -> bool) (f : A -> B) (result : list B) (s : source A)
  : outcome (list B) :=
  match s with
  | Stop _ _ => Ret result
  | More _ _ item r =>
      if p item then do result' <- vec_push result (f item); fm_from_loop p f result' r
      else fm_from_loop p f result r
  end.
(** hkt_utils.rs 59-79 [filter_map] *)
Definition filter_map_from {A B} (s : source A) (p : A -> bool) (f : A -> B) : outcome (list B) :=
  let lower := fst (size_hint s) in
  do result <- vec_with_capacity (Nat.max (lower / 2) 8);
  fm_from_loop p f result s.

(** [usize] multiplication with overflow checks; [umax] is [usize::MAX] *)
Variable umax : nat.
Definition umul (a b : nat) : outcome nat := if a * b <=? umax then Ret (a * b) else Panic.

(** applicative.rs 903-918 [lift2], 961-976 [lift2_owned] on [Vec]: the inner
    loop, then the outer one *)
Fixpoint push_all {A} (v xs : list A) : outcome (list A) :=
  match xs with
  | [] => Ret v
  | x :: xs' => do v' <- vec_push v x; push_all v' xs'
  end.
Fixpoint lift2_loop {T U V} (f : T -> U -> V) (fb : list U) (result : list V) (fa : list T)
  : outcome (list V) :=
  match fa with
  | [] => Ret result
  | a :: fa' => do result' <- push_all result (map (f a) fb); lift2_loop f fb result' fa'
  end.
Definition vec_lift2_sized {T U V} (f : T -> U -> V) (fa : list T) (fb : list U)
  : outcome (list V) :=
  do n <- umul (length fa) (length fb);
  do result <- vec_with_capacity n;
  lift2_loop f fb result fa.

(** applicative.rs 921-941 [lift3], 979-999 [lift3_owned] on [Vec]: the two
    inner loops run over all pairs in order *)
Fixpoint lift3_loop {T U V Q} (f : T -> U -> V -> Q) (fb : list U) (fc : list V)
  (result : list Q) (fa : list T) : outcome (list Q) :=
  match fa with
  | [] => Ret result
  | a :: fa' => do result' <- lift2_loop (f a) fc result fb; lift3_loop f fb fc result' fa'
  end.
Definition vec_lift3_sized {T U V Q} (f : T -> U -> V -> Q)
  (fa : list T) (fb : list U) (fc : list V) : outcome (list Q) :=
  do n1 <- umul (length fa) (length fb);
  do n <- umul n1 (length fc);
  do result <- vec_with_capacity n;
  lift3_loop f fb fc result fa.

End Limit.

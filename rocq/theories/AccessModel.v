(** Model of the iterators and of the exclusive ([&mut]) access methods of
    [Maybe], [Either], [Id] and [Validated].

    A [&mut] reference is a slot of the container.  An iterator is its state
    together with a [next] function; the state of an exclusive iterator holds
    the slots not handed out yet.  The caller is the loop [walk]: it calls
    [next] [n] times and overwrites each slot it is given with [f] of its
    contents.  When the borrow ends the container holds the overwritten slots
    followed by those never handed out ([..._store]).  Lifetimes and aliasing,
    which the borrow checker rules out, are not modelled.  Definitions only. *)
From Coq Require Import List.
From Verif Require Import Base Types SumModel ValidatedModel.
Import ListNotations.
Open Scope outcome_scope.

(** ** The iterators *)
(** [Option::take]: either.rs 772-801 (left iterators), 1274-1279, 1310-1315,
    1345-1350 (right iterators); validated/iter.rs 8-14, 21-27, 79-85; also
    [std::option::IntoIter], used by maybe.rs 703-728, 1451-1461 and
    id.rs 803-810 *)
Definition take_next {A} (it : option A) : option A * option A := (it, None).
(** [std::slice::Iter], [std::slice::IterMut]: maybe.rs 1463-1485, id.rs 812-828 *)
Definition slice_next {A} (it : list A) : option A * list A :=
  match it with [] => (None, []) | x :: rest => (Some x, rest) end.
(** validated/iter.rs 30-33, 47-50 *)
Inductive errors_iter (E : Type) : Type := EmptyErrors | MultiErrors (it : list E).
Arguments EmptyErrors {E}.
Arguments MultiErrors {E} it.
(** validated/iter.rs 35-44, 52-61 *)
Definition errors_next {E} (it : errors_iter E) : option E * errors_iter E :=
  match it with
  | EmptyErrors => (None, EmptyErrors)
  | MultiErrors s => let '(r, s') := slice_next s in (r, MultiErrors s')
  end.

(** The slots an iterator has not handed out. *)
Definition take_left {A} (it : option A) : list A := match it with Some a => [a] | None => [] end.
Definition slice_left {A} (it : list A) : list A := it.
Definition errors_left {E} (it : errors_iter E) : list E :=
  match it with EmptyErrors => [] | MultiErrors s => s end.

(** The caller: [n] calls of [next]; what they returned, and the slots when
    the borrow ends. *)
Fixpoint walk {I A} (next : I -> option A * I) (left : I -> list A) (f : A -> A) (n : nat) (it : I)
  : list (option A) * list A :=
  match n with
  | 0 => ([], left it)
  | S n' =>
      match next it with
      | (None, it') => let '(ys, ws) := walk next left f n' it' in (None :: ys, ws)
      | (Some a, it') => let '(ys, ws) := walk next left f n' it' in (Some a :: ys, f a :: ws)
      end
  end.

(** ** Maybe *)
(** maybe.rs 723-728 [iter_mut]; 703-705 [iter] and 1451-1461 [into_iter] hand
    out the same contents without writing *)
Definition mb_iter_mut {A} (m : maybe A) : option A :=
  match m with Just x => Some x | Nothing => None end.
(** maybe.rs 1475-1485 [into_iter] on [&mut]; 1463-1473 on [&] *)
Definition mb_into_iter_mut {A} (m : maybe A) : list A :=
  match m with Just val => [val] | Nothing => [] end.
Definition mb_store {A} (m : maybe A) (slots : list A) : maybe A :=
  match m, slots with Just _, x :: _ => Just x | _, _ => m end.
Definition mb_walk_mut {A} (f : A -> A) (n : nat) (m : maybe A) : list (option A) * maybe A :=
  let '(ys, ws) := walk take_next take_left f n (mb_iter_mut m) in (ys, mb_store m ws).
Definition mb_walk_into_mut {A} (f : A -> A) (n : nat) (m : maybe A) : list (option A) * maybe A :=
  let '(ys, ws) := walk slice_next slice_left f n (mb_into_iter_mut m) in (ys, mb_store m ws).

(** ** Id *)
(** id.rs 333-335 [value_mut]: the slot is overwritten with [f] of its contents *)
Definition id_value_mut {A} (f : A -> A) (i : id_ A) : id_ A := mkId (f (id_value i)).
(** id.rs 821-828 *)
Definition id_into_iter_mut {A} (i : id_ A) : list A := [id_value i].
Definition id_store {A} (i : id_ A) (slots : list A) : id_ A :=
  match slots with x :: _ => mkId x | [] => i end.
Definition id_walk_mut {A} (f : A -> A) (n : nat) (i : id_ A) : list (option A) * id_ A :=
  let '(ys, ws) := walk slice_next slice_left f n (id_into_iter_mut i) in (ys, id_store i ws).

(** ** Either *)
(** either.rs 1337-1342 [into_iter] on [&mut] *)
Definition ei_into_iter_mut {L R} (e : either L R) : option R :=
  match e with Right r => Some r | Left _ => None end.
Definition ei_store {L R} (e : either L R) (slots : list R) : either L R :=
  match e, slots with Right _, x :: _ => Right x | _, _ => e end.
Definition ei_walk_mut {L R} (f : R -> R) (n : nat) (e : either L R) : list (option R) * either L R :=
  let '(ys, ws) := walk take_next take_left f n (ei_into_iter_mut e) in (ys, ei_store e ws).
(** either.rs 729-734 [left_iter_mut] *)
Definition ei_left_iter_mut {L R} (e : either L R) : option L :=
  match e with Left l => Some l | Right _ => None end.
Definition ei_left_store {L R} (e : either L R) (slots : list L) : either L R :=
  match e, slots with Left _, x :: _ => Left x | _, _ => e end.
Definition ei_walk_left_mut {L R} (f : L -> L) (n : nat) (e : either L R) : list (option L) * either L R :=
  let '(ys, ws) := walk take_next take_left f n (ei_left_iter_mut e) in (ys, ei_left_store e ws).
(** either.rs 760-764 [left_mut], the slot overwritten with [f] of its contents *)
Definition ei_left_mut {L R} (f : L -> L) (e : either L R) : outcome (either L R) :=
  match fst (take_next (ei_left_iter_mut e)) with
  | Some l => Ret (ei_left_store e [f l])
  | None => Panic
  end.
(** either.rs 563-568 [left_ref] *)
Definition ei_left_ref {L R} (e : either L R) : outcome L :=
  match e with Left l => Ret l | Right _ => Panic end.

(** ** Validated *)
(** validated/iter.rs 115-120 [iter_mut], 96-103 [into_iter] on [&mut] *)
Definition va_iter_mut {E A} (v : validated E A) : option A :=
  match v with Valid a => Some a | _ => None end.
Definition va_store {E A} (v : validated E A) (slots : list A) : validated E A :=
  match v, slots with Valid _, x :: _ => Valid x | _, _ => v end.
Definition va_walk_mut {E A} (f : A -> A) (n : nat) (v : validated E A)
  : list (option A) * validated E A :=
  let '(ys, ws) := walk take_next take_left f n (va_iter_mut v) in (ys, va_store v ws).
(** validated/iter.rs 123-128 [iter_errors_mut] *)
Definition va_iter_errors_mut {E A} (v : validated E A) : errors_iter E :=
  match v with Invalid es => MultiErrors es | _ => EmptyErrors end.
Definition va_errors_store {E A} (v : validated E A) (slots : list E) : validated E A :=
  match v with Invalid _ => Invalid slots | Valid a => Valid a end.
Definition va_walk_errors_mut {E A} (f : E -> E) (n : nat) (v : validated E A)
  : list (option E) * validated E A :=
  let '(ys, ws) := walk errors_next errors_left f n (va_iter_errors_mut v) in (ys, va_errors_store v ws).
(** core.rs 387-392 [error_buffer_mut]: the caller replaces the whole buffer *)
Definition va_error_buffer_mut {E A} (g : list E -> list E) (v : validated E A)
  : option unit * validated E A :=
  match v with Valid a => (None, Valid a) | Invalid es => (Some tt, Invalid (g es)) end.

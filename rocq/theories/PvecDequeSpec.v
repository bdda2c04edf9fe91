(** Where the elements of a long vector are, counted from the calls alone.

    A vector of at most 64 elements that has never been longer is short.  Any other keeps up to 64 elements in a front
    buffer, up to 64 in a back buffer, and the rest in between.  The calls at the ends fill and use up the buffers;
    [None] marks the calls at which a history leaves the class for which the vector is right. *)
From Coq Require Import List Arith Bool.
From Verif Require Import Base PvecModel PvecSpec.
Import ListNotations.
Set Implicit Arguments.

Inductive place : Type :=
| Short (n : nat)
| Long (front middle back : nat).

Definition place_size (s : place) : nat := match s with Short n => n | Long f m b => f + m + b end.

(** Collected from [n] elements *)
Definition place_start (n : nat) : place := if n <=? 64 then Short n else Long 0 (n - n mod 64) (n mod 64).

Definition place_push_back (s : place) : option place :=
  match s with
  | Short n => Some (if n <? 64 then Short (n + 1) else Long 0 64 1)
  | Long f m b => if b <? 64 then Some (Long f m (b + 1)) else if m =? 0 then None else Some (Long f (m + b) 1)
  end.
Definition place_push_front (s : place) : option place :=
  match s with
  | Short n => Some (if n <? 64 then Short (n + 1) else Long 1 64 0)
  | Long f m b => if f <? 64 then Some (Long (f + 1) m b) else if m =? 0 then None else Some (Long 1 (m + f) b)
  end.
(** An element is taken from the back buffer; from between only if the front buffer is empty. *)
Definition place_pop_back (s : place) : option place :=
  match s with
  | Short n => Some (Short (n - 1))
  | Long f m (S b) => Some (Long f m b)
  | Long 0 m 0 => Some (Long 0 (m - 1) 0)
  | Long (S _) _ 0 => None
  end.
(** An element is taken from the front buffer, else from between; from the back buffer only if it holds at most two. *)
Definition place_pop_front (s : place) : option place :=
  match s with
  | Short n => Some (Short (n - 1))
  | Long (S f) m b => Some (Long f m b)
  | Long 0 (S m) b => Some (Long 0 m b)
  | Long 0 0 b => if b <=? 2 then Some (Long (b - 1) 0 0) else None
  end.
Fixpoint place_pushes (k : nat) (s : place) : option place :=
  match k with 0 => Some s | S k' => match place_push_back s with Some s' => place_pushes k' s' | None => None end end.

(** The calls at the two ends, and those that rebuild the vector *)
Definition is_ends {T} (o : op T) : bool :=
  match o with
  | PushBack _ | PushFront _ | PopBack | PopFront | Update _ _ | Extend _ | Map _ | Filter _ => true
  | _ => false
  end.
(** [l] is the list the vector should hold before the call. *)
Definition place_step {T} (o : op T) (l : list T) (s : place) : option place :=
  match o with
  | PushBack _ => place_push_back s
  | PushFront _ => place_push_front s
  | PopBack => place_pop_back s
  | PopFront => place_pop_front s
  | Update _ _ => Some s
  | Extend xs => place_pushes (length xs) s
  | _ => Some (place_start (length (fst (list_step o l))))
  end.
Fixpoint place_run {T} (ops : list (op T)) (l : list T) (s : place) : option place :=
  match ops with
  | [] => Some s
  | o :: ops' => match place_step o l s with Some s' => place_run ops' (fst (list_step o l)) s' | None => None end
  end.

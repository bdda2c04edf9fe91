(** [PvecGapSpec.wide_run] carried on past taking, from the back, an element that lies before a hole.

    The element handed back is right, but it may stay in the middle behind the ones that count; it does no harm until the
    back buffer is handed on. *)
From Coq Require Import List Arith Bool.
From Verif Require Import Base PvecModel PvecSpec PvecDequeSpec PvecGapSpec.
Import ListNotations.
Set Implicit Arguments.

Inductive far : Type :=
| Near (w : wide)
| Trimmed (front middle back : nat).

Definition far_push_back (s : far) : option far :=
  match s with
  | Near w => Some (Near (wide_push_back w))
  | Trimmed f m b => if b <? 64 then Some (Trimmed f m (b + 1)) else None
  end.
Definition far_push_front (s : far) : far :=
  match s with
  | Near w => Near (wide_push_front w)
  | Trimmed f m b => if f <? 64 then Trimmed (f + 1) m b else Trimmed 1 (m + f) b
  end.
Definition far_pop_back (s : far) : option far :=
  match s with
  | Near (Holed 0 (S a) 0 0) => Some (if a =? 0 then Near (Whole (Long 0 0 0)) else Trimmed 0 a 0)
  | Near w => option_map Near (wide_pop_back w)
  | Trimmed f m (S b) => Some (Trimmed f m b)
  | Trimmed 0 (S m) 0 => Some (if m =? 0 then Near (Whole (Long 0 0 0)) else Trimmed 0 m 0)
  | Trimmed 0 0 0 => Some s
  | Trimmed (S _) _ 0 => None
  end.
Definition far_pop_front (s : far) : option far :=
  match s with
  | Near w => option_map Near (wide_pop_front w)
  | Trimmed (S f) m b => Some (Trimmed f m b)
  | Trimmed 0 (S m) b => Some (Trimmed 0 m b)
  | Trimmed 0 0 0 => Some s
  | Trimmed 0 0 b => if b <=? 2 then Some (Near (Whole (Long (b - 1) 0 0))) else None
  end.
Fixpoint far_pushes (k : nat) (s : far) : option far :=
  match k with 0 => Some s | S k' => match far_push_back s with Some s' => far_pushes k' s' | None => None end end.
Definition far_start (n : nat) : far := Near (wide_start n).
Definition far_step {T} (o : op T) (l : list T) (s : far) : option far :=
  match o with
  | PushBack _ => far_push_back s
  | PushFront _ => Some (far_push_front s)
  | PopBack => far_pop_back s
  | PopFront => far_pop_front s
  | Update _ _ => Some s
  | Extend xs => far_pushes (length xs) s
  | _ => Some (far_start (length (fst (list_step o l))))
  end.
Fixpoint far_run {T} (ops : list (op T)) (l : list T) (s : far) : option far :=
  match ops with
  | [] => Some s
  | o :: ops' => match far_step o l s with Some s' => far_run ops' (fst (list_step o l)) s' | None => None end
  end.

(** The elements a call at either end puts in *)
Definition puts {T} (o : op T) : list T := match o with PushBack x | PushFront x => [x] | _ => [] end.
(** Only the back buffer holds anything *)
Definition back_only (s : far) : option nat :=
  match s with
  | Near (Whole (Long 0 0 b)) | Near (Holed 0 0 0 b) | Trimmed 0 0 b => Some b
  | _ => None
  end.

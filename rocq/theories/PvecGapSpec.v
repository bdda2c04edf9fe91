(** [PvecDequeSpec.place_run] carried on past the two pushes at which it stops.

    A full buffer handed on while nothing lies between the buffers leaves a hole in the middle: [left] elements before it,
    [right] elements behind it.  The elements next to a hole cannot be reached across it. *)
From Coq Require Import List Arith Bool.
From Verif Require Import Base PvecModel PvecSpec PvecDequeSpec.
Import ListNotations.
Set Implicit Arguments.

Inductive wide : Type :=
| Whole (s : place)
| Holed (front left right back : nat).

Definition wide_size (w : wide) : nat := match w with Whole s => place_size s | Holed f a z b => f + a + z + b end.

Definition wide_push_back (w : wide) : wide :=
  match w with
  | Whole s => match place_push_back s, s with
               | Some s', _ => Whole s'
               | None, Long f _ b => Holed f 0 b 1
               | None, Short _ => w
               end
  | Holed f a z b => if b <? 64 then Holed f a z (b + 1) else Holed f a (z + b) 1
  end.
Definition wide_push_front (w : wide) : wide :=
  match w with
  | Whole s => match place_push_front s, s with
               | Some s', _ => Whole s'
               | None, Long f _ b => Holed 1 f 0 b
               | None, Short _ => w
               end
  | Holed f a z b => if f <? 64 then Holed (f + 1) a z b else Holed 1 (a + f) z b
  end.
(** From the back buffer; from between only if the front buffer is empty, and only from behind the hole *)
Definition wide_pop_back (w : wide) : option wide :=
  match w with
  | Whole s => option_map Whole (place_pop_back s)
  | Holed f a z (S b) => Some (Holed f a z b)
  | Holed 0 a (S z) 0 => Some (if a + z =? 0 then Whole (Long 0 0 0) else Holed 0 a z 0)
  | Holed 0 0 0 0 => Some w
  | _ => None
  end.
(** From the front buffer, else from before the hole; from the back buffer only if it holds at most two *)
Definition wide_pop_front (w : wide) : option wide :=
  match w with
  | Whole s => option_map Whole (place_pop_front s)
  | Holed (S f) a z b => Some (Holed f a z b)
  | Holed 0 (S a) z b => Some (Holed 0 a z b)
  | Holed 0 0 (S _) _ => None
  | Holed 0 0 0 0 => Some w
  | Holed 0 0 0 b => if b <=? 2 then Some (Whole (Long (b - 1) 0 0)) else None
  end.
Definition wide_step {T} (o : op T) (l : list T) (w : wide) : option wide :=
  match o with
  | PushBack _ => Some (wide_push_back w)
  | PushFront _ => Some (wide_push_front w)
  | PopBack => wide_pop_back w
  | PopFront => wide_pop_front w
  | Update _ _ => Some w
  | Extend xs => Some (Nat.iter (length xs) wide_push_back w)
  | _ => Some (Whole (place_start (length (fst (list_step o l)))))
  end.
Fixpoint wide_run {T} (ops : list (op T)) (l : list T) (w : wide) : option wide :=
  match ops with
  | [] => Some w
  | o :: ops' => match wide_step o l w with Some w' => wide_run ops' (fst (list_step o l)) w' | None => None end
  end.
Definition wide_start (n : nat) : wide := Whole (place_start n).

(** No call takes from between at the back, or rebuilds the vector: what lies behind a hole stays. *)
Definition takes_behind {T} (o : op T) (w : wide) : bool :=
  match o, w with
  | PopBack, Holed _ _ _ (S _) => false
  | PopBack, _ => true
  | Map _, _ | Filter _, _ => true
  | _, _ => false
  end.
Fixpoint keeps_behind {T} (ops : list (op T)) (l : list T) (w : wide) : bool :=
  match ops with
  | [] => true
  | o :: ops' => negb (takes_behind o w) &&
                 match wide_step o l w with Some w' => keeps_behind ops' (fst (list_step o l)) w' | None => true end
  end.

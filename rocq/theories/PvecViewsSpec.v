(** Where the elements of a vector are when histories at both ends also cut it: [take], [skip] and the two halves of
    [split_at], counted from the calls alone as in [PvecDequeSpec].  Here a history also stops at a [push_front] that
    finds the front buffer full, because what it leaves behind cannot always be cut. *)
From Coq Require Import List Arith Bool.
From Verif Require Import Base PvecModel PvecSpec PvecDequeSpec.
Import ListNotations.
Set Implicit Arguments.

Definition place_front (s : place) : nat := match s with Short _ => 0 | Long f _ _ => f end.

(** The first [i] elements: of the front buffer, of the middle, or of the back buffer *)
Definition place_left (i : nat) (s : place) : place :=
  if place_size s <=? i then s
  else if i =? 0 then Short 0
  else match s with
       | Short _ => Short i
       | Long f m b => if i <=? f then Long i 0 0 else if i <? f + m then Long f (i - f) 0 else Long f m (i - f - m)
       end.
(** The others *)
Definition place_right (i : nat) (s : place) : place :=
  if place_size s <=? i then Short 0
  else if i =? 0 then s
  else match s with
       | Short n => Short (n - i)
       | Long f m b =>
           if i <=? f then Long (f - i) m b else if i <? f + m then Long 0 (f + m - i) b else Long 0 0 (f + m + b - i)
       end.

Definition is_cut {T} (o : op T) : bool := is_ends o || is_split_view o.
Definition cut_step {T} (o : op T) (l : list T) (s : place) : option place :=
  match o with
  | PushFront _ => if place_front s <? 64 then place_push_front s else None
  | Take i | SplitLeft i => Some (place_left i s)
  | Skip i | SplitRight i => Some (place_right i s)
  | _ => place_step o l s
  end.
Fixpoint cut_run {T} (ops : list (op T)) (l : list T) (s : place) : option place :=
  match ops with
  | [] => Some s
  | o :: ops' => match cut_step o l s with Some s' => cut_run ops' (fst (list_step o l)) s' | None => None end
  end.

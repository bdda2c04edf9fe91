(** How often a vector may be changed before its counter of changes is used up,
    told without the vector: [tree] says whether it has outgrown the inline form,
    [l] is what it holds, [g] how far the counter is.  For each call: the values
    the counter takes, the last one being where it stands afterwards, and whether
    the result has the large form. *)
From Coq Require Import List Arith.
From Verif Require Import PvecSpec.
Import ListNotations.

Definition INLINE := 64.
Definition pushed (tree : bool) (n g : nat) : list nat * bool :=
  if tree then ([g + 1], true) else if n <? INLINE then ([g + 1], false) else ([g + 1; g + 2], true).
(** A vector made afresh *)
Definition fresh (n : nat) : list nat * bool := ([0], INLINE <? n).
Definition same (tree : bool) (g : nat) : list nat * bool := ([g], tree).
Definition changed (tree : bool) (g : nat) : list nat * bool := ([g + 1], tree).
(** The first [n] elements are given up, or kept *)
Definition left_part (tree : bool) (n i g : nat) := if n <=? i then same tree g else if i =? 0 then fresh 0 else changed tree g.
Definition right_part (tree : bool) (n i g : nat) := if n <=? i then fresh 0 else if i =? 0 then same tree g else changed tree g.
Fixpoint pushed_all (tree : bool) (n g k : nat) : list nat * bool :=
  match k with
  | 0 => same tree g
  | S k' =>
      let '(gs, tree') := pushed tree n g in
      let '(hs, tree'') := pushed_all tree' (n + 1) (last gs g) k' in
      (gs ++ hs, tree'')
  end.

Definition meter_step {T} (o : op T) (tree : bool) (l : list T) (g : nat) : list nat * bool :=
  let n := length l in
  match o with
  | PushBack _ | PushFront _ => pushed tree n g
  | PopBack | PopFront => if n =? 0 then same tree g else changed tree g
  | Update i _ => if i <? n then changed tree g else same tree g
  | Extend xs => pushed_all tree n g (length xs)
  | Map _ => fresh n
  | Filter p => fresh (length (filter p l))
  | Take k => left_part tree n k g
  | Skip k => right_part tree n k g
  | SplitLeft k => left_part tree n k g
  | SplitRight k => right_part tree n k g
  | Insert i _ =>
      if (n <=? i) || (i =? 0) then pushed tree n g
      else if tree then ([g + 1; g + 2; g + 3], true) else ([g + 1; g + 2; 0], INLINE <? n + 1)
  | Remove i =>
      if n <=? i then same tree g
      else if n =? 1 then fresh 0
      else if i =? 0 then (if tree then ([g + 1; 1], true) else ([g + 1; 0], false))
      else if i + 1 =? n then (if tree then ([g + 1; g + 2], true) else ([g + 1; 0], false))
      else (if tree then ([g + 1; g + 2; g + 2], true) else ([g + 1; g + 2; 0], false))
  | ConcatSlice xs =>
      if tree || (INLINE <? length xs) then ([g + 1], true) else fresh (n + length xs)
  | SliceConcat xs =>
      if tree || (INLINE <? length xs) then ([1], true) else fresh (n + length xs)
  end%bool.
(** All values the counter takes in a history *)
Fixpoint meter_run {T} (ops : list (op T)) (tree : bool) (l : list T) (g : nat) : list nat :=
  match ops with
  | [] => []
  | o :: ops' =>
      let '(gs, tree') := meter_step o tree l g in
      gs ++ meter_run ops' tree' (fst (list_step o l)) (last gs g)
  end.

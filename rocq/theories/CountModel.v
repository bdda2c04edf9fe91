(** The vector operations written once more with a step counter carried along,
    so that the numbers of CostModel.v can be compared with a run that also
    computes the result.  A step is one visit of a tree node, one entry read
    from a size table, or one access to a buffer.  Definitions only. *)
From Coq Require Import List Arith Lia Bool.
From Verif Require Import Base PvecModel.
Import ListNotations.
Set Implicit Arguments.

(** a result and the steps it took *)
Definition counted (A : Type) : Type := A * nat.
Definition free {A} (a : A) : counted A := (a, 0).
Definition tick {A} (m : counted A) : counted A := (fst m, S (snd m)).
Definition cbind {A B} (m : counted A) (k : A -> counted B) : counted B :=
  (fst (k (fst m)), snd m + snd (k (fst m))).

Section Count.
Context {T : Type}.
Notation node := (node T).

(** node.rs 57-64, 166-173: one step per entry looked at *)
Fixpoint scan_counted (sizes : list nat) (index i cumulative : nat)
  : counted (option (nat * nat)) :=
  match sizes with
  | [] => free None
  | size :: rest =>
      tick (if index <? cumulative + size then free (Some (i, index - cumulative))
            else scan_counted rest index (S i) (cumulative + size))
  end.

(** tree.rs 134-158 [get_from_tree] with node.rs 52-90 *)
Fixpoint get_from_tree_counted (n : node) (height index : nat) : counted (option T) :=
  match n with
  | Leaf es => tick (free (nth_error es index))
  | Branch cs sizes =>
      tick (cbind (match sizes with
                   | Some sz => scan_counted sz index 0 0
                   | None => free (find_child_regular cs index (height - 1))
                   end)
             (fun found =>
                match found with
                | None => free None
                | Some (ci, si) =>
                    match nth_error (map (fun c => get_from_tree_counted c) cs) ci with
                    | Some g => g (height - 1) si
                    | None => free None
                    end
                end))
  end.

(** node.rs 183-212 [update] with node.rs 160-181 *)
Fixpoint node_update_counted (n : node) (index : nat) (value : T) : counted node :=
  match n with
  | Leaf es => tick (free (Leaf (list_set es index value)))
  | Branch cs sizes =>
      tick (cbind (match sizes with
                   | Some sz => scan_counted sz index 0 0
                   | None => free (Some (index / LEAF_CAPACITY, index mod LEAF_CAPACITY))
                   end)
             (fun found =>
                match found with
                | Some (ci, si) =>
                    match nth_error (map (fun c => node_update_counted c) cs) ci with
                    | Some u => cbind (u si value) (fun c => free (Branch (list_set cs ci c) sizes))
                    | None => free n
                    end
                | None => free n
                end))
  end.

(** tree.rs 879-890 [calculate_height] *)
Fixpoint calculate_height_counted (n : node) : counted nat :=
  match n with
  | Leaf _ => tick (free 0)
  | Branch cs _ =>
      match cs with
      | [] => tick (free 0)
      | first :: _ => tick (cbind (calculate_height_counted first) (fun h => free (1 + h)))
      end
  end.

(** tree.rs 114-132 [get] *)
Definition tree_get_counted (t : tree T) (index : nat) : outcome (counted (option T)) :=
  if t_len t <=? index then Ret (free None)
  else if index <? length (t_head t) then Ret (tick (free (nth_error (t_head t) index)))
  else
    do adjusted <- usub index (length (t_head t));
    do s1 <- usub (t_len t) (length (t_head t));
    do tree_size <- usub s1 (length (t_tail t));
    if adjusted <? tree_size then Ret (get_from_tree_counted (t_root t) (t_height t) adjusted)
    else
      do tail_index <- usub adjusted tree_size;
      Ret (tick (free (nth_error (t_tail t) tail_index))).

(** tree.rs 160-203 [update] *)
Definition tree_update_counted (t : tree T) (index : nat) (value : T)
  : outcome (counted (tree T)) :=
  if t_len t <=? index then Ret (free t)
  else if index <? length (t_head t) then
    Ret (tick (free (mkTree (t_root t) (t_tail t) (list_set (t_head t) index value)
                       (t_height t) (t_len t))))
  else
    do adjusted <- usub index (length (t_head t));
    do s1 <- usub (t_len t) (length (t_head t));
    do tree_size <- usub s1 (length (t_tail t));
    if adjusted <? tree_size then
      Ret (cbind (node_update_counted (t_root t) adjusted value) (fun root =>
             free (mkTree root (t_tail t) (t_head t) (t_height t) (t_len t))))
    else
      do tail_index <- usub adjusted tree_size;
      Ret (tick (free (mkTree (t_root t) (list_set (t_tail t) tail_index value) (t_head t)
                         (t_height t) (t_len t)))).

(** tree.rs 221-240 [push_tail_to_tree] *)
Definition push_tail_to_tree_counted (t : tree T) : counted (tree T) :=
  match t_tail t with
  | [] => free t
  | tl =>
      let new_root := push_leaf (t_root t) (Leaf tl) in
      cbind (calculate_height_counted new_root) (fun h =>
        free (mkTree new_root [] (t_head t) h (t_len t)))
  end.

(** tree.rs 205-219 [push_back] *)
Definition tree_push_back_counted (t : tree T) (value : T) : counted (tree T) :=
  tick (if length (t_tail t) <? LEAF_CAPACITY then free (tree_push_back_tail t value)
        else cbind (push_tail_to_tree_counted t) (fun t' => free (tree_push_back_tail t' value))).

(** core.rs 204-213 [get] *)
Definition pv_get_counted (v : pvec T) (index : nat) : outcome (counted (option T)) :=
  if pv_len v <=? index then Ret (free None)
  else match inner v with
       | Inline es => Ret (tick (free (nth_error es index)))
       | Tree t => tree_get_counted t index
       end.

(** core.rs 600-628 [update] *)
Definition pv_update_counted (v : pvec T) (index : nat) (x : T)
  : outcome (counted (pvec T)) :=
  if pv_len v <=? index then Ret (free v)
  else match inner v with
       | Inline es =>
           if index <? length es then
             Ret (tick (free (mkPvec (Inline (list_set es index x)) (pv_len v)
                                (generation v + 1))))
           else Panic
       | Tree t =>
           do m <- tree_update_counted t index x;
           Ret (cbind m (fun t' => free (mkPvec (Tree t') (pv_len v) (generation v + 1))))
       end.

(** core.rs 509-528 [push_back], 648-662 [tree_push_back] *)
Definition pv_push_back_counted (v : pvec T) (x : T) : counted (pvec T) :=
  match inner v with
  | Inline es =>
      if length es <? ADAPTIVE_INLINE_SIZE then
        tick (free (mkPvec (Inline (es ++ [x])) (pv_len v + 1) (generation v + 1)))
      else
        let v' := transition_to_tree v in
        tick (cbind (tree_push_back_counted (from_elements es) x) (fun t =>
          free (mkPvec (Tree t) (pv_len v' + 1) (generation v' + 1))))
  | Tree t =>
      cbind (tree_push_back_counted t x) (fun t' =>
        free (mkPvec (Tree t') (pv_len v + 1) (generation v + 1)))
  end.

End Count.

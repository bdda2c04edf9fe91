(** Element copies ([T::clone] calls) made by the persistent vector, counted on
    the model of PvecModel.v.  Cloning an [Arc], a child list or a size table
    copies no element.  Definitions only; every definition cites the Rust lines
    it counts, and follows the branches of the definition it counts for. *)
From Coq Require Import List Arith Lia Bool.
From Verif Require Import Base PvecModel.
Import ListNotations.
Open Scope outcome_scope.
Set Implicit Arguments.

Section Copies.
Context {T : Type}.
Notation node := (node T).
Notation tree := (tree T).
Notation pvec := (pvec T).

(** node.rs 23-37 [derive(Clone)] for a node: a branch clones [Arc]s only *)
Definition node_clone_copies (n : node) : nat :=
  match n with Leaf es => length es | Branch _ _ => 0 end.

(** tree.rs 16-28 [derive(Clone)]: the root is an [Arc] *)
Definition tree_clone_copies (t : tree) : nat := length (t_tail t) + length (t_head t).

(** core.rs 43-62 [derive(Clone)]: a tree is an [Arc] *)
Definition pv_clone_copies (v : pvec) : nat :=
  match inner v with Inline es => length es | Tree _ => 0 end.

(** tree.rs 31-86 [from_elements] on elements already owned: up to 64 are
    moved, otherwise every one is cloned out of the slice (71, 80) *)
Definition from_elements_copies (es : list T) : nat :=
  if length es <=? LEAF_CAPACITY then 0 else length es.

(** core.rs 986-1009 [from_iter]: the finished tree is cloned once more (1002) *)
Definition pv_from_iter_copies (es : list T) : nat :=
  if length es <=? ADAPTIVE_INLINE_SIZE then 0
  else from_elements_copies es + tree_clone_copies (from_elements es).

(** node.rs 183-212 [update] *)
Fixpoint node_update_copies (n : node) (index : nat) : nat :=
  match n with
  | Leaf es => length es
  | Branch cs sizes =>
      match find_child sizes index with
      | Some (ci, si) =>
          match nth_error (map (fun c => node_update_copies c) cs) ci with
          | Some u => u si
          | None => 0
          end
      | None => 0
      end
  end.

(** tree.rs 160-203 [update] *)
Definition tree_update_copies (t : tree) (index : nat) : nat :=
  if t_len t <=? index then tree_clone_copies t
  else if index <? length (t_head t) then length (t_head t) + length (t_tail t)
  else
    let adjusted := index - length (t_head t) in
    let tree_size := t_len t - length (t_head t) - length (t_tail t) in
    if adjusted <? tree_size then
      node_update_copies (t_root t) adjusted + length (t_tail t) + length (t_head t)
    else length (t_tail t) + length (t_head t).

(** core.rs 600-628 [update] *)
Definition pv_update_copies (v : pvec) (index : nat) : nat :=
  if pv_len v <=? index then pv_clone_copies v
  else match inner v with
       | Inline es => length es
       | Tree t => tree_update_copies t index
       end.

(** node.rs 214-257 [push_leaf], 330-378 [push_front_leaf]: the old root is
    cloned when it becomes a child *)
Definition push_leaf_copies (n : node) : nat :=
  match n with
  | Leaf _ => node_clone_copies n
  | Branch cs _ =>
      if length cs <? BRANCHING_FACTOR then 0 else node_clone_copies n
  end.

(** tree.rs 221-240 [push_tail_to_tree]; [new_root.clone()] (231) *)
Definition push_tail_copies (t : tree) : nat :=
  match t_tail t with
  | [] => tree_clone_copies t
  | tl => length tl + push_leaf_copies (t_root t)
          + node_clone_copies (push_leaf (t_root t) (Leaf tl))
          + length (t_head t)
  end.

(** tree.rs 205-219 [push_back]; the recursive call finds an empty tail *)
Definition tree_push_back_copies (t : tree) : nat :=
  if length (t_tail t) <? LEAF_CAPACITY then length (t_tail t) + length (t_head t)
  else push_tail_copies t
       + (length (t_tail (push_tail_to_tree t)) + length (t_head (push_tail_to_tree t))).

(** tree.rs 259-278 [push_head_to_tree] *)
Definition push_head_copies (t : tree) : nat :=
  match t_head t with
  | [] => tree_clone_copies t
  | hd => length hd + push_leaf_copies (t_root t)
          + node_clone_copies (push_front_leaf (t_root t) (Leaf hd))
          + length (t_tail t)
  end.

(** tree.rs 242-257 [push_front] *)
Definition tree_push_front_copies (t : tree) : nat :=
  if length (t_head t) <? LEAF_CAPACITY then length (t_head t) + length (t_tail t)
  else push_head_copies t
       + (length (t_head (push_head_to_tree t)) + length (t_tail (push_head_to_tree t))).

(** core.rs 509-528 [push_back]; 631-645 [transition_to_tree] clones the
    elements into an iterator *)
Definition pv_push_back_copies (v : pvec) : nat :=
  match inner v with
  | Inline es =>
      if length es <? ADAPTIVE_INLINE_SIZE then length es
      else length es + from_elements_copies es + tree_push_back_copies (from_elements es)
  | Tree t => tree_push_back_copies t
  end.

(** core.rs 541-561 [push_front] *)
Definition pv_push_front_copies (v : pvec) : nat :=
  match inner v with
  | Inline es =>
      if length es <? ADAPTIVE_INLINE_SIZE then length es
      else length es + from_elements_copies es + tree_push_front_copies (from_elements es)
  | Tree t => tree_push_front_copies t
  end.

(** tree.rs 356-434 [concat_nodes] *)
Fixpoint concat_nodes_copies (left right : node) : nat :=
  match left, right with
  | Leaf le, Leaf re =>
      length le + length re
      + (if length (le ++ re) <=? LEAF_CAPACITY then 0 else length (le ++ re))
  | Branch lc _, Branch rc _ =>
      match nth_error (map (fun c => concat_nodes_copies c) lc) (length lc - 1), rc with
      | Some merge_with, right_first :: _ => merge_with right_first
      | _, _ => 0
      end
  | _, _ => 0
  end.

(** tree.rs 297-322 [concat_same_height] *)
Definition concat_same_height_copies (a b : tree) : nat :=
  let left := match t_tail a with [] => a | _ => push_tail_to_tree a end in
  let right := match t_head b with [] => b | _ => push_head_to_tree b end in
  tree_clone_copies a + tree_clone_copies b
  + (match t_tail a with [] => 0 | _ => push_tail_copies a end)
  + (match t_head b with [] => 0 | _ => push_head_copies b end)
  + concat_nodes_copies (t_root left) (t_root right)
  + length (t_tail right) + length (t_head left).

(** tree.rs 334-354 [elevate_tree] *)
Definition elevate_copies (t : tree) : nat := length (t_tail t) + length (t_head t).

(** tree.rs 324-332 [concat_different_height] *)
Definition concat_different_height_copies (a b : tree) (left_higher : bool) : nat :=
  if left_higher
  then elevate_copies b + concat_same_height_copies a (elevate_tree b (t_height a))
  else elevate_copies a + concat_same_height_copies (elevate_tree a (t_height b)) b.

(** tree.rs 280-295 [concat] *)
Definition tree_concat_copies (a b : tree) : nat :=
  if t_len a =? 0 then tree_clone_copies b
  else if t_len b =? 0 then tree_clone_copies a
  else if t_height a =? t_height b then concat_same_height_copies a b
  else if t_height a <? t_height b then concat_different_height_copies b a false
  else concat_different_height_copies a b true.

(** core.rs 693-742 [concat], [ensure_tree] *)
Definition pv_concat_copies (a b : pvec) : nat :=
  match inner a, inner b with
  | Inline l, Inline r => length (l ++ r) + pv_from_iter_copies (l ++ r)
  | Inline es, Tree t =>
      length es + from_elements_copies es + tree_concat_copies (from_elements es) t
  | Tree t, Inline es =>
      length es + from_elements_copies es + tree_concat_copies t (from_elements es)
  | Tree s, Tree t =>
      tree_clone_copies s + tree_clone_copies t + tree_concat_copies s t
  end.

(** node.rs 272-328 [pop_back] *)
Fixpoint node_pop_back_copies (n : node) : nat :=
  match n with
  | Leaf es => length es
  | Branch cs _ =>
      match nth_error (map (fun c (_ : unit) => node_pop_back_copies c) cs) (length cs - 1) with
      | Some r => r tt
      | None => 0
      end
  end.

(** node.rs 380-433 [pop_front] *)
Fixpoint node_pop_front_copies (n : node) : nat :=
  match n with
  | Leaf es => length es
  | Branch cs _ =>
      match cs with
      | first :: _ => node_pop_front_copies first
      | [] => 0
      end
  end.

(** tree.rs 459-496 [pop_from_tree]: the last element is cloned, and then
    popped once more *)
Definition pop_from_tree_copies (t : tree) : nat :=
  if t_len t =? 0 then 0
  else
    let tree_size := t_len t - length (t_tail t) in
    if tree_size =? 0 then 0
    else
      match node_get (t_root t) (tree_size - 1) with
      | None => 0
      | Some _ =>
          1 + (if tree_size =? 1 then 0 else node_pop_back_copies (t_root t))
          + length (t_tail t) + length (t_head t)
      end.

(** tree.rs 436-457 [pop_back] *)
Definition tree_pop_back_copies (t : tree) : nat :=
  if t_len t =? 0 then 0
  else match t_tail t with
       | [] => pop_from_tree_copies t
       | tl => length tl + length (t_head t)
       end.

(** tree.rs 521-560 [pop_front_from_tree]; the buffers are cloned only when the
    root gives an element, the tail only when it does not *)
Definition pop_front_from_tree_copies (t : tree) : outcome nat :=
  let tree_size := t_len t - length (t_head t) - length (t_tail t) in
  do o <- (if 0 <? tree_size then node_pop_front (t_root t) else Ret None);
  let tried := if 0 <? tree_size then node_pop_front_copies (t_root t) else 0 in
  Ret (tried + match o with
               | Some _ => length (t_tail t) + length (t_head t)
               | None => length (t_tail t)
               end).

(** tree.rs 498-519 [pop_front] *)
Definition tree_pop_front_copies (t : tree) : outcome nat :=
  if t_len t =? 0 then Ret 0
  else match t_head t with
       | [] => pop_front_from_tree_copies t
       | hd => Ret (length hd + length (t_tail t))
       end.

(** core.rs 758-795 [pop_back] (765, 766 clone the last element and the buffer) *)
Definition pv_pop_back_copies (v : pvec) : nat :=
  if pv_is_empty v then 0
  else match inner v with
       | Inline [] => 0
       | Inline es => 1 + length es
       | Tree t => tree_pop_back_copies t
       end.

(** core.rs 811-847 [pop_front] *)
Definition pv_pop_front_copies (v : pvec) : outcome nat :=
  if pv_is_empty v then Ret 0
  else match inner v with
       | Inline es =>
           match es with [] => Ret 0 | _ :: es' => Ret (1 + length es') end
       | Tree t => tree_pop_front_copies t
       end.

(** tree.rs 614-683 [split_along_path], [split_leaf_node]: the elements of one
    leaf are distributed *)
Fixpoint split_along_path_copies (n : node) (path : list nat) : nat :=
  match n with
  | Leaf es => length es
  | Branch cs _ =>
      match path with
      | [] =>
          match cs with
          | first :: _ => split_along_path_copies first []
          | [] => 0
          end
      | child_index :: remaining_path =>
          match nth_error (map (fun c => split_along_path_copies c) cs) child_index with
          | Some s => s remaining_path
          | None => 0
          end
      end
  end.

(** tree.rs 562-607 [split_at]; 789-877: every helper clones the buffers it is
    given once more *)
Definition tree_split_at_copies (t : tree) (index : nat) : nat :=
  let nh := length (t_head t) in
  let nt := length (t_tail t) in
  if index =? 0 then tree_clone_copies t
  else if t_len t <=? index then tree_clone_copies t
  else if index <=? nh then
    nh + length (firstn index (t_head t)) + nt
    + (nt + length (skipn index (t_head t)))
  else
    let tree_size := t_len t - nh - nt in
    if nh + tree_size <=? index then
      let tail_index := index - nh - tree_size in
      nt + nh + (length (firstn tail_index (t_tail t)) + nh)
      + length (skipn tail_index (t_tail t))
    else
      split_along_path_copies (t_root t)
        (find_path_to_index (t_height t) (t_root t) (index - nh))
      + (nh + nh) + (nt + nt).

(** core.rs 864-909 [split_at] *)
Definition pv_split_at_copies (v : pvec) (index : nat) : nat :=
  if pv_len v <=? index then pv_clone_copies v
  else if index =? 0 then pv_clone_copies v
  else match inner v with
       | Inline es => length es
       | Tree t => tree_split_at_copies t index
       end.

(** core.rs 922-947 [take], [skip] *)
Definition pv_take_copies (v : pvec) (n : nat) : nat :=
  if pv_len v <=? n then pv_clone_copies v else pv_split_at_copies v n.
Definition pv_skip_copies (v : pvec) (n : nat) : nat :=
  if pv_len v <=? n then 0 else pv_split_at_copies v n.

(** core.rs 949-959 [insert] *)
Definition pv_insert_copies (v : pvec) (index : nat) (x : T) : outcome nat :=
  if pv_len v <=? index then Ret (pv_push_back_copies v)
  else if index =? 0 then Ret (pv_push_front_copies v)
  else
    do lr <- pv_split_at v index;
    Ret (pv_split_at_copies v index + pv_push_back_copies (fst lr)
         + pv_concat_copies (pv_push_back (fst lr) x) (snd lr)).

(** core.rs 961-973 [remove] *)
Definition pv_remove_copies (v : pvec) (index : nat) : outcome nat :=
  if pv_len v <=? index then Ret 0
  else if pv_len v =? 1 then Ret 0
  else
    do lr <- pv_split_at v index;
    do right_without_first <- pv_skip (snd lr) 1;
    Ret (pv_split_at_copies v index + pv_skip_copies (snd lr) 1
         + pv_concat_copies (fst lr) right_without_first).

End Copies.

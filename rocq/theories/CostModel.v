(** Work done by the persistent vector, counted on the model of PvecModel.v.
    A step is one visit of a tree node or one entry read from a node's size
    table; reading a buffer ([head], [tail], inline elements) is one step.
    Definitions only; every definition cites the Rust lines it counts.

    Simplifications: copying the table and the child pointers of one node is
    not counted separately (it is proportional to the entries of that node);
    [Arc] clones and allocation are free. *)
From Coq Require Import List Arith Lia Bool.
From Verif Require Import Base PvecModel.
Import ListNotations.
Set Implicit Arguments.

Section Cost.
Context {T : Type}.
Notation node := (node T).

(** node.rs 57-64, 166-173: table entries read by the scan *)
Fixpoint scan_reads (sizes : list nat) (index cumulative : nat) : nat :=
  match sizes with
  | [] => 0
  | size :: rest =>
      if index <? cumulative + size then 1
      else 1 + scan_reads rest index (cumulative + size)
  end.

(** table entries read in one branch; without a table the child is computed *)
Definition table_reads (sizes : option (list nat)) (index : nat) : nat :=
  match sizes with
  | Some sz => scan_reads sz index 0
  | None => 0
  end.

(** tree.rs 134-158 [get_from_tree]: the loop visits one node per round *)
Fixpoint get_from_tree_steps (n : node) (height index : nat) : nat :=
  match n with
  | Leaf es => 1
  | Branch cs sizes =>
      let found :=
        match sizes with
        | Some _ => find_child_relaxed cs sizes index
        | None => find_child_regular cs index (height - 1)
        end in
      1 + table_reads sizes index +
      match found with
      | None => 0
      | Some (ci, si) =>
          match nth_error (map (fun c => get_from_tree_steps c) cs) ci with
          | Some g => g (height - 1) si
          | None => 0
          end
      end
  end.

(** node.rs 183-212 [update]: one new node per visited node *)
Fixpoint node_update_steps (n : node) (index : nat) : nat :=
  match n with
  | Leaf es => 1
  | Branch cs sizes =>
      1 + table_reads sizes index +
      match find_child sizes index with
      | Some (ci, si) =>
          match nth_error (map (fun c => node_update_steps c) cs) ci with
          | Some u => u si
          | None => 0
          end
      | None => 0
      end
  end.

(** tree.rs 879-890 [calculate_height]: walks down the first children *)
Fixpoint calculate_height_steps (n : node) : nat :=
  match n with
  | Leaf _ => 1
  | Branch cs _ =>
      match cs with
      | [] => 1
      | first :: _ => 1 + calculate_height_steps first
      end
  end.

(** tree.rs 114-132 [get] *)
Definition tree_get_steps (t : tree T) (index : nat) : nat :=
  if t_len t <=? index then 0
  else if index <? length (t_head t) then 1
  else
    let adjusted := index - length (t_head t) in
    let tree_size := t_len t - length (t_head t) - length (t_tail t) in
    if adjusted <? tree_size then get_from_tree_steps (t_root t) (t_height t) adjusted
    else 1.

(** tree.rs 160-203 [update] *)
Definition tree_update_steps (t : tree T) (index : nat) : nat :=
  if t_len t <=? index then 0
  else if index <? length (t_head t) then 1
  else
    let adjusted := index - length (t_head t) in
    let tree_size := t_len t - length (t_head t) - length (t_tail t) in
    if adjusted <? tree_size then node_update_steps (t_root t) adjusted
    else 1.

(** tree.rs 205-240 [push_back], [push_tail_to_tree]: a full tail becomes a
    leaf of a new root whose height is then measured *)
Definition tree_push_back_steps (t : tree T) : nat :=
  if length (t_tail t) <? LEAF_CAPACITY then 1
  else match t_tail t with
       | [] => 1
       | tl => 1 + calculate_height_steps (push_leaf (t_root t) (Leaf tl))
       end.

(** core.rs 204-213 [get] *)
Definition pv_get_steps (v : pvec T) (index : nat) : nat :=
  if pv_len v <=? index then 0
  else match inner v with
       | Inline _ => 1
       | Tree t => tree_get_steps t index
       end.

(** core.rs 600-628 [update] *)
Definition pv_update_steps (v : pvec T) (index : nat) : nat :=
  if pv_len v <=? index then 0
  else match inner v with
       | Inline _ => 1
       | Tree t => tree_update_steps t index
       end.

(** core.rs 509-528 [push_back] *)
Definition pv_push_back_steps (v : pvec T) : nat :=
  match inner v with
  | Inline es =>
      if length es <? ADAPTIVE_INLINE_SIZE then 1
      else 1 + tree_push_back_steps (from_elements es)
  | Tree t => tree_push_back_steps t
  end.

End Cost.

(** Model of the persistent vector of rustica ([/repo/src/pvec]).
    Definitions only; every definition cites the Rust lines it renders.

    Simplifications: [Arc] and [SmallVec] are transparent (a shared node is its
    value, a small vector is a list); [usize] is unbounded [nat] but every
    subtraction that is not guarded in the same expression goes through [usub]
    and can panic; the [generation] counter ([u32]) is an unbounded [nat]. *)
From Coq Require Import List Arith Lia Bool.
From Verif Require Import Base.
Import ListNotations.
Open Scope outcome_scope.
Set Implicit Arguments.

(** node.rs 10, 12; core.rs 12 *)
Definition BRANCHING_FACTOR : nat := 32.
Definition LEAF_CAPACITY : nat := 64.
Definition ADAPTIVE_INLINE_SIZE : nat := 64.

(** node.rs 23-37 [enum RRBNode] *)
Inductive node (T : Type) : Type :=
| Leaf (elements : list T)
| Branch (children : list (node T)) (sizes : option (list nat)).
Arguments Leaf {T} elements.
Arguments Branch {T} children sizes.

Section Node.
Context {T : Type}.
Notation node := (node T).

(** node.rs 259-270 [calculate_size] *)
Fixpoint calculate_size (n : node) : nat :=
  match n with
  | Leaf es => length es
  | Branch cs (Some sizes) => sum_list sizes
  | Branch cs None => sum_list (map calculate_size cs)
  end.

(** node.rs 40-50 [make_relaxed] *)
Definition make_relaxed (cs : list node) : node :=
  Branch cs (Some (map calculate_size cs)).

(** node.rs 57-64 (and the identical loop 164-174): scan of the size table;
    [i] and [cumulative] are the loop variables. *)
Fixpoint scan_sizes (sizes : list nat) (index i cumulative : nat) : option (nat * nat) :=
  match sizes with
  | [] => None
  | size :: rest =>
      if index <? cumulative + size then Some (i, index - cumulative)
      else scan_sizes rest index (S i) (cumulative + size)
  end.

(** node.rs 70-90 [find_child_regular] on a branch with these children *)
Definition find_child_regular (cs : list node) (index height : nat) : option (nat * nat) :=
  let child_capacity :=
    if height =? 0 then LEAF_CAPACITY else LEAF_CAPACITY * BRANCHING_FACTOR ^ height in
  let child_index := index / child_capacity in
  let sub_index := index mod child_capacity in
  if child_index <? length cs then Some (child_index, sub_index) else None.

(** node.rs 52-68 [find_child_relaxed] on a branch *)
Definition find_child_relaxed (cs : list node) (sizes : option (list nat)) (index : nat)
  : option (nat * nat) :=
  match sizes with
  | Some sz => scan_sizes sz index 0 0
  | None => find_child_regular cs index 1
  end.

(** node.rs 146-158 [get].  Recursion into [children.get(child_idx)] is
    expressed by mapping [get] over the children and selecting one. *)
Fixpoint node_get (n : node) (index : nat) : option T :=
  match n with
  | Leaf es => nth_error es index
  | Branch cs sizes =>
      let found :=
        match sizes with
        | Some _ => find_child_relaxed cs sizes index
        | None => find_child_regular cs index 1
        end in
      match found with
      | None => None
      | Some (ci, si) =>
          match nth_error (map (fun c => node_get c) cs) ci with
          | Some g => g si
          | None => None
          end
      end
  end.

(** node.rs 160-181 [find_child] *)
Definition find_child (sizes : option (list nat)) (index : nat) : option (nat * nat) :=
  match sizes with
  | Some sz => scan_sizes sz index 0 0
  | None => Some (index / LEAF_CAPACITY, index mod LEAF_CAPACITY)
  end.

(** node.rs 183-212 [update] *)
Fixpoint node_update (n : node) (index : nat) (value : T) : node :=
  match n with
  | Leaf es => Leaf (list_set es index value)
  | Branch cs sizes =>
      match find_child sizes index with
      | Some (ci, si) =>
          match nth_error (map (fun c => node_update c) cs) ci with
          | Some u => Branch (list_set cs ci (u si value)) sizes
          | None => n
          end
      | None => n
      end
  end.

(** node.rs 214-257 [push_leaf] *)
Definition push_leaf (n leaf : node) : node :=
  let pair := Branch [n; leaf] (Some [calculate_size n; calculate_size leaf]) in
  match n with
  | Leaf _ => pair
  | Branch cs sizes =>
      if length cs <? BRANCHING_FACTOR then
        let sz := match sizes with Some s => s | None => map calculate_size cs end in
        Branch (cs ++ [leaf]) (Some (sz ++ [calculate_size leaf]))
      else pair
  end.

(** node.rs 330-378 [push_front_leaf] *)
Definition push_front_leaf (n leaf : node) : node :=
  let pair := Branch [leaf; n] (Some [calculate_size leaf; calculate_size n]) in
  match n with
  | Leaf _ => pair
  | Branch cs sizes =>
      if length cs <? BRANCHING_FACTOR then
        let sz := match sizes with Some s => s | None => map calculate_size cs end in
        Branch (leaf :: cs) (Some (calculate_size leaf :: sz))
      else pair
  end.

(** node.rs 96-114 [update_size_table_after_removal]; [remove(0)] panics on an
    empty table, [pop] does not. *)
Definition sizes_after_removal (sizes : option (list nat)) (index : nat)
  : outcome (option (list nat)) :=
  match sizes with
  | None => Ret None
  | Some sz =>
      if index =? 0 then
        match sz with
        | [] => Panic
        | _ :: sz' => Ret (match sz' with [] => None | _ => Some sz' end)
        end
      else
        let sz' := removelast sz in
        Ret (match sz' with [] => None | _ => Some sz' end)
  end.

(** node.rs 116-128 [update_size_table_after_update] *)
Definition sizes_after_update (sizes : option (list nat)) (index new_size : nat)
  : option (list nat) :=
  match sizes with
  | Some sz => Some (list_set sz index new_size)
  | None => None
  end.

(** node.rs 272-328 [pop_back] *)
Fixpoint node_pop_back (n : node) : outcome (option (node * T)) :=
  match n with
  | Leaf es =>
      match pop_last es with
      | None => Ret None
      | Some (es', x) => Ret (Some (Leaf es', x))
      end
  | Branch cs sizes =>
      let last_idx := length cs - 1 in
      match nth_error (map (fun c (_ : unit) => node_pop_back c) cs) last_idx with
      | None => Ret None
      | Some r =>
          do o <- r tt;
          match o with
          | None => Ret None
          | Some (new_child, popped) =>
              if calculate_size new_child =? 0 then
                let new_cs := removelast cs in
                do new_sizes <- sizes_after_removal sizes last_idx;
                match new_cs with
                | [] => Ret (Some (Leaf [], popped))
                | _ => Ret (Some (Branch new_cs new_sizes, popped))
                end
              else
                Ret (Some (Branch (list_set cs last_idx new_child)
                             (sizes_after_update sizes last_idx (calculate_size new_child)),
                           popped))
          end
      end
  end.

(** node.rs 380-433 [pop_front] *)
Fixpoint node_pop_front (n : node) : outcome (option (node * T)) :=
  match n with
  | Leaf es =>
      match es with
      | [] => Ret None
      | x :: es' => Ret (Some (Leaf es', x))
      end
  | Branch cs sizes =>
      match cs with
      | [] => Ret None
      | first :: rest =>
          do o <- node_pop_front first;
          match o with
          | None => Ret None
          | Some (new_child, popped) =>
              if calculate_size new_child =? 0 then
                do new_sizes <- sizes_after_removal sizes 0;
                match rest with
                | [] => Ret (Some (Leaf [], popped))
                | _ => Ret (Some (Branch rest new_sizes, popped))
                end
              else
                Ret (Some (Branch (new_child :: rest)
                             (sizes_after_update sizes 0 (calculate_size new_child)),
                           popped))
          end
      end
  end.

(** tree.rs 134-158 [get_from_tree] (the loop as recursion on the node) *)
Fixpoint get_from_tree (n : node) (height index : nat) : option T :=
  match n with
  | Leaf es => nth_error es index
  | Branch cs sizes =>
      let found :=
        match sizes with
        | Some _ => find_child_relaxed cs sizes index
        | None => find_child_regular cs index (height - 1)
        end in
      match found with
      | None => None
      | Some (ci, si) =>
          match nth_error (map (fun c => get_from_tree c) cs) ci with
          | Some g => g (height - 1) si
          | None => None
          end
      end
  end.

(** tree.rs 879-890 [calculate_height] *)
Fixpoint calculate_height (n : node) : nat :=
  match n with
  | Leaf _ => 0
  | Branch cs _ =>
      match cs with
      | [] => 0
      | first :: _ => 1 + calculate_height first
      end
  end.

(** tree.rs 88-112 [build_tree_recursive]; the fuel bounds the number of
    levels, running out is excluded by [build_tree_recursive_ok] in PvecFacts. *)
Fixpoint build_tree_recursive (fuel : nat) (nodes : list node) : node * nat :=
  match fuel with
  | 0 => (Leaf [], 0)
  | S fuel' =>
      match nodes with
      | [single] => (single, 0)
      | _ =>
          let next_level := map make_relaxed (chunks BRANCHING_FACTOR nodes) in
          let '(root, sub_height) := build_tree_recursive fuel' next_level in
          (root, sub_height + 1)
      end
  end.

(** tree.rs 356-434 [concat_nodes] (its [height] argument is never used for
    the result and is dropped). *)
Fixpoint concat_nodes (left right : node) : node :=
  match left, right with
  | Leaf le, Leaf re =>
      let combined := le ++ re in
      if length combined <=? LEAF_CAPACITY then Leaf combined
      else make_relaxed [Leaf (firstn LEAF_CAPACITY combined);
                         Leaf (skipn LEAF_CAPACITY combined)]
  | Branch lc _, Branch rc _ =>
      let merged :=
        match nth_error (map (fun c => concat_nodes c) lc) (length lc - 1), rc with
        | Some merge_with, right_first :: _ => [merge_with right_first]
        | _, _ => []
        end in
      make_relaxed (firstn (length lc - 1) lc ++ merged ++ skipn 1 rc)
  | Leaf _, Branch rc _ => make_relaxed (left :: rc)
  | Branch lc _, Leaf _ => make_relaxed (lc ++ [right])
  end.

(** tree.rs 733-751 [calculate_adjusted_index] *)
Definition calculate_adjusted_index (target child_index : nat)
  (sizes : option (list nat)) (height : nat) : nat :=
  match sizes with
  | Some sz => target - sum_list (firstn child_index sz)
  | None =>
      let child_capacity :=
        if height <=? 1 then LEAF_CAPACITY
        else LEAF_CAPACITY * BRANCHING_FACTOR ^ (height - 1) in
      target - child_index * child_capacity
  end.

(** tree.rs 685-707 [create_left_branch] *)
Definition create_left_branch (cs : list node) (split_index : nat) (new_child : node) : node :=
  let lc := firstn split_index cs
            ++ (if 0 <? calculate_size new_child then [new_child] else []) in
  match lc with [] => Leaf [] | _ => make_relaxed lc end.

(** tree.rs 709-731 [create_right_branch] *)
Definition create_right_branch (cs : list node) (split_index : nat) (new_child : node) : node :=
  let rc := (if 0 <? calculate_size new_child then [new_child] else [])
            ++ skipn (split_index + 1) cs in
  match rc with [] => Leaf [] | _ => make_relaxed rc end.

(** tree.rs 614-683 [split_along_path] / [split_leaf_node] *)
Fixpoint split_along_path (n : node) (path : list nat) (target current_height : nat)
  : node * node :=
  match n with
  | Leaf es => (Leaf (firstn target es), Leaf (skipn target es))
  | Branch cs sizes =>
      match path with
      | [] =>
          match cs with
          | first :: _ => split_along_path first [] target (current_height - 1)
          | [] => (Leaf [], Leaf [])
          end
      | child_index :: remaining_path =>
          match nth_error (map (fun c => split_along_path c) cs) child_index with
          | Some split_child =>
              let child_height := current_height - 1 in
              let adjusted := calculate_adjusted_index target child_index sizes child_height in
              let '(lchild, rchild) := split_child remaining_path adjusted child_height in
              (create_left_branch cs child_index lchild,
               create_right_branch cs child_index rchild)
          | None => (Leaf [], Leaf [])
          end
      end
  end.

(** tree.rs 753-787 [find_path_to_index]; the loop counts down the recorded
    height. *)
Fixpoint find_path_to_index (height : nat) (n : node) (index : nat) : list nat :=
  match height with
  | 0 => []
  | S h' =>
      match n with
      | Leaf _ => []
      | Branch cs sizes =>
          let found :=
            match sizes with
            | Some _ => find_child_relaxed cs sizes index
            | None => find_child_regular cs index h'
            end in
          let '(ci, si) := match found with Some p => p | None => (0, 0) end in
          ci :: match nth_error cs ci with
                | Some c => find_path_to_index h' c si
                | None => []
                end
      end
  end.

End Node.

(** tree.rs 16-28 [struct RRBTree] *)
Record tree (T : Type) : Type := mkTree {
  t_root : node T;
  t_tail : list T;
  t_head : list T;
  t_height : nat;
  t_len : nat
}.

Section Tree.
Context {T : Type}.
Notation tree := (tree T).
Notation node := (node T).

(** tree.rs 50-86 [build_tree_with_tail] *)
Definition build_tree_with_tail (elements : list T) : tree :=
  let total_len := length elements in
  let tree_elements_len := (total_len / LEAF_CAPACITY) * LEAF_CAPACITY in
  let tree_elements := firstn tree_elements_len elements in
  let tail_elements := skipn tree_elements_len elements in
  match tree_elements with
  | [] => mkTree (Leaf []) tail_elements [] 0 total_len
  | _ =>
      let leaves := map Leaf (chunks LEAF_CAPACITY tree_elements) in
      let '(root, height) := build_tree_recursive (length leaves) leaves in
      mkTree root tail_elements [] height total_len
  end.

(** tree.rs 31-48 [from_elements] *)
Definition from_elements (elements : list T) : tree :=
  let len := length elements in
  if len <=? LEAF_CAPACITY then mkTree (Leaf elements) [] [] 0 len
  else build_tree_with_tail elements.

(** tree.rs 114-132 [get] *)
Definition tree_get (t : tree) (index : nat) : outcome (option T) :=
  if t_len t <=? index then Ret None
  else if index <? length (t_head t) then Ret (nth_error (t_head t) index)
  else
    do adjusted <- usub index (length (t_head t));
    do s1 <- usub (t_len t) (length (t_head t));
    do tree_size <- usub s1 (length (t_tail t));
    if adjusted <? tree_size then Ret (get_from_tree (t_root t) (t_height t) adjusted)
    else
      do tail_index <- usub adjusted tree_size;
      Ret (nth_error (t_tail t) tail_index).

(** tree.rs 160-203 [update] *)
Definition tree_update (t : tree) (index : nat) (value : T) : outcome tree :=
  if t_len t <=? index then Ret t
  else if index <? length (t_head t) then
    Ret (mkTree (t_root t) (t_tail t) (list_set (t_head t) index value)
           (t_height t) (t_len t))
  else
    do adjusted <- usub index (length (t_head t));
    do s1 <- usub (t_len t) (length (t_head t));
    do tree_size <- usub s1 (length (t_tail t));
    if adjusted <? tree_size then
      Ret (mkTree (node_update (t_root t) adjusted value) (t_tail t) (t_head t)
             (t_height t) (t_len t))
    else
      do tail_index <- usub adjusted tree_size;
      Ret (mkTree (t_root t) (list_set (t_tail t) tail_index value) (t_head t)
             (t_height t) (t_len t)).

(** tree.rs 221-240 [push_tail_to_tree] *)
Definition push_tail_to_tree (t : tree) : tree :=
  match t_tail t with
  | [] => t
  | tl =>
      let new_root := push_leaf (t_root t) (Leaf tl) in
      mkTree new_root [] (t_head t) (calculate_height new_root) (t_len t)
  end.

(** tree.rs 206-215: the non-recursive part of [push_back] *)
Definition tree_push_back_tail (t : tree) (value : T) : tree :=
  mkTree (t_root t) (t_tail t ++ [value]) (t_head t) (t_height t) (t_len t + 1).

(** tree.rs 205-219 [push_back]; the recursive call always meets an empty
    tail, hence the non-recursive branch. *)
Definition tree_push_back (t : tree) (value : T) : tree :=
  if length (t_tail t) <? LEAF_CAPACITY then tree_push_back_tail t value
  else tree_push_back_tail (push_tail_to_tree t) value.

(** tree.rs 259-278 [push_head_to_tree] *)
Definition push_head_to_tree (t : tree) : tree :=
  match t_head t with
  | [] => t
  | hd =>
      let new_root := push_front_leaf (t_root t) (Leaf hd) in
      mkTree new_root (t_tail t) [] (calculate_height new_root) (t_len t)
  end.

(** tree.rs 243-253: the non-recursive part of [push_front] *)
Definition tree_push_front_head (t : tree) (value : T) : tree :=
  mkTree (t_root t) (t_tail t) (value :: t_head t) (t_height t) (t_len t + 1).

(** tree.rs 242-257 [push_front] *)
Definition tree_push_front (t : tree) (value : T) : tree :=
  if length (t_head t) <? LEAF_CAPACITY then tree_push_front_head t value
  else tree_push_front_head (push_head_to_tree t) value.

(** tree.rs 297-322 [concat_same_height] *)
Definition concat_same_height (a b : tree) : tree :=
  let left := match t_tail a with [] => a | _ => push_tail_to_tree a end in
  let right := match t_head b with [] => b | _ => push_head_to_tree b end in
  mkTree (concat_nodes (t_root left) (t_root right))
         (t_tail right) (t_head left)
         (Nat.max (t_height a) (t_height b))
         (t_len a + t_len b).

(** tree.rs 338-345: one pass of the loop of [elevate_tree] *)
Definition elevate_once (root : node) : node :=
  Branch [root] (Some [calculate_size root]).

(** tree.rs 334-354 [elevate_tree]; the loop runs [target - height] times *)
Definition elevate_tree (t : tree) (target_height : nat) : tree :=
  mkTree (Nat.iter (target_height - t_height t) elevate_once (t_root t))
         (t_tail t) (t_head t)
         (Nat.max (t_height t) target_height) (t_len t).

(** tree.rs 324-332 [concat_different_height] *)
Definition concat_different_height (a b : tree) (left_higher : bool) : tree :=
  if left_higher then concat_same_height a (elevate_tree b (t_height a))
  else concat_same_height (elevate_tree a (t_height b)) b.

(** tree.rs 280-295 [concat] (the receiver of [concat_different_height] is the
    taller tree in both cases, exactly as in the source) *)
Definition tree_concat (a b : tree) : tree :=
  if t_len a =? 0 then b
  else if t_len b =? 0 then a
  else if t_height a =? t_height b then concat_same_height a b
  else if t_height a <? t_height b then concat_different_height b a false
  else concat_different_height a b true.

(** tree.rs 459-496 [pop_from_tree] *)
Definition pop_from_tree (t : tree) : outcome (option (tree * T)) :=
  if t_len t =? 0 then Ret None
  else
    do tree_size <- usub (t_len t) (length (t_tail t));
    if tree_size =? 0 then Ret None
    else
      match node_get (t_root t) (tree_size - 1) with
      | None => Ret None
      | Some last_element =>
          do rh <- (if tree_size =? 1 then Ret (Leaf [], 0)
                    else
                      do o <- node_pop_back (t_root t);
                      match o with
                      | Some (new_root, _) => Ret (new_root, t_height t)
                      | None => Ret (t_root t, t_height t)
                      end);
          Ret (Some (mkTree (fst rh) (t_tail t) (t_head t) (snd rh) (t_len t - 1),
                     last_element))
      end.

(** tree.rs 436-457 [pop_back] *)
Definition tree_pop_back (t : tree) : outcome (option (tree * T)) :=
  if t_len t =? 0 then Ret None
  else
    match pop_last (t_tail t) with
    | Some (new_tail, popped) =>
        Ret (Some (mkTree (t_root t) new_tail (t_head t) (t_height t) (t_len t - 1), popped))
    | None => pop_from_tree t
    end.

(** tree.rs 538-559: the tail case of [pop_front_from_tree] *)
Definition pop_front_from_tail (t : tree) : option (tree * T) :=
  match pop_last (rev (t_tail t)) with
  | Some (new_head, popped) =>
      Some (mkTree (Leaf []) [] new_head 0 (t_len t - 1), popped)
  | None => None
  end.

(** tree.rs 521-560 [pop_front_from_tree] *)
Definition pop_front_from_tree (t : tree) : outcome (option (tree * T)) :=
  do s1 <- usub (t_len t) (length (t_head t));
  do tree_size <- usub s1 (length (t_tail t));
  do o <- (if 0 <? tree_size then node_pop_front (t_root t) else Ret None);
  match o with
  | Some (new_root, popped) =>
      Ret (Some (mkTree new_root (t_tail t) (t_head t) (t_height t) (t_len t - 1), popped))
  | None => Ret (pop_front_from_tail t)
  end.

(** tree.rs 498-519 [pop_front] *)
Definition tree_pop_front (t : tree) : outcome (option (tree * T)) :=
  if t_len t =? 0 then Ret None
  else
    match t_head t with
    | popped :: new_head =>
        Ret (Some (mkTree (t_root t) (t_tail t) new_head (t_height t) (t_len t - 1), popped))
    | [] => pop_front_from_tree t
    end.

(** tree.rs 789-799 [empty] *)
Definition tree_empty : tree := mkTree (Leaf []) [] [] 0 0.
(** tree.rs 801-811 [from_head] *)
Definition from_head (head : list T) : tree := mkTree (Leaf []) [] head 0 (length head).
(** tree.rs 813-823 [from_tail] *)
Definition from_tail (tail : list T) : tree := mkTree (Leaf []) tail [] 0 (length tail).
(** tree.rs 825-837 [from_head_and_tree_and_tail] *)
Definition from_head_and_tree_and_tail (head : list T) (root : node) (tail : list T)
  (height : nat) : tree :=
  mkTree root tail head height (length head + calculate_size root + length tail).
(** tree.rs 839-849 [from_head_and_root] *)
Definition from_head_and_root (head : list T) (root : node) : tree :=
  mkTree root [] head (calculate_height root) (length head + calculate_size root).
(** tree.rs 851-861 [from_root_and_tail] *)
Definition from_root_and_tail (root : node) (tail : list T) : tree :=
  mkTree root tail [] (calculate_height root) (calculate_size root + length tail).

(** tree.rs 609-612 [split_tree_at] *)
Definition split_tree_at (t : tree) (index : nat) : node * node :=
  split_along_path (t_root t) (find_path_to_index (t_height t) (t_root t) index)
    index (t_height t).

(** tree.rs 562-607 [split_at]; 863-877 [split_head_at], [split_tail_at] *)
Definition tree_split_at (t : tree) (index : nat) : outcome (tree * tree) :=
  if index =? 0 then Ret (tree_empty, t)
  else if t_len t <=? index then Ret (t, tree_empty)
  else if index <=? length (t_head t) then
    Ret (from_head (firstn index (t_head t)),
         from_head_and_tree_and_tail (skipn index (t_head t)) (t_root t) (t_tail t)
           (t_height t))
  else
    let tree_start := length (t_head t) in
    do s1 <- usub (t_len t) (length (t_head t));
    do tree_size <- usub s1 (length (t_tail t));
    if tree_start + tree_size <=? index then
      do i1 <- usub index tree_start;
      do tail_index <- usub i1 tree_size;
      Ret (from_head_and_tree_and_tail (t_head t) (t_root t)
             (firstn tail_index (t_tail t)) (t_height t),
           from_tail (skipn tail_index (t_tail t)))
    else
      do tree_index <- usub index tree_start;
      let '(left_root, right_root) := split_tree_at t tree_index in
      Ret (from_head_and_root (t_head t) left_root,
           from_root_and_tail right_root (t_tail t)).

End Tree.

(** core.rs 54-62 [enum VectorImpl] *)
Inductive vimpl (T : Type) : Type :=
| Inline (elements : list T)
| Tree (t : tree T).
Arguments Inline {T} elements.
Arguments Tree {T} t.

(** core.rs 43-48 [struct PersistentVector] *)
Record pvec (T : Type) : Type := mkPvec {
  inner : vimpl T;
  pv_len : nat;
  generation : nat
}.

Section Core.
Context {T : Type}.
Notation pvec := (pvec T).

(** core.rs 75-83 [new] *)
Definition pv_new : pvec := mkPvec (Inline []) 0 0.
(** core.rs 96-104 [unit] *)
Definition pv_unit (x : T) : pvec := mkPvec (Inline [x]) 1 0.
(** core.rs 133-135 [is_empty] *)
Definition pv_is_empty (v : pvec) : bool := pv_len v =? 0.

(** core.rs 986-1009 [from_iter]; 168-170 [from_slice]; 1019-1023 [From<Vec>] *)
Definition pv_from_iter (elements : list T) : pvec :=
  let len := length elements in
  if len <=? ADAPTIVE_INLINE_SIZE then mkPvec (Inline elements) len 0
  else mkPvec (Tree (from_elements elements)) len 0.

(** core.rs 204-213 [get] *)
Definition pv_get (v : pvec) (index : nat) : outcome (option T) :=
  if pv_len v <=? index then Ret None
  else match inner v with
       | Inline es => Ret (nth_error es index)
       | Tree t => tree_get t index
       end.

(** iter.rs 29-37 [next] (also 50-58): the yielded item and the new position *)
Definition iter_next (v : pvec) (position : nat) : outcome (option T * nat) :=
  if position <? pv_len v then
    do item <- pv_get v position;
    Ret (item, S position)
  else Ret (None, position).

(** iter.rs 39-42 [size_hint] (both components are this number) *)
Definition iter_size_hint (v : pvec) (position : nat) : outcome nat :=
  usub (pv_len v) position.

(** Consuming the iterator: every adaptor used in core.rs (collect, fold, map,
    ...) stops at the first [None] of [next]. *)
Fixpoint iter_collect (fuel : nat) (v : pvec) (position : nat) : outcome (list T) :=
  match fuel with
  | 0 => Ret []
  | S fuel' =>
      do np <- iter_next v position;
      match fst np with
      | None => Ret []
      | Some x => do rest <- iter_collect fuel' v (snd np); Ret (x :: rest)
      end
  end.

(** core.rs 148-153 [iter], 975-977 [to_vec], 1025-1050 conversions *)
Definition pv_iter (v : pvec) : outcome (list T) := iter_collect (S (pv_len v)) v 0.
Definition pv_to_vec (v : pvec) : outcome (list T) := pv_iter v.

(** core.rs 266-268 [first], 285-291 [last], 1052-1058 [Index] *)
Definition pv_first (v : pvec) : outcome (option T) := pv_get v 0.
Definition pv_last (v : pvec) : outcome (option T) :=
  if 0 <? pv_len v then pv_get v (pv_len v - 1) else Ret None.
Definition pv_index (v : pvec) (i : nat) : outcome T :=
  do o <- pv_get v i; match o with Some x => Ret x | None => Panic end.

(** core.rs 244-249 [try_get]; the error carries (index, len) *)
Definition pv_try_get (v : pvec) (i : nat) : outcome (T + nat * nat) :=
  do o <- pv_get v i;
  Ret (match o with Some x => inl x | None => inr (i, pv_len v) end).

(** core.rs 631-645 [transition_to_tree] *)
Definition transition_to_tree (v : pvec) : pvec :=
  match inner v with
  | Inline es => mkPvec (Tree (from_elements es)) (pv_len v) (generation v + 1)
  | Tree _ => v
  end.

(** core.rs 648-662 [tree_push_back] on a tree *)
Definition pv_tree_push_back (v : pvec) (t : tree T) (x : T) : pvec :=
  mkPvec (Tree (tree_push_back t x)) (pv_len v + 1) (generation v + 1).
(** core.rs 665-679 [tree_push_front] on a tree *)
Definition pv_tree_push_front (v : pvec) (t : tree T) (x : T) : pvec :=
  mkPvec (Tree (tree_push_front t x)) (pv_len v + 1) (generation v + 1).

(** core.rs 509-528 [push_back]; after [transition_to_tree] the recursive call
    takes the tree branch. *)
Definition pv_push_back (v : pvec) (x : T) : pvec :=
  match inner v with
  | Inline es =>
      if length es <? ADAPTIVE_INLINE_SIZE then
        mkPvec (Inline (es ++ [x])) (pv_len v + 1) (generation v + 1)
      else pv_tree_push_back (transition_to_tree v) (from_elements es) x
  | Tree t => pv_tree_push_back v t x
  end.

(** core.rs 541-561 [push_front] *)
Definition pv_push_front (v : pvec) (x : T) : pvec :=
  match inner v with
  | Inline es =>
      if length es <? ADAPTIVE_INLINE_SIZE then
        mkPvec (Inline (x :: es)) (pv_len v + 1) (generation v + 1)
      else pv_tree_push_front (transition_to_tree v) (from_elements es) x
  | Tree t => pv_tree_push_front v t x
  end.

(** core.rs 600-628 [update]; [new_elements[index]] panics out of range *)
Definition pv_update (v : pvec) (index : nat) (x : T) : outcome pvec :=
  if pv_len v <=? index then Ret v
  else match inner v with
       | Inline es =>
           if index <? length es then
             Ret (mkPvec (Inline (list_set es index x)) (pv_len v) (generation v + 1))
           else Panic
       | Tree t =>
           do t' <- tree_update t index x;
           Ret (mkPvec (Tree t') (pv_len v) (generation v + 1))
       end.

(** core.rs 576-584 [try_update] *)
Definition pv_try_update (v : pvec) (index : nat) (x : T) : outcome (pvec + nat * nat) :=
  if pv_len v <=? index then Ret (inr (index, pv_len v))
  else do v' <- pv_update v index x; Ret (inl v').

(** core.rs 1011-1017 [extend] *)
Definition pv_extend (v : pvec) (xs : list T) : pvec := fold_left pv_push_back xs v.

(** core.rs 693-734 [concat]; 737-742 [ensure_tree] *)
Definition pv_concat (a b : pvec) : pvec :=
  match inner a, inner b with
  | Inline l, Inline r => pv_from_iter (l ++ r)
  | Inline es, Tree t =>
      mkPvec (Tree (tree_concat (from_elements es) t)) (pv_len a + pv_len b) (generation a + 1)
  | Tree t, Inline es =>
      mkPvec (Tree (tree_concat t (from_elements es))) (pv_len a + pv_len b) (generation a + 1)
  | Tree s, Tree t =>
      mkPvec (Tree (tree_concat s t)) (pv_len a + pv_len b) (generation a + 1)
  end.

(** core.rs 758-795 [pop_back] *)
Definition pv_pop_back (v : pvec) : outcome (option (pvec * T)) :=
  if pv_is_empty v then Ret None
  else match inner v with
       | Inline es =>
           match pop_last es with
           | Some (es', x) =>
               Ret (Some (mkPvec (Inline es') (pv_len v - 1) (generation v + 1), x))
           | None => Ret None
           end
       | Tree t =>
           do o <- tree_pop_back t;
           Ret (match o with
                | Some (t', x) => Some (mkPvec (Tree t') (pv_len v - 1) (generation v + 1), x)
                | None => None
                end)
       end.

(** core.rs 811-847 [pop_front] *)
Definition pv_pop_front (v : pvec) : outcome (option (pvec * T)) :=
  if pv_is_empty v then Ret None
  else match inner v with
       | Inline es =>
           match es with
           | x :: es' =>
               Ret (Some (mkPvec (Inline es') (pv_len v - 1) (generation v + 1), x))
           | [] => Ret None
           end
       | Tree t =>
           do o <- tree_pop_front t;
           Ret (match o with
                | Some (t', x) => Some (mkPvec (Tree t') (pv_len v - 1) (generation v + 1), x)
                | None => None
                end)
       end.

(** core.rs 864-909 [split_at] *)
Definition pv_split_at (v : pvec) (index : nat) : outcome (pvec * pvec) :=
  if pv_len v <=? index then Ret (v, pv_new)
  else if index =? 0 then Ret (pv_new, v)
  else match inner v with
       | Inline es =>
           Ret (mkPvec (Inline (firstn index es)) index (generation v + 1),
                mkPvec (Inline (skipn index es)) (pv_len v - index) (generation v + 1))
       | Tree t =>
           do lr <- tree_split_at t index;
           Ret (mkPvec (Tree (fst lr)) index (generation v + 1),
                mkPvec (Tree (snd lr)) (pv_len v - index) (generation v + 1))
       end.

(** core.rs 922-928 [take], 941-947 [skip] *)
Definition pv_take (v : pvec) (n : nat) : outcome pvec :=
  if pv_len v <=? n then Ret v else omap fst (pv_split_at v n).
Definition pv_skip (v : pvec) (n : nat) : outcome pvec :=
  if pv_len v <=? n then Ret pv_new else omap snd (pv_split_at v n).

(** core.rs 949-959 [insert] *)
Definition pv_insert (v : pvec) (index : nat) (x : T) : outcome pvec :=
  if pv_len v <=? index then Ret (pv_push_back v x)
  else if index =? 0 then Ret (pv_push_front v x)
  else
    do lr <- pv_split_at v index;
    Ret (pv_concat (pv_push_back (fst lr) x) (snd lr)).

(** core.rs 961-973 [remove] *)
Definition pv_remove (v : pvec) (index : nat) : outcome (option pvec) :=
  if pv_len v <=? index then Ret None
  else if pv_len v =? 1 then Ret (Some pv_new)
  else
    do lr <- pv_split_at v index;
    do right_without_first <- pv_skip (snd lr) 1;
    Ret (Some (pv_concat (fst lr) right_without_first)).

(** core.rs 226-231 [filter] *)
Definition pv_filter (p : T -> bool) (v : pvec) : outcome pvec :=
  omap (fun l => pv_from_iter (filter p l)) (pv_iter v).

(** core.rs 389-394 [fold]; traits.rs 63-72 [fold_left] *)
Definition pv_fold {B} (f : B -> T -> B) (init : B) (v : pvec) : outcome B :=
  omap (fun l => fold_left f l init) (pv_iter v).

(** traits.rs 75-86 [fold_right]: indices from [len-1] down to 0; [i] counts
    the indices still to visit. *)
Fixpoint pv_fold_right_from {B} (i : nat) (f : T -> B -> B) (acc : B) (v : pvec) : outcome B :=
  match i with
  | 0 => Ret acc
  | S i' =>
      do o <- pv_get v i';
      pv_fold_right_from i' f (match o with Some x => f x acc | None => acc end) v
  end.
Definition pv_fold_right {B} (f : T -> B -> B) (init : B) (v : pvec) : outcome B :=
  pv_fold_right_from (pv_len v) f init v.

(** core.rs 341-356 [dedup]: loop state is (result, last) *)
Definition dedup_step (eqb : T -> T -> bool) (st : list T * option T) (item : T)
  : list T * option T :=
  let '(result, last) := st in
  let same := match last with Some l => eqb l item | None => false end in
  if same then (result, last) else (result ++ [item], Some item).
Definition pv_dedup (eqb : T -> T -> bool) (v : pvec) : outcome pvec :=
  omap (fun l => pv_from_iter (fst (fold_left (dedup_step eqb) l ([], None)))) (pv_iter v).

(** [slice::sort] (stable) used by core.rs 369-376, as insertion sort *)
Fixpoint insert_sorted (leb : T -> T -> bool) (x : T) (l : list T) : list T :=
  match l with
  | [] => [x]
  | y :: l' => if leb x y then x :: y :: l' else y :: insert_sorted leb x l'
  end.
Definition stable_sort (leb : T -> T -> bool) (l : list T) : list T :=
  fold_right (insert_sorted leb) [] l.
(** core.rs 369-376 [sorted] *)
Definition pv_sorted (leb : T -> T -> bool) (v : pvec) : outcome pvec :=
  omap (fun l => pv_from_iter (stable_sort leb l)) (pv_iter v).

(** core.rs 436-452 [partition]: loop state is (true_items, false_items) *)
Definition partition_step (p : T -> bool) (st : list T * list T) (item : T)
  : list T * list T :=
  if p item then (fst st ++ [item], snd st) else (fst st, snd st ++ [item]).
Definition pv_partition (p : T -> bool) (v : pvec) : outcome (pvec * pvec) :=
  omap (fun l => let '(a, b) := fold_left (partition_step p) l ([], []) in
                 (pv_from_iter a, pv_from_iter b)) (pv_iter v).

(** traits.rs 106-111 [Monoid::empty], 94-104 [combine] *)
Definition pv_empty : pvec := pv_new.
Definition pv_combine (a b : pvec) : pvec := pv_concat a b.

End Core.

(** core.rs 183-189 [map]; traits.rs 42-58 [fmap], [fmap_owned] *)
Definition pv_map {T U} (f : T -> U) (v : pvec T) : outcome (pvec U) :=
  omap (fun l => pv_from_iter (map f l)) (pv_iter v).
Definition pv_fmap {T U} (f : T -> U) (v : pvec T) : outcome (pvec U) := pv_map f v.

(** core.rs 304-309 [filter_map]: [Iterator::filter_map] *)
Fixpoint list_filter_map {T U} (f : T -> option U) (l : list T) : list U :=
  match l with
  | [] => []
  | x :: l' => match f x with
               | Some y => y :: list_filter_map f l'
               | None => list_filter_map f l'
               end
  end.
Definition pv_filter_map {T U} (f : T -> option U) (v : pvec T) : outcome (pvec U) :=
  omap (fun l => pv_from_iter (list_filter_map f l)) (pv_iter v).

(** core.rs 322-328 [flat_map] *)
Definition pv_flat_map {T U} (f : T -> list U) (v : pvec T) : outcome (pvec U) :=
  omap (fun l => pv_from_iter (flat_map f l)) (pv_iter v).

(** core.rs 410-419 [zip]: [Iterator::zip] asks the left iterator first and the right one only if that gave
    something; the positions of the two are always the same. *)
Fixpoint iter_zip {T U} (fuel : nat) (a : pvec T) (b : pvec U) (position : nat) : outcome (list (T * U)) :=
  match fuel with
  | 0 => Ret []
  | S fuel' =>
      do x <- iter_next a position;
      match fst x with
      | None => Ret []
      | Some x' =>
          do y <- iter_next b position;
          match fst y with
          | None => Ret []
          | Some y' => do rest <- iter_zip fuel' a b (S position); Ret ((x', y') :: rest)
          end
      end
  end.
Definition pv_zip {T U} (a : pvec T) (b : pvec U) : outcome (pvec (T * U)) :=
  omap (fun l => pv_from_iter l) (iter_zip (S (pv_len a)) a b 0).

(** core.rs 471-482 [chunk] *)
Definition pv_chunk {T} (v : pvec T) (size : nat) : outcome (pvec (pvec T)) :=
  if size =? 0 then Ret pv_new
  else omap (fun l => pv_from_iter (map pv_from_iter (chunks size l))) (pv_iter v).

(** ** Derived equality (core.rs 43, 54; node.rs 23; tree.rs 16: [derive(PartialEq)])
    All fields are compared; [Arc] compares the pointees, [SmallVec] the slices. *)
Definition list_eqb {A} (eqb : A -> A -> bool) : list A -> list A -> bool :=
  fix go (l1 l2 : list A) : bool :=
    match l1, l2 with
    | [], [] => true
    | x :: l1', y :: l2' => eqb x y && go l1' l2'
    | _, _ => false
    end.
Definition option_eqb {A} (eqb : A -> A -> bool) (o1 o2 : option A) : bool :=
  match o1, o2 with
  | None, None => true
  | Some x, Some y => eqb x y
  | _, _ => false
  end.

Section Eq.
Context {T : Type} (eqb : T -> T -> bool).

(** node.rs 23 *)
Fixpoint node_eqb (n1 n2 : node T) : bool :=
  match n1, n2 with
  | Leaf e1, Leaf e2 => list_eqb eqb e1 e2
  | Branch c1 s1, Branch c2 s2 =>
      list_eqb node_eqb c1 c2 && option_eqb (list_eqb Nat.eqb) s1 s2
  | _, _ => false
  end.
(** tree.rs 16-28 *)
Definition tree_eqb (t1 t2 : tree T) : bool :=
  node_eqb (t_root t1) (t_root t2) && list_eqb eqb (t_tail t1) (t_tail t2) &&
  list_eqb eqb (t_head t1) (t_head t2) && (t_height t1 =? t_height t2) &&
  (t_len t1 =? t_len t2).
(** core.rs 54-62 *)
Definition vimpl_eqb (i1 i2 : vimpl T) : bool :=
  match i1, i2 with
  | Inline e1, Inline e2 => list_eqb eqb e1 e2
  | Tree t1, Tree t2 => tree_eqb t1 t2
  | _, _ => false
  end.
(** core.rs 43-48 *)
Definition pv_eqb (v1 v2 : pvec T) : bool :=
  vimpl_eqb (inner v1) (inner v2) && (pv_len v1 =? pv_len v2) &&
  (generation v1 =? generation v2).
End Eq.

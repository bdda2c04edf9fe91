(** Model of the derived [Ord]/[PartialOrd] and [Hash] of [PersistentVector]
    (core.rs 43 and 54, tree.rs 16, node.rs 23: [derive(PartialOrd, Ord, Hash)]).
    Fields are compared in the order of their declaration, variants by position,
    [Arc] by pointee, [SmallVec] as a slice: lexicographically.  A derived hash
    feeds the hasher the variant, the length of each sequence and the fields; it
    is modelled by the list of what is fed.  Definitions only. *)
From Coq Require Import List Arith.
From Verif Require Import Base PvecModel.
Import ListNotations.

(** [Ordering::then] *)
Definition then_cmp (a b : comparison) : comparison := match a with Eq => b | _ => a end.
(** [Ord for [T]] *)
Definition list_cmp {A} (cmp : A -> A -> comparison) : list A -> list A -> comparison :=
  fix go (l1 l2 : list A) : comparison :=
    match l1, l2 with
    | [], [] => Eq
    | [], _ :: _ => Lt
    | _ :: _, [] => Gt
    | x :: l1', y :: l2' => then_cmp (cmp x y) (go l1' l2')
    end.
(** [Ord for Option] *)
Definition option_cmp {A} (cmp : A -> A -> comparison) (o1 o2 : option A) : comparison :=
  match o1, o2 with
  | None, None => Eq
  | None, Some _ => Lt
  | Some _, None => Gt
  | Some x, Some y => cmp x y
  end.

Section Ord.
Context {T : Type} (cmp : T -> T -> comparison).
(** node.rs 23-37: [Branch] comes first *)
Fixpoint node_cmp (n1 n2 : node T) : comparison :=
  match n1, n2 with
  | Branch c1 s1, Branch c2 s2 =>
      then_cmp (list_cmp node_cmp c1 c2) (option_cmp (list_cmp Nat.compare) s1 s2)
  | Branch _ _, Leaf _ => Lt
  | Leaf _, Branch _ _ => Gt
  | Leaf e1, Leaf e2 => list_cmp cmp e1 e2
  end.
(** tree.rs 16-28 *)
Definition tree_cmp (t1 t2 : tree T) : comparison :=
  then_cmp (node_cmp (t_root t1) (t_root t2))
  (then_cmp (list_cmp cmp (t_tail t1) (t_tail t2))
  (then_cmp (list_cmp cmp (t_head t1) (t_head t2))
  (then_cmp (Nat.compare (t_height t1) (t_height t2))
            (Nat.compare (t_len t1) (t_len t2))))).
(** core.rs 54-62: [Inline] comes first *)
Definition vimpl_cmp (i1 i2 : vimpl T) : comparison :=
  match i1, i2 with
  | Inline e1, Inline e2 => list_cmp cmp e1 e2
  | Inline _, Tree _ => Lt
  | Tree _, Inline _ => Gt
  | Tree t1, Tree t2 => tree_cmp t1 t2
  end.
(** core.rs 43-48 *)
Definition pv_cmp (v1 v2 : pvec T) : comparison :=
  then_cmp (vimpl_cmp (inner v1) (inner v2))
  (then_cmp (Nat.compare (pv_len v1) (pv_len v2))
            (Nat.compare (generation v1) (generation v2))).
End Ord.

Section Hash.
Context {T : Type} (hash : T -> list nat).
(** [Hash for [T]]: the length, then the elements *)
Definition list_hash {A} (h : A -> list nat) : list A -> list nat :=
  fun l => length l :: (fix go (l : list A) := match l with [] => [] | x :: l' => h x ++ go l' end) l.
Definition option_hash {A} (h : A -> list nat) (o : option A) : list nat :=
  match o with None => [0] | Some x => 1 :: h x end.
Fixpoint node_hash (n : node T) : list nat :=
  match n with
  | Branch cs sizes => 0 :: list_hash node_hash cs ++ option_hash (list_hash (fun k => [k])) sizes
  | Leaf es => 1 :: list_hash hash es
  end.
Definition tree_hash (t : tree T) : list nat :=
  node_hash (t_root t) ++ list_hash hash (t_tail t) ++ list_hash hash (t_head t) ++ [t_height t; t_len t].
Definition vimpl_hash (i : vimpl T) : list nat :=
  match i with Inline es => 0 :: list_hash hash es | Tree t => 1 :: tree_hash t end.
Definition pv_hash (v : pvec T) : list nat := vimpl_hash (inner v) ++ [pv_len v; generation v].
End Hash.

(** Who keeps a stored closure alive.  A suspended computation is a handle on a cell ([Arc<dyn Fn>], [Rc<dyn Fn>]) that
    holds the number of handles on it and what its closure has captured: closures handed in by the caller, numbered by
    the caller, and handles on other cells.  The same functions as in [EffModel], [IOModel], [ArrowModel] and
    [DepthModel], seen only in what they store, clone and drop.  Captured plain values are left out (they are released
    with their closure).  Definitions only. *)
From Coq Require Import List.
Import ListNotations.

Inductive item := Given (k : nat) | Held (i : nat).
Definition cell : Type := nat * list item.
Definition heap : Type := list cell.
Definition look (h : heap) (i : nat) : cell := nth i h (0, []).
Fixpoint put (h : heap) (i : nat) (c : cell) : heap :=
  match h, i with
  | [], _ => []
  | _ :: t, 0 => c :: t
  | x :: t, S j => x :: put t j c
  end.

(** [Arc::new], [Rc::new]: state_t.rs 153-158, reader_t.rs 270-278, cont_t.rs 74-83, io.rs 627-632, predicate.rs 136-141 *)
Definition arc_new (captured : list item) (h : heap) : heap * nat := (h ++ [(1, captured)], length h).
(** [Arc::clone]: state_t.rs 111-117, reader_t.rs 228-233, cont_t.rs 41, io.rs 1477-1484, predicate.rs 105 *)
Definition arc_clone (i : nat) (h : heap) : heap := let '(n, its) := look h i in put h i (S n, its).

(** What happens while a handle is dropped: a closure of the caller is released, or a cell is freed and, before that call
    returns, what it captured is dropped. *)
Inductive ev := Released (k : nat) | Freed (i : nat) (inside : list ev).
Fixpoint drop_items (drop : nat -> heap -> heap * list ev) (its : list item) (h : heap) : heap * list ev :=
  match its with
  | [] => (h, [])
  | Given k :: r => let '(h', es) := drop_items drop r h in (h', Released k :: es)
  | Held j :: r => let '(h1, e1) := drop j h in let '(h2, e2) := drop_items drop r h1 in (h2, e1 ++ e2)
  end.
(** The last handle frees the cell.  [fuel] only makes the recursion structural: a cell holds handles on older cells. *)
Fixpoint arc_drop (fuel i : nat) (h : heap) : heap * list ev :=
  match fuel with
  | 0 => (h, [])
  | S fuel' =>
      match look h i with
      | (0, _) => (h, [])
      | (1, its) => let '(h', es) := drop_items (arc_drop fuel') its (put h i (0, [])) in (h', [Freed i es])
      | (S n, its) => (put h i (n, its), [])
      end
  end.
Definition drop_handle (i : nat) (h : heap) : heap * list ev := arc_drop (S i) i h.

(** ** By value: the closure of the result takes over the handle.
    state.rs 379-386 [new]; 596-605 [fmap]; 708-717 [bind]; 827-838 [apply]; reader.rs 250-257, io.rs 627-632 and
    predicate.rs 136-141 [new] *)
Definition sh_new (k : nat) (h : heap) : heap * nat := arc_new [Given k] h.
Definition sh_state_fmap (x k : nat) (h : heap) : heap * nat := arc_new [Held x; Given k] h.
Definition sh_state_bind (x k : nat) (h : heap) : heap * nat := arc_new [Held x; Given k] h.
Definition sh_state_apply (x other : nat) (h : heap) : heap * nat := arc_new [Held x; Held other] h.
(** cont_t.rs 172-188 [bind], 213-226 [fmap] (cont.rs 540-548, 431-439): the function gets a cell of its own *)
Definition sh_cont_bind (x k : nat) (h : heap) : heap * nat :=
  let '(h1, f) := arc_new [Given k] h in arc_new [Held x; Held f] h1.
Definition sh_cont_fmap (x k : nat) (h : heap) : heap * nat :=
  let '(h1, f) := arc_new [Given k] h in arc_new [Held x; Held f] h1.

(** ** By reference: the handle is cloned.
    reader.rs 304-319 [fmap]; 342-358 [bind]; 520-529 [local]; 563-581 [combine] *)
Definition sh_reader_fmap (x k : nat) (h : heap) : heap * nat := arc_new [Held x; Given k] (arc_clone x h).
Definition sh_reader_bind (x k : nat) (h : heap) : heap * nat := arc_new [Held x; Given k] (arc_clone x h).
Definition sh_reader_local (x k : nat) (h : heap) : heap * nat := arc_new [Held x; Given k] (arc_clone x h).
Definition sh_reader_combine (x other k : nat) (h : heap) : heap * nat :=
  arc_new [Held x; Held other; Given k] (arc_clone other (arc_clone x h)).
(** predicate.rs 206-215 [union], 251-260 [intersection], 295-304 [diff]; 332-340 [negate] *)
Definition sh_pred_binary (f1 f2 : nat) (h : heap) : heap * nat :=
  arc_new [Held f1; Held f2] (arc_clone f2 (arc_clone f1 h)).
Definition sh_pred_negate (f : nat) (h : heap) : heap * nat := arc_new [Held f] (arc_clone f h).
(** function_category.rs 153-164 [compose_morphisms] *)
Definition sh_compose (g f : nat) (h : heap) : heap * nat := arc_new [Held f; Held g] (arc_clone g (arc_clone f h)).

(** ** IO: [None] is [IO::Pure], which stores no closure.  io.rs 821-831 [fmap]: on [Pure] the function is called and
    dropped at once; 888-898 [bind] on [Effect] (on [Pure] it is the call of the function); 1467-1473 [sequence] *)
Definition sh_io_fmap (x : option nat) (k : nat) (h : heap) : heap * option nat * list ev :=
  match x with
  | None => (h, None, [Released k])
  | Some effect => let '(h', i) := arc_new [Held effect; Given k] (arc_clone effect h) in (h', Some i, [])
  end.
Definition sh_io_bind (effect k : nat) (h : heap) : heap * nat := arc_new [Held effect; Given k] (arc_clone effect h).
Definition sh_io_sequence (ios : list (option nat)) (h : heap) : heap * nat :=
  arc_new (flat_map (fun x => match x with Some i => [Held i] | None => [] end) ios) h.

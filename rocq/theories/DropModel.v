(** Ownership trace of [ReaderT::bind] (src/transformers/reader_t.rs 941-963) and of
    [ReaderT::bind_with] (668-692).

    A value owning a resource is named by a [nat]; running code yields the list
    of resource events.  What the user's function does with the value it is
    given is a parameter: safe Rust code can only drop it, keep it in what it
    returns, or forget it.  The base monad calls the closure once per element
    it holds ([sources]); clones get fresh names counted from [next]. *)
From Coq Require Import List.
Import ListNotations.

Inductive event := EClone (source copy : nat) | EDrop (id : nat) | EUse (id : nat).

(** What the user's [f] (and the reader it returns) does with its argument. *)
Inductive fate := Dropped | Kept | Forgotten.

(** Events while [f] runs: it looks at its argument, then drops it or not. *)
Definition consume (ft : fate) (id : nat) : list event :=
  EUse id :: match ft with Dropped => [EDrop id] | _ => [] end.
(** Events when the result of [f] is finally dropped by its owner. *)
Definition result_drop (ft : fate) (id : nat) : list event :=
  match ft with Kept => [EDrop id] | _ => [] end.

(** reader_t.rs 955-961: [a_owned] is a clone; [transmute_copy] makes [a_value] a second
    owner of the same resource; [a_value] is passed to [f]; [a_owned] is dropped
    at the end of the closure.  [needs_drop] is whether the element type owns
    anything. *)
Definition bind_closure (needs_drop : bool) (f : nat -> fate) (next source : nat) : list event :=
  if needs_drop
  then [EClone source next] ++ consume (f source) next ++ [EDrop next]
  else [].

(** The whole run: one closure call per element, then the owner drops the
    results, then the elements themselves. *)
Fixpoint closures (nd : bool) (f : nat -> fate) (next : nat) (sources : list nat) : list event :=
  match sources with
  | [] => []
  | s :: r => bind_closure nd f next s ++ closures nd f (S next) r
  end.
Fixpoint results (nd : bool) (f : nat -> fate) (next : nat) (sources : list nat) : list event :=
  match sources with
  | [] => []
  | s :: r => (if nd then result_drop (f s) next else []) ++ results nd f (S next) r
  end.
Definition source_drops (nd : bool) (sources : list nat) : list event := if nd then map EDrop sources else [].
Definition run_bind (nd : bool) (f : nat -> fate) (next : nat) (sources : list nat) : list event :=
  closures nd f next sources ++ source_drops nd sources ++ results nd f next sources.

(** reader_t.rs 668-692 [bind_with]: the element is moved into [f]; nothing is duplicated. *)
Definition bind_with_closure (nd : bool) (f : nat -> fate) (source : nat) : list event :=
  if nd then consume (f source) source else [].
Definition run_bind_with (nd : bool) (f : nat -> fate) (sources : list nat) : list event :=
  flat_map (bind_with_closure nd f) sources ++
  flat_map (fun s => if nd then result_drop (f s) s else []) sources.

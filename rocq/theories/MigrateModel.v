(** Model of what the documentation tells users to write in place of the deprecated
    operations: the patterns of MIGRATION_v0.11.0.md and of
    examples/choice_migration_v0_11_0.rs, and the notes on the [#[deprecated]]
    attributes.  The deprecated operations themselves are in the other model files.
    Definitions only. *)
From Coq Require Import List Arith Bool.
From Verif Require Import Base PvecModel ChoiceModel.
Import ListNotations.
Open Scope outcome_scope.
Set Implicit Arguments.

(** [HashSet::insert]: whether the key was new, and the set afterwards; a set is the list of
    its keys *)
Definition set_insert {K} (keq : K -> K -> bool) (k : K) (seen : list K) : bool * list K :=
  if existsb (keq k) seen then (false, seen) else (true, k :: seen).
(** [Iterator::filter] with a closure that changes a captured variable: asked once for each
    element, in order *)
Fixpoint filter_mut {S T} (p : T -> S -> bool * S) (s : S) (l : list T) : list T :=
  match l with
  | [] => []
  | x :: l' => let '(keep, s') := p x s in if keep then x :: filter_mut p s' l' else filter_mut p s' l'
  end.
(** [HashMap::entry(k).or_insert(v)]: a map is the list of its entries *)
Definition entry_or_insert {K V} (keq : K -> K -> bool) (m : list (K * V)) (k : K) (v : V) : list (K * V) :=
  if existsb (fun kv => keq k (fst kv)) m then m else m ++ [(k, v)].
(** [HashMap::insert]: an entry already there keeps its key and takes the new value *)
Definition map_insert {K V} (keq : K -> K -> bool) (m : list (K * V)) (k : K) (v : V) : list (K * V) :=
  if existsb (fun kv => keq k (fst kv)) m
  then map (fun kv => if keq k (fst kv) then (fst kv, v) else kv) m
  else m ++ [(k, v)].
(** [HashMap::get] *)
Definition map_get {K V} (keq : K -> K -> bool) (k : K) (m : list (K * V)) : option V :=
  option_map snd (find (fun kv => keq k (fst kv)) m).

Section Choice_.
Context {T : Type}.

(** choice.rs 342-345, the note on [has_alternatives]: "Use `alternatives().is_empty()` instead" *)
Definition note_has_alternatives (c : choice T) : bool :=
  match ch_alternatives c with [] => true | _ :: _ => false end.
(** MIGRATION_v0.11.0.md 638; choice_migration_v0_11_0.rs 54-58: [!choice.alternatives().is_empty()] *)
Definition rp_has_alternatives (c : choice T) : bool := negb (note_has_alternatives c).
(** choice_migration_v0_11_0.rs 63-64: [choice.iter().cloned().collect()] into a [Vec] *)
Definition rp_to_vec (c : choice T) : list T := map (fun x => x) (ch_iter c).
(** choice_migration_v0_11_0.rs 73-74: [choice.iter().find(..)] *)
Definition rp_find_first (p : T -> bool) (c : choice T) : option T := find p (ch_iter c).
(** choice_migration_v0_11_0.rs 81-87: [choice.alternatives().iter()] *)
Definition rp_iter_alternatives (c : choice T) : list T := ch_alternatives c.
(** choice_migration_v0_11_0.rs 102-110: [Choice::from_iter(choice.iter().filter(|&x| seen.insert(x)).cloned())] *)
Definition rp_dedup (teq : T -> T -> bool) (c : choice T) : choice T :=
  ch_from_iter (filter_mut (fun x seen => set_insert teq x seen) [] (ch_iter c)).
(** choice_migration_v0_11_0.rs 112-120: the same with [seen.insert(key(x))] *)
Definition rp_dedup_by_key {K} (keq : K -> K -> bool) (key : T -> K) (c : choice T) : choice T :=
  ch_from_iter (filter_mut (fun x seen => set_insert keq (key x) seen) [] (ch_iter c)).
(** choice_migration_v0_11_0.rs 128-130: [Foldable::fold_left] *)
Definition rp_fold {B} (initial : B) (f : B -> T -> B) (c : choice T) : B := ch_fold_left initial f c.
(** choice_migration_v0_11_0.rs 136-140: [iter().fold(HashMap::new(), ..entry(key).or_insert(x)..)] *)
Definition rp_to_map {K} (keq : K -> K -> bool) (key : T -> K) (c : choice T) : list (K * T) :=
  fold_left (fun acc x => entry_or_insert keq acc (key x) x) (ch_iter c) [].
(** choice.rs 505-508, the note on [to_map_with_key]: "Use `iter().map().collect()` patterns instead";
    collecting pairs into a [HashMap] inserts them one after the other *)
Definition note_to_map {K} (keq : K -> K -> bool) (key : T -> K) (c : choice T) : list (K * T) :=
  fold_left (fun acc kv => map_insert keq acc (fst kv) (snd kv)) (map (fun x => (key x, x)) (ch_iter c)) [].
(** choice_migration_v0_11_0.rs 146-147: [choice.combine(&Choice::new(y, ys))] *)
Definition rp_add_alternatives (c : choice T) (y : T) (ys : list T) : choice T := ch_combine c (ch_new y ys).
(** The same for any number of items: [choice.combine(&Choice::of_many(items))] (choice.rs 524-527:
    "Use Semigroup::combine()") *)
Definition rp_add_many (c : choice T) (items : list T) : choice T := ch_combine c (ch_of_many items).
(** choice_migration_v0_11_0.rs 166-168, 290-292; choice.rs 635-638: [filter_values(|x| *x != v)],
    [v] being the value to be removed *)
Definition rp_remove_value (teq : T -> T -> bool) (v : T) (c : choice T) : choice T :=
  ch_filter_values (fun x => negb (teq x v)) c.
(** choice_migration_v0_11_0.rs 170-177:
    [from_iter(iter().enumerate().filter(|(i, _)| *i != position).map(|(_, &x)| x))] *)
Definition rp_remove_position (position : nat) (c : choice T) : choice T :=
  ch_from_iter (map snd (filter (fun ix => negb (fst ix =? position)) (enumerate (ch_iter c)))).
(** choice_migration_v0_11_0.rs 187-193, 297-301: "promote an alternative to primary" by writing the
    choice out: the promoted alternative, the old primary, the other alternatives in their order.
    The documentation writes out numbers; this is the construction for any choice and index. *)
Definition rp_promote (c : choice T) (i : nat) : option (choice T) :=
  match ch_first c, nth_error (ch_alternatives c) i with
  | Some primary, Some x =>
      Some (ch_new x (primary :: firstn i (ch_alternatives c) ++ skipn (S i) (ch_alternatives c)))
  | _, _ => None
  end.
(** choice_migration_v0_11_0.rs 207-212, 270-271; choice.rs 657-660: [filter_values] for [filter] *)
Definition rp_filter (p : T -> bool) (c : choice T) : choice T := ch_filter_values p c.
(** choice_migration_v0_11_0.rs 217-218; choice.rs 679-682: [fmap(|&x| if cond(x) { f(x) } else { x })] *)
Definition rp_fmap_alternatives (cond : T -> bool) (f : T -> T) (c : choice T) : choice T :=
  ch_fmap (fun x => if cond x then f x else x) c.
End Choice_.

(** choice_migration_v0_11_0.rs 225-232, 311-317; choice.rs 860-863: [flatten()], then [sort] of all
    elements (a stable sort), then [Choice::from_iter] *)
Definition rp_flatten_sorted {I} (leb : I -> I -> bool) (c : choice (list I)) : outcome (choice I) :=
  do flattened <- ch_flatten c;
  Ret (ch_from_iter (stable_sort leb (ch_iter flattened))).
(** choice_migration_v0_11_0.rs 241-243: [bind], read by iteration *)
Definition rp_bind_eager {T U} (c : choice T) (f : T -> choice U) : list U := ch_iter (ch_bind c f).
(** choice_migration_v0_11_0.rs 244-252: [choice.iter().flat_map(|x| f(x).into_iter())] *)
Definition rp_bind_lazy {T U} (c : choice T) (f : T -> choice U) : list U :=
  flat_map (fun x => values (f x)) (ch_iter c).

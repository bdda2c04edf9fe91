(** Model of the [Semigroup] and [Monoid] helpers and standard-type instances
    ([/repo/src/traits/semigroup.rs], [/repo/src/traits/monoid.rs]) and of the
    [Foldable] default methods and instances ([/repo/src/traits/foldable.rs]).
    Definitions only.  [combine] and [combine_owned] of the element type are two
    separate operations; cloning is the identity. *)
From Coq Require Import List Arith Bool String.
From Verif Require Import Base Types.
Import ListNotations.
Open Scope list_scope.

(** ** SemigroupExt, semigroup.rs 155-243 *)
Section Semigroup.
Context {M : Type} (combine combine_owned : M -> M -> M) (empty : M).
(** semigroup.rs 181-187; also [combine_values] 547-555; 251-256 the adapter forwards to it *)
Definition sg_combine_all (self : M) (others : list M) : M :=
  fold_left (fun acc x => combine_owned acc x) others self.
(** semigroup.rs 202-210 *)
Definition sg_combine_all_owned (vals : list M) : outcome M :=
  match vals with
  | [] => Panic
  | first :: iter => Ret (fold_left (fun acc x => combine_owned acc x) iter first)
  end.
(** A [for _ in 1..n] loop; [k] rounds *)
Fixpoint repeat_loop (k : nat) (step : M -> M) (acc : M) : M :=
  match k with 0 => acc | S k' => repeat_loop k' step (step acc) end.
(** semigroup.rs 214-226; 267-272 the adapter forwards to it *)
Definition sg_combine_n (self : M) (n : nat) : M :=
  if n =? 0 then self
  else repeat_loop (n - 1) (fun acc => combine acc self) self.
(** semigroup.rs 230-242; 259-264 the adapter forwards to it *)
Definition sg_combine_n_owned (self : M) (n : nat) : M :=
  if n =? 0 then self
  else repeat_loop (n - 1) (fun acc => combine_owned acc acc) self.
(** semigroup.rs 508-516 *)
Definition sg_combine_all_values (values : list M) : option M :=
  match values with
  | [] => None
  | first :: iter => Some (fold_left (fun acc x => combine_owned acc x) iter first)
  end.
(** semigroup.rs 547-555 *)
Definition sg_combine_values (initial : M) (values : list M) : M :=
  fold_left (fun acc x => combine_owned acc x) values initial.
(** monoid.rs 187-197 *)
Definition mo_combine_all (values : list M) : M :=
  match values with
  | first :: iter => fold_left (fun acc x => combine_owned acc x) iter first
  | [] => empty
  end.
(** monoid.rs 221-226 *)
Definition mo_is_empty (eqb : M -> M -> bool) (self : M) : bool := eqb self empty.
(** monoid.rs 267-285 *)
Definition mo_repeat (value : M) (n : nat) : M :=
  if n =? 0 then empty
  else if n =? 1 then value
  else repeat_loop (n - 1) (fun result => combine_owned result value) value.
(** monoid.rs 325-338 *)
Definition mo_mconcat (values : list M) : M :=
  match values with
  | [] => empty
  | v0 :: rest => fold_left (fun result value => combine result value) rest v0
  end.
(** monoid.rs 378-387 *)
Definition mo_power (value : M) (exponent : nat) : M :=
  match exponent with
  | 0 => empty
  | 1 => value
  | _ => mo_repeat value exponent
  end.
End Semigroup.

(** ** Instances, semigroup.rs *)
(** semigroup.rs 277-287 [String] *)
Definition string_combine (a b : string) : string := (a ++ b)%string.
(** semigroup.rs 289-303 [Vec]: [extend] pushes one element at a time *)
Definition vec_combine {T} (self other : list T) : list T := fold_left (fun result x => result ++ [x]) other self.
(** semigroup.rs 400-452 tuples *)
Definition pair_combine {A B} (ca : A -> A -> A) (cb : B -> B -> B) (x y : A * B) : A * B :=
  (ca (fst x) (fst y), cb (snd x) (snd y)).
Definition triple_combine {A B C} (ca : A -> A -> A) (cb : B -> B -> B) (cc : C -> C -> C) (x y : A * B * C) : A * B * C :=
  let '(a, b, c) := x in let '(a', b', c') := y in (ca a a', cb b b', cc c c').
Definition quad_combine {A B C D} (ca : A -> A -> A) (cb : B -> B -> B) (cc : C -> C -> C) (cd : D -> D -> D)
    (x y : A * B * C * D) : A * B * C * D :=
  let '(a, b, c, d) := x in let '(a', b', c', d') := y in (ca a a', cb b b', cc c c', cd d d').
(** semigroup.rs 456-476 [Option] *)
Definition option_combine {T} (combine : T -> T -> T) (a b : option T) : option T :=
  match a, b with
  | Some x, Some y => Some (combine x y)
  | Some x, None => Some x
  | None, Some y => Some y
  | None, None => None
  end.

(** [HashMap<K, V>]: the entries in iteration order, which is unspecified;
    no key occurs twice. *)
Section HashMap.
Context {K V : Type} (keq : K -> K -> bool).
Fixpoint hm_get (m : list (K * V)) (k : K) : option V :=
  match m with [] => None | (k', v) :: m' => if keq k' k then Some v else hm_get m' k end.
(** [*get_mut(k) = f(old)] *)
Fixpoint hm_update (f : V -> V) (m : list (K * V)) (k : K) : list (K * V) :=
  match m with
  | [] => []
  | (k', v) :: m' => if keq k' k then (k', f v) :: m' else (k', v) :: hm_update f m' k
  end.
(** semigroup.rs 310-313: [entry(k).and_modify(..).or_insert(v)] *)
Definition hm_entry (combine : V -> V -> V) (m : list (K * V)) (kv : K * V) : list (K * V) :=
  match hm_get m (fst kv) with
  | Some _ => hm_update (fun e => combine e (snd kv)) m (fst kv)
  | None => m ++ [kv]
  end.
(** semigroup.rs 307-316 *)
Definition hm_combine (combine : V -> V -> V) (self other : list (K * V)) : list (K * V) :=
  fold_left (hm_entry combine) other self.
(** semigroup.rs 319-333 *)
Definition hm_combine_owned (combine_owned : V -> V -> V) (self other : list (K * V)) : list (K * V) :=
  fold_left (fun result kv =>
    match hm_get result (fst kv) with
    | Some existing => let combined := combine_owned existing (snd kv) in
                       hm_update (fun _ => combined) result (fst kv)
    | None => result ++ [kv]
    end) other self.
(** [HashSet::insert]; 336-349: [extend] inserts one element at a time *)
Definition hs_insert (m : list K) (k : K) : list K := if existsb (fun k' => keq k' k) m then m else m ++ [k].
Definition hs_combine (self other : list K) : list K := fold_left hs_insert other self.
End HashMap.

(** [BTreeMap<K, V>]: the entries in increasing key order. *)
Section BTreeMap.
Context {K V : Type} (cmp : K -> K -> comparison).
Fixpoint bt_get (m : list (K * V)) (k : K) : option V :=
  match m with
  | [] => None
  | (k', v) :: m' => match cmp k k' with Lt => None | Eq => Some v | Gt => bt_get m' k end
  end.
(** [insert] of a new key, or replacing the value of an old one *)
Fixpoint bt_insert (m : list (K * V)) (k : K) (v : V) : list (K * V) :=
  match m with
  | [] => [(k, v)]
  | (k', v') :: m' =>
      match cmp k k' with
      | Lt => (k, v) :: (k', v') :: m'
      | Eq => (k', v) :: m'
      | Gt => (k', v') :: bt_insert m' k v
      end
  end.
(** semigroup.rs 353-362 *)
Definition bt_combine (combine : V -> V -> V) (self other : list (K * V)) : list (K * V) :=
  fold_left (fun result kv =>
    match bt_get result (fst kv) with
    | Some e => bt_insert result (fst kv) (combine e (snd kv))
    | None => bt_insert result (fst kv) (snd kv)
    end) other self.
(** semigroup.rs 365-379 *)
Definition bt_combine_owned (combine_owned : V -> V -> V) (self other : list (K * V)) : list (K * V) :=
  fold_left (fun result kv =>
    match bt_get result (fst kv) with
    | Some existing => let combined := combine_owned existing (snd kv) in bt_insert result (fst kv) combined
    | None => bt_insert result (fst kv) (snd kv)
    end) other self.
(** semigroup.rs 382-396 [BTreeSet] *)
Fixpoint bs_insert (m : list K) (k : K) : list K :=
  match m with
  | [] => [k]
  | k' :: m' => match cmp k k' with Lt => k :: k' :: m' | Eq => k' :: m' | Gt => k' :: bs_insert m' k end
  end.
Definition bs_combine (self other : list K) : list K := fold_left bs_insert other self.
End BTreeMap.

(** ** Foldable, foldable.rs 108-686; a container is given by its [fold_left] *)
Section Foldable.
Context {A : Type} (fold_left : forall U, U -> (U -> A -> U) -> U).
(** foldable.rs 232-237 *)
Definition fo_fold_map {M} (combine : M -> M -> M) (empty : M) (f : A -> M) : M :=
  fold_left M empty (fun acc x => combine acc (f x)).
(** foldable.rs 284-289; [into] is [Into<M>] *)
Definition fo_fold_monoid {M} (combine : M -> M -> M) (empty : M) (into : A -> M) : M :=
  fold_left M empty (fun acc x => combine acc (into x)).
(** foldable.rs 300-308 *)
Definition fo_length : nat := fold_left nat 0 (fun acc _ => acc + 1).
Definition fo_is_empty : bool := fo_length =? 0.
(** foldable.rs 339-353 *)
Definition fo_find (pred : A -> bool) : option A :=
  fold_left (option A) None (fun acc x =>
    match acc with Some _ => acc | None => if pred x then Some x else None end).
(** foldable.rs 380-385, 412-417, 439-444 *)
Definition fo_all (pred : A -> bool) : bool := fold_left bool true (fun acc x => acc && pred x).
Definition fo_any (pred : A -> bool) : bool := fold_left bool false (fun acc x => acc || pred x).
Definition fo_contains (eqb : A -> A -> bool) (value : A) : bool := fo_any (fun x => eqb x value).
(** foldable.rs 463-472 *)
Definition fo_fold_option {B} (combine : B -> B -> B) (empty : B) (f : A -> option B) : option B :=
  fold_left (option B) (Some empty) (fun acc x =>
    match acc, f x with Some a, Some b => Some (combine a b) | _, _ => None end).
(** foldable.rs 492-507; [le] is [<=] of [Ord] *)
Definition fo_is_sorted (cmp : A -> A -> comparison) : bool :=
  fst (fold_left (bool * option A)%type (true, None) (fun '(is_sorted, prev) curr =>
    if negb is_sorted then (false, Some curr)
    else match prev with
         | None => (true, Some curr)
         | Some p => (match cmp p curr with Gt => false | _ => true end, Some curr)
         end)).
(** foldable.rs 529-538 *)
Definition fo_to_vec : list A := fold_left (list A) [] (fun acc x => acc ++ [x]).
(** foldable.rs 555-582 *)
Definition fo_sum_values (add : A -> A -> A) (default : A) : A := fold_left A default (fun acc x => add acc x).
Definition fo_product_values (mul : A -> A -> A) (from1 : A) : A := fold_left A from1 (fun acc x => mul acc x).
(** foldable.rs 602-614, 634-646 *)
Definition fo_maximum (cmp : A -> A -> comparison) : option A :=
  fold_left (option A) None (fun max x =>
    match max with
    | None => Some x
    | Some current_max => Some (match cmp x current_max with Gt => x | _ => current_max end)
    end).
Definition fo_minimum (cmp : A -> A -> comparison) : option A :=
  fold_left (option A) None (fun min x =>
    match min with
    | None => Some x
    | Some current_min => Some (match cmp x current_min with Lt => x | _ => current_min end)
    end).
(** foldable.rs 676-685 *)
Definition fo_reduce (f : A -> A -> A) : option A :=
  fold_left (option A) None (fun acc x => match acc with None => Some x | Some a => Some (f a x) end).
End Foldable.
(** foldable.rs 692-716 [Vec]: a loop, forwards or backwards *)
Fixpoint vec_loop {A U} (items : list A) (acc : U) (f : U -> A -> U) : U :=
  match items with [] => acc | item :: items' => vec_loop items' (f acc item) f end.
Definition vec_fold_left {A} (self : list A) U (init : U) (f : U -> A -> U) : U := vec_loop self init f.
Definition vec_fold_right {A} (self : list A) U (init : U) (f : A -> U -> U) : U :=
  vec_loop (rev self) init (fun acc item => f item acc).
(** foldable.rs 719-741 [Option] *)
Definition option_fold_left {A} (self : option A) U (init : U) (f : U -> A -> U) : U :=
  match self with Some a => f init a | None => init end.
Definition option_fold_right {A} (self : option A) U (init : U) (f : A -> U -> U) : U :=
  match self with Some a => f a init | None => init end.
(** foldable.rs 744-766 [Result] *)
Definition result_fold_left {A E} (self : result A E) U (init : U) (f : U -> A -> U) : U :=
  match self with Ok a => f init a | Err _ => init end.
Definition result_fold_right {A E} (self : result A E) U (init : U) (f : A -> U -> U) : U :=
  match self with Ok a => f a init | Err _ => init end.

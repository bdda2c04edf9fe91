(** Model of [Choice<T>] ([/repo/src/datatypes/choice.rs]).
    Definitions only.  [SmallVec]/[Vec] are lists, capacities are dropped,
    cloning is the identity, closures are Gallina functions (so [FnMut]
    closures are taken to be stateless). *)
From Coq Require Import List Arith Bool.
From Verif Require Import Base PvecModel.
Import ListNotations.
Open Scope outcome_scope.
Set Implicit Arguments.

(** choice.rs 197-199 *)
Record choice (T : Type) : Type := mkChoice { values : list T }.
Arguments mkChoice {T} values.
Arguments values {T} c.

(** [Iterator::enumerate] *)
Definition enumerate {A} (l : list A) : list (nat * A) := combine (seq 0 (length l)) l.

Section Choice.
Context {T : Type}.
Notation choice := (choice T).

(** choice.rs 213-217 [new_empty], 1625 [Monoid::empty], 1903 [empty_alt], 1929 [mzero], 2094 [default] *)
Definition ch_empty : choice := mkChoice [].
(** choice.rs 242-262 [new] *)
Definition ch_new (item : T) (alternatives : list T) : choice := mkChoice (item :: alternatives).
(** choice.rs 294-296 [first] *)
Definition ch_first (c : choice) : option T := hd_error (values c).
(** choice.rs 332-339 [alternatives] *)
Definition ch_alternatives (c : choice) : list T :=
  if length (values c) <=? 1 then [] else skipn 1 (values c).
(** choice.rs 346-348 [has_alternatives] *)
Definition ch_has_alternatives (c : choice) : bool := 1 <? length (values c).
(** choice.rs 376-378 [len], 410-412 [is_empty] *)
Definition ch_len (c : choice) : nat := length (values c).
Definition ch_is_empty (c : choice) : bool :=
  match values c with [] => true | _ => false end.
(** choice.rs 1095-1097 [iter], 1141-1143 [iter_alternatives], 420-425 [to_vec], 2087-2091 [Vec::from] *)
Definition ch_iter (c : choice) : list T := values c.
Definition ch_iter_alternatives (c : choice) : list T := skipn 1 (values c).
Definition ch_to_vec (c : choice) : list T := values c.
(** choice.rs 432-437 [find_first] *)
Definition ch_find_first (p : T -> bool) (c : choice) : option T := find p (ch_iter c).
(** choice.rs 952-964 [of_many] *)
Definition ch_of_many (many : list T) : choice :=
  match many with [] => ch_empty | _ => mkChoice many end.
(** choice.rs 2039-2047 [FromIterator<T>] *)
Definition ch_from_iter (l : list T) : choice :=
  match length l with 0 => ch_empty | _ => mkChoice l end.
(** choice.rs 2049-2058 [FromIterator<Choice<T>>] *)
Definition ch_from_choices (cs : list choice) : choice :=
  let vs := flat_map values cs in
  match length vs with 0 => ch_empty | _ => mkChoice vs end.
(** choice.rs 2060-2072 [From<Vec<T>>] *)
Definition ch_from_vec (v : list T) : choice :=
  match v with [] => ch_empty | primary :: alts => ch_new primary alts end.
(** choice.rs 2074-2085 [From<&[T]>] *)
Definition ch_from_slice (s : list T) : choice :=
  match s with [] => ch_empty | x :: _ => ch_new x (skipn 1 s) end.

(** choice.rs 453-459 / 480-487: the loop of [dedup_by_key]; [seen] is the hash set *)
Fixpoint dedup_loop {K} (keq : K -> K -> bool) (key : T -> K) (seen : list K) (l : list T) : list T :=
  match l with
  | [] => []
  | x :: l' =>
      if existsb (keq (key x)) seen then dedup_loop keq key seen l'
      else x :: dedup_loop keq key (key x :: seen) l'
  end.
(** choice.rs 444-462 [dedup] *)
Definition ch_dedup (teq : T -> T -> bool) (c : choice) : choice :=
  if ch_is_empty c then c else mkChoice (dedup_loop teq (fun x => x) [] (ch_iter c)).
(** choice.rs 469-490 [dedup_by_key] *)
Definition ch_dedup_by_key {K} (keq : K -> K -> bool) (key : T -> K) (c : choice) : choice :=
  if ch_is_empty c then c else mkChoice (dedup_loop keq key [] (ch_iter c)).
(** choice.rs 497-502 [fold], 2018-2025 [fold_left] *)
Definition ch_fold_left {B} (initial : B) (f : B -> T -> B) (c : choice) : B :=
  fold_left f (values c) initial.
(** choice.rs 2027-2036 [fold_right]: reversed iteration *)
Definition ch_fold_right {B} (initial : B) (f : T -> B -> B) (c : choice) : B :=
  fold_left (fun acc x => f x acc) (rev (values c)) initial.
(** choice.rs 509-520 [to_map_with_key]: association list, first entry per key wins
    ([entry().or_insert_with()]); the map's own order is not observable. *)
Fixpoint to_map_loop {K} (keq : K -> K -> bool) (f : T -> K) (m : list (K * T)) (l : list T)
  : list (K * T) :=
  match l with
  | [] => m
  | x :: l' =>
      let k := f x in
      to_map_loop keq f (if existsb (fun kv => keq k (fst kv)) m then m else m ++ [(k, x)]) l'
  end.
Definition ch_to_map_with_key {K} (keq : K -> K -> bool) (f : T -> K) (c : choice) : list (K * T) :=
  to_map_loop keq f [] (ch_iter c).
(** choice.rs 528-536 [add_alternatives] *)
Definition ch_add_alternatives (c : choice) (items : list T) : choice :=
  mkChoice (values c ++ items).

(** [SmallVec::remove] (panics out of range) *)
Definition vec_remove (l : list T) (i : nat) : outcome (list T) :=
  if i <? length l then Ret (firstn i l ++ skipn (S i) l) else Panic.
(** [slice::swap(0, j)] (panics out of range) *)
Definition vec_swap0 (l : list T) (j : nat) : outcome (list T) :=
  match nth_error l 0, nth_error l j with
  | Some a, Some b => Ret (list_set (list_set l 0 b) j a)
  | _, _ => Panic
  end.

(** choice.rs 614-632 [remove_alternative] *)
Definition ch_remove_alternative (c : choice) (index : nat) : outcome choice :=
  if length (values c) <=? 1 then Panic
  else if length (ch_alternatives c) <=? index then Panic
  else omap mkChoice (vec_remove (values c) (index + 1)).
(** choice.rs 639-653 [try_remove_alternative]; [inr false]: no alternatives,
    [inr true]: index out of bounds *)
Definition ch_try_remove_alternative (c : choice) (index : nat) : outcome (choice + bool) :=
  if length (values c) <=? 1 then Ret (inr false)
  else if length (ch_alternatives c) <=? index then Ret (inr true)
  else omap (fun l => inl (mkChoice l)) (vec_remove (values c) (index + 1)).
(** choice.rs 1150-1170 [swap_with_alternative] *)
Definition ch_swap (c : choice) (alt_index : nat) : outcome choice :=
  if length (values c) <=? 1 then Panic
  else if length (ch_alternatives c) <=? alt_index then Panic
  else omap mkChoice (vec_swap0 (values c) (alt_index + 1)).
(** choice.rs 1247-1263 [try_swap_with_alternative] *)
Definition ch_try_swap (c : choice) (alt_index : nat) : outcome (choice + bool) :=
  if length (values c) <=? 1 then Ret (inr false)
  else if length (ch_alternatives c) <=? alt_index then Ret (inr true)
  else omap (fun l => inl (mkChoice l)) (vec_swap0 (values c) (alt_index + 1)).

(** choice.rs 661-675 [filter] *)
Definition ch_filter (p : T -> bool) (c : choice) : choice :=
  match values c with
  | [] => ch_empty
  | x :: _ => mkChoice (x :: filter p (skipn 1 (values c)))
  end.
(** choice.rs 683-708 [fmap_alternatives] *)
Definition ch_fmap_alternatives (f : T -> T) (c : choice) : choice :=
  match values c with
  | [] => ch_empty
  | primary :: alts => mkChoice (primary :: map f alts)
  end.
(** choice.rs 1038-1054 [filter_values] *)
Definition ch_filter_values (p : T -> bool) (c : choice) : choice :=
  let filtered := filter p (values c) in
  match length filtered with 0 => ch_empty | _ => mkChoice filtered end.

(** choice.rs 1304-1317 [Identity::value], [into_value]; identity.rs 141-143, 190-195:
    the default [try_value]/[try_into_value] (not overridden) *)
Definition ch_value (c : choice) : outcome T :=
  match ch_first c with Some x => Ret x | None => Panic end.
Definition ch_into_value (c : choice) : outcome T :=
  match values c with x :: _ => Ret x | [] => Panic end.
Definition ch_try_value (c : choice) : outcome (option T) := omap Some (ch_value c).
Definition ch_try_into_value (c : choice) : outcome (option T) := omap Some (ch_into_value c).

(** choice.rs 1584-1607 [combine] *)
Definition ch_combine (a b : choice) : choice :=
  match values a, values b with
  | [], _ => b
  | _, [] => a
  | primary :: alts, ov => ch_new primary (alts ++ ov)
  end.
(** choice.rs 1609-1621 [combine_owned] *)
Definition ch_combine_owned (a b : choice) : choice :=
  match values a, values b with
  | [], _ => b
  | _, [] => a
  | primary :: rest, ov => ch_new primary (rest ++ ov)
  end.
(** choice.rs 1878-1901 [alt] *)
Definition ch_alt (a b : choice) : choice :=
  match values a, values b with
  | [], _ => b
  | _, [] => a
  | primary :: alts, ov => ch_new primary (alts ++ ov)
  end.
(** choice.rs 1933-1941 [mplus], 1943-1951 [mplus_owned] *)
Definition ch_mplus (a b : choice) : choice :=
  if ch_is_empty a then b else if ch_is_empty b then a else ch_combine a b.
Definition ch_mplus_owned (a b : choice) : choice :=
  if ch_is_empty a then b else if ch_is_empty b then a else ch_combine_owned a b.
(** choice.rs 1915-1925 [many] *)
Definition ch_many (c : choice) : outcome (ChoiceModel.choice (list T)) :=
  if ch_is_empty c then Ret (mkChoice [])
  else match ch_first c with Some x => Ret (mkChoice [[x]]) | None => Panic end.
(** choice.rs 2099-2103 [Sum] *)
Definition ch_sum (cs : list choice) : choice := fold_left ch_mplus cs ch_empty.

End Choice.

(** choice.rs 1294-1302 [pure], [pure_owned] *)
Definition ch_pure {A} (x : A) : choice A := ch_from_iter [x].
(** choice.rs 1907-1913 [guard] *)
Definition ch_guard (condition : bool) : choice unit := if condition then ch_pure tt else ch_empty.

(** choice.rs 1358-1372 [fmap] *)
Definition ch_fmap {T B} (f : T -> B) (c : choice T) : choice B :=
  match values c with
  | [] => ch_empty
  | x :: rest => let primary := f x in let alternatives := map f rest in ch_new primary alternatives
  end.
(** choice.rs 1374-1387 [fmap_owned]: [remove(0)] then the rest *)
Definition ch_fmap_owned {T B} (f : T -> B) (c : choice T) : outcome (choice B) :=
  match values c with
  | [] => Ret ch_empty
  | x :: _ =>
      do rest <- vec_remove (values c) 0;
      Ret (ch_new (f x) (map f rest))
  end.

(** choice.rs 1444-1477 [bind] *)
Definition ch_bind {T U} (c : choice T) (f : T -> choice U) : choice U :=
  match values c with
  | [] => ch_empty
  | x :: rest =>
      let first_choice := f x in
      match values first_choice with
      | [] => ch_empty
      | first :: alts =>
          ch_new first (fold_left (fun acc alt => acc ++ values (f alt)) rest alts)
      end
  end.
(** choice.rs 1479-1509 [bind_owned] *)
Definition ch_bind_owned {T U} (c : choice T) (f : T -> choice U) : outcome (choice U) :=
  match values c with
  | [] => Ret ch_empty
  | x :: _ =>
      do rest <- vec_remove (values c) 0;
      match values (f x) with
      | [] => Ret ch_empty
      | first :: alts =>
          Ret (ch_new first (fold_left (fun acc alt => acc ++ values (f alt)) rest alts))
      end
  end.
(** choice.rs 1512-1544 [join]; [into] is the conversion of the elements *)
Definition ch_join {T U} (into : T -> choice U) (c : choice T) : outcome (choice U) :=
  if ch_is_empty c then Ret ch_empty
  else match ch_first c with
       | None => Panic
       | Some pv =>
           let pc := into pv in
           if ch_is_empty pc then Ret ch_empty
           else match ch_first pc with
                | None => Panic
                | Some first =>
                    Ret (ch_new first
                      (fold_left (fun acc alt => acc ++ values (into alt))
                         (ch_alternatives c) (ch_alternatives pc)))
                end
       end.
(** choice.rs 1547-1580 [join_owned] *)
Definition ch_join_owned {T U} (into : T -> choice U) (c : choice T) : outcome (choice U) :=
  match values c with
  | [] => Ret ch_empty
  | pv :: _ =>
      do rest <- vec_remove (values c) 0;
      let pc := into pv in
      if ch_is_empty pc then Ret ch_empty
      else match ch_first pc with
           | None => Panic
           | Some first =>
               Ret (ch_new first
                 (fold_left (fun acc alt => acc ++ values (into alt)) rest (ch_alternatives pc)))
           end
  end.
(** choice.rs 1202-1211 [bind_lazy]: the produced sequence *)
Definition ch_bind_lazy {T U} (c : choice T) (f : T -> choice U) : list U :=
  flat_map (fun v => ch_iter (f v)) (ch_iter c).

(** choice.rs 1689-1715 [apply] *)
Definition ch_apply {A B} (ff : choice (A -> B)) (fv : choice A) : choice B :=
  match values ff, values fv with
  | func_first :: funcs, v0 :: vs =>
      ch_new (func_first v0)
        (map (fun f_alt => f_alt v0) funcs ++
         flat_map (fun val_alt => func_first val_alt :: map (fun f_alt => f_alt val_alt) funcs) vs)
  | _, _ => ch_empty
  end.
(** choice.rs 1266-1286 [generate_apply_alternatives] *)
Definition generate_apply_alternatives {A B} (funcs : list (A -> B)) (vals : list A) : list B :=
  flat_map (fun iv : nat * A =>
    flat_map (fun jf : nat * (A -> B) =>
      if (fst iv =? 0) && (fst jf =? 0) then [] else [snd jf (snd iv)]) (enumerate funcs))
    (enumerate vals).
(** choice.rs 1717-1733 [apply_owned] *)
Definition ch_apply_owned {A B} (ff : choice (A -> B)) (fv : choice A) : choice B :=
  match values ff, values fv with
  | f0 :: _, v0 :: _ =>
      ch_new (f0 v0) (generate_apply_alternatives (values ff) (values fv))
  | _, _ => ch_empty
  end.
(** choice.rs 1735-1766 [lift2]; the loops of 1768-1796 [lift2_owned] are the same *)
Definition ch_lift2 {A B C} (f : A -> B -> C) (fa : choice A) (fb : choice B) : choice C :=
  match values fa, values fb with
  | a0 :: _, b0 :: _ =>
      ch_new (f a0 b0)
        (flat_map (fun ia : nat * A =>
           flat_map (fun jb : nat * B =>
             if (fst ia =? 0) && (fst jb =? 0) then [] else [f (snd ia) (snd jb)])
             (enumerate (values fb)))
           (enumerate (values fa)))
  | _, _ => ch_empty
  end.
(** choice.rs 1798-1836 [lift3]; the loops of 1838-1874 [lift3_owned] are the same *)
Definition ch_lift3 {A B C D} (f : A -> B -> C -> D)
    (fa : choice A) (fb : choice B) (fc : choice C) : choice D :=
  match values fa, values fb, values fc with
  | a0 :: _, b0 :: _, c0 :: _ =>
      ch_new (f a0 b0 c0)
        (flat_map (fun ia : nat * A =>
           flat_map (fun jb : nat * B =>
             flat_map (fun kc : nat * C =>
               if (fst ia =? 0) && (fst jb =? 0) && (fst kc =? 0) then []
               else [f (snd ia) (snd jb) (snd kc)])
               (enumerate (values fc)))
             (enumerate (values fb)))
           (enumerate (values fa)))
  | _, _, _ => ch_empty
  end.

(** choice.rs 773-802 [flatten] *)
Definition ch_flatten {I} (c : choice (list I)) : outcome (choice I) :=
  match values c with
  | [] => Ret ch_empty
  | primary :: _ =>
      match primary with
      | first_item :: rest => Ret (ch_new first_item (rest ++ flat_map (fun v => v) (skipn 1 (values c))))
      | [] => Panic
      end
  end.
(** choice.rs 830-857 [try_flatten] *)
Definition ch_try_flatten {I} (c : choice (list I)) : choice I + unit :=
  match values c with
  | [] => inl ch_empty
  | primary :: _ =>
      match primary with
      | first_item :: rest => inl (ch_new first_item (rest ++ flat_map (fun v => v) (skipn 1 (values c))))
      | [] => inr tt
      end
  end.
(** choice.rs 864-894 [flatten_sorted] *)
Definition ch_flatten_sorted {I} (leb : I -> I -> bool) (c : choice (list I)) : outcome (choice I) :=
  match values c with
  | [] => Ret ch_empty
  | primary :: _ =>
      match primary with
      | first_item :: rest =>
          Ret (ch_new first_item (stable_sort leb (flat_map (fun v => v) (skipn 1 (values c)) ++ rest)))
      | [] => Panic
      end
  end.
(** [FromIterator for Option<Vec<_>>] *)
Fixpoint collect_option {A} (l : list (option A)) : option (list A) :=
  match l with
  | [] => Some []
  | None :: _ => None
  | Some x :: l' => match collect_option l' with Some r => Some (x :: r) | None => None end
  end.
(** choice.rs 1973-1976 [sequence] *)
Definition ch_sequence {A} (c : choice (option A)) : option (choice A) :=
  match collect_option (values c) with Some vs => Some (mkChoice vs) | None => None end.

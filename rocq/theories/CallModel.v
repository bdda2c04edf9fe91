(** The operations that call a closure for several elements, with closures that
    may have effects (the state [W]) or panic: the same functions as in
    [PvecModel], [ChoiceModel], [SemiModel], [SumModel], [UtilModel],
    [ErrModel] and [ValidatedModel], written with the order of the calls.
    Definitions only.  Cloning, pushing and collecting have no effect; an inner
    collection given back by a closure is a list. *)
From Coq Require Import List Arith Bool.
From Verif Require Import Base Types PvecModel ChoiceModel SumModel ValidatedModel WrapModel.
Import ListNotations.
Open Scope outcome_scope.
Open Scope list_scope.

Section Calls.
Context {W : Type}.
Notation eff := (eff W).
Local Notation "x <- m ;; k" := (eff_bind m (fun x => k)) (at level 61, m at next level, right associativity).

(** [for x in l { s = body(s, x) }] over a slice or a [Vec] *)
Fixpoint for_in {S A} (body : S -> A -> eff S) (s : S) (l : list A) : eff S :=
  match l with
  | [] => eff_ret s
  | x :: l' => s' <- body s x;; for_in body s' l'
  end.
(** [l.iter().map(f).collect()] *)
Definition map_collect {A B} (f : A -> eff B) (l : list A) : eff (list B) :=
  for_in (fun acc x => y <- f x;; eff_ret (acc ++ [y])) [] l.
(** [l.iter().filter(p).cloned().collect()] *)
Definition filter_collect {A} (p : A -> eff bool) (l : list A) : eff (list A) :=
  for_in (fun acc x => b <- p x;; eff_ret (if b then acc ++ [x] else acc)) [] l.

(** ** The persistent vector *)
Section Pvec.
Context {T : Type}.
(** A loop over [PersistentVectorIter] (iter.rs 29-37, 50-58) *)
Fixpoint pv_for_from {S} (fuel : nat) (v : pvec T) (position : nat) (body : S -> T -> eff S) (s : S) : eff S :=
  match fuel with
  | 0 => eff_ret s
  | Datatypes.S fuel' =>
      match iter_next v position with
      | Panic => fun w => (Panic, w)
      | Ret (None, _) => eff_ret s
      | Ret (Some x, position') => s' <- body s x;; pv_for_from fuel' v position' body s'
      end
  end.
Definition pv_for {S} (v : pvec T) (body : S -> T -> eff S) (s : S) : eff S :=
  pv_for_from (Datatypes.S (pv_len v)) v 0 body s.
(** core.rs 183-189; traits.rs 42-58 *)
Definition pv_map_e {U} (f : T -> eff U) (v : pvec T) : eff (pvec U) :=
  l <- pv_for v (fun acc x => y <- f x;; eff_ret (acc ++ [y])) [];; eff_ret (pv_from_iter l).
(** core.rs 226-231 *)
Definition pv_filter_e (p : T -> eff bool) (v : pvec T) : eff (pvec T) :=
  l <- pv_for v (fun acc x => b <- p x;; eff_ret (if b then acc ++ [x] else acc)) [];; eff_ret (pv_from_iter l).
(** core.rs 304-309 *)
Definition pv_filter_map_e {U} (f : T -> eff (option U)) (v : pvec T) : eff (pvec U) :=
  l <- pv_for v (fun acc x => o <- f x;; eff_ret (match o with Some y => acc ++ [y] | None => acc end)) [];;
  eff_ret (pv_from_iter l).
(** core.rs 322-328 *)
Definition pv_flat_map_e {U} (f : T -> eff (list U)) (v : pvec T) : eff (pvec U) :=
  l <- pv_for v (fun acc x => ys <- f x;; eff_ret (acc ++ ys)) [];; eff_ret (pv_from_iter l).
(** core.rs 389-394; traits.rs 63-72 *)
Definition pv_fold_e {B} (f : B -> T -> eff B) (init : B) (v : pvec T) : eff B := pv_for v f init.
(** traits.rs 75-86 *)
Fixpoint pv_fold_right_from_e {B} (i : nat) (f : T -> B -> eff B) (acc : B) (v : pvec T) : eff B :=
  match i with
  | 0 => eff_ret acc
  | S i' =>
      match pv_get v i' with
      | Panic => fun w => (Panic, w)
      | Ret (Some item) => acc' <- f item acc;; pv_fold_right_from_e i' f acc' v
      | Ret None => pv_fold_right_from_e i' f acc v
      end
  end.
Definition pv_fold_right_e {B} (f : T -> B -> eff B) (init : B) (v : pvec T) : eff B :=
  pv_fold_right_from_e (pv_len v) f init v.
(** core.rs 436-452 *)
Definition pv_partition_e (p : T -> eff bool) (v : pvec T) : eff (pvec T * pvec T) :=
  s <- pv_for v (fun s x => b <- p x;;
         eff_ret (if b : bool then (fst s ++ [x], snd s) else (fst s, snd s ++ [x]))) ([], []);;
  eff_ret (pv_from_iter (fst s), pv_from_iter (snd s)).
End Pvec.

(** ** Choice *)
Section Choice.
Context {T : Type}.
(** choice.rs 432-437: [Iterator::find] *)
Fixpoint find_e (p : T -> eff bool) (l : list T) : eff (option T) :=
  match l with
  | [] => eff_ret None
  | x :: l' => b <- p x;; if b : bool then eff_ret (Some x) else find_e p l'
  end.
Definition ch_find_first_e (p : T -> eff bool) (c : choice T) : eff (option T) := find_e p (values c).
(** choice.rs 469-490; the hash set is the list of keys seen *)
Definition ch_dedup_by_key_e {K} (keq : K -> K -> bool) (key : T -> eff K) (c : choice T) : eff (choice T) :=
  match values c with
  | [] => eff_ret c
  | _ =>
      s <- for_in (fun '(result, seen) x => k <- key x;;
             eff_ret (if existsb (keq k) seen then (result, seen) else (result ++ [x], k :: seen)))
             ([], []) (values c);;
      eff_ret (mkChoice (fst s))
  end.
(** choice.rs 497-502, 2018-2025; 2027-2036 *)
Definition ch_fold_left_e {B} (initial : B) (f : B -> T -> eff B) (c : choice T) : eff B :=
  for_in f initial (values c).
Definition ch_fold_right_e {B} (initial : B) (f : T -> B -> eff B) (c : choice T) : eff B :=
  for_in (fun acc x => f x acc) initial (rev (values c)).
(** choice.rs 509-520 *)
Definition ch_to_map_with_key_e {K} (keq : K -> K -> bool) (f : T -> eff K) (c : choice T) : eff (list (K * T)) :=
  for_in (fun m x => k <- f x;;
    eff_ret (if existsb (fun kv => keq k (fst kv)) m then m else m ++ [(k, x)])) [] (values c).
(** choice.rs 661-675 *)
Definition ch_filter_e (p : T -> eff bool) (c : choice T) : eff (choice T) :=
  match values c with
  | [] => eff_ret ch_empty
  | x :: _ => l <- filter_collect p (skipn 1 (values c));; eff_ret (mkChoice (x :: l))
  end.
(** choice.rs 683-708 *)
Definition ch_fmap_alternatives_e (f : T -> eff T) (c : choice T) : eff (choice T) :=
  match values c with
  | [] => eff_ret ch_empty
  | primary :: alts => l <- map_collect f alts;; eff_ret (mkChoice (primary :: l))
  end.
(** choice.rs 1038-1054 *)
Definition ch_filter_values_e (p : T -> eff bool) (c : choice T) : eff (choice T) :=
  l <- filter_collect p (values c);;
  eff_ret (match length l with 0 => ch_empty | _ => mkChoice l end).
(** choice.rs 1358-1372, 1374-1387 *)
Definition ch_fmap_e {B} (f : T -> eff B) (c : choice T) : eff (choice B) :=
  match values c with
  | [] => eff_ret ch_empty
  | x :: rest => primary <- f x;; alternatives <- map_collect f rest;; eff_ret (ch_new primary alternatives)
  end.
(** choice.rs 1444-1477, 1479-1509 *)
Definition ch_bind_e {U} (f : T -> eff (choice U)) (c : choice T) : eff (choice U) :=
  match values c with
  | [] => eff_ret ch_empty
  | x :: rest =>
      first_choice <- f x;;
      match values first_choice with
      | [] => eff_ret ch_empty
      | first :: first_rest =>
          alternatives <- for_in (fun acc alt => alt_choice <- f alt;; eff_ret (acc ++ values alt_choice))
                                 first_rest rest;;
          eff_ret (ch_new first alternatives)
      end
  end.
(** choice.rs 1202-1211 [bind_lazy]: [FlatMap]'s state is what is left of the outer
    iterator and of the current inner one; [next] *)
Fixpoint flat_next {U} (f : T -> eff (choice U)) (outer : list T) (inner : list U)
  : eff (option U * (list T * list U)) :=
  match inner with
  | y :: inner' => eff_ret (Some y, (outer, inner'))
  | [] =>
      match outer with
      | [] => eff_ret (None, ([], []))
      | x :: outer' =>
          choice <- f x;;
          match values choice with
          | y :: inner' => eff_ret (Some y, (outer', inner'))
          | [] => flat_next f outer' []
          end
      end
  end.
Definition ch_bind_lazy_e (c : choice T) {U} : list T * list U := (values c, []).
End Choice.
(** choice.rs 1689-1715 *)
Definition ch_apply_e {A B} (fs : choice (A -> eff B)) (vs : choice A) : eff (choice B) :=
  match values fs, values vs with
  | [], _ | _, [] => eff_ret ch_empty
  | func_first :: func_rest, v0 :: val_rest =>
      primary <- func_first v0;;
      front <- map_collect (fun f_alt => f_alt v0) func_rest;;
      alternatives <- for_in (fun acc val_alt =>
          y <- func_first val_alt;;
          ys <- map_collect (fun f_alt => f_alt val_alt) func_rest;;
          eff_ret (acc ++ y :: ys)) front val_rest;;
      eff_ret (ch_new primary alternatives)
  end.
(** choice.rs 1717-1733 with 1266-1286 *)
Definition ch_apply_owned_e {A B} (fs : choice (A -> eff B)) (vs : choice A) : eff (choice B) :=
  match values fs, values vs with
  | [], _ | _, [] => eff_ret ch_empty
  | f0 :: _, v0 :: _ =>
      primary <- f0 v0;;
      alternatives <- for_in (fun acc '(i, val) =>
          for_in (fun acc '(j, func) =>
            if (i =? 0) && (j =? 0) then eff_ret acc
            else y <- (func : A -> eff B) val;; eff_ret (acc ++ [y])) acc (enumerate (values fs)))
        [] (enumerate (values vs));;
      eff_ret (ch_new primary alternatives)
  end.
(** choice.rs 1735-1766, 1768-1796 *)
Definition ch_lift2_e {A B C} (f : A -> B -> eff C) (fa : choice A) (fb : choice B) : eff (choice C) :=
  match values fa, values fb with
  | [], _ | _, [] => eff_ret ch_empty
  | a0 :: _, b0 :: _ =>
      primary <- f a0 b0;;
      alternatives <- for_in (fun acc '(i, a) =>
          for_in (fun acc '(j, b) =>
            if (i =? 0) && (j =? 0) then eff_ret acc
            else y <- f a b;; eff_ret (acc ++ [y])) acc (enumerate (values fb)))
        [] (enumerate (values fa));;
      eff_ret (ch_new primary alternatives)
  end.
(** choice.rs 1798-1836, 1838-1874 *)
Definition ch_lift3_e {A B C D} (f : A -> B -> C -> eff D) (fa : choice A) (fb : choice B) (fc : choice C)
  : eff (choice D) :=
  match values fa, values fb, values fc with
  | [], _, _ | _, [], _ | _, _, [] => eff_ret ch_empty
  | a0 :: _, b0 :: _, c0 :: _ =>
      primary <- f a0 b0 c0;;
      alternatives <- for_in (fun acc '(i, a) =>
          for_in (fun acc '(j, b) =>
            for_in (fun acc '(k, c) =>
              if (i =? 0) && (j =? 0) && (k =? 0) then eff_ret acc
              else y <- f a b c;; eff_ret (acc ++ [y])) acc (enumerate (values fc)))
            acc (enumerate (values fb)))
        [] (enumerate (values fa));;
      eff_ret (ch_new primary alternatives)
  end.

(** ** [Vec] *)
(** functor.rs 448-462 *)
Definition vec_fmap_e {A B} (f : A -> eff B) (l : list A) : eff (list B) := map_collect f l.
(** functor.rs 467-472; categorical_utils.rs 461-480 [filter_map_collect] *)
Definition vec_filter_map_e {A B} (f : A -> eff (option B)) (l : list A) : eff (list B) :=
  for_in (fun acc x => o <- f x;; eff_ret (match o with Some y => acc ++ [y] | None => acc end)) [] l.
(** functor.rs 475-486; 489-500 *)
Definition vec_try_map_or_e {A B E} (default : B) (f : A -> eff (result B E)) (l : list A) : eff (list B) :=
  map_collect (fun x => r <- f x;; match r with Ok b => eff_ret b | Err _ => eff_ret default end) l.
Definition vec_try_map_or_else_e {A B E} (default_fn : E -> eff B) (f : A -> eff (result B E)) (l : list A) : eff (list B) :=
  map_collect (fun x => r <- f x;; match r with Ok b => eff_ret b | Err e => default_fn e end) l.
(** applicative.rs 888-900, 945-958 *)
Definition vec_apply_e {A B} (fs : list (A -> eff B)) (vs : list A) : eff (list B) :=
  for_in (fun acc func => for_in (fun acc val => y <- (func : A -> eff B) val;; eff_ret (acc ++ [y])) acc vs) [] fs.
(** applicative.rs 903-918, 961-976 *)
Definition vec_lift2_e {A B C} (f : A -> B -> eff C) (fa : list A) (fb : list B) : eff (list C) :=
  for_in (fun acc a => for_in (fun acc b => y <- f a b;; eff_ret (acc ++ [y])) acc fb) [] fa.
(** applicative.rs 921-941: the tuples are produced lazily by two [flat_map]s; 979-999 *)
Definition vec_lift3_e {A B C D} (f : A -> B -> C -> eff D) (fa : list A) (fb : list B) (fc : list C) : eff (list D) :=
  for_in (fun acc '((a, b), c) => y <- f a b c;; eff_ret (acc ++ [y])) []
    (flat_map (fun ab => map (fun c => (ab, c)) fc) (flat_map (fun a => map (fun b => (a, b)) fb) fa)).
Definition vec_lift3_owned_e {A B C D} (f : A -> B -> C -> eff D) (fa : list A) (fb : list B) (fc : list C) : eff (list D) :=
  for_in (fun acc a => for_in (fun acc b => for_in (fun acc c =>
    y <- f a b c;; eff_ret (acc ++ [y])) acc fc) acc fb) [] fa.

(** ** [Foldable]: the methods every container gets from its [fold_left] *)
Section Foldable.
Context {A : Type} (fold_left : forall U, (U -> A -> eff U) -> U -> eff U).
(** foldable.rs 232-237 *)
Definition fo_fold_map_e {M} (combine : M -> M -> M) (empty : M) (f : A -> eff M) : eff M :=
  fold_left M (fun acc x => y <- f x;; eff_ret (combine acc y)) empty.
(** foldable.rs 339-353 *)
Definition fo_find_e (pred : A -> eff bool) : eff (option A) :=
  fold_left (option A) (fun acc x =>
    match acc with
    | Some _ => eff_ret acc
    | None => b <- pred x;; if b : bool then eff_ret (Some x) else eff_ret None
    end) None.
(** foldable.rs 380-385, 412-417 *)
Definition fo_all_e (pred : A -> eff bool) : eff bool :=
  fold_left bool (fun acc x => if acc then pred x else eff_ret false) true.
Definition fo_any_e (pred : A -> eff bool) : eff bool :=
  fold_left bool (fun acc x => if acc then eff_ret true else pred x) false.
(** foldable.rs 463-472 *)
Definition fo_fold_option_e {B} (combine : B -> B -> B) (empty : B) (f : A -> eff (option B)) : eff (option B) :=
  fold_left (option B) (fun acc x => o <- f x;;
    eff_ret (match acc, o with Some a, Some b => Some (combine a b) | _, _ => None end)) (Some empty).
(** foldable.rs 676-685 *)
Definition fo_reduce_e (f : A -> A -> eff A) : eff (option A) :=
  fold_left (option A) (fun acc x =>
    match acc with None => eff_ret (Some x) | Some a => y <- f a x;; eff_ret (Some y) end) None.
End Foldable.
(** foldable.rs 694-703, 706-715 [Vec]; 721-740 [Option]; 746-765 [Result];
    validated/traits.rs 684-705; id.rs 770-785 *)
Definition vec_fold_left_e {A U} (l : list A) (f : U -> A -> eff U) (init : U) : eff U := for_in f init l.
Definition vec_fold_right_e {A U} (l : list A) (f : A -> U -> eff U) (init : U) : eff U :=
  for_in (fun acc x => f x acc) init (rev l).
Definition option_fold_left_e {A U} (o : option A) (f : U -> A -> eff U) (init : U) : eff U :=
  match o with Some a => f init a | None => eff_ret init end.
Definition option_fold_right_e {A U} (o : option A) (f : A -> U -> eff U) (init : U) : eff U :=
  match o with Some a => f a init | None => eff_ret init end.
Definition result_fold_left_e {A E U} (r : result A E) (f : U -> A -> eff U) (init : U) : eff U :=
  match r with Ok a => f init a | Err _ => eff_ret init end.
Definition result_fold_right_e {A E U} (r : result A E) (f : A -> U -> eff U) (init : U) : eff U :=
  match r with Ok a => f a init | Err _ => eff_ret init end.
Definition va_fold_left_e {E A U} (v : validated E A) (f : U -> A -> eff U) (init : U) : eff U :=
  match v with Valid a => f init a | Invalid _ => eff_ret init end.
Definition va_fold_right_e {E A U} (v : validated E A) (f : A -> U -> eff U) (init : U) : eff U :=
  match v with Valid a => f a init | Invalid _ => eff_ret init end.

(** ** Helpers *)
(** error_utils.rs 262-267, 730-746 *)
Fixpoint traverse_loop_e {A B E} (f : A -> eff (result B E)) (values : list B) (l : list A) : eff (result (list B) E) :=
  match l with
  | [] => eff_ret (Ok values)
  | item :: l' =>
      r <- f item;;
      match r with
      | Ok value => traverse_loop_e f (values ++ [value]) l'
      | Err error => eff_ret (Err error)
      end
  end.
Definition eu_traverse_e {A B E} (f : A -> eff (result B E)) (l : list A) : eff (result (list B) E) :=
  traverse_loop_e f [] l.
(** error_utils.rs 308-334 *)
Definition eu_traverse_validated_e {A B E} (f : A -> eff (result B E)) (l : list A) : eff (validated E (list B)) :=
  s <- for_in (fun '(values, errors, had_error) item => r <- f item;;
         eff_ret (match r with
                  | Ok value => (values ++ [value], errors, had_error)
                  | Err error => (values, errors ++ [error], true)
                  end)) ([], [], false) l;;
  eff_ret (let '(values, errors, had_error) := s in if had_error : bool then Invalid errors else Valid values).
(** hkt_utils.rs 59-79 *)
Definition hu_filter_map_e {A B} (l : list A) (p : A -> eff bool) (f : A -> eff B) : eff (list B) :=
  for_in (fun acc item => b <- p item;;
    if b : bool then y <- f item;; eff_ret (acc ++ [y]) else eff_ret acc) [] l.
(** hkt_utils.rs 122-127 *)
Definition hu_zip_with_e {A B C} (xs : list A) (ys : list B) (f : A -> B -> eff C) : eff (list C) :=
  map_collect (fun '(x, y) => f x y) (combine xs ys).
(** hkt_utils.rs 179-188: [try_fold] *)
Fixpoint try_fold_e {B} (acc : B) (ops : list (B -> eff (option B))) : eff (option B) :=
  match ops with
  | [] => eff_ret (Some acc)
  | op :: ops' => o <- op acc;; match o with Some acc' => try_fold_e acc' ops' | None => eff_ret None end
  end.
(** hkt_utils.rs 248-266, 319-325; [into] is pure *)
Definition hu_pipeline_result_e {B E} (initial : B) (ops : list (B -> eff (result B E))) : eff (result B E) :=
  initial_result <- match ops with [] => eff_ret (Ok initial) | first_op :: _ => first_op initial end;;
  for_in (fun acc (op : B -> eff (result B E)) =>
    match acc with Ok value => op value | Err e => eff_ret (Err e) end) initial_result (tl ops).

(** ** Validated *)
(** validated/core.rs 815-827, 853-865; traits.rs 158-186, 243-255 *)
Definition va_fmap_invalid_e {E G A} (f : E -> eff G) (v : validated E A) : eff (validated G A) :=
  match v with
  | Valid x => eff_ret (Valid x)
  | Invalid es => l <- map_collect f es;; eff_ret (Invalid l)
  end.
(** traits.rs 216-230 *)
Definition va_bimap_e {E A C D} (f : A -> eff C) (g : E -> eff D) (v : validated E A) : eff (validated D C) :=
  match v with
  | Valid x => y <- f x;; eff_ret (Valid y)
  | Invalid es => l <- map_collect g es;; eff_ret (Invalid l)
  end.
(** core.rs 224-248 *)
Fixpoint recover_loop_e {E A} (recovery : E -> eff (validated E A)) (accumulated errors : list E)
  : eff (validated E A) :=
  match errors with
  | [] => eff_ret (Invalid accumulated)
  | error :: errors' =>
      r <- recovery error;;
      match r with
      | Valid v => eff_ret (Valid v)
      | Invalid more_errors => recover_loop_e recovery (accumulated ++ more_errors) errors'
      end
  end.
Definition va_recover_all_e {E A} (recovery : E -> eff (validated E A)) (v : validated E A) : eff (validated E A) :=
  match v with Valid x => eff_ret (Valid x) | Invalid errors => recover_loop_e recovery [] errors end.
End Calls.

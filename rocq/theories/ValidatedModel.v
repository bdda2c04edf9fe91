(** Model of [Validated<E, A>]: [/repo/src/datatypes/validated/core.rs] ("core"),
    [traits.rs] ("traits"), [iter.rs] ("iter"), and its conversions in
    [/repo/src/error/convert.rs], [/repo/src/utils/error_utils.rs] and
    [/repo/src/traits/iso.rs].  Definitions only.  [SmallVec] is a list,
    capacities and size hints are dropped, cloning is the identity, closures
    are Gallina functions. *)
From Coq Require Import List Arith Bool.
From Verif Require Import Base Types.
Import ListNotations.
Open Scope outcome_scope.

(** validated/core.rs 162-182 *)
Definition va_is_valid {E A} (v : validated E A) : bool :=
  match v with Valid _ => true | Invalid _ => false end.
Definition va_is_invalid {E A} (v : validated E A) : bool := negb (va_is_valid v).

(** validated/core.rs 233-243: the loop of [recover_all]; [inl]: early return *)
Fixpoint recover_loop {E A} (recovery : E -> validated E A) (errors accumulated : list E)
  : validated E A :=
  match errors with
  | [] => Invalid accumulated
  | e :: errors' =>
      match recovery e with
      | Valid v => Valid v
      | Invalid more => recover_loop recovery errors' (accumulated ++ more)
      end
  end.
(** validated/core.rs 224-248 *)
Definition va_recover_all {E A} (v : validated E A) (recovery : E -> validated E A) :=
  match v with
  | Valid v => Valid v
  | Invalid errors => recover_loop recovery errors []
  end.
(** validated/core.rs 283-291 *)
Definition va_recover_all_at_once {E A} (v : validated E A) (recovery : list E -> validated E A) :=
  match v with Valid v => Valid v | Invalid errors => recovery errors end.
(** validated/core.rs 312-317 *)
Definition va_recover_with {E A} (v : validated E A) (default : A) : validated E A :=
  match v with Valid v => Valid v | Invalid _ => Valid default end.
(** validated/core.rs 362-367 [error_slice], 339-344 [errors], 411-413 [iter_errors] *)
Definition va_error_slice {E A} (v : validated E A) : list E :=
  match v with Valid _ => [] | Invalid es => es end.
Definition va_errors {E A} (v : validated E A) : list E := va_error_slice v.
(** validated/core.rs 442-447 [error_payload] *)
Definition va_error_payload {E A} (v : validated E A) : option (list E) :=
  match v with Valid _ => None | Invalid es => Some es end.
(** validated/core.rs 476-486 [unwrap_owned], 1248-1253 [unwrap] *)
Definition va_unwrap {E A} (v : validated E A) : outcome A :=
  match v with Valid a => Ret a | Invalid _ => Panic end.
(** validated/core.rs 515-525 [unwrap_invalid_owned], 1329-1337 [unwrap_invalid] *)
Definition va_unwrap_invalid {E A} (v : validated E A) : outcome (list E) :=
  match v with Valid _ => Panic | Invalid e => Ret e end.
(** validated/core.rs 562-567 [into_value] *)
Definition va_into_value {E A} (v : validated E A) : result A (list E) :=
  match v with Valid a => Ok a | Invalid es => Err es end.
(** validated/core.rs 616-621 [into_error_payload] *)
Definition va_into_error_payload {E A} (v : validated E A) : result (list E) A :=
  match v with Valid a => Err a | Invalid es => Ok es end.
(** validated/core.rs 639-659 *)
Definition va_valid {E A} (x : A) : validated E A := Valid x.
Definition va_invalid {E A} (e : E) : validated E A := Invalid [e].
(** validated/core.rs 697-738; the three branches on the size hint only choose a capacity *)
Definition va_invalid_many {E A} (errors : list E) : validated E A := Invalid errors.
(** validated/core.rs 774-789 *)
Definition va_invalid_vec {E A} (errors : list E) : outcome (validated E A) :=
  match errors with
  | first :: rest => Ret (Invalid ([first] ++ rest))
  | [] => Panic
  end.
(** validated/core.rs 815-827 [fmap_invalid], 853-865 [fmap_invalid_owned];
    error_utils.rs 172-182 [fmap_error]; traits 158-186 [map_second] *)
Definition va_fmap_invalid {E A G} (f : E -> G) (v : validated E A) : validated G A :=
  match v with Valid x => Valid x | Invalid es => Invalid (map f es) end.
(** validated/core.rs 920-932, 955-965 [combine_errors(_owned)] *)
Definition va_combine_errors {E A} (a b : validated E A) : outcome (validated E A) :=
  match a, b with
  | Valid _, Valid _ => Panic
  | Valid _, invalid => Ret invalid
  | invalid, Valid _ => Ret invalid
  | Invalid e1, Invalid e2 => Ret (Invalid (e1 ++ e2))
  end.
(** convert.rs 152-161 [result_to_validated]; core 1001-1047 [from_result(_owned)] *)
Definition va_from_result {E A} (r : result A E) : validated E A :=
  match r with Ok value => Valid value | Err error => va_invalid error end.
(** error_utils.rs 184-189 [WithError::to_result]; core 1064-1091 [to_result(_owned)] *)
Definition va_to_result {E A} (v : validated E A) : outcome (result A E) :=
  match v with
  | Valid t => Ret (Ok t)
  | Invalid (e :: _) => Ret (Err e)
  | Invalid [] => Panic
  end.
(** convert.rs 107-121 [validated_to_result] *)
Definition validated_to_result {E A} (v : validated E A) : outcome (result A E) :=
  match v with
  | Valid value => Ret (Ok value)
  | Invalid errors => match hd_error errors with Some e => Ret (Err e) | None => Panic end
  end.
(** convert.rs 192-201 [either_to_validated], 232-245 [validated_to_either] *)
Definition either_to_validated {E A} (e : either E A) : validated E A :=
  match e with Right value => Valid value | Left error => va_invalid error end.
Definition validated_to_either {E A} (v : validated E A) : outcome (either E A) :=
  match v with
  | Valid value => Ret (Right value)
  | Invalid errors => match hd_error errors with Some e => Ret (Left e) | None => Panic end
  end.
(** convert.rs 38-77; error_utils.rs 411-413, 436-438 forward to these *)
Definition either_to_result {E A} (e : either E A) : result A E :=
  match e with Left error => Err error | Right value => Ok value end.
Definition result_to_either {E A} (r : result A E) : either E A :=
  match r with Ok value => Right value | Err error => Left error end.
(** convert.rs 443-454 [collect_errors] *)
Definition collect_errors {E} (errors : list E) : validated E unit :=
  match errors with [] => Valid tt | _ => va_invalid_many errors end.
(** convert.rs 487-496 [split_validated_errors] *)
Definition split_validated_errors {E A} (v : validated E A) : list (result A E) :=
  match v with Valid value => [Ok value] | Invalid errors => map Err errors end.
(** validated/core.rs 1117-1221 [from_option] and variants *)
Definition va_from_option {E A} (o : option A) (error : E) : validated E A :=
  match o with Some value => Valid value | None => Invalid [error] end.
Definition va_from_option_with {E A} (o : option A) (error_fn : unit -> E) : validated E A :=
  match o with Some value => Valid value | None => Invalid [error_fn tt] end.
(** validated/core.rs 1276-1281 [unwrap_or], 1297-1302 [as_ref], 1614-1619 [to_option] *)
Definition va_unwrap_or {E A} (v : validated E A) (default : A) : A :=
  match v with Valid x => x | Invalid _ => default end.
Definition va_to_option {E A} (v : validated E A) : option A :=
  match v with Valid x => Some x | Invalid _ => None end.

(** validated/core.rs 37-43 [extend_cloned], 30-32 [extend_owned] *)
Definition acc_extend_cloned {E} (buffer errors : list E) : list E :=
  match errors with [] => buffer | _ => buffer ++ errors end.
Definition acc_extend_owned {E} (buffer errors : list E) : list E := buffer ++ errors.

(** [Iterator::filter_map] on the valid values *)
Fixpoint filter_valid {E A} (vs : list (validated E A)) : list A :=
  match vs with
  | [] => []
  | Valid x :: vs' => x :: filter_valid vs'
  | Invalid _ :: vs' => filter_valid vs'
  end.
(** validated/core.rs 1386-1417 [sequence] *)
Definition va_sequence {E A B} (vs : list (validated E A)) (f : list A -> B) : validated E B :=
  match vs with
  | [] => Valid (f [])
  | _ =>
      if forallb va_is_valid vs then Valid (f (filter_valid vs))
      else Invalid (fold_left (fun acc v =>
             match v with Invalid es => acc_extend_cloned acc es | Valid _ => acc end) vs [])
  end.
(** validated/core.rs 1447-1478 [sequence_owned] *)
Definition va_sequence_owned {E A B} (vs : list (validated E A)) (f : list A -> B) : validated E B :=
  match vs with
  | [] => Valid (f [])
  | _ =>
      if forallb va_is_valid vs then Valid (f (filter_valid vs))
      else Invalid (fold_left (fun acc v =>
             match v with Invalid es => acc_extend_owned acc es | Valid _ => acc end) vs [])
  end.
(** validated/core.rs 1550-1559: the fold of [collect] *)
Definition collect_step {E A} (s : list A * list E) (item : validated E A) : list A * list E :=
  match item with
  | Valid a => (fst s ++ [a], snd s)
  | Invalid es => (fst s, snd s ++ es)
  end.
(** validated/core.rs 1543-1566 [collect]; [from_iter] builds the target collection *)
Definition va_collect {E A C} (from_iter : list A -> C) (items : list (validated E A)) : validated E C :=
  let s := fold_left collect_step items ([], []) in
  match snd s with
  | [] => Valid (from_iter (fst s))
  | _ => Invalid (snd s)
  end.
(** validated/core.rs 1591-1611 [collect_owned] *)
Fixpoint collect_owned_loop {E A} (acc : list E) (values : list A) (items : list (validated E A))
  : list A * list E :=
  match items with
  | [] => (values, acc)
  | Valid a :: items' => collect_owned_loop acc (values ++ [a]) items'
  | Invalid es :: items' => collect_owned_loop (acc_extend_owned acc es) values items'
  end.
Definition va_collect_owned {E A C} (from_iter : list A -> C) (items : list (validated E A)) : validated E C :=
  let s := collect_owned_loop [] [] items in
  match snd s with
  | [] => Valid (from_iter (fst s))
  | _ => Invalid (snd s)
  end.

(** validated/iter.rs 63-120: the iterators yield the valid value at most once *)
Definition va_iter {E A} (v : validated E A) : list A :=
  match v with Valid a => [a] | Invalid _ => [] end.

(** validated/traits.rs 59-66 *)
Definition va_pure {E A} (x : A) : validated E A := Valid x.
(** validated/traits.rs 130-151 [fmap], [fmap_owned]; 232-241 [first] *)
Definition va_fmap {E A B} (f : A -> B) (v : validated E A) : validated E B :=
  match v with Valid x => Valid (f x) | Invalid e => Invalid e end.
(** validated/traits.rs 216-230 [bimap], 243-255 [second] *)
Definition va_bimap {E A C D} (f : A -> C) (g : E -> D) (v : validated E A) : validated D C :=
  match v with Valid x => Valid (f x) | Invalid es => Invalid (map g es) end.
Definition va_second {E A D} (g : E -> D) (v : validated E A) : validated D A :=
  match v with Valid x => Valid x | Invalid es => Invalid (map g es) end.
(** validated/traits.rs 366-381 [apply] *)
Definition va_apply {E A B} (vf : validated E (A -> B)) (v : validated E A) : validated E B :=
  match vf, v with
  | Valid f, Valid a => Valid (f a)
  | Valid _, Invalid e => Invalid e
  | Invalid e, Valid _ => Invalid e
  | Invalid e1, Invalid e2 => Invalid (e1 ++ e2)
  end.
(** [if let Invalid(e) = v { errors.extend(e) }] *)
Definition extend_if_invalid {E A} (errors : list E) (v : validated E A) : list E :=
  match v with Invalid e => errors ++ e | Valid _ => errors end.
(** validated/traits.rs 383-404 [apply_owned] *)
Definition va_apply_owned {E A B} (vf : validated E (A -> B)) (v : validated E A) : validated E B :=
  match vf, v with
  | Valid f, Valid x => Valid (f x)
  | a, b => Invalid (extend_if_invalid (extend_if_invalid [] a) b)
  end.
(** validated/traits.rs 406-455 [lift2], [lift2_owned] *)
Definition va_lift2 {E A B C} (f : A -> B -> C) (fa : validated E A) (fb : validated E B) : validated E C :=
  match fa, fb with
  | Valid a, Valid b => Valid (f a b)
  | a, b => Invalid (extend_if_invalid (extend_if_invalid [] a) b)
  end.
(** validated/traits.rs 458-489 [lift3] *)
Definition va_lift3 {E A B C D} (f : A -> B -> C -> D)
    (fa : validated E A) (fb : validated E B) (fc : validated E C) : validated E D :=
  match fa, fb, fc with
  | Valid a, Valid b, Valid c => Valid (f a b c)
  | a, b, c => Invalid (extend_if_invalid (extend_if_invalid (extend_if_invalid [] a) b) c)
  end.
(** validated/traits.rs 491-529 [lift3_owned] *)
Definition va_lift3_owned {E A B C D} (f : A -> B -> C -> D)
    (fa : validated E A) (fb : validated E B) (fc : validated E C) : validated E D :=
  match fa, fb, fc with
  | Valid a, Valid b, Valid c => Valid (f a b c)
  | Invalid e1, Invalid e2, Invalid e3 => Invalid (([] ++ e1) ++ e2 ++ e3)
  | a, b, c => Invalid (extend_if_invalid (extend_if_invalid (extend_if_invalid [] a) b) c)
  end.
(** validated/traits.rs 590-635 [bind], [bind_owned]; [join], [join_owned] with the [into]
    conversion of the inner value *)
Definition va_bind {E A B} (v : validated E A) (f : A -> validated E B) : validated E B :=
  match v with Valid a => f a | Invalid e => Invalid e end.
Definition va_join {E A B} (into : A -> validated E B) (v : validated E A) : validated E B :=
  match v with Valid inner => into inner | Invalid e => Invalid e end.
(** validated/traits.rs 640-653 [Identity::value], [into_value]; 20-25 [AsRef::as_ref] *)
Definition va_value {E A} (v : validated E A) : outcome A :=
  match v with Valid a => Ret a | Invalid _ => Panic end.
(** validated/traits.rs 684-705 *)
Definition va_fold_left {E A U} (init : U) (f : U -> A -> U) (v : validated E A) : U :=
  match v with Valid a => f init a | Invalid _ => init end.
Definition va_fold_right {E A U} (init : U) (f : A -> U -> U) (v : validated E A) : U :=
  match v with Valid a => f a init | Invalid _ => init end.
(** validated/traits.rs 811-840 [Alternative]; [dflt] is [E::default()] *)
Definition va_empty_alt {E A} (dflt : E) : validated E A := va_invalid dflt.
Definition va_alt {E A} (a b : validated E A) : validated E A :=
  match a with Valid _ => a | Invalid _ => b end.
Definition va_guard {E} (dflt : E) (condition : bool) : validated E unit :=
  if condition then va_valid tt else va_invalid dflt.
Definition va_many {E A} (dflt : E) (v : validated E A) : validated E (list A) :=
  match v with Valid x => va_valid [x] | Invalid _ => va_invalid dflt end.
(** validated/traits.rs 959-963 [empty], 903-905 [mzero] *)
Definition va_empty {E A} : validated E A := Invalid [].
(** validated/traits.rs 935-945 [combine], 947-956 [combine_owned] *)
Definition va_combine {E A} (a b : validated E A) : validated E A :=
  match a, b with
  | Valid _, _ => a
  | Invalid _, Valid _ => b
  | Invalid e1, Invalid e2 => Invalid (e1 ++ e2)
  end.
(** validated/traits.rs 907-931 [mplus], [mplus_owned] *)
Definition va_mplus {E A} (a b : validated E A) : validated E A :=
  match a, b with
  | Valid _, _ => a
  | Invalid _, Valid _ => b
  | Invalid e1, Invalid e2 => Invalid (e1 ++ e2)
  end.

(** error_utils.rs 308-334 [traverse_validated] *)
Fixpoint traverse_validated_loop {A B E} (f : A -> result B E) (values : list B) (errors : list E)
    (had_error : bool) (items : list A) : list B * list E * bool :=
  match items with
  | [] => (values, errors, had_error)
  | x :: items' =>
      match f x with
      | Ok value => traverse_validated_loop f (values ++ [value]) errors had_error items'
      | Err error => traverse_validated_loop f values (errors ++ [error]) true items'
      end
  end.
Definition traverse_validated {A B E} (f : A -> result B E) (items : list A) : validated E (list B) :=
  match traverse_validated_loop f [] [] false items with
  | (values, errors, had_error) => if had_error then Invalid errors else Valid values
  end.
(** iso.rs 721-732 [ResultValidatedIso], 688-699 [ResultEitherIso] *)
Definition result_validated_forward {A E} (r : result A E) : validated E A := va_from_result r.
Definition result_validated_backward {A E} (v : validated E A) : outcome (result A E) := va_to_result v.

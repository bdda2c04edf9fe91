(** Model of the small constructors, accessors and aliases of the data types that
    the other model files leave out, and of the consuming forms whose bodies are
    written out a second time in the source.  Definitions only. *)
From Coq Require Import List Arith String.
From Verif Require Import Base Types SumModel ChoiceModel WrapModel EffModel ErrModel PvecModel.
Import ListNotations.
Open Scope outcome_scope.

(** ** Id *)
(** id.rs 277-279 [new], 386-388 [from_ref], 790-792 [From] *)
Definition id_new {T} (x : T) : id_ T := mkId x.
Definition id_from_ref {T} (x : T) : id_ T := mkId x.
Definition id_from {T} (x : T) : id_ T := id_new x.
(** id.rs 295-297 [into_inner], 311-313 [unwrap], 328-330 [unwrap_or], 362-364 [as_ref],
    402-404 [value], 407-409 [into_value] *)
Definition id_into_inner {T} (i : id_ T) : T := id_value i.
Definition id_unwrap {T} (i : id_ T) : T := id_value i.
Definition id_unwrap_or {T} (i : id_ T) (_default : T) : T := id_value i.
Definition id_as_ref {T} (i : id_ T) : T := id_value i.
Definition id_identity_value {T} (i : id_ T) : T := id_value i.
Definition id_into_value {T} (i : id_ T) : T := id_value i.
(** id.rs 797-799 *)
Definition id_default {T} (dflt : T) : id_ T := id_new dflt.
(** id.rs 474-481 [apply_owned], 484-493 [lift2_owned], 496-508 [lift3_owned] *)
Definition id_apply_owned {A B} (f : id_ (A -> B)) (i : id_ A) : id_ B := id_new ((id_as_ref f) (id_value i)).
Definition id_lift2_owned {A B C} (f : A -> B -> C) (fa : id_ A) (fb : id_ B) : id_ C :=
  id_new (f (id_value fa) (id_value fb)).
Definition id_lift3_owned {A B C D} (f : A -> B -> C -> D) (fa : id_ A) (fb : id_ B) (fc : id_ C) : id_ D :=
  id_new (f (id_value fa) (id_value fb) (id_value fc)).

(** ** Maybe *)
(** maybe.rs 274-276 [some], 289-291 [none], 1427-1429 [default], 1175-1177 [mzero], 1227-1229 [empty_alt] *)
Definition mb_some {T} (x : T) : maybe T := Just x.
Definition mb_none {T} : maybe T := Nothing.
Definition mb_default {T} : maybe T := Nothing.
Definition mb_mzero {T} : maybe T := Nothing.
Definition mb_empty_alt {T} : maybe T := Nothing.
(** maybe.rs 582-587 [as_ref], 633-638 [as_option] *)
Definition mb_as_ref {T} (m : maybe T) : option T := match m with Just x => Some x | Nothing => None end.
Definition mb_as_option {T} (m : maybe T) : option T := match m with Just val => Some val | Nothing => None end.
(** maybe.rs 703-705 [iter]; 1455-1460, 1467-1472 [into_iter] of the value and of a reference *)
Definition mb_iter {T} (m : maybe T) : list T := match mb_as_ref m with Some x => [x] | None => [] end.
Definition mb_into_iter {T} (m : maybe T) : list T := match m with Just val => [val] | Nothing => [] end.
(** maybe.rs 1412-1417 [Identity::value], 1420-1422 [into_value] *)
Definition mb_value {T} (m : maybe T) : outcome T := match m with Just v => Ret v | Nothing => Panic end.
Definition mb_into_value {T} (m : maybe T) : outcome T := mb_unwrap m.
(** maybe.rs 1376-1381 [MaybeExt::to_result] *)
Definition mb_ext_to_result {T E} (m : maybe T) (err : E) : result T E :=
  match m with Just x => Ok x | Nothing => Err err end.
(** maybe.rs 906-916 [apply_owned], 932-944 [lift2_owned], 947-962 [lift3_owned] *)
Definition mb_apply_owned {A B} (mf : maybe (A -> B)) (m : maybe A) : maybe B :=
  match mf, m with Just f, Just x => Just (f x) | _, _ => Nothing end.
Definition mb_lift2_owned {A B C} (f : A -> B -> C) (fa : maybe A) (fb : maybe B) : maybe C :=
  match fa, fb with Just a, Just b => Just (f a b) | _, _ => Nothing end.
Definition mb_lift3_owned {A B C D} (f : A -> B -> C -> D) (fa : maybe A) (fb : maybe B) (fc : maybe C) : maybe D :=
  match fa, fb, fc with Just a, Just b, Just c => Just (f a b c) | _, _, _ => Nothing end.

(** ** Either *)
(** either.rs 286-288 [left], 304-306 [right] *)
Definition ei_left {L R} (l : L) : either L R := Left l.
Definition ei_right {L R} (r : R) : either L R := Right r.
(** either.rs 721-726 [left_iter_ref]; 1302-1307 [into_iter] of a reference *)
Definition ei_left_iter_ref {L R} (e : either L R) : list L := match e with Left l => [l] | Right _ => [] end.
Definition ei_iter_ref {L R} (e : either L R) : list R := match e with Right r => [r] | Left _ => [] end.
(** either.rs 885-896 [apply_owned], 898-911 [lift2_owned], 913-930 [lift3_owned] *)
Definition ei_apply_owned {L A B} (ef : either L (A -> B)) (e : either L A) : either L B :=
  match ef, e with
  | Right f, Right x => Right (f x)
  | Left l, _ => Left l
  | _, Left l => Left l
  end.
Definition ei_lift2_owned {L A B C} (f : A -> B -> C) (fa : either L A) (fb : either L B) : either L C :=
  match fa, fb with
  | Right x, Right y => Right (f x y)
  | Left l, _ => Left l
  | _, Left l => Left l
  end.
Definition ei_lift3_owned {L A B C D} (f : A -> B -> C -> D) (fa : either L A) (fb : either L B)
    (fc : either L C) : either L D :=
  match fa, fb, fc with
  | Right x, Right y, Right z => Right (f x y z)
  | Left l, _, _ => Left l
  | _, Left l, _ => Left l
  | _, _, Left l => Left l
  end.

(** ** Wrappers *)
(** min.rs 185-187 [as_ref], 416-422 [value], [into_value], 550-552 [From]; max.rs 189-191, 407-413, 543-545;
    sum.rs 231-233, 443-449, 627-629; product.rs 169-171, 381-387, 564-566 *)
Definition min_from {T} (value : T) : min T := mkMin value.
Definition min_as_ref {T} (m : min T) : T := min_val m.
Definition min_value {T} (m : min T) : T := min_val m.
Definition min_into_value {T} (m : min T) : T := min_val m.
Definition max_from {T} (value : T) : max T := mkMax value.
Definition max_as_ref {T} (m : max T) : T := max_val m.
Definition max_value {T} (m : max T) : T := max_val m.
Definition max_into_value {T} (m : max T) : T := max_val m.
Definition sum_from {T} (value : T) : sum T := mkSum value.
Definition sum_as_ref {T} (m : sum T) : T := sum_val m.
Definition sum_value {T} (m : sum T) : T := sum_val m.
Definition sum_into_value {T} (m : sum T) : T := sum_val m.
Definition product_from {T} (value : T) : product T := mkProduct value.
Definition product_as_ref {T} (m : product T) : T := product_val m.
Definition product_value {T} (m : product T) : T := product_val m.
Definition product_into_value {T} (m : product T) : T := product_val m.
(** first.rs 218-222 [as_ref], 377-379 [value], 381-383 [into_value]; last.rs 219-223, 396-402 *)
Definition expect {A} (o : option A) : outcome A := match o with Some x => Ret x | None => Panic end.
Definition first_as_ref {T} (m : first T) : outcome T := expect (first_val m).
Definition first_value {T} (m : first T) : outcome T := expect (first_val m).
Definition first_into_value {T} (m : first T) : outcome T := expect (first_val m).
Definition last_as_ref {T} (m : last T) : outcome T := expect (last_val m).
Definition last_value {T} (m : last T) : outcome T := expect (last_val m).
Definition last_into_value {T} (m : last T) : outcome T := expect (last_val m).

(** ** Writer *)
(** writer.rs 247-249 [new], 450-457 [value], [into_value], 1198-1209, 1216-1218 [into_iter] *)
Definition wr_new {W A} (log : W) (value : A) : writer W A := mkWriter log value.
Definition wr_value {W A} (w : writer W A) : A := w_value w.
Definition wr_into_value {W A} (w : writer W A) : A := w_value w.
Definition wr_into_iter {W A} (w : writer W A) : list A := [w_value w].

(** ** Choice: choice.rs 1983-1985, 1992-1994 [into_iter] *)
Definition ch_into_iter {T} (c : choice T) : list T := values c.

(** ** Errors *)
(** error/types.rs 338-340 [Display for ComposableError] *)
Definition ce_display {E} (display : E -> string) (show : nat -> string) (e : cerr E) : string :=
  ce_error_chain display show e.
(** error/types.rs 403-407 [ErrorContext::new], 420-422 [message], 426-428 [Display] *)
Record error_context := mkErrorContext { ec_text : string }.
Definition ec_new (message : string) : error_context := mkErrorContext message.
Definition ec_message (c : error_context) : string := ec_text c.
Definition ec_display (c : error_context) : string := ec_text c.

(** ** PersistentVector *)
Section Vec.
Context {T : Type}.
(** pvec/core.rs 981-983 [default], 487-489 [with_cache_policy], 494-496 [from_slice_with_cache_policy]
    ([from_slice], 168-170, is [from_iter] of the copied elements) *)
Definition pv_default : pvec T := pv_new.
Definition pv_with_cache_policy {P} (_policy : P) : pvec T := pv_new.
Definition pv_from_slice_with_cache_policy {P} (slice : list T) (_policy : P) : pvec T := pv_from_iter slice.
(** pvec/traits.rs 89-91 [Foldable::length] *)
Definition pv_length (v : pvec T) : nat := pv_len v.
(** pvec/traits.rs 20-22 [value], 25-27 [try_value], 30-32 [into_value], 35-37 [try_into_value];
    pvec/iter.rs 48-58 [next] of the consuming iterator is [next] of the borrowing one, and so is
    60-63 [size_hint] *)
Definition pv_try_value (v : pvec T) : outcome (option T) := pv_first v.
Definition pv_value (v : pvec T) : outcome T := do o <- pv_first v; expect o.
Definition pv_try_into_value (v : pvec T) : outcome (option T) := do n <- iter_next v 0; Ret (fst n).
Definition pv_into_value (v : pvec T) : outcome T := do n <- iter_next v 0; expect (fst n).
End Vec.

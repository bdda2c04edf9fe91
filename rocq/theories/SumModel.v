(** Model of [Maybe] ([/repo/src/datatypes/maybe.rs]), [Either]
    ([/repo/src/datatypes/either.rs]), [Id] ([/repo/src/datatypes/id.rs]) and of
    the trait instances for [Option], [Result] and [Vec] in
    [/repo/src/traits/*.rs].  Definitions only.  Cloning is the identity,
    closures are Gallina functions; an owned and a borrowed method with the
    same body share one definition. *)
From Coq Require Import String List Arith Bool.
From Verif Require Import Base Types.
Import ListNotations.
Open Scope outcome_scope.

(** ** Maybe, maybe.rs 235-240 *)
Inductive maybe (T : Type) : Type := Just (x : T) | Nothing.
Arguments Just {T} x.
Arguments Nothing {T}.
(** maybe.rs 244-249 *)
Inductive maybe_error : Type := ValueNotPresent | Custom (msg : string).

(** maybe.rs 307-313 [when], 329-349 *)
Definition mb_when {T} (condition : bool) (value : T) : maybe T :=
  if condition then Just value else Nothing.
Definition mb_is_just {T} (m : maybe T) : bool := match m with Just _ => true | Nothing => false end.
Definition mb_is_nothing {T} (m : maybe T) : bool := match m with Just _ => false | Nothing => true end.
(** maybe.rs 370-401 [from_option], [to_option]; 1311-1329 the two [From] impls *)
Definition mb_from_option {T} (o : option T) : maybe T :=
  match o with Some x => Just x | None => Nothing end.
Definition mb_to_option {T} (m : maybe T) : option T :=
  match m with Just x => Some x | Nothing => None end.
(** maybe.rs 427-432 [to_result], 1347-1352 [WithError::to_result], 1355-1363 [From<Result>] *)
Definition mb_to_result {T E} (m : maybe T) (error : E) : result T E :=
  match m with Just x => Ok x | Nothing => Err error end.
Definition mb_from_result {T E} (r : result T E) : maybe T :=
  match r with Ok v => Just v | Err _ => Nothing end.
(** maybe.rs 511-516 [unwrap], 1412-1422 [Identity::value], [into_value]; identity.rs
    141-143, 190-195: the defaults [try_value], [try_into_value] *)
Definition mb_unwrap {T} (m : maybe T) : outcome T :=
  match m with Just v => Ret v | Nothing => Panic end.
Definition mb_try_value {T} (m : maybe T) : outcome (option T) := omap Some (mb_unwrap m).
(** maybe.rs 532-537, 556-564, 607-615 *)
Definition mb_unwrap_or {T} (m : maybe T) (default : T) : T :=
  match m with Just v => v | Nothing => default end.
Definition mb_fmap_or {T U} (m : maybe T) (default : U) (f : T -> U) : U :=
  match m with Just v => f v | Nothing => default end.
(** maybe.rs 655-663 [filter] *)
Definition mb_filter {T} (p : T -> bool) (m : maybe T) : maybe T :=
  match m with
  | Just v => if p v then Just v else Nothing
  | Nothing => Nothing
  end.
(** maybe.rs 703-705 [iter], 744-749 [to_vec], 1451-1473 [IntoIterator] *)
Definition mb_to_vec {T} (m : maybe T) : list T := match m with Just x => [x] | Nothing => [] end.
(** maybe.rs 1305-1309 [FromIterator] *)
Definition mb_from_iter {T} (l : list T) : maybe T :=
  match hd_error l with Some x => Just x | None => Nothing end.
(** maybe.rs 767-769 [pure]; 788-821 [fmap]; 841-849, 906-916 [apply]; 867-876 [lift2];
    879-890 [lift3] *)
Definition mb_pure {T} (x : T) : maybe T := Just x.
Definition mb_fmap {A B} (f : A -> B) (m : maybe A) : maybe B :=
  match m with Just x => Just (f x) | Nothing => Nothing end.
Definition mb_apply {A B} (mf : maybe (A -> B)) (m : maybe A) : maybe B :=
  match mf, m with Just g, Just x => Just (g x) | _, _ => Nothing end.
Definition mb_lift2 {A B C} (f : A -> B -> C) (ma : maybe A) (mb : maybe B) : maybe C :=
  match ma, mb with Just a, Just b => Just (f a b) | _, _ => Nothing end.
Definition mb_lift3 {A B C D} (f : A -> B -> C -> D) ma mb mc : maybe D :=
  match ma, mb, mc with Just a, Just b, Just c => Just (f a b c) | _, _, _ => Nothing end.
(** maybe.rs 1005-1064 [bind(_owned)]; 1107-1160 [join(_owned)] *)
Definition mb_bind {A B} (m : maybe A) (f : A -> maybe B) : maybe B :=
  match m with Just x => f x | Nothing => Nothing end.
Definition mb_join {A B} (into : A -> maybe B) (m : maybe A) : maybe B :=
  match m with Just m' => into m' | Nothing => Nothing end.
(** maybe.rs 1196-1202 [mplus]; 1204-1212 [mplus_owned]; 1249-1254 [alt]; 1268-1285 *)
Definition mb_mplus {T} (a b : maybe T) : maybe T :=
  match a, b with Just _, _ => a | Nothing, Just _ => b | _, _ => Nothing end.
Definition mb_mplus_owned {T} (a b : maybe T) : maybe T :=
  match a with Just _ => a | Nothing => b end.
Definition mb_alt {T} (a b : maybe T) : maybe T := match a with Just _ => a | Nothing => b end.
Definition mb_guard (condition : bool) : maybe unit := if condition then Just tt else Nothing.
Definition mb_many {T} (m : maybe T) : maybe (list T) :=
  match m with Just x => Just [x] | Nothing => Nothing end.
(** maybe.rs 1336-1345 [WithError::fmap_error] *)
Definition mb_fmap_error {T G} (m : maybe T) (f : maybe_error -> G) : maybe G :=
  match m with Just _ => Just (f ValueNotPresent) | Nothing => Nothing end.
(** maybe.rs 233: derived [PartialOrd]: variants in declaration order ([Just] first) *)
Definition mb_lt {T} (ltb : T -> T -> bool) (a b : maybe T) : bool :=
  match a, b with
  | Just x, Just y => ltb x y
  | Just _, Nothing => true
  | Nothing, _ => false
  end.
(** [Option]'s derived order in the standard library ([None] first) *)
Definition option_lt {T} (ltb : T -> T -> bool) (a b : option T) : bool :=
  match a, b with
  | None, Some _ => true
  | Some x, Some y => ltb x y
  | _, None => false
  end.

(** ** Either *)
(** either.rs 323-344 *)
Definition ei_is_left {L R} (e : either L R) : bool := match e with Left _ => true | Right _ => false end.
Definition ei_is_right {L R} (e : either L R) : bool := match e with Left _ => false | Right _ => true end.
(** either.rs 367-375 [fmap_left], 985-1004 [map_second], 1019-1028 [second];
    error_utils.rs 150-158 [fmap_error] *)
Definition ei_fmap_left {L R T} (f : L -> T) (e : either L R) : either T R :=
  match e with Left l => Left (f l) | Right r => Right r end.
(** either.rs 400-408 [fmap_right], 810-829 [fmap(_owned)], 1008-1017 [first] *)
Definition ei_fmap {L R T} (f : R -> T) (e : either L R) : either L T :=
  match e with Left l => Left l | Right r => Right (f r) end.
(** either.rs 424-429 [unwrap_left], 519-527 [left_value]; 447-452 [unwrap_right], 475-480
    [unwrap], 544-549 [right_value]; 1063-1084 [Identity] *)
Definition ei_unwrap_left {L R} (e : either L R) : outcome L :=
  match e with Left l => Ret l | Right _ => Panic end.
Definition ei_unwrap {L R} (e : either L R) : outcome R :=
  match e with Right r => Ret r | Left _ => Panic end.
Definition ei_try_value {L R} (e : either L R) : outcome (option R) := omap Some (ei_unwrap e).
(** either.rs 1266-1271 [into_iter]; 713-718 [left_iter] *)
Definition ei_iter {L R} (e : either L R) : list R := match e with Right r => [r] | Left _ => [] end.
Definition ei_left_iter {L R} (e : either L R) : list L := match e with Left l => [l] | Right _ => [] end.
(** either.rs 496-501 [unwrap_or], 608-610 [right_or], 632-637 [left_or] *)
Definition ei_unwrap_or {L R} (e : either L R) (default : R) : R :=
  match e with Right r => r | Left _ => default end.
Definition ei_right_or {L R} (e : either L R) (default : R) : R :=
  match hd_error (ei_iter e) with Some r => r | None => default end.
Definition ei_left_or {L R} (e : either L R) (default : L) : L :=
  match e with Left l => l | Right _ => default end.
(** either.rs 582-586 [right_ref] *)
Definition ei_right_ref {L R} (e : either L R) : outcome R :=
  match hd_error (ei_iter e) with Some r => Ret r | None => Panic end.
(** either.rs 659-661 [right_option], 755-757 [left_option] *)
Definition ei_right_option {L R} (e : either L R) : option R := hd_error (ei_iter e).
Definition ei_left_option {L R} (e : either L R) : option L := hd_error (ei_left_iter e).
(** either.rs 684-710 [to_result], [from_result] (convert.rs 38-77) *)
Definition ei_to_result {L R} (e : either L R) : result R L :=
  match e with Left error => Err error | Right value => Ok value end.
Definition ei_from_result {L R} (r : result R L) : either L R :=
  match r with Ok value => Right value | Err error => Left error end.
(** either.rs 834-836 [pure]; 840-849, 885-896 [apply]; 851-864 [lift2]; 866-883 [lift3] *)
Definition ei_pure {L R} (x : R) : either L R := Right x.
Definition ei_apply {L A B} (ef : either L (A -> B)) (e : either L A) : either L B :=
  match ef, e with
  | Right func, Right a => Right (func a)
  | Left l, _ => Left l
  | _, Left l => Left l
  end.
Definition ei_lift2 {L A B C} (f : A -> B -> C) (fa : either L A) (fb : either L B) : either L C :=
  match fa, fb with
  | Right a, Right b => Right (f a b)
  | Left l, _ => Left l
  | _, Left l => Left l
  end.
Definition ei_lift3 {L A B C D} (f : A -> B -> C -> D) (fa : either L A) (fb : either L B)
    (fc : either L C) : either L D :=
  match fa, fb, fc with
  | Right a, Right b, Right c => Right (f a b c)
  | Left l, _, _ => Left l
  | _, Left l, _ => Left l
  | _, _, Left l => Left l
  end.
(** either.rs 935-978 [bind(_owned)], [join(_owned)] *)
Definition ei_bind {L A B} (e : either L A) (f : A -> either L B) : either L B :=
  match e with Left l => Left l | Right r => f r end.
Definition ei_join {L A B} (into : A -> either L B) (e : either L A) : either L B :=
  match e with Left l => Left l | Right r => into r end.
(** either.rs 1030-1041 [bimap]: [f] acts on the right component *)
Definition ei_bimap {L R C D} (f : R -> C) (g : L -> D) (e : either L R) : either D C :=
  match e with Left l => Left (g l) | Right r => Right (f r) end.
(** either.rs 1126-1152 [mzero], [mplus(_owned)]; [dflt] is [L::default()] *)
Definition ei_mzero {L R} (dflt : L) : either L R := Left dflt.
Definition ei_mplus {L R} (a b : either L R) : either L R :=
  match a, b with
  | Right _, _ => a
  | Left _, Right _ => b
  | Left _, Left _ => a
  end.
(** either.rs 1194-1239 [Alternative] *)
Definition ei_empty_alt {L R} (dflt : L) : either L R := Left dflt.
Definition ei_alt {L R} (a b : either L R) : either L R :=
  match a with Right _ => a | Left _ => b end.
Definition ei_guard {L} (dflt : L) (condition : bool) : either L unit :=
  if condition then Right tt else Left dflt.
Definition ei_many {L R} (dflt : L) (e : either L R) : either L (list R) :=
  match e with Right x => Right [x] | Left _ => Left dflt end.

(** ** Id, id.rs 250-252 *)
Record id_ (T : Type) : Type := mkId { id_value : T }.
Arguments mkId {T} id_value.
Arguments id_value {T} i.
(** id.rs 414-427, 432-434, 439-508 *)
Definition id_fmap {A B} (f : A -> B) (i : id_ A) : id_ B := mkId (f (id_value i)).
Definition id_pure {A} (x : A) : id_ A := mkId x.
Definition id_apply {A B} (f : id_ (A -> B)) (i : id_ A) : id_ B := mkId (id_value f (id_value i)).
Definition id_lift2 {A B C} (f : A -> B -> C) (a : id_ A) (b : id_ B) : id_ C :=
  mkId (f (id_value a) (id_value b)).
Definition id_lift3 {A B C D} (f : A -> B -> C -> D) (a : id_ A) (b : id_ B) (c : id_ C) : id_ D :=
  mkId (f (id_value a) (id_value b) (id_value c)).
(** id.rs 562-595 *)
Definition id_bind {A B} (i : id_ A) (f : A -> id_ B) : id_ B := f (id_value i).
Definition id_join {A B} (into : A -> id_ B) (i : id_ A) : id_ B := into (id_value i).
(** id.rs 355-357 [then] *)
Definition id_then {A B} (i : id_ A) (next : id_ B) : id_ B := mkId (id_value next).
(** id.rs 615-677 [Comonad] *)
Definition id_extract {A} (i : id_ A) : A := id_value i.
Definition id_duplicate {A} (i : id_ A) : id_ A := i.
Definition id_extend {A B} (i : id_ A) (f : id_ A -> B) : id_ B := mkId (f i).
(** id.rs 710-765 *)
Definition id_combine {A} (op : A -> A -> A) (a b : id_ A) : id_ A := mkId (op (id_value a) (id_value b)).
Definition id_empty {A} (e : A) : id_ A := mkId e.
(** id.rs 770-785 *)
Definition id_fold_left {A U} (init : U) (f : U -> A -> U) (i : id_ A) : U := f init (id_value i).
Definition id_fold_right {A U} (init : U) (f : A -> U -> U) (i : id_ A) : U := f (id_value i) init.

(** ** Option, Result, Vec instances *)
(** functor.rs 592-610; pure.rs 188-198; applicative.rs 690-781 *)
Definition op_fmap {A B} (f : A -> B) (o : option A) : option B := option_map f o.
Definition op_pure {A} (x : A) : option A := Some x.
Definition op_apply {A B} (ff : option (A -> B)) (o : option A) : option B :=
  match ff, o with Some func, Some a => Some (func a) | _, _ => None end.
Definition op_lift2 {A B C} (f : A -> B -> C) (a : option A) (b : option B) : option C :=
  match a, b with Some a, Some b => Some (f a b) | _, _ => None end.
Definition op_lift3 {A B C D} (f : A -> B -> C -> D) a b c : option D :=
  match a, b, c with Some a, Some b, Some c => Some (f a b c) | _, _, _ => None end.
(** monad.rs 315-350 ([Option::and_then]) *)
Definition op_bind {A B} (o : option A) (f : A -> option B) : option B :=
  match o with Some x => f x | None => None end.
Definition op_join {A B} (into : A -> option B) (o : option A) : option B :=
  match o with Some x => into x | None => None end.
(** alternative.rs 154-176 ([Option::or_else]); monad_plus.rs 126-144 *)
Definition op_alt {A} (a b : option A) : option A := match a with Some _ => a | None => b end.
Definition op_mplus {A} (a b : option A) : option A := match a with Some _ => a | None => b end.
Definition op_many {A} (a : option A) : option (list A) := option_map (fun v => [v]) a.
Definition op_guard (c : bool) : option unit := if c then Some tt else None.
(** identity.rs 209-229 *)
Definition op_value {A} (o : option A) : outcome A := match o with Some x => Ret x | None => Panic end.
Definition op_try_value {A} (o : option A) : outcome (option A) := Ret o.
(** functor.rs 503-541 [FunctorExt for Option] *)
Definition op_filter_map {A B} (o : option A) (f : A -> option B) : option B :=
  match o with Some x => f x | None => None end.
Definition op_try_map_or {A B E} (o : option A) (default : B) (f : A -> result B E) : option B :=
  match o with
  | Some v => match f v with Ok b => Some b | Err _ => Some default end
  | None => None
  end.
Definition op_try_map_or_else {A B E} (o : option A) (default_fn : E -> B) (f : A -> result B E) : option B :=
  match o with
  | Some v => match f v with Ok b => Some b | Err e => Some (default_fn e) end
  | None => None
  end.
(** monad_error.rs 313-373 *)
Definition op_throw {A} (_ : unit) : option A := None.
Definition op_catch {A} (o : option A) (f : unit -> option A) : option A :=
  match o with Some v => Some v | None => f tt end.
Definition op_map_error_to {A E} (o : option A) (f : unit -> E) : result A E :=
  match o with Some v => Ok v | None => Err (f tt) end.

(** functor.rs 612-636; pure.rs 200-210; applicative.rs 784-883 *)
Definition re_fmap {A B E} (f : A -> B) (r : result A E) : result B E :=
  match r with Ok v => Ok (f v) | Err e => Err e end.
Definition re_pure {A E} (x : A) : result A E := Ok x.
Definition re_apply {A B E} (rf : result (A -> B) E) (r : result A E) : result B E :=
  match rf, r with
  | Ok func, Ok a => Ok (func a)
  | Err e, _ => Err e
  | _, Err e => Err e
  end.
Definition re_lift2 {A B C E} (f : A -> B -> C) (a : result A E) (b : result B E) : result C E :=
  match a, b with
  | Ok a, Ok b => Ok (f a b)
  | Err e, _ => Err e
  | _, Err e => Err e
  end.
Definition re_lift3 {A B C D E} (f : A -> B -> C -> D) (a : result A E) (b : result B E)
    (c : result C E) : result D E :=
  match a, b, c with
  | Ok a, Ok b, Ok c => Ok (f a b c)
  | Err e, _, _ => Err e
  | _, Err e, _ => Err e
  | _, _, Err e => Err e
  end.
(** monad.rs 353-394 *)
Definition re_bind {A B E} (r : result A E) (f : A -> result B E) : result B E :=
  match r with Ok x => f x | Err e => Err e end.
Definition re_join {A B E} (into : A -> result B E) (r : result A E) : result B E :=
  match r with Ok x => into x | Err e => Err e end.
(** monad_plus.rs 147-165 *)
Definition re_mzero {A E} (dflt : E) : result A E := Err dflt.
Definition re_mplus {A E} (a b : result A E) : result A E := match a with Ok _ => a | Err _ => b end.
(** identity.rs 231-251 *)
Definition re_value {A E} (r : result A E) : outcome A := match r with Ok x => Ret x | Err _ => Panic end.
Definition re_try_value {A E} (r : result A E) : outcome (option A) :=
  Ret (match r with Ok x => Some x | Err _ => None end).
(** functor.rs 543-590 *)
Definition re_filter_map {A B E} (dflt : E) (r : result A E) (f : A -> option B) : result B E :=
  match r with
  | Ok v => match f v with Some b => Ok b | None => Err dflt end
  | Err e => Err e
  end.
Definition re_try_map_or {A B E E2} (r : result A E) (default : B) (f : A -> result B E2) : result B E :=
  match r with
  | Ok v => match f v with Ok b => Ok b | Err _ => Ok default end
  | Err e => Err e
  end.
Definition re_try_map_or_else {A B E E2} (r : result A E) (default_fn : E2 -> B) (f : A -> result B E2)
  : result B E :=
  match r with
  | Ok v => match f v with Ok b => Ok b | Err e => Ok (default_fn e) end
  | Err e => Err e
  end.
(** monad_error.rs 248-309 *)
Definition re_throw {A E} (e : E) : result A E := Err e.
Definition re_catch {A E} (r : result A E) (f : E -> result A E) : result A E :=
  match r with Ok v => Ok v | Err e => f e end.
Definition re_map_error_to {A E N} (r : result A E) (f : E -> N) : result A N :=
  match r with Ok v => Ok v | Err e => Err (f e) end.

(** functor.rs 446-463; pure.rs 212-222 *)
Definition vec_fmap {A B} (f : A -> B) (l : list A) : list B := map f l.
Definition vec_pure {A} (x : A) : list A := [x].
(** applicative.rs 886-900, 945-958: nested loops pushing results *)
Definition vec_apply {A B} (fs : list (A -> B)) (vs : list A) : list B :=
  fold_left (fun acc func => fold_left (fun acc v => acc ++ [func v]) vs acc) fs [].
(** applicative.rs 903-918, 961-976 *)
Definition vec_lift2 {A B C} (f : A -> B -> C) (fa : list A) (fb : list B) : list C :=
  fold_left (fun acc a => fold_left (fun acc b => acc ++ [f a b]) fb acc) fa [].
(** applicative.rs 921-941 *)
Definition vec_lift3 {A B C D} (f : A -> B -> C -> D) (fa : list A) (fb : list B) (fc : list C) : list D :=
  fold_left (fun acc t => acc ++ [f (fst (fst t)) (snd (fst t)) (snd t)])
    (flat_map (fun ab => map (fun c => (ab, c)) fc) (flat_map (fun a => map (fun b => (a, b)) fb) fa)) [].
(** applicative.rs 979-999 *)
Definition vec_lift3_owned {A B C D} (f : A -> B -> C -> D) (fa : list A) (fb : list B) (fc : list C) : list D :=
  fold_left (fun acc a => fold_left (fun acc b => fold_left (fun acc c => acc ++ [f a b c]) fc acc) fb acc) fa [].
(** alternative.rs 178-208 *)
Definition vec_alt {A} (a b : list A) : list A := match a with [] => b | _ => a end.
Definition vec_many {A} (a : list A) : list (list A) := match a with [] => [] | _ => [a] end.
Definition vec_guard (c : bool) : list unit := if c then [tt] else [].
(** functor.rs 465-501 *)
Fixpoint vec_filter_map {A B} (l : list A) (f : A -> option B) : list B :=
  match l with
  | [] => []
  | x :: l' => match f x with Some b => b :: vec_filter_map l' f | None => vec_filter_map l' f end
  end.
Definition vec_try_map_or {A B E} (l : list A) (default : B) (f : A -> result B E) : list B :=
  map (fun x => match f x with Ok b => b | Err _ => default end) l.
Definition vec_try_map_or_else {A B E} (l : list A) (default_fn : E -> B) (f : A -> result B E) : list B :=
  map (fun x => match f x with Ok b => b | Err e => default_fn e end) l.

(** ** Trait defaults, as functions of the instance's own operations *)
(** applicative.rs 379-430, 640-686: [sequence_right], [sequence_left] *)
Definition default_sequence_right {A B R} (lift2 : (A -> B -> B) -> R) : R := lift2 (fun _ b => b).
Definition default_sequence_left {A B R} (lift2 : (A -> B -> A) -> R) : R := lift2 (fun a _ => a).
(** functor.rs 176-234: [replace], [void] *)
Definition default_replace {A B R} (fmap : (A -> B) -> R) (value : B) : R := fmap (fun _ => value).
Definition default_void {A R} (fmap : (A -> unit) -> R) : R := fmap (fun _ => tt).
(** monad.rs 272-282 [map_and_pure]; 301-311 [try_bind] *)
Definition default_map_and_pure {A B R} (bind : (A -> R) -> R) (pure : B -> R) (f : A -> B) : R :=
  bind (fun x => let result := f x in pure result).
Definition default_try_bind {A B E R} (bind : (A -> R) -> R) (pure : B -> R) (default : B)
    (f : A -> result R E) : R :=
  bind (fun x => match f x with Ok m => m | Err _ => pure default end).
(** functor.rs 331-399 [FunctorExt] defaults *)
Definition default_try_map_or {A B E R} (fmap : (A -> B) -> R) (default : B) (f : A -> result B E) : R :=
  fmap (fun a => match f a with Ok b => b | Err _ => default end).
Definition default_try_map_or_else {A B E R} (fmap : (A -> B) -> R) (default_fn : E -> B)
    (f : A -> result B E) : R :=
  fmap (fun a => match f a with Ok b => b | Err e => default_fn e end).

(** validated/traits.rs 638-654 with identity.rs 141-143, 190-195 *)
Definition va_identity_value {E A} (v : validated E A) : outcome A :=
  match v with Valid a => Ret a | Invalid _ => Panic end.
Definition va_try_value {E A} (v : validated E A) : outcome (option A) := omap Some (va_identity_value v).

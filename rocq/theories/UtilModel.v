(** Model of src/utils/categorical_utils.rs, src/utils/hkt_utils.rs,
    src/utils/transform_utils.rs, src/utils/functions.rs and
    src/category/function_category.rs (with the default methods of
    src/traits/arrow.rs).

    Simplifications: iterators and [Vec] are lists; closures and [Arc<dyn Fn>]
    are functions, and may not panic; capacities are dropped; [Into]/[From]
    conversions are arguments. *)
From Coq Require Import List.
From Verif Require Import Base Types.
Import ListNotations.

(** ** categorical_utils.rs *)
(** categorical_utils.rs 120-125 [map_option]; 155-160 [map_result]; hkt_utils.rs 415-420 [map_result] *)
Definition cu_map_option {T U} (opt : option T) (f : T -> U) : option U := option_map f opt.
Definition cu_map_result {T U E} (r : result T E) (f : T -> U) : result U E :=
  match r with Ok t => Ok (f t) | Err e => Err e end.
(** categorical_utils.rs 192-201 [bimap_result] *)
Definition cu_bimap_result {T U E F} (r : result T E) (f_ok : T -> U) (f_err : E -> F) : result U F :=
  match r with Ok value => Ok (f_ok value) | Err error => Err (f_err error) end.
(** categorical_utils.rs 244-249 [flat_map_option]; 283-288 [flat_map_result] *)
Definition cu_flat_map_option {T U} (opt : option T) (f : T -> option U) : option U :=
  match opt with Some t => f t | None => None end.
Definition cu_flat_map_result {T U E} (r : result T E) (f : T -> result U E) : result U E :=
  match r with Ok t => f t | Err e => Err e end.
(** categorical_utils.rs 326-332 [compose]; 367-373 [pipe]; 413-418 [flip] *)
Definition cu_compose {A B C} (g : B -> C) (f : A -> B) : A -> C := fun x => g (f x).
Definition cu_pipe {A B C} (f : A -> B) (g : B -> C) : A -> C := fun x => g (f x).
Definition cu_flip {A B C} (f : A -> B -> C) : B -> A -> C := fun b a => f a b.
(** categorical_utils.rs 461-480 [filter_map_collect]: the [for] loop *)
Fixpoint fmc_loop {T U} (f : T -> option U) (acc : list U) (items : list T) : list U :=
  match items with
  | [] => acc
  | item :: items' => fmc_loop f (match f item with Some value => acc ++ [value] | None => acc end) items'
  end.
Definition cu_filter_map_collect {T U} (items : list T) (f : T -> option U) : list U := fmc_loop f [] items.
(** categorical_utils.rs 516-518 [sequence_options]; 548-550 [sequence_results]: std's [collect] into
    [Option]/[Result] pulls elements until the first failure *)
Fixpoint cu_sequence_options {T} (options : list (option T)) : option (list T) :=
  match options with
  | [] => Some []
  | None :: _ => None
  | Some x :: rest => option_map (cons x) (cu_sequence_options rest)
  end.
Fixpoint cu_sequence_results {T E} (results : list (result T E)) : result (list T) E :=
  match results with
  | [] => Ok []
  | Err e :: _ => Err e
  | Ok x :: rest => match cu_sequence_results rest with Ok l => Ok (x :: l) | Err e => Err e end
  end.
(** categorical_utils.rs 614-623 [fold_with] *)
Definition cu_fold_with {T W} (combine : W -> W -> W) (empty : W) (from : T -> W) (items : list T) : W :=
  match items with
  | [] => empty
  | first :: rest => fold_left (fun acc x => combine acc (from x)) rest (from first)
  end.

(** ** hkt_utils.rs *)
(** hkt_utils.rs 59-79 [filter_map]: the [for] loop *)
Fixpoint fm_loop {A B} (p : A -> bool) (f : A -> B) (acc : list B) (items : list A) : list B :=
  match items with
  | [] => acc
  | item :: items' => fm_loop p f (if p item then acc ++ [f item] else acc) items'
  end.
Definition hu_filter_map {A B} (items : list A) (p : A -> bool) (f : A -> B) : list B := fm_loop p f [] items.
(** hkt_utils.rs 122-127 [zip_with] *)
Definition hu_zip_with {A B C} (xs : list A) (ys : list B) (f : A -> B -> C) : list C :=
  map (fun xy => f (fst xy) (snd xy)) (combine xs ys).
(** hkt_utils.rs 179-188 [pipeline_option]: [try_fold] *)
Fixpoint try_fold_opt {B} (acc : B) (ops : list (B -> option B)) : option B :=
  match ops with
  | [] => Some acc
  | op :: ops' => match op acc with Some acc' => try_fold_opt acc' ops' | None => None end
  end.
Definition hu_pipeline_option {A B} (into : A -> B) (initial : A) (ops : list (B -> option B)) : option B :=
  try_fold_opt (into initial) ops.
(** hkt_utils.rs 248-266 [pipeline_result]; 319-325 [try_pipeline] *)
Definition hu_pipeline_result {A B E} (into : A -> B) (initial : A) (ops : list (B -> result B E)) : result B E :=
  let '(initial_result, rest) :=
    match ops with
    | first_op :: rest => (first_op (into initial), rest)
    | [] => (Ok (into initial), [])
    end in
  fold_left (fun acc op => match acc with Ok value => op value | Err e => Err e end) rest initial_result.
(** hkt_utils.rs 369-374 [lift_option]; 467-472 [fan_out]; 510-519 [compose_all] *)
Definition hu_lift_option {A B} (f : A -> B) : option A -> option B := fun opt => option_map f opt.
Definition hu_fan_out {A B} (input : A) (ops : list (A -> B)) : list B := map (fun op => op input) ops.
Definition hu_compose_all {A B} (from : A -> B) (fs : list (A -> A)) : A -> B :=
  fun input => from (fold_left (fun acc f => f acc) fs input).

(** ** transform_utils.rs *)
(** transform_utils.rs 86-93 [transform_all]; 138-145 [transform_chain]; [fmap] of the functor is an argument *)
Definition tu_transform_all {FA FB} (fmap : FA -> FB) (values : list FA) : list FB := map fmap values.
Definition tu_transform_chain {FA FB} (fmap : FA -> FB) (value : option FA) : option FB := option_map fmap value.
(** transform_utils.rs 195 [Pipeline]; 221-249 [new], [extract]; 286-334 [map_owned], [map] *)
Record pipeline (T : Type) := mkPipeline { pl_value : T }.
Arguments mkPipeline {T} _.
Arguments pl_value {T} _.
Definition pl_new {T} (value : T) : pipeline T := mkPipeline value.
Definition pl_extract {T} (p : pipeline T) : T := pl_value p.
Definition pl_map {FA FB} (fmap : FA -> FB) (p : pipeline FA) : pipeline FB := mkPipeline (fmap (pl_value p)).

(** ** functions.rs 82-84 [id]; 113-115 [const_fn] *)
Definition fn_id {A} (a : A) : A := a.
Definition fn_const {A B} (value : A) : B -> A := fun _ => value.

(** ** function_category.rs *)
(** function_category.rs 149-151 [identity_morphism]; 153-164 [compose_morphisms] *)
Definition fc_identity {A} : A -> A := fun x => x.
Definition fc_compose {A B C} (g : B -> C) (f : A -> B) : A -> C :=
  fun x => let intermediate := f x in g intermediate.
(** function_category.rs 168-173 [arrow]; 290-297 [lift] *)
Definition fc_arrow {B C} (f : B -> C) : B -> C := f.
Definition fc_lift {A B} (f : A -> B) : A -> B := fc_arrow f.
(** function_category.rs 175-193 [first], [second] *)
Definition fc_first {B C D} (f : B -> C) : B * D -> C * D := fun '(b, d) => (f b, d).
Definition fc_second {B C D} (f : B -> C) : D * B -> D * C := fun '(d, b) => (d, f b).
(** function_category.rs 195-206 [split]; 208-220 [combine_morphisms] *)
Definition fc_split {B C D} (f : B -> C) (g : B -> D) : B -> C * D := fun b => (f b, g b).
Definition fc_combine {B C D E} (f : B -> C) (g : D -> E) : B * D -> C * E := fun '(b, d) => (f b, g d).
(** arrow.rs 222-232: the default [split] *)
Definition ar_split_default {B C D} (f : B -> C) (g : B -> D) : B -> C * D :=
  fc_compose (fc_combine f g) (fc_arrow (fun b => (b, b))).
(** function_category.rs 241-247 [both]; 267-274 [when]; 323-374 [then_if], [compose_when]; 393-399 [sequence] *)
Definition fc_both {A B} (f : A -> B) : A * A -> B * B := fun '(a1, a2) => (f a1, f a2).
Definition fc_when {A} (predicate : A -> bool) (transform : A -> A) : A -> A :=
  fun a => if predicate a then transform a else a.
Definition fc_then_if {A} (first second : A -> A) (predicate : A -> bool) : A -> A :=
  fun x => let r := first x in if predicate r then second r else r.
Definition fc_sequence {A} (functions : list (A -> A)) : A -> A :=
  fun initial => fold_left (fun acc f => f acc) functions initial.
(** function_category.rs 451-465 [compose!]; 481-495 [pipe!]: their argument lists, in the order written *)
Inductive compose_args : Type -> Type -> Type :=
| CaOne {A B} (f : A -> B) : compose_args A B
| CaMore {A B C} (first : B -> C) (rest : compose_args A B) : compose_args A C.
Fixpoint compose_macro {A B} (args : compose_args A B) : A -> B :=
  match args with
  | CaOne f => fc_arrow f
  | CaMore first rest => fc_compose (fc_arrow first) (compose_macro rest)
  end.
Inductive pipe_args : Type -> Type -> Type :=
| PaOne {A B} (f : A -> B) : pipe_args A B
| PaMore {A B C} (first : A -> B) (rest : pipe_args B C) : pipe_args A C.
Fixpoint pipe_macro {A B} (args : pipe_args A B) : A -> B :=
  match args with
  | PaOne f => fc_arrow f
  | PaMore first rest => fc_compose (pipe_macro rest) (fc_arrow first)
  end.

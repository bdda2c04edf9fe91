(** Model of the error handling layer: src/error/types.rs, src/error/context.rs,
    the [ComposableError] conversions of src/error/convert.rs, src/error/core.rs,
    src/utils/error_utils.rs, and the [try_*] runners of src/datatypes/state.rs,
    src/transformers/state_t.rs and src/transformers/reader_t.rs.

    Simplifications: [SmallVec] and [Vec] are lists; [Box] is transparent, so
    the boxed and unboxed variants of a function are one function; a context
    ([String], [&str], [ErrorContext], [LazyContext]) is the string it turns into;
    [Display] of the core error and of the [u32] code are arguments.  Closures of
    type [FnMut] thread an explicit state [S]. *)
From Coq Require Import String List.
From Verif Require Import Base Types ValidatedModel SumModel EffModel.
Import ListNotations.
Open Scope outcome_scope.

(** ** ComposableError *)
(** types.rs 38-46; [ce_ctx] in push order *)
Record cerr (E : Type) := mkCerr { ce_core : E; ce_ctx : list string; ce_code : option nat }.
Arguments mkCerr {E} _ _ _.
Arguments ce_core {E} _.
Arguments ce_ctx {E} _.
Arguments ce_code {E} _.
(** types.rs 65-71 [new]; 360-365 [From] *)
Definition ce_new {E} (error : E) : cerr E := mkCerr error [] None.
(** types.rs 90-96 [with_code] *)
Definition ce_with_code {E} (error : E) (code : nat) : cerr E := mkCerr error [] (Some code).
(** types.rs 121-127 [with_context] *)
Definition ce_with_context {E} (e : cerr E) (ctx : string) : cerr E :=
  mkCerr (ce_core e) (ce_ctx e ++ [ctx]) (ce_code e).
(** types.rs 150-156 [with_contexts] *)
Definition ce_with_contexts {E} (e : cerr E) (contexts : list string) : cerr E :=
  mkCerr (ce_core e) (ce_ctx e ++ contexts) (ce_code e).
(** types.rs 169-171 [core_error]; 227-229 [error_code] are the projections.
    types.rs 190-192 [context]; 209-211 [context_iter] *)
Definition ce_context {E} (e : cerr E) : list string := rev (ce_ctx e).
(** types.rs 246-249 [set_code] *)
Definition ce_set_code {E} (e : cerr E) (code : nat) : cerr E := mkCerr (ce_core e) (ce_ctx e) (Some code).
(** types.rs 278-287 [map_core] *)
Definition ce_map_core {E T} (f : E -> T) (e : cerr E) : cerr T := mkCerr (f (ce_core e)) (ce_ctx e) (ce_code e).
(** types.rs 309-334 [error_chain]: the [for] loop over the enumerated contexts *)
Fixpoint chain_loop (i : nat) (cs : list string) (chain : string) : string :=
  match cs with
  | [] => chain
  | ctx :: cs' => chain_loop (S i) cs' (append (if Nat.ltb 0 i then append chain " -> " else chain) ctx)
  end.
Definition ce_error_chain {E} (display : E -> string) (show : nat -> string) (e : cerr E) : string :=
  let chain := chain_loop 0 (rev (ce_ctx e)) EmptyString in
  let chain := match ce_ctx e with [] => chain | _ => append chain " -> " end in
  let chain := append chain (display (ce_core e)) in
  match ce_code e with
  | Some code => append chain (append " (code: " (append (show code) ")"))
  | None => chain
  end.

(** ** context.rs *)
(** context.rs 41-46 [with_context] *)
Definition cx_with_context {E} (error : E) (context : string) : cerr E := ce_with_context (ce_new error) context.
Definition map_err {T E F} (f : E -> F) (r : result T E) : result T F :=
  match r with Ok t => Ok t | Err e => Err (f e) end.
(** context.rs 86-91 [with_context_result] *)
Definition cx_with_context_result {T E} (r : result T E) (context : string) : result T (cerr E) :=
  map_err (fun e => cx_with_context e context) r.
(** context.rs 121-126 [context_fn] *)
Definition cx_context_fn {E} (context : string) : E -> cerr E := fun error => cx_with_context error context.
(** context.rs 483-494 [accumulate_context]; 529-535 [context_accumulator] *)
Definition cx_accumulate {E} (error : E) (contexts : list string) : cerr E :=
  ce_with_contexts (ce_new error) contexts.
(** context.rs 565-570 [format_error_chain]; 599-601 [extract_context] *)
Definition cx_format_error_chain {E} (display : E -> string) (show : nat -> string) (e : cerr E) : string :=
  ce_error_chain display show e.
Definition cx_extract_context {E} (e : cerr E) : list string := ce_context e.

(** context.rs 155-158 [ErrorPipeline] *)
Record epipe (T E : Type) := mkEpipe { ep_result : result T E; ep_pending : list string }.
Arguments mkEpipe {T E} _ _.
Arguments ep_result {T E} _.
Arguments ep_pending {T E} _.
(** context.rs 176-181 [new]; 451-453 [error_pipeline] *)
Definition ep_new {T E} (r : result T E) : epipe T E := mkEpipe r [].
(** context.rs 204-215 [with_context] *)
Definition ep_with_context {T E} (p : epipe T E) (context : string) : epipe T E :=
  match ep_result p with
  | Ok _ => p
  | Err _ => mkEpipe (ep_result p) (ep_pending p ++ [context])
  end.
(** context.rs 241-249 [map_error] *)
Definition ep_map_error {T E F} (p : epipe T E) (f : E -> F) : epipe T F :=
  mkEpipe (map_err f (ep_result p)) (ep_pending p).
(** context.rs 274-282 [recover] *)
Definition ep_recover {T E} (p : epipe T E) (recovery : E -> result T E) : epipe T E :=
  mkEpipe (match ep_result p with Ok t => Ok t | Err e => recovery e end) (ep_pending p).
(** context.rs 308-316 [and_then] *)
Definition ep_and_then {T U E} (p : epipe T E) (f : T -> result U E) : epipe U E :=
  mkEpipe (match ep_result p with Ok t => f t | Err e => Err e end) (ep_pending p).
(** context.rs 342-350 [map] *)
Definition ep_map {T U E} (p : epipe T E) (f : T -> U) : epipe U E :=
  mkEpipe (match ep_result p with Ok t => Ok (f t) | Err e => Err e end) (ep_pending p).
(** context.rs 375-383 [finish]; 411-420 [finish_without_box] *)
Definition ep_finish {T E} (p : epipe T E) : result T (cerr E) :=
  match ep_result p with
  | Ok v => Ok v
  | Err e => Err (ce_with_contexts (ce_new e) (ep_pending p))
  end.

(** ** convert.rs *)
(** convert.rs 272-274 [composable_to_core]; 309-311 [core_to_composable] *)
Definition composable_to_core {E} (c : cerr E) : E := ce_core c.
Definition core_to_composable {E} (e : E) : cerr E := ce_new e.
(** convert.rs 340-342 [flatten_composable_result]; 376-378, 411-413 [wrap_in_composable_result(_boxed)] *)
Definition flatten_composable_result {T E} (r : result T (cerr E)) : result T E := map_err composable_to_core r.
Definition wrap_in_composable_result {T E} (r : result T E) : result T (cerr E) := map_err core_to_composable r.

(** ** core.rs *)
(** error/core.rs 94-144 [ErrorCategory::lift], [handle_error] *)
Definition res_lift {T E} (value : T) : result T E := Ok value.
Definition res_handle_error {T E} (error : E) : result T E := Err error.
Definition ei_lift {E T} (value : T) : either E T := Right value.
Definition ei_handle_error {E T} (error : E) : either E T := Left error.
Definition va_lift {E T} (value : T) : validated E T := Valid value.
Definition va_handle_error {E T} (error : E) : validated E T := va_invalid error.
(** error/core.rs 213-266 [ErrorOps::recover], [bimap_result]; categorical_utils.rs 192-201; error_utils.rs 514-523 [bimap] *)
Definition res_recover {T E} (r : result T E) (recovery : E -> result T E) : result T E :=
  match r with Ok value => Ok value | Err error => recovery error end.
Definition res_bimap {T U E F} (r : result T E) (f : T -> U) (g : E -> F) : result U F :=
  match r with Ok value => Ok (f value) | Err error => Err (g error) end.
Definition ei_recover {E T} (r : either E T) (recovery : E -> either E T) : either E T :=
  match r with Right value => Right value | Left error => recovery error end.
Definition ei_bimap_result {E F T U} (r : either E T) (f : T -> U) (g : E -> F) : result U F :=
  match r with Right value => Ok (f value) | Left error => Err (g error) end.

(** ** error_utils.rs *)
(** error_utils.rs 127-190 [WithError::fmap_error] *)
Definition res_fmap_error {T E G} (f : E -> G) (r : result T E) : result T G :=
  match r with Ok t => Ok t | Err e => Err (f e) end.
Definition ei_fmap_error {T E G} (f : E -> G) (r : either E T) : either G T :=
  match r with Left e => Left (f e) | Right t => Right t end.
Definition va_fmap_error {T E G} (f : E -> G) (r : validated E T) : validated G T :=
  match r with Valid t => Valid t | Invalid e => Invalid (map f e) end.
(** error_utils.rs 141-165 [WithError::to_result] on [Result] and [Either]; on [Validated] it is [va_to_result] *)
Definition res_to_result {T E} (r : result T E) : outcome (result T E) := Ret r.
Definition ei_to_result {T E} (r : either E T) : outcome (result T E) :=
  Ret (match r with Left e => Err e | Right t => Ok t end).
(** error_utils.rs 222-224 [sequence], 716-727 [sequence_result] *)
Fixpoint seq_loop {A E} (values : list A) (items : list (result A E)) : result (list A) E :=
  match items with
  | [] => Ok values
  | Ok value :: items' => seq_loop (values ++ [value]) items'
  | Err error :: _ => Err error
  end.
Definition eu_sequence {A E} (collection : list (result A E)) : result (list A) E := seq_loop [] collection.
(** error_utils.rs 262-267 [traverse], 730-746 [traverse_result] *)
Fixpoint trav_loop {S A B E} (f : S -> A -> S * result B E) (s : S) (values : list B) (items : list A)
  : S * result (list B) E :=
  match items with
  | [] => (s, Ok values)
  | item :: items' =>
      match f s item with
      | (s', Ok value) => trav_loop f s' (values ++ [value]) items'
      | (s', Err error) => (s', Err error)
      end
  end.
Definition eu_traverse {S A B E} (f : S -> A -> S * result B E) (s : S) (items : list A) : S * result (list B) E :=
  trav_loop f s [] items.
(** error_utils.rs 308-334 [traverse_validated] with the state of the [FnMut] *)
Fixpoint travv_loop {S A B E} (f : S -> A -> S * result B E) (s : S) (values : list B) (errors : list E)
    (had_error : bool) (items : list A) : S * validated E (list B) :=
  match items with
  | [] => (s, if had_error then Invalid errors else Valid values)
  | item :: items' =>
      match f s item with
      | (s', Ok value) => travv_loop f s' (values ++ [value]) errors had_error items'
      | (s', Err error) => travv_loop f s' values (errors ++ [error]) true items'
      end
  end.
Definition eu_traverse_validated {S A B E} (f : S -> A -> S * result B E) (s : S) (items : list A)
  : S * validated E (list B) := travv_loop f s [] [] false items.
(** error_utils.rs 370-386 [sequence_with_error]; [to_result] of the collection's type and [into] are arguments *)
Fixpoint swe_loop {C A T E} (to_result : C -> outcome (result A E)) (into : A -> T) (values : list T)
    (items : list C) : outcome (result (list T) E) :=
  match items with
  | [] => Ret (Ok values)
  | item :: items' =>
      do r <- to_result item;
      match r with
      | Ok value => swe_loop to_result into (values ++ [into value]) items'
      | Err error => Ret (Err error)
      end
  end.
Definition eu_sequence_with_error {C A T E} (to_result : C -> outcome (result A E)) (into : A -> T)
    (collection : list C) : outcome (result (list T) E) := swe_loop to_result into [] collection.
(** error_utils.rs 494-512 [ResultExt::to_validated], [to_either], [unwrap_or_default] *)
Definition re_to_validated {T E} (r : result T E) : validated E T :=
  match r with Ok value => Valid value | Err error => Invalid [error] end.
Definition re_to_either {T E} (r : result T E) : either E T := result_to_either r.
Definition re_unwrap_or_default {T E} (default : T) (r : result T E) : T :=
  match r with Ok t => t | Err _ => default end.
(** error_utils.rs 556-642 [AppError]; 679-710 [error], [error_with_context] *)
Record apperr (M C : Type) := mkApp { ae_message : M; ae_context : option C }.
Arguments mkApp {M C} _ _.
Arguments ae_message {M C} _.
Arguments ae_context {M C} _.
Definition ae_new {M C} (message : M) : apperr M C := mkApp message None.
Definition ae_with_context {M C} (message : M) (context : C) : apperr M C := mkApp message (Some context).
Definition ae_map {M N C} (f : M -> N) (e : apperr M C) : apperr N C := mkApp (f (ae_message e)) (ae_context e).
Definition ae_map_context {M C D} (f : option C -> option D) (e : apperr M C) : apperr M D :=
  mkApp (ae_message e) (f (ae_context e)).

(** ** Fallible runners *)
(** state.rs 1035-1089 [try_run_state(_with_context)] on [State<S, Result<A, Err>>] *)
Definition st_try_run {S A X} (x : state S (result A X)) (s : S) : outcome (result A (cerr X) * S) :=
  do p <- st_run x s;
  let '(r, s') := p in Ret (map_err ce_new r, s').
Definition st_try_run_ctx {S A X} (x : state S (result A X)) (s : S) (context : string)
  : outcome (result A (cerr X) * S) :=
  do p <- st_run x s;
  let '(r, s') := p in Ret (map_err (fun e => ce_with_context (ce_new e) context) r, s').
(** state.rs 1116-1163 [try_eval_state(_with_context)] *)
Definition st_try_eval {S A X} (x : state S (result A X)) (s : S) : outcome (result A (cerr X)) :=
  omap fst (st_try_run x s).
Definition st_try_eval_ctx {S A X} (x : state S (result A X)) (s : S) (c : string) : outcome (result A (cerr X)) :=
  omap fst (st_try_run_ctx x s c).
(** state.rs 1190-1243 [try_exec_state(_with_context)] *)
Definition st_try_exec {S A X} (x : state S (result A X)) (s : S) : outcome (result S (cerr X)) :=
  omap (fun p : result A (cerr X) * S => match fst p with Ok _ => Ok (snd p) | Err e => Err e end) (st_try_run x s).
Definition st_try_exec_ctx {S A X} (x : state S (result A X)) (s : S) (c : string) : outcome (result S (cerr X)) :=
  omap (fun p : result A (cerr X) * S => match fst p with Ok _ => Ok (snd p) | Err e => Err e end)
       (st_try_run_ctx x s c).
(** state_t.rs 799-874 [try_run_state(_with_context)] on [StateT<S, Result<(S, A), E>, A>] *)
Definition stt_try_run {S A X} (x : stateT S (result (S * A) X) A) (s : S) : outcome (result (S * A) (cerr X)) :=
  match x with
  | SPure _ => Panic
  | SLiftM r => match r with Ok (s', a) => Ret (Ok (s', a)) | Err e => Ret (Err (ce_new e)) end
  | SEffect run => omap (map_err ce_new) (run s)
  end.
Definition stt_try_run_ctx {S A X} (x : stateT S (result (S * A) X) A) (s : S) (context : string)
  : outcome (result (S * A) (cerr X)) :=
  match x with
  | SPure _ => Panic
  | SLiftM r => match r with Ok (s', a) => Ret (Ok (s', a)) | Err e => Ret (Err (ce_with_context (ce_new e) context)) end
  | SEffect run => omap (map_err (fun e => ce_with_context (ce_new e) context)) (run s)
  end.
(** state_t.rs 910-931 [map_error] *)
Definition stt_map_error {S A X Y} (x : stateT S (result (S * A) X) A) (f : X -> Y)
  : stateT S (result (S * A) Y) A :=
  match x with
  | SPure a => SPure a
  | SLiftM r => SLiftM (match r with Ok (s, a) => Ok (s, a) | Err e => Err (f e) end)
  | SEffect run => stt_new (fun s => omap (map_err f) (run s))
  end.
Definition rmap_ok {T U E} (f : T -> U) (r : result T E) : result U E :=
  match r with Ok t => Ok (f t) | Err e => Err e end.
(** state_t.rs 966-1062 [try_eval_state(_with_context)], [try_exec_state] *)
Definition stt_try_eval {S A X} (x : stateT S (result (S * A) X) A) (s : S) : outcome (result A (cerr X)) :=
  omap (rmap_ok snd) (stt_try_run x s).
Definition stt_try_eval_ctx {S A X} (x : stateT S (result (S * A) X) A) (s : S) (c : string)
  : outcome (result A (cerr X)) := omap (rmap_ok snd) (stt_try_run_ctx x s c).
Definition stt_try_exec {S A X} (x : stateT S (result (S * A) X) A) (s : S) : outcome (result S (cerr X)) :=
  omap (rmap_ok fst) (stt_try_run x s).
(** reader_t.rs 1098-1153 [try_run_reader(_with_context)]; 1189-1197 [map_error] *)
Definition rdt_try_run {R A X} (x : readerT R (result A X) A) (env : R) : result A (cerr X) :=
  map_err ce_new (rdt_run x env).
Definition rdt_try_run_ctx {R A X} (x : readerT R (result A X) A) (env : R) (context : string) : result A (cerr X) :=
  map_err (fun e => ce_with_context (ce_new e) context) (rdt_run x env).
Definition rdt_map_error {R A X Y} (x : readerT R (result A X) A) (f : X -> Y) : readerT R (result A Y) A :=
  mkReaderT (fun e => map_err f (rdt_run x e)).

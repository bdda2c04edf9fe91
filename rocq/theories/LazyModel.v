(** Model of lazily built error contexts: [LazyContext] (src/error/types.rs
    467-488), the [context!] macro (src/error/macros.rs 29-34) and every function
    that takes an [IntoErrorContext].  A context is the computation that builds
    its message; it acts on a world and may panic.  [String], [&str] and
    [ErrorContext] are contexts that just return.  Closures may have effects too.
    Compare [ErrModel], where a context is its message.  Definitions only. *)
From Coq Require Import String List.
From Verif Require Import Base Types ErrModel WrapModel.
Import ListNotations.
Open Scope outcome_scope.

Section Lazy.
Context {W : Type}.
Notation eff := (eff W).
(** types.rs 437-488 [into_error_context] *)
Definition context := eff string.
(** types.rs 442-461 *)
Definition ready (message : string) : context := eff_ret message.

(** types.rs 121-127 [with_context] *)
Definition lz_ce_with_context {E} (e : cerr E) (ctx : context) : eff (cerr E) :=
  eff_bind ctx (fun message => eff_ret (ce_with_context e message)).
(** context.rs 41-46 [with_context] *)
Definition lz_with_context {E} (error : E) (ctx : context) : eff (cerr E) :=
  lz_ce_with_context (ce_new error) ctx.
(** context.rs 86-91 [with_context_result] *)
Definition lz_with_context_result {T E} (r : result T E) (ctx : context) : eff (result T (cerr E)) :=
  match r with
  | Ok t => eff_ret (Ok t)
  | Err e => eff_bind (lz_with_context e ctx) (fun c => eff_ret (Err c))
  end.
(** context.rs 121-126 [context_fn] *)
Definition lz_context_fn {E} (ctx : context) : E -> eff (cerr E) := fun error => lz_with_context error ctx.
(** [map(..).collect()] *)
Fixpoint lz_build (ctxs : list context) : eff (list string) :=
  match ctxs with
  | [] => eff_ret []
  | c :: ctxs' => eff_bind c (fun s => eff_bind (lz_build ctxs') (fun ss => eff_ret (s :: ss)))
  end.
(** context.rs 483-494 [accumulate_context] *)
Definition lz_accumulate {E} (error : E) (ctxs : list context) : eff (cerr E) :=
  eff_bind (lz_build ctxs) (fun ss => eff_ret (ce_with_contexts (ce_new error) ss)).
(** context.rs 529-535 [context_accumulator] *)
Definition lz_accumulator {E} (ctxs : list context) : E -> eff (cerr E) := fun error => lz_accumulate error ctxs.

(** context.rs 204-215 [ErrorPipeline::with_context] *)
Definition lz_ep_with_context {T E} (p : epipe T E) (ctx : context) : eff (epipe T E) :=
  match ep_result p with
  | Ok _ => eff_ret p
  | Err _ => eff_bind ctx (fun s => eff_ret (mkEpipe (ep_result p) (ep_pending p ++ [s])))
  end.
(** context.rs 241-249 [map_error] *)
Definition lz_ep_map_error {T E F} (p : epipe T E) (f : E -> eff F) : eff (epipe T F) :=
  match ep_result p with
  | Ok t => eff_ret (mkEpipe (Ok t) (ep_pending p))
  | Err e => eff_bind (f e) (fun e' => eff_ret (mkEpipe (Err e') (ep_pending p)))
  end.
(** context.rs 274-282 [recover] *)
Definition lz_ep_recover {T E} (p : epipe T E) (f : E -> eff (result T E)) : eff (epipe T E) :=
  match ep_result p with
  | Ok t => eff_ret p
  | Err e => eff_bind (f e) (fun r => eff_ret (mkEpipe r (ep_pending p)))
  end.
(** context.rs 308-316 [and_then] *)
Definition lz_ep_and_then {T U E} (p : epipe T E) (f : T -> eff (result U E)) : eff (epipe U E) :=
  match ep_result p with
  | Ok t => eff_bind (f t) (fun r => eff_ret (mkEpipe r (ep_pending p)))
  | Err e => eff_ret (mkEpipe (Err e) (ep_pending p))
  end.
(** context.rs 342-350 [map] *)
Definition lz_ep_map {T U E} (p : epipe T E) (f : T -> eff U) : eff (epipe U E) :=
  match ep_result p with
  | Ok t => eff_bind (f t) (fun u => eff_ret (mkEpipe (Ok u) (ep_pending p)))
  | Err e => eff_ret (mkEpipe (Err e) (ep_pending p))
  end.

(** A pipeline: the calls between [new] and [finish]. *)
Inductive stage (T E : Type) :=
| WithContext (ctx : context)
| MapError (f : E -> eff E)
| Recover (f : E -> eff (result T E))
| AndThen (f : T -> eff (result T E))
| MapOk (f : T -> eff T).
Definition lz_stage {T E} (st : stage T E) (p : epipe T E) : eff (epipe T E) :=
  match st with
  | WithContext _ _ c => lz_ep_with_context p c
  | MapError _ _ f => lz_ep_map_error p f
  | Recover _ _ f => lz_ep_recover p f
  | AndThen _ _ f => lz_ep_and_then p f
  | MapOk _ _ f => lz_ep_map p f
  end.
Fixpoint lz_stages {T E} (sts : list (stage T E)) (p : epipe T E) : eff (epipe T E) :=
  match sts with
  | [] => eff_ret p
  | st :: sts' => eff_bind (lz_stage st p) (lz_stages sts')
  end.
(** context.rs 176-181 [new], 375-383 [finish] *)
Definition lz_pipeline {T E} (sts : list (stage T E)) (r : result T E) : eff (result T (cerr E)) :=
  eff_bind (lz_stages sts (ep_new r)) (fun p => eff_ret (ep_finish p)).

(** state.rs 1075-1089 [try_run_state_with_context]; [run] is the computation *)
Definition lz_st_try_run {S A E} (run : S -> eff (result A E * S)) (s : S) (ctx : context)
  : eff (result A (cerr E) * S) :=
  eff_bind (run s) (fun p =>
  eff_bind ctx (fun message =>
  eff_ret (map_err (fun e => ce_with_context (ce_new e) message) (fst p), snd p))).
(** state.rs 1153-1163 [try_eval_state_with_context] *)
Definition lz_st_try_eval {S A E} (run : S -> eff (result A E * S)) (s : S) (ctx : context)
  : eff (result A (cerr E)) :=
  eff_bind (lz_st_try_run run s ctx) (fun p => eff_ret (fst p)).
(** state.rs 1230-1243 [try_exec_state_with_context] *)
Definition lz_st_try_exec {S A E} (run : S -> eff (result A E * S)) (s : S) (ctx : context)
  : eff (result S (cerr E)) :=
  eff_bind (lz_st_try_run run s ctx) (fun p =>
  eff_ret (match fst p with Ok _ => Ok (snd p) | Err e => Err e end)).
(** state_t.rs 99-103, the closure with effects *)
Inductive lz_stateT (S M A : Type) :=
| LPure (a : A) | LLiftM (m : M) | LEffect (f : S -> eff M).
(** state_t.rs 854-874 [try_run_state_with_context] *)
Definition lz_stt_try_run {S A E} (x : lz_stateT S (result (S * A) E) A) (s : S) (ctx : context)
  : eff (result (S * A) (cerr E)) :=
  eff_bind ctx (fun message =>
  match x with
  | LPure _ _ _ _ => fun w => (Panic, w)
  | LLiftM _ _ _ r => eff_ret (map_err (fun e => ce_with_context (ce_new e) message) r)
  | LEffect _ _ _ f =>
      eff_bind (f s) (fun r => eff_ret (map_err (fun e => ce_with_context (ce_new e) message) r))
  end).
(** state_t.rs 1010-1021 [try_eval_state_with_context] *)
Definition lz_stt_try_eval {S A E} (x : lz_stateT S (result (S * A) E) A) (s : S) (ctx : context)
  : eff (result A (cerr E)) :=
  eff_bind (lz_stt_try_run x s ctx) (fun r => eff_ret (rmap_ok snd r)).
(** reader_t.rs 1142-1153 [try_run_reader_with_context] *)
Definition lz_rdt_try_run {R A E} (run : R -> eff (result A E)) (env : R) (ctx : context)
  : eff (result A (cerr E)) :=
  eff_bind ctx (fun message =>
  eff_bind (run env) (fun r => eff_ret (map_err (fun e => ce_with_context (ce_new e) message) r))).
End Lazy.
Arguments context W : clear implicits.
Arguments stage W T E : clear implicits.
Arguments WithContext {W T E} ctx.
Arguments MapError {W T E} f.
Arguments Recover {W T E} f.
Arguments AndThen {W T E} f.
Arguments MapOk {W T E} f.
Arguments lz_stateT W S M A : clear implicits.
Arguments LPure {W S M A} a.
Arguments LLiftM {W S M A} m.
Arguments LEffect {W S M A} f.

(** C90: error messages are built exactly when an error needs them. *)
From Coq Require Import String List.
From Verif Require Import Base Types ErrModel EffModel WrapModel LazyModel LazySpec.
Import ListNotations.
Open Scope outcome_scope.

(** With a successful result nothing is built, even if building would panic;
    with an error the message is built once and attached. *)
Theorem C90_with_context_result : forall W T E (r : result T E) (ctx : context W) w,
  match r with
  | Ok t => lz_with_context_result r ctx w = (Ret (Ok t), w)
  | Err e => snd (lz_with_context_result r ctx w) = snd (ctx w) /\
             fst (lz_with_context_result r ctx w) =
               omap (fun s => cx_with_context_result r s) (fst (ctx w))
  end.
Proof.
  intros W T E [t|e] ctx w; [reflexivity|].
  unfold lz_with_context_result, lz_with_context, lz_ce_with_context, eff_bind, eff_ret.
  destruct (ctx w) as [[s|] w']; split; reflexivity.
Qed.

(** Functions made from a context build it anew for each error. *)
Theorem C90_context_fn : forall W E (ctx : context W) (e : E) w,
  snd (lz_context_fn ctx e w) = snd (ctx w) /\
  fst (lz_context_fn ctx e w) = omap (fun s => cx_context_fn s e) (fst (ctx w)).
Proof.
  intros. unfold lz_context_fn, lz_with_context, lz_ce_with_context, eff_bind, eff_ret.
  destruct (ctx w) as [[s|] w']; split; reflexivity.
Qed.

(** Accumulating builds every message once, in order. *)
Theorem C90_accumulate : forall E (e : E) (messages w : list string),
  lz_accumulate e (map traced messages) w = (Ret (cx_accumulate e messages), w ++ messages) /\
  lz_accumulator (map traced messages) e w = lz_accumulate e (map traced messages) w.
Proof.
  intros E e messages w. split; [|reflexivity].
  assert (K : forall w, lz_build (map traced messages) w = (Ret messages, w ++ messages)).
  { induction messages as [|s ss IH]; intros v; simpl.
    - now rewrite app_nil_r.
    - unfold eff_bind, traced at 1. rewrite IH. unfold eff_ret. now rewrite <- app_assoc. }
  unfold lz_accumulate, eff_bind. rewrite K. reflexivity.
Qed.

(** ** Pipelines *)
Definition of_sum {T E} (r : T + E) : result T E := match r with inl t => Ok t | inr e => Err e end.
Definition stage_of {T E} (c : call T E) : stage (list string) T E :=
  match c with
  | Ctx s => WithContext (traced s)
  | MapE f => MapError (quiet f)
  | Rec f => Recover (quiet (fun e => of_sum (f e)))
  | Then f => AndThen (quiet (fun t => of_sum (f t)))
  | MapT f => MapOk (quiet f)
  end.
(** Whatever the pipeline, the messages built are exactly those of the contexts
    attached while there is an error, in order, and they are the ones reported
    if the pipeline ends with an error. *)
Theorem C90_pipeline_partial : forall T E (cs : list (call T E)) (r : T + E) w,
  lz_pipeline (map stage_of cs) (of_sum r) w =
    (Ret (match fst (needed cs r) with
          | inl t => Ok t
          | inr e => Err (cx_accumulate e (snd (needed cs r)))
          end), w ++ snd (needed cs r)).
Proof.
  intros T E cs r w.
  assert (K : forall cs r pend w,
    lz_stages (map stage_of cs) (mkEpipe (of_sum r) pend) w =
      (Ret (mkEpipe (of_sum (fst (needed cs r))) (pend ++ snd (needed cs r))), w ++ snd (@needed T E cs r))).
  { clear. induction cs as [|c cs IH]; intros r pend w.
    - simpl. now rewrite !app_nil_r.
    - destruct c as [s|f|f|f|f], r as [t|e];
        cbn [map lz_stages stage_of lz_stage needed]; unfold eff_bind, lz_ep_with_context,
        lz_ep_map_error, lz_ep_recover, lz_ep_and_then, lz_ep_map, eff_bind, eff_ret, quiet, traced;
        cbn [of_sum ep_result ep_pending];
        try apply IH; try apply (IH (inl _)); try apply (IH (inr _)).
      rewrite (IH (inr e)). destruct (needed cs (inr e)) as [r' l]. cbn [fst snd].
      now rewrite <- !app_assoc. }
  unfold lz_pipeline, ep_new, eff_bind. rewrite K. unfold ep_finish, eff_ret, cx_accumulate.
  cbn [ep_result ep_pending]. destruct (fst (needed cs r)); reflexivity.
Qed.
Example C90_case :
  let cs := [Ctx "unused"; Then (fun n => inr (n + 1)); Ctx "first"; MapE S; Ctx "second";
             Rec (fun e => inl e); Ctx "unused too"; Then (fun n => inr n); Ctx "third"]%string in
  lz_pipeline (map stage_of cs) (Ok 3) [] =
    (Ret (Err (mkCerr 5 ["first"; "second"; "third"]%string None)), ["first"; "second"; "third"]%string).
Proof. reflexivity. Qed.

(** No pipeline runs a closure or builds a message meant for the other case:
    on a pipeline without failures every context may panic without harm. *)
Theorem C90_success_builds_nothing : forall W T E (fs : list (stage W T E)) (t : T) w,
  Forall (fun st => match st with AndThen _ | MapOk _ => False | _ => True end) fs ->
  lz_pipeline fs (Ok t) w = (Ret (Ok t), w).
Proof.
  intros W T E fs t w H. unfold lz_pipeline.
  assert (K : lz_stages fs (mkEpipe (Ok t) []) w = (Ret (mkEpipe (@Ok T E t) []), w)).
  { induction H as [|st fs Hst _ IH]; [reflexivity|].
    destruct st; try contradiction; cbn; unfold eff_bind, lz_ep_with_context, lz_ep_map_error,
      lz_ep_recover; cbn [ep_result ep_pending]; exact IH. }
  unfold eff_bind, ep_new. rewrite K. reflexivity.
Qed.
Example C90_success_case :
  lz_pipeline [WithContext (fun w => (Panic, w)); Recover (fun (_ : nat) w => (Panic, S w))] (Ok 3) 0 = (Ret (Ok 3), 0).
Proof. reflexivity. Qed.

(** ** The fallible runners *)
(** With a context that just returns its message they give the results of the
    plain model. *)
Theorem C90_runner_results : forall S A E (run : S -> result A E * S) (x : readerT S (result A E) A) s message (w : unit),
  fst (lz_st_try_run (quiet run) s (ready message) w) =
    st_try_run_ctx (st_new (fun s => Ret (run s))) s message /\
  fst (lz_st_try_eval (quiet run) s (ready message) w) =
    st_try_eval_ctx (st_new (fun s => Ret (run s))) s message /\
  fst (lz_st_try_exec (quiet run) s (ready message) w) =
    st_try_exec_ctx (st_new (fun s => Ret (run s))) s message /\
  fst (lz_rdt_try_run (quiet (rdt_run x)) s (ready message) w) = Ret (rdt_try_run_ctx x s message).
Proof.
  intros. unfold lz_st_try_eval, lz_st_try_exec, lz_st_try_run, lz_rdt_try_run, eff_bind, quiet, ready, eff_ret.
  unfold st_try_eval_ctx, st_try_exec_ctx, st_try_run_ctx, rdt_try_run_ctx, st_run, st_new. simpl.
  destruct (run s) as [[a|e] s']; repeat split.
Qed.
(** But they build the message always: the world after a run is the same
    whether the computation failed or not, and on success a message that panics
    takes the result with it. *)
Theorem C90_runners_build_always : forall W S A E (r : result A E) (s : S) (ctx : context W) w,
  snd (lz_st_try_run (quiet (fun s => (r, s))) s ctx w) = snd (ctx w) /\
  snd (lz_st_try_eval (quiet (fun s => (r, s))) s ctx w) = snd (ctx w) /\
  snd (lz_st_try_exec (quiet (fun s => (r, s))) s ctx w) = snd (ctx w) /\
  snd (lz_rdt_try_run (quiet (fun _ : S => r)) s ctx w) = snd (ctx w) /\
  snd (lz_stt_try_run (LLiftM (rmap_ok (fun a => (s, a)) r)) s ctx w) = snd (ctx w) /\
  snd (lz_stt_try_eval (LLiftM (rmap_ok (fun a => (s, a)) r)) s ctx w) = snd (ctx w) /\
  (fst (ctx w) = Panic ->
   fst (lz_st_try_run (quiet (fun s => (r, s))) s ctx w) = Panic /\
   fst (lz_rdt_try_run (quiet (fun _ : S => r)) s ctx w) = Panic /\
   fst (lz_stt_try_run (LLiftM (rmap_ok (fun a => (s, a)) r)) s ctx w) = Panic).
Proof.
  intros. unfold lz_st_try_eval, lz_st_try_exec, lz_stt_try_eval, lz_st_try_run, lz_rdt_try_run,
    lz_stt_try_run, eff_bind, quiet, eff_ret.
  destruct (ctx w) as [[m|] w']; cbn; repeat split; discriminate.
Qed.
Theorem C90_runners_refuted :
  (exists (run : nat -> list string -> outcome (result nat nat * nat) * list string),
     lz_st_try_run run 0 (traced "message") [] = (Ret (Ok 1, 2), ["message"%string])) /\
  (exists (run : nat -> list string -> outcome (result nat nat) * list string),
     lz_rdt_try_run run 0 (traced "message") [] = (Ret (Ok 1), ["message"%string])) /\
  (exists (x : lz_stateT (list string) nat (result (nat * nat) nat) nat),
     lz_stt_try_run x 0 (traced "message") [] = (Ret (Ok (2, 1)), ["message"%string])).
Proof.
  split; [|split].
  - exists (quiet (fun _ => (Ok 1, 2))). reflexivity.
  - exists (quiet (fun _ => Ok 1)). reflexivity.
  - exists (LEffect (quiet (fun _ => Ok (2, 1)))). reflexivity.
Qed.
(** The order differs too: [State] builds the message after the run, the
    transformers before it, so that there a panicking message prevents the run. *)
Theorem C90_runner_order : forall W S A E (run : S -> eff W (result A E * S)) (run' : S -> eff W (result A E))
    (s : S) (ctx : context W) w,
  (fst (run s w) = Panic -> lz_st_try_run run s ctx w = (Panic, snd (run s w))) /\
  (fst (ctx w) = Panic -> lz_rdt_try_run run' s ctx w = (Panic, snd (ctx w))).
Proof.
  intros. unfold lz_st_try_run, lz_rdt_try_run, eff_bind. split.
  - destruct (run s w) as [[?|] ?]; [discriminate|reflexivity].
  - destruct (ctx w) as [[?|] ?]; [discriminate|reflexivity].
Qed.

Print Assumptions C90_with_context_result.
Print Assumptions C90_context_fn.
Print Assumptions C90_accumulate.
Print Assumptions C90_pipeline_partial.
Print Assumptions C90_success_builds_nothing.
Print Assumptions C90_runner_results.
Print Assumptions C90_runners_build_always.
Print Assumptions C90_runners_refuted.
Print Assumptions C90_runner_order.

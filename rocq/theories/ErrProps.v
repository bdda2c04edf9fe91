(** Theorems about the error layer: C68 to C71, C80. *)
From Coq Require Import String List.
From Verif Require Import Base Types ValidatedModel SumModel EffModel ErrModel ErrSpec.
Import ListNotations.
Open Scope outcome_scope.
Open Scope string_scope.
Open Scope list_scope.

(** ** C68 *)
Definition perform {E} (e : cerr E) (x : edit E) : cerr E :=
  match x with
  | AddContext c => ce_with_context e c
  | AddContexts cs => ce_with_contexts e cs
  | SetCode n => ce_set_code e n
  | MapCore f => ce_map_core f e
  end.
Lemma perform_all : forall E (h : list (edit E)) (e : cerr E),
  fold_left perform h e = mkCerr (core_of (ce_core e) h) (ce_ctx e ++ contexts_of h) (code_of (ce_code e) h).
Proof.
  induction h as [|x h IH]; intros e; cbn [fold_left].
  - destruct e; unfold contexts_of; cbn. now rewrite app_nil_r.
  - rewrite IH. unfold contexts_of.
    destruct x; cbn; rewrite <- ?app_assoc; reflexivity.
Qed.
Theorem C68_history : forall E (core : E) (h : list (edit E)),
  let e := fold_left perform h (ce_new core) in
  ce_context e = rev (contexts_of h) /\
  cx_extract_context e = rev (contexts_of h) /\
  ce_core e = core_of core h /\
  ce_code e = code_of None h.
Proof. intros. subst e. rewrite perform_all. now cbn. Qed.
Theorem C68_history_with_code : forall E (core : E) n (h : list (edit E)),
  let e := fold_left perform h (ce_with_code core n) in
  ce_context e = rev (contexts_of h) /\ ce_core e = core_of core h /\ ce_code e = code_of (Some n) h.
Proof. intros. subst e. rewrite perform_all. now cbn. Qed.
(** Changing the core's type. *)
Theorem C68_map_core : forall E T (f : E -> T) (e : cerr E),
  ce_context (ce_map_core f e) = ce_context e /\ ce_code (ce_map_core f e) = ce_code e /\
  ce_core (ce_map_core f e) = f (ce_core e).
Proof. now intros. Qed.
Theorem C68_most_recent_first : forall E (e : cerr E) c,
  ce_context (ce_with_context e c) = c :: ce_context e /\
  ce_core (ce_with_context e c) = ce_core e /\ ce_code (ce_with_context e c) = ce_code e.
Proof. intros. unfold ce_context. cbn. now rewrite rev_app_distr. Qed.
Theorem C68_free_functions : forall E (core : E) c cs,
  cx_with_context core c = ce_with_context (ce_new core) c /\
  cx_context_fn c core = ce_with_context (ce_new core) c /\
  cx_accumulate core cs = fold_left ce_with_context cs (ce_new core) /\
  (forall T (v : T), cx_with_context_result (Ok v) c = Ok (E := cerr E) v) /\
  (forall T, cx_with_context_result (Err core) c = Err (T := T) (ce_with_context (ce_new core) c)).
Proof.
  intros. repeat split.
  unfold cx_accumulate.
  assert (G : forall l (e : cerr E), fold_left ce_with_context l e = ce_with_contexts e l).
  { induction l as [|x l IH]; intros e; cbn [fold_left].
    - destruct e. unfold ce_with_contexts. cbn. now rewrite app_nil_r.
    - rewrite IH. unfold ce_with_contexts. cbn. now rewrite <- app_assoc. }
  symmetry. apply G.
Qed.

Lemma append_assoc : forall a b c : string, append (append a b) c = append a (append b c).
Proof. induction a; intros; cbn; [auto | now rewrite IHa]. Qed.
Lemma append_nil : forall a : string, append a EmptyString = a.
Proof. induction a; cbn; [auto | now rewrite IHa]. Qed.
Lemma chain_loop_S : forall cs i chain, Nat.ltb 0 i = true ->
  chain_loop i cs chain = append chain (fold_right (fun c s => append " -> " (append c s)) EmptyString cs).
Proof.
  induction cs as [|c cs IH]; intros i chain H; cbn [chain_loop fold_right].
  - now rewrite append_nil.
  - rewrite H, IH by reflexivity. now rewrite !append_assoc.
Qed.
Lemma concat_arrow : forall l x, String.concat " -> " (x :: l) =
  append x (fold_right (fun c s => append " -> " (append c s)) EmptyString l).
Proof.
  induction l as [|y l IH]; intros x; [cbn; now rewrite append_nil|].
  change (String.concat " -> " (x :: y :: l)) with (append x (append " -> " (String.concat " -> " (y :: l)))).
  rewrite IH. reflexivity.
Qed.
Theorem C68_error_chain : forall E (display : E -> string) show (e : cerr E),
  ce_error_chain display show e =
  append (String.concat " -> " (ce_context e ++ [display (ce_core e)]))
         (match ce_code e with Some n => append " (code: " (append (show n) ")") | None => EmptyString end) /\
  cx_format_error_chain display show e = ce_error_chain display show e.
Proof.
  intros. split; [|reflexivity]. unfold ce_error_chain, ce_context.
  assert (G : append (match ce_ctx e with
        | [] => chain_loop 0 (rev (ce_ctx e)) EmptyString
        | _ => append (chain_loop 0 (rev (ce_ctx e)) EmptyString) " -> " end) (display (ce_core e))
     = String.concat " -> " (rev (ce_ctx e) ++ [display (ce_core e)])).
  { destruct (ce_ctx e) as [|c cs]; [reflexivity|].
    assert (N : rev (c :: cs) <> []) by (cbn; now destruct (rev cs)).
    destruct (rev (c :: cs)) as [|x l]; [congruence|].
    cbn [chain_loop Nat.ltb Nat.leb]. rewrite chain_loop_S by reflexivity.
    rewrite <- app_comm_cons, concat_arrow.
    change (append EmptyString x) with x. rewrite !append_assoc. f_equal.
    clear N. induction l as [|y l IH]; cbn [fold_right app].
    - cbn. now rewrite append_nil.
    - rewrite <- IH. now rewrite !append_assoc. }
  destruct (ce_code e); rewrite G; [reflexivity | now rewrite append_nil].
Qed.
Example C68_case :
  ce_error_chain (fun s => s) (fun _ => "7"%string)
    (fold_left perform [AddContext "open"; SetCode 7; AddContexts ["load"; "start"]]%string (ce_new "EIO"%string))
  = "start -> load -> open -> EIO (code: 7)"%string.
Proof. reflexivity. Qed.

(** ** C69 *)
Fixpoint run {T E} (p : eprog T E) : epipe T E :=
  match p with
  | PNew r => ep_new r
  | PCtx p c => ep_with_context (run p) c
  | PMapErr p f => ep_map_error (run p) f
  | PRecover p f => ep_recover (run p) f
  | PAndThen p f => ep_and_then (run p) f
  | PMap p f => ep_map (run p) f
  end.
Lemma run_plain : forall T E (p : eprog T E), ep_result (run p) = plain p.
Proof.
  induction p; cbn; rewrite <- ?IHp; try reflexivity.
  unfold ep_with_context. now destruct (ep_result (run p)) eqn:H; cbn; rewrite ?H.
Qed.
Lemma attached_ok : forall T E (p : eprog T E), failed (plain p) = false -> attached p = [].
Proof.
  induction p; cbn; intros H; auto.
  - now rewrite H.
  - apply IHp. now destruct (plain p).
  - now rewrite H.
  - apply IHp. now destruct (plain p).
  - apply IHp. now destruct (plain p).
Qed.
(** Success and the error itself are those of the plain [Result] program. *)
Theorem C69_result : forall T E (p : eprog T E),
  (forall v, ep_finish (run p) = Ok v <-> plain p = Ok v) /\
  (forall e, (exists c, ep_finish (run p) = Err c /\ ce_core c = e /\ ce_code c = None) <-> plain p = Err e).
Proof.
  intros. unfold ep_finish. rewrite run_plain. destruct (plain p) as [t|e0]; split; intros; split; intros H.
  - injection H; intros; now subst.
  - injection H; intros; now subst.
  - destruct H as (c & H & _); discriminate.
  - discriminate.
  - discriminate.
  - discriminate.
  - destruct H as (c & H & H1 & _). injection H; intros; subst. reflexivity.
  - injection H; intros; subst. eexists; repeat split.
Qed.
(** A context added while the pipeline holds a value changes nothing. *)
Theorem C69_context_on_ok : forall T E (p : eprog T E) c v,
  plain p = Ok v -> run (PCtx p c) = run p.
Proof. intros. cbn. unfold ep_with_context. now rewrite run_plain, H. Qed.
Lemma pending_split : forall T E (p : eprog T E), exists stale,
  ep_pending (run p) = stale ++ attached p.
Proof.
  induction p; cbn.
  - now exists [].
  - destruct IHp as [st IH]. unfold ep_with_context. rewrite run_plain.
    destruct (plain p) eqn:H; cbn.
    + exists st. rewrite IH, attached_ok by (now rewrite H). reflexivity.
    + exists st. now rewrite IH, app_assoc.
  - exact IHp.
  - destruct IHp as [st IH]. destruct (plain p) eqn:H; cbn.
    + exists st. rewrite IH, attached_ok by (now rewrite H). reflexivity.
    + destruct (f e); cbn.
      * exists (st ++ attached p). now rewrite app_nil_r.
      * now exists st.
  - exact IHp.
  - exact IHp.
Qed.
(** The contexts of the reported error start with those attached to it, newest first. *)
Theorem C69_own_contexts_first : forall T E (p : eprog T E) c,
  ep_finish (run p) = Err c -> exists stale, ce_context c = rev (attached p) ++ stale.
Proof.
  intros T E p c H. unfold ep_finish in H. destruct (ep_result (run p)); [discriminate|].
  injection H; intros <-. destruct (pending_split _ _ p) as [st HS].
  exists (rev st). unfold ce_context. cbn. now rewrite HS, rev_app_distr.
Qed.
(** Nothing else is reported unless an error with contexts was recovered. *)
Theorem C69_contexts_partial : forall T E (p : eprog T E) c,
  no_context_recovered p -> ep_finish (run p) = Err c -> ce_context c = rev (attached p).
Proof.
  intros T E p c N H.
  assert (G : ep_pending (run p) = attached p).
  { clear c H. induction p; cbn in N |- *; auto.
    - unfold ep_with_context. rewrite run_plain.
      destruct (plain p) eqn:H; cbn.
      + rewrite IHp by auto. now rewrite attached_ok by (now rewrite H).
      + now rewrite IHp.
    - destruct N as [N1 N2]. rewrite IHp by auto. destruct (plain p) eqn:H; cbn.
      + now rewrite attached_ok by (now rewrite H).
      + destruct (f e); cbn; auto. }
  unfold ep_finish in H. destruct (ep_result (run p)); [discriminate|].
  injection H; intros <-. unfold ce_context. cbn. now rewrite G.
Qed.
(** The full claim fails: a context attached before a recovery is reported on
    an unrelated error raised after it. *)
Definition stale_pipeline : eprog nat string :=
  PAndThen (PRecover (PCtx (PNew (Err "first"%string)) "reading config"%string) (fun _ => Ok 0))
           (fun _ => Err "second"%string).
Theorem C69_stale_context_refuted : exists (p : eprog nat string) c,
  ep_finish (run p) = Err c /\ attached p = [] /\ ce_context c = ["reading config"%string] /\
  ce_core c = "second"%string.
Proof. exists stale_pipeline. eexists. repeat split. Qed.
Example C69_case :
  let p := PCtx (PAndThen (PCtx (PRecover (PCtx (PCtx (PNew (Err 1)) "a") "b") (fun e => Err (e + 1))) "c")
                 (fun x : nat => Ok x)) "d" in
  no_context_recovered p /\
  ep_finish (run p) = Err (mkCerr 2 ["a"; "b"; "c"; "d"] None) /\ attached p = ["a"; "b"; "c"; "d"]%string.
Proof. cbn. repeat split; intros; discriminate. Qed.

(** ** C70 *)
Lemma seq_loop_spec : forall A E (l : list (result A E)) vs,
  (forall ws, l = map Ok ws -> seq_loop vs l = Ok (vs ++ ws)) /\
  (forall ws e rest, l = map Ok ws ++ Err e :: rest -> seq_loop vs l = Err e).
Proof.
  induction l as [|[a|e0] l IH]; intros vs; split.
  - intros [|w ws] H; [now rewrite app_nil_r | discriminate].
  - intros [|w ws] e rest H; discriminate.
  - intros [|w ws] H; [discriminate|]. injection H; intros H1 ->. cbn.
    rewrite (proj1 (IH _) ws H1). now rewrite <- app_assoc.
  - intros [|w ws] e rest H; [discriminate|]. injection H; intros H1 ->. cbn.
    apply (proj2 (IH _) ws e rest H1).
  - intros [|w ws] H; discriminate.
  - intros [|w ws] e rest H; [|discriminate]. injection H; intros _ ->. reflexivity.
Qed.
Lemma results_cases : forall A E (l : list (result A E)),
  (exists ws, l = map Ok ws) \/ (exists ws e rest, l = map Ok ws ++ Err e :: rest).
Proof.
  induction l as [|[a|e] l IH].
  - left. now exists [].
  - destruct IH as [[ws ->] | (ws & e & rest & ->)].
    + left. now exists (a :: ws).
    + right. now exists (a :: ws), e, rest.
  - right. now exists [], e, l.
Qed.
Theorem C70_sequence : forall A E (l : list (result A E)),
  (forall vs, eu_sequence l = Ok vs <-> l = map Ok vs) /\
  (forall e, eu_sequence l = Err e <-> exists vs rest, l = map Ok vs ++ Err e :: rest).
Proof.
  intros. unfold eu_sequence. destruct (results_cases _ _ l) as [[ws H] | (ws & e & rest & H)].
  - rewrite (proj1 (seq_loop_spec _ _ l []) ws H). cbn. split; intros; split; intros K.
    + injection K; intros; now subst.
    + rewrite H in K. f_equal. revert vs K. clear H. induction ws; intros [|v vs] K; try discriminate; auto.
      cbn in K. injection K; intros K1 ->. f_equal. auto.
    + discriminate.
    + destruct K as (vs & rest & K).
      assert (Ok (E := E) ws = Err e); [|discriminate].
      rewrite <- (proj2 (seq_loop_spec _ _ l []) vs e rest K). symmetry. apply (proj1 (seq_loop_spec _ _ l []) ws H).
  - rewrite (proj2 (seq_loop_spec _ _ l []) ws e rest H). split; intros; split; intros K.
    + discriminate.
    + assert (Err (T := list A) e = Ok vs); [|discriminate].
      rewrite <- (proj2 (seq_loop_spec _ _ l []) ws e rest H). apply (proj1 (seq_loop_spec _ _ l []) vs K).
    + injection K; intros; subst. eauto.
    + destruct K as (vs & rest' & K).
      rewrite <- (proj2 (seq_loop_spec _ _ l []) ws e rest H). eapply (proj2 (seq_loop_spec _ _ l [])), K.
Qed.
Lemma trav_ok : forall S A B E (f : S -> A -> S * result B E) items s vs s' ws,
  calls f s items s' (map Ok ws) -> trav_loop f s vs items = (s', Ok (vs ++ ws)).
Proof.
  intros S A B E f items. induction items as [|x items IH]; intros s vs s' ws H; inversion H; subst.
  - destruct ws; [|discriminate]. cbn. now rewrite app_nil_r.
  - destruct ws as [|w ws]; [discriminate|]. cbn in *.
    match goal with K : _ :: _ = _ :: _ |- _ => injection K; intros; subst end.
    match goal with K : f s x = _ |- _ => rewrite K end.
    erewrite IH by eassumption. now rewrite <- app_assoc.
Qed.
Lemma trav_err : forall S A B E (f : S -> A -> S * result B E) pre s vs s1 ws x s2 e post,
  calls f s pre s1 (map Ok ws) -> f s1 x = (s2, Err e) -> trav_loop f s vs (pre ++ x :: post) = (s2, Err e).
Proof.
  intros S A B E f pre. induction pre as [|y pre IH]; intros s vs s1 ws x s2 e post H K; inversion H; subst; cbn.
  - now rewrite K.
  - destruct ws as [|w ws]; [discriminate|]. cbn in *.
    match goal with Q : _ :: _ = _ :: _ |- _ => injection Q; intros; subst end.
    match goal with Q : f s y = _ |- _ => rewrite Q end. eauto.
Qed.
Lemma trav_cases : forall S A B E (f : S -> A -> S * result B E) items s,
  (exists s' ws, calls f s items s' (map Ok ws)) \/
  (exists pre x post s1 ws s2 e, items = pre ++ x :: post /\ calls f s pre s1 (map Ok ws) /\ f s1 x = (s2, Err e)).
Proof.
  intros S A B E f items. induction items as [|x items IH]; intros s.
  - left. exists s, []. constructor.
  - destruct (f s x) as [s1 [b|e]] eqn:H.
    + destruct (IH s1) as [(s' & ws & K) | (pre & y & post & s2 & ws & s3 & e & -> & K & L)].
      * left. exists s', (b :: ws). cbn. econstructor; eauto.
      * right. exists (x :: pre), y, post, s2, (b :: ws), s3, e. cbn. repeat split; auto. econstructor; eauto.
    + right. exists [], x, items, s, [], s1, e. repeat split; auto. constructor.
Qed.
Lemma map_Ok_inj : forall A E (xs ys : list A), map (@Ok A E) xs = map Ok ys -> xs = ys.
Proof.
  induction xs as [|x xs IH]; intros [|y ys] H; try discriminate; auto.
  cbn in H. injection H; intros H1 ->. f_equal. auto.
Qed.
(** [traverse] calls the function on the elements in order, up to and including
    the first failure, and on nothing after it. *)
Theorem C70_traverse : forall S A B E (f : S -> A -> S * result B E) s items s',
  (forall vs, eu_traverse f s items = (s', Ok vs) <-> calls f s items s' (map Ok vs)) /\
  (forall e, eu_traverse f s items = (s', Err e) <->
     exists pre x post s1 vs, items = pre ++ x :: post /\ calls f s pre s1 (map Ok vs) /\ f s1 x = (s', Err e)).
Proof.
  intros. unfold eu_traverse. split; intros; split; intros H.
  - destruct (trav_cases _ _ _ _ f items s) as [(s1 & ws & K) | (pre & y & post & s2 & ws & s3 & e & -> & K & L)].
    + rewrite (trav_ok _ _ _ _ _ _ _ [] _ _ K) in H. cbn in H. injection H; intros; now subst.
    + rewrite (trav_err _ _ _ _ _ _ _ [] _ _ _ _ _ post K L) in H. discriminate.
  - now rewrite (trav_ok _ _ _ _ _ _ _ [] _ _ H).
  - destruct (trav_cases _ _ _ _ f items s) as [(s1 & ws & K) | (pre & y & post & s2 & ws & s3 & e' & -> & K & L)].
    + rewrite (trav_ok _ _ _ _ _ _ _ [] _ _ K) in H. discriminate.
    + rewrite (trav_err _ _ _ _ _ _ _ [] _ _ _ _ _ post K L) in H. injection H; intros; subst. eauto 10.
  - destruct H as (pre & x & post & s1 & vs & -> & K & L). now rewrite (trav_err _ _ _ _ _ _ _ [] _ _ _ _ _ post K L).
Qed.
Lemma travv_run : forall S A B E (f : S -> A -> S * result B E) s items s' rs,
  calls f s items s' rs -> forall vs es h,
  travv_loop f s vs es h items =
  (s', if orb h (existsb failed rs) then Invalid (es ++ errs rs)
       else Valid (vs ++ flat_map (fun r => match r with Ok v => [v] | Err _ => [] end) rs)).
Proof.
  induction 1 as [s|s x s1 r xs s2 rs H K IH]; intros vs es h.
  - cbn. rewrite !app_nil_r, Bool.orb_false_r. reflexivity.
  - cbn [travv_loop]. rewrite H. destruct r as [v|e]; rewrite IH; cbn.
    + now rewrite <- app_assoc.
    + rewrite Bool.orb_true_r. cbn. now rewrite <- app_assoc.
Qed.
(** [traverse_validated] calls the function on every element and reports every error. *)
Theorem C70_traverse_validated : forall S A B E (f : S -> A -> S * result B E) s items s' rs,
  calls f s items s' rs ->
  (forall vs, rs = map Ok vs -> eu_traverse_validated f s items = (s', Valid vs)) /\
  (errs rs <> [] -> eu_traverse_validated f s items = (s', Invalid (errs rs))).
Proof.
  intros S A B E f s items s' rs H. unfold eu_traverse_validated. rewrite (travv_run _ _ _ _ _ _ _ _ _ H). cbn. split.
  - intros vs ->. replace (existsb failed (map (@Ok B E) vs)) with false.
    + f_equal. f_equal. clear H. induction vs; cbn; auto. now rewrite IHvs.
    + clear H. induction vs; cbn; auto.
  - intros N. replace (existsb failed rs) with true; auto.
    clear H. induction rs as [|[v|e] rs IH]; cbn in *; auto. congruence.
Qed.
Lemma calls_total : forall S A R (f : S -> A -> S * R) items s, exists s' rs, calls f s items s' rs.
Proof.
  intros S A R f items. induction items as [|x items IH]; intros s.
  - exists s, []. constructor.
  - destruct (f s x) as [s1 r] eqn:H. destruct (IH s1) as (s' & rs & K). exists s', (r :: rs). econstructor; eauto.
Qed.
(** The two families succeed on the same inputs with the same values and, when
    they fail, the fail-fast error is the first of the accumulated ones. *)
Theorem C70_families_agree : forall S A B E (f : S -> A -> S * result B E) s items,
  (forall s' vs, eu_traverse f s items = (s', Ok vs) <-> eu_traverse_validated f s items = (s', Valid vs)) /\
  (forall s' e, eu_traverse f s items = (s', Err e) ->
     exists s2 es, eu_traverse_validated f s items = (s2, Invalid (e :: es))) /\
  (forall s' es, eu_traverse_validated f s items = (s', Invalid es) ->
     exists s1 e rest, es = e :: rest /\ eu_traverse f s items = (s1, Err e)).
Proof.
  intros. destruct (trav_cases _ _ _ _ f items s) as [(s1 & ws & K) | (pre & y & post & s2 & ws & s3 & e & -> & K & L)].
  - pose proof (proj1 (C70_traverse_validated _ _ _ _ _ _ _ _ _ K) ws eq_refl) as V.
    pose proof (proj2 (proj1 (C70_traverse _ _ _ _ f s items s1) ws) K) as T.
    rewrite V, T. split; [|split].
    + intros; split; intros H; injection H; intros; now subst.
    + intros ? ? H; discriminate.
    + intros ? ? H; discriminate.
  - assert (T : eu_traverse f s (pre ++ y :: post) = (s3, Err e)).
    { apply C70_traverse. eauto 10. }
    destruct (calls_total _ _ _ f post s3) as (s4 & rs & M).
    assert (C : calls f s (pre ++ y :: post) s4 (map Ok ws ++ Err e :: rs)).
    { clear T. revert s ws K. induction pre as [|z pre IH]; intros s ws K; inversion K; subst; cbn.
      - econstructor; eauto.
      - destruct ws; [discriminate|]. cbn in *.
        match goal with Q : _ :: _ = _ :: _ |- _ => injection Q; intros; subst end.
        econstructor; eauto. }
    assert (R : errs (map (@Ok B E) ws ++ Err e :: rs) = e :: errs rs).
    { clear. induction ws; cbn; auto. }
    pose proof (proj2 (C70_traverse_validated _ _ _ _ _ _ _ _ _ C)) as V. rewrite R in V.
    rewrite V, T by discriminate. split; [|split].
    + intros; split; intros H; discriminate.
    + intros ? ? H; injection H; intros; subst. eauto.
    + intros ? ? H; injection H; intros; subst. eauto 10.
Qed.
(** [sequence_with_error] over any error type: the first item that is not a
    success decides; it panics exactly when that item's conversion does. *)
Theorem C70_sequence_with_error : forall C A T E (to_result : C -> outcome (result A E)) (into : A -> T) l,
  (forall vs, map to_result l = map (fun v => Ret (Ok v)) vs -> eu_sequence_with_error to_result into l = Ret (Ok (map into vs))) /\
  (forall pre x post vs, map to_result pre = map (fun v => Ret (Ok v)) vs -> l = pre ++ x :: post ->
     (forall e, to_result x = Ret (Err e) -> eu_sequence_with_error to_result into l = Ret (Err e)) /\
     (to_result x = Panic -> eu_sequence_with_error to_result into l = Panic)).
Proof.
  intros. unfold eu_sequence_with_error.
  assert (G : forall pre vs acc rest, map to_result pre = map (fun v => Ret (Ok v)) vs ->
     swe_loop to_result into acc (pre ++ rest) = swe_loop to_result into (acc ++ map into vs) rest).
  { induction pre as [|y pre IH]; intros [|v vs] acc rest H; try discriminate.
    - cbn. now rewrite app_nil_r.
    - cbn in H |- *. injection H; intros H1 H2. rewrite H2. cbn. rewrite IH with (vs := vs) by auto.
      now rewrite <- app_assoc. }
  split.
  - intros vs H. rewrite <- (app_nil_r l), (G l vs) by auto. reflexivity.
  - intros pre x post vs H ->. rewrite (G pre vs) by auto. cbn. split.
    + intros e K. now rewrite K.
    + intros K. now rewrite K.
Qed.
Theorem C70_to_result : forall T E (v : T) (e : E) es,
  res_to_result (Ok (E := E) v) = Ret (Ok v) /\ res_to_result (Err (T := T) e) = Ret (Err e) /\
  ei_to_result (Right (L := E) v) = Ret (Ok v) /\ ei_to_result (Left (R := T) e) = Ret (Err e) /\
  va_to_result (Valid (E := E) v) = Ret (Ok v) /\ va_to_result (Invalid (A := T) (e :: es)) = Ret (Err e) /\
  va_to_result (E := E) (A := T) (Invalid []) = Panic.
Proof. now intros. Qed.
Theorem C70_collect_errors : forall E (es : list E),
  (es = [] -> collect_errors es = Valid tt) /\ (es <> [] -> collect_errors es = Invalid es).
Proof. intros E [|e es]; split; intros H; try congruence; reflexivity. Qed.
Example C70_case :
  let f := fun (log : list nat) x => (log ++ [x], if Nat.ltb x 3 then Ok (x * 2) else Err x) in
  eu_traverse f [] [1; 5; 2; 7] = ([1; 5], Err 5) /\
  eu_traverse_validated f [] [1; 5; 2; 7] = ([1; 5; 2; 7], Invalid [5; 7]) /\
  eu_traverse f [] [1; 2] = ([1; 2], Ok [2; 4]) /\
  eu_sequence_with_error va_to_result S [Valid 1; Invalid [4; 5]; Invalid []] = Ret (Err 4).
Proof. now cbn. Qed.

(** ** C71 *)
(** Each conversion keeps the success value and the (first) error. *)
Definition value_of_result {T E} (r : result T E) : T + E := match r with Ok t => inl t | Err e => inr e end.
Definition value_of_either {T E} (r : either E T) : T + E := match r with Right t => inl t | Left e => inr e end.
Definition value_of_validated {T E} (r : validated E T) : option (T + E) :=
  match r with Valid t => Some (inl t) | Invalid (e :: _) => Some (inr e) | Invalid [] => None end.
Definition value_of_composable {T E} (r : result T (cerr E)) : T + E :=
  match r with Ok t => inl t | Err e => inr (ce_core e) end.
Theorem C71_preserve : forall T E,
  (forall r : result T E, value_of_either (result_to_either r) = value_of_result r /\
     value_of_either (re_to_either r) = value_of_result r /\
     value_of_validated (va_from_result r) = Some (value_of_result r) /\
     value_of_validated (re_to_validated r) = Some (value_of_result r) /\
     value_of_composable (wrap_in_composable_result r) = value_of_result r) /\
  (forall r : either E T, value_of_result (either_to_result r) = value_of_either r /\
     value_of_validated (either_to_validated r) = Some (value_of_either r) /\
     ei_to_result r = Ret (either_to_result r)) /\
  (forall r : validated E T,
     (forall x, value_of_validated r = Some x ->
        exists a b, validated_to_result r = Ret a /\ value_of_result a = x /\
                    va_to_result r = Ret a /\ validated_to_either r = Ret b /\ value_of_either b = x) /\
     (value_of_validated r = None ->
        validated_to_result r = Panic /\ va_to_result r = Panic /\ validated_to_either r = Panic)) /\
  (forall r : result T (cerr E), value_of_result (flatten_composable_result r) = value_of_composable r).
Proof.
  intros. split; [|split; [|split]].
  - destruct r; now repeat split.
  - destruct r; now repeat split.
  - intros [t|[|e es]]; split; cbn; intros.
    + injection H; intros; subst. now exists (Ok t), (Right t).
    + discriminate.
    + discriminate.
    + auto.
    + injection H; intros; subst. now exists (Err e), (Left e).
    + discriminate.
  - now destruct r.
Qed.
Theorem C71_round_trips : forall T E,
  (forall r : result T E, either_to_result (result_to_either r) = r /\
     validated_to_result (va_from_result r) = Ret r /\ va_to_result (re_to_validated r) = Ret r /\
     flatten_composable_result (wrap_in_composable_result r) = r) /\
  (forall r : either E T, result_to_either (either_to_result r) = r /\
     validated_to_either (either_to_validated r) = Ret r) /\
  (forall (r : validated E T) a, (forall es, r = Invalid es -> List.length es = 1) ->
     (validated_to_result r = Ret a -> va_from_result a = r) /\
     (forall b, validated_to_either r = Ret b -> either_to_validated b = r)) /\
  (forall e : E, composable_to_core (core_to_composable e) = e) /\
  (forall c : cerr E, ce_ctx c = [] -> ce_code c = None -> core_to_composable (composable_to_core c) = c) /\
  (forall r : result T (cerr E), (forall c, r = Err c -> ce_context c = [] /\ ce_code c = None) ->
     wrap_in_composable_result (flatten_composable_result r) = r).
Proof.
  intros. split; [|split; [|split; [|split; [|split]]]].
  - destruct r; now repeat split.
  - destruct r; now repeat split.
  - intros [t|[|e [|e' es]]] a H; cbn; split; intros; try discriminate.
    + now injection H0; intros; subst.
    + now injection H0; intros; subst.
    + now injection H0; intros; subst.
    + now injection H0; intros; subst.
    + specialize (H _ eq_refl). discriminate.
    + specialize (H _ eq_refl). discriminate.
  - reflexivity.
  - intros [c l k]; cbn; intros; now subst.
  - intros [t|[c l k]] H; cbn; auto. destruct (H _ eq_refl) as [H1 H2]. unfold ce_context in H1. cbn in *.
    unfold core_to_composable, ce_new. rewrite <- (rev_involutive l), H1, H2. reflexivity.
Qed.
(** [split_validated_errors] lists the errors; gathering them again gives the value back. *)
Theorem C71_split : forall T E (r : validated E T),
  errs (split_validated_errors r) = match r with Valid _ => [] | Invalid es => es end /\
  (forall v, In (Ok v) (split_validated_errors r) <-> r = Valid v).
Proof.
  intros T E [t|es]; cbn; split.
  - reflexivity.
  - intros v; split; [intros [H|[]]; now injection H; intros; subst | intros H; injection H; intros; subst; auto].
  - unfold errs. induction es as [|e es IH]; cbn; [reflexivity | now rewrite IH].
  - intros v; split; [|discriminate]. intros H. apply in_map_iff in H as (x & H & _). discriminate.
Qed.
(** The lifting, recovery and error-mapping operations, observed through [to_result]. *)
Theorem C71_error_ops : forall T E (v : T) (e : E),
  res_to_result (res_lift (E := E) v) = Ret (Ok v) /\ ei_to_result (ei_lift (E := E) v) = Ret (Ok v) /\
  va_to_result (va_lift (E := E) v) = Ret (Ok v) /\
  res_to_result (res_handle_error (T := T) e) = Ret (Err e) /\ ei_to_result (ei_handle_error (T := T) e) = Ret (Err e) /\
  va_to_result (va_handle_error (T := T) e) = Ret (Err e) /\
  (forall k, res_recover (Ok v) k = Ok v /\ res_recover (Err e) k = k e) /\
  (forall k, ei_recover (Right v) k = Right v /\ ei_recover (Left e) k = k e) /\
  (forall U F (f : T -> U) (g : E -> F) r,
     ei_bimap_result r f g = res_bimap (either_to_result r) f g /\
     res_bimap (Ok v) f g = Ok (f v) /\ res_bimap (Err e) f g = Err (g e)) /\
  (forall G (g : E -> G),
     (forall r : result T E, res_to_result (res_fmap_error g r) = omap (res_fmap_error g) (res_to_result r)) /\
     (forall r : either E T, ei_to_result (ei_fmap_error g r) = omap (res_fmap_error g) (ei_to_result r)) /\
     (forall r : validated E T, va_to_result (va_fmap_error g r) = omap (res_fmap_error g) (va_to_result r))) /\
  (forall d, re_unwrap_or_default d (Ok (E := E) v) = v /\ re_unwrap_or_default d (Err (T := T) e) = d).
Proof.
  intros. repeat split; intros; try reflexivity.
  - now destruct r.
  - now destruct r.
  - now destruct r as [t|[|x xs]].
Qed.
Theorem C71_app_error : forall M N C D (m : M) (c : C) (f : M -> N) (g : option C -> option D) (e : apperr M C),
  ae_message (ae_new (C := C) m) = m /\ ae_context (ae_new (C := C) m) = None /\
  ae_message (ae_with_context m c) = m /\ ae_context (ae_with_context m c) = Some c /\
  ae_message (ae_map f e) = f (ae_message e) /\ ae_context (ae_map f e) = ae_context e /\
  ae_message (ae_map_context g e) = ae_message e /\ ae_context (ae_map_context g e) = g (ae_context e).
Proof. now intros. Qed.
Example C71_case :
  validated_to_result (Invalid (A := nat) [1; 2]) = Ret (Err 1) /\
  va_from_result (Err (T := nat) 1) <> Invalid [1; 2] /\
  flatten_composable_result (Err (T := nat) (ce_with_context (ce_new 3) "x")) = Err 3.
Proof. repeat split. discriminate. Qed.

(** ** C80: the fallible runners *)
Definition report {X} (cs : list string) (e : X) : cerr X := mkCerr e cs None.
Theorem C80_state : forall S A X (x : state S (result A X)) s c,
  match st_run x s with
  | Panic => st_try_run x s = Panic /\ st_try_run_ctx x s c = Panic /\ st_try_eval x s = Panic /\
             st_try_eval_ctx x s c = Panic /\ st_try_exec x s = Panic /\ st_try_exec_ctx x s c = Panic
  | Ret (Ok a, s') =>
      st_try_run x s = Ret (Ok a, s') /\ st_try_run_ctx x s c = Ret (Ok a, s') /\
      st_try_eval x s = Ret (Ok a) /\ st_try_eval_ctx x s c = Ret (Ok a) /\
      st_try_exec x s = Ret (Ok s') /\ st_try_exec_ctx x s c = Ret (Ok s')
  | Ret (Err e, s') =>
      st_try_run x s = Ret (Err (report [] e), s') /\ st_try_run_ctx x s c = Ret (Err (report [c] e), s') /\
      st_try_eval x s = Ret (Err (report [] e)) /\ st_try_eval_ctx x s c = Ret (Err (report [c] e)) /\
      st_try_exec x s = Ret (Err (report [] e)) /\ st_try_exec_ctx x s c = Ret (Err (report [c] e))
  end.
Proof.
  intros. unfold st_try_eval, st_try_eval_ctx, st_try_exec, st_try_exec_ctx, st_try_run, st_try_run_ctx.
  destruct (st_run x s) as [[[a|e] s']|]; now cbn.
Qed.
Theorem C80_state_t : forall S A X (x : stateT S (result (S * A) X) A) s c,
  match stt_run x s with
  | Panic => stt_try_run x s = Panic /\ stt_try_run_ctx x s c = Panic /\ stt_try_eval x s = Panic /\
             stt_try_eval_ctx x s c = Panic /\ stt_try_exec x s = Panic
  | Ret (Ok (s', a)) =>
      stt_try_run x s = Ret (Ok (s', a)) /\ stt_try_run_ctx x s c = Ret (Ok (s', a)) /\
      stt_try_eval x s = Ret (Ok a) /\ stt_try_eval_ctx x s c = Ret (Ok a) /\ stt_try_exec x s = Ret (Ok s')
  | Ret (Err e) =>
      stt_try_run x s = Ret (Err (report [] e)) /\ stt_try_run_ctx x s c = Ret (Err (report [c] e)) /\
      stt_try_eval x s = Ret (Err (report [] e)) /\ stt_try_eval_ctx x s c = Ret (Err (report [c] e)) /\
      stt_try_exec x s = Ret (Err (report [] e))
  end.
Proof.
  intros. unfold stt_try_eval, stt_try_eval_ctx, stt_try_exec.
  destruct x as [a|[[s' a]|e]|r]; cbn; try now repeat split.
  destruct (r s) as [[[s' a]|e]|]; now cbn.
Qed.
Theorem C80_map_error : forall S R A X Y (f : X -> Y),
  (forall (x : stateT S (result (S * A) X) A) s, stt_run (stt_map_error x f) s = omap (map_err f) (stt_run x s)) /\
  (forall (x : readerT R (result A X) A) env, rdt_run (rdt_map_error x f) env = map_err f (rdt_run x env)).
Proof.
  intros. split.
  - intros x s. destruct x as [a|[[s' a]|e]|r]; now cbn.
  - intros. reflexivity.
Qed.
Theorem C80_reader_t : forall R A X (x : readerT R (result A X) A) env c,
  match rdt_run x env with
  | Ok a => rdt_try_run x env = Ok a /\ rdt_try_run_ctx x env c = Ok a
  | Err e => rdt_try_run x env = Err (report [] e) /\ rdt_try_run_ctx x env c = Err (report [c] e)
  end.
Proof. intros. unfold rdt_try_run, rdt_try_run_ctx. now destruct (rdt_run x env). Qed.
Example C80_case :
  let x := st_new (fun s => Ret (if Nat.ltb s 2 then Ok s else Err "big"%string, S s)) in
  st_try_run_ctx x 5 "step" = Ret (Err (mkCerr "big" ["step"] None), 6)%string /\
  st_try_exec x 1 = Ret (Ok 2).
Proof. now cbn. Qed.

Print Assumptions C68_history.
Print Assumptions C68_history_with_code.
Print Assumptions C68_map_core.
Print Assumptions C68_most_recent_first.
Print Assumptions C68_free_functions.
Print Assumptions C68_error_chain.
Print Assumptions C69_result.
Print Assumptions C69_context_on_ok.
Print Assumptions C69_own_contexts_first.
Print Assumptions C69_contexts_partial.
Print Assumptions C69_stale_context_refuted.
Print Assumptions C70_sequence.
Print Assumptions C70_traverse.
Print Assumptions C70_traverse_validated.
Print Assumptions C70_families_agree.
Print Assumptions C70_sequence_with_error.
Print Assumptions C70_to_result.
Print Assumptions C70_collect_errors.
Print Assumptions C71_preserve.
Print Assumptions C71_round_trips.
Print Assumptions C71_split.
Print Assumptions C71_error_ops.
Print Assumptions C71_app_error.
Print Assumptions C80_state.
Print Assumptions C80_state_t.
Print Assumptions C80_map_error.
Print Assumptions C80_reader_t.

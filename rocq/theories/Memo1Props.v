(** C98: the documented laws of the Memoizer for one thread. *)
From Coq Require Import List Bool Arith Lia.
From Verif Require Import Base Memo1Model Memo1Spec.
Import ListNotations.

(** Same contents, same lock, same effects *)
Definition same_mem {K V E} (s t : mem K V E) : Prop :=
  (forall k, cache s k = cache t k) /\ poisoned s = poisoned t /\ effects s = effects t.
(** A computation that yields [v] after the effects [es], without the Memoizer *)
Inductive computes {K V E} : prog K V E -> list E -> V -> Prop :=
| computes_ret v : computes (PRet v) [] v
| computes_emit e p es v : computes p es v -> computes (PEmit e p) (e :: es) v.
(** A computation that comes to use the Memoizer, or panics, after [es] *)
Inductive uses_memo {K V E} : prog K V E -> list E -> Prop :=
| uses_get k f rest : uses_memo (PGet k f rest) []
| uses_clear p : uses_memo (PClear p) []
| uses_emit e p es : uses_memo p es -> uses_memo (PEmit e p) (e :: es).
Inductive panics {K V E} : prog K V E -> list E -> Prop :=
| panics_now : panics PPanic []
| panics_emit e p es : panics p es -> panics (PEmit e p) (e :: es).

Section Props.
Context {K V E : Type} (eqb : K -> K -> bool).
Hypothesis eqb_ok : forall a b, eqb a b = true <-> a = b.
Notation prog := (prog K V E).
Notation mem := (mem K V E).
Notation exec := (exec (K := K) (V := V) (E := E) eqb).
Notation get := (get_or_compute (K := K) (V := V) (E := E) eqb).
Notation insert := (insert (K := K) (V := V) (E := E) eqb).

Definition after (s : mem) (es : list E) : mem := mkMem (cache s) (poisoned s) (effects s ++ es).

Lemma after_nil s : after s [] = s.
Proof. destruct s. unfold after. cbn. now rewrite app_nil_r. Qed.
Lemma after_emit s e es : after (emit e s) es = after s (e :: es).
Proof. unfold after, emit. cbn. now rewrite <- app_assoc. Qed.

Lemma computes_exec p es v held s : computes p es v -> exec held p s = (after s es, Returned v).
Proof.
  intros H. revert s. induction H as [v|e p es v _ IH]; intros s; cbn.
  - now rewrite after_nil.
  - now rewrite IH, after_emit.
Qed.
Lemma uses_exec p es s : uses_memo p es -> exec true p s = (after s es, Blocked).
Proof.
  intros H. revert s. induction H as [k f rest|p|e p es _ IH]; intros s; cbn.
  - now rewrite after_nil.
  - now rewrite after_nil.
  - now rewrite IH, after_emit.
Qed.
Lemma panics_exec p es s held : panics p es -> exec held p s = (after s es, Panicking).
Proof.
  intros H. revert s. induction H as [|e p es _ IH]; intros s; cbn.
  - now rewrite after_nil.
  - now rewrite IH, after_emit.
Qed.

(** The three ways a computation can go are all there are. *)
Lemma ways (p : prog) :
  (exists es v, computes p es v) \/ (exists es, uses_memo p es) \/ (exists es, panics p es).
Proof.
  induction p as [v| |e p IH|k f _ rest _|p IH].
  - left. exists [], v. constructor.
  - right. right. exists []. constructor.
  - destruct IH as [(es & v & H)|[(es & H)|(es & H)]].
    + left. exists (e :: es), v. now constructor.
    + right. left. exists (e :: es). now constructor.
    + right. right. exists (e :: es). now constructor.
  - right. left. exists []. constructor.
  - right. left. exists []. constructor.
Qed.

(** Transparency: the first call for a key runs the function once, with its
    effects, and gives its value. *)
Theorem C98_transparency_partial : forall (s : mem) k f es v,
  poisoned s = false -> cache s k = None -> computes (f k) es v ->
  exists s', get k f s = (s', Returned v) /\
    effects s' = effects s ++ es /\ poisoned s' = false /\
    cache s' k = Some v /\ (forall k', k' <> k -> cache s' k' = cache s k').
Proof.
  intros s k f es v Hp Hc Hf. unfold get_or_compute. cbn [Memo1Model.exec]. rewrite Hp, Hc.
  rewrite (computes_exec _ _ _ true s Hf).
  eexists. split; [reflexivity|]. cbn. split; [reflexivity|]. split; [exact Hp|]. split.
  - now rewrite (proj2 (eqb_ok k k) eq_refl).
  - intros k' Hk. destruct (eqb k' k) eqn:Ek; [apply eqb_ok in Ek; contradiction|reflexivity].
Qed.

(** Idempotence and consistency: once a value is there, a call for the key gives
    it whatever the function is, and nothing runs or changes. *)
Theorem C98_consistency : forall (s : mem) k v,
  poisoned s = false -> cache s k = Some v ->
  (forall f, get k f s = (s, Returned v)) /\
  (forall k' g s' r, k' <> k -> get k' g s = (s', r) -> cache s' k = Some v).
Proof.
  intros s k v Hp Hc. split.
  - intros f. unfold get_or_compute. cbn. now rewrite Hp, Hc.
  - intros k' g s' r Hk. unfold get_or_compute. cbn [Memo1Model.exec]. rewrite Hp.
    destruct (cache s k') as [w|]; [intros H; injection H as <- _; exact Hc|].
    destruct (ways (g k')) as [(es & w & H)|[(es & H)|(es & H)]].
    + rewrite (computes_exec _ _ _ _ _ H). cbn. intros X. injection X as <- _. cbn.
      destruct (eqb k k') eqn:Ek; [apply eqb_ok in Ek; congruence|exact Hc].
    + rewrite (uses_exec _ _ _ H). intros X. injection X as <- _. exact Hc.
    + rewrite (panics_exec _ _ _ _ H). intros X. injection X as <- _. exact Hc.
Qed.

(** After [clear] the function runs again. *)
Theorem C98_clear : forall (s : mem) k f es v,
  poisoned s = false -> computes (f k) es v ->
  exists s', get k f (fst (clear s)) = (s', Returned v) /\ effects s' = effects s ++ es.
Proof.
  intros s k f es v Hp Hf. unfold clear. rewrite Hp. cbn [fst].
  destruct (C98_transparency_partial (clear_cache s) k f es v Hp eq_refl Hf) as (s' & H & He & _).
  exists s'. split; [exact H|exact He].
Qed.

(** Code around a call goes on with the call's answer, and code after [clear]
    finds the Memoizer as [clear] leaves it. *)
Theorem C98_sequence : forall (s : mem),
  (forall k f rest s' v, get k f s = (s', Returned v) ->
    exec false (PGet k f rest) s = exec false (rest v) s') /\
  (forall k f rest s' r, get k f s = (s', r) -> (forall v, r <> Returned v) ->
    exec false (PGet k f rest) s = (s', r)) /\
  (forall rest, exec false (PClear rest) s =
    if snd (clear s) then exec false rest (fst (clear s)) else (s, Panicking)) /\
  snd (clear s) = negb (poisoned s) /\
  (poisoned s = false -> forall k, cache (fst (clear s)) k = None) /\
  effects (fst (clear s)) = effects s.
Proof.
  intros s. unfold get_or_compute, clear. repeat split.
  - intros k f rest s' v. cbn [Memo1Model.exec].
    destruct (poisoned s); [discriminate|]. destruct (cache s k) as [w|].
    + intros H. injection H as <- <-. reflexivity.
    + destruct (exec true (f k) s) as [t [w| |]]; try discriminate.
      intros H. injection H as <- <-. reflexivity.
  - intros k f rest s' r. cbn [Memo1Model.exec].
    destruct (poisoned s); [intros H _; exact H|]. destruct (cache s k) as [w|].
    + intros H Hr. injection H as <- <-. now destruct (Hr w).
    + destruct (exec true (f k) s) as [t [w| |]]; try (intros H _; exact H).
      intros H Hr. injection H as <- <-. now destruct (Hr w).
  - intros rest. cbn [Memo1Model.exec]. destruct (poisoned s); reflexivity.
  - destruct (poisoned s); reflexivity.
  - intros ->. reflexivity.
  - destruct (poisoned s); reflexivity.
Qed.

(** Calls of a program, and what the caller knows of them *)
Inductive request : Type := RGet (k : K) (f : K -> prog) | RClear.
Definition known (r : request) (c : call K V E) : Prop :=
  match r, c with
  | RGet k f, Ask k' es v => k' = k /\ computes (f k) es v
  | RClear, Wipe => True
  | _, _ => False
  end.
(** Calls one after the other: the answers, and the Memoizer at the end *)
Fixpoint serve (rs : list request) (s : mem) : list (option (ending V)) * mem :=
  match rs with
  | [] => ([], s)
  | RGet k f :: rs' =>
      let '(s1, r) := get k f s in let '(l, s2) := serve rs' s1 in (Some r :: l, s2)
  | RClear :: rs' => let '(l, s2) := serve rs' (fst (clear s)) in (None :: l, s2)
  end.

Lemma serve_ok rs : forall cs past s,
  Forall2 known rs cs -> poisoned s = false ->
  (forall k, cache s k = first_value eqb past k) ->
  fst (serve rs s) = map (option_map (@Returned V)) (answers eqb past cs) /\
  effects (snd (serve rs s)) = effects s ++ traces eqb past cs.
Proof.
  induction rs as [|r rs IH]; intros cs past s HF Hp Hc.
  - inversion HF; subst. cbn. now rewrite app_nil_r.
  - inversion HF as [|r' c rs' cs' Hk HF']; subst.
    destruct r as [k f|], c as [k' es v|]; cbn in Hk; try contradiction.
    + destruct Hk as [-> Hf]. cbn [serve answers traces map option_map].
      assert (Hg : get k f s = match first_value eqb past k with
        | Some w => (s, Returned w) | None => (insert k v (after s es), Returned v) end).
      { unfold get_or_compute. cbn [Memo1Model.exec]. rewrite Hp, Hc.
        destruct (first_value eqb past k); [reflexivity|].
        now rewrite (computes_exec _ _ _ _ _ Hf). }
      rewrite Hg. clear Hg. destruct (first_value eqb past k) as [w|] eqn:Ef.
      * specialize (IH cs' (Ask k es v :: past) s HF' Hp).
        destruct (serve rs s) as [l s2]. cbn [fst snd] in *.
        destruct IH as [-> ->]; [|auto].
        intros k2. rewrite Hc. cbn [first_value].
        destruct (first_value eqb past k2) eqn:E2; [reflexivity|].
        destruct (eqb k2 k) eqn:Ek; [|reflexivity].
        apply eqb_ok in Ek. congruence.
      * specialize (IH cs' (Ask k es v :: past) (insert k v (after s es)) HF' Hp).
        destruct (serve rs (insert k v (after s es))) as [l s2]. cbn [fst snd] in *.
        destruct IH as [-> ->].
        -- intros k2. cbn [cache Memo1Model.insert after first_value].
           destruct (eqb k2 k) eqn:Ek.
           ++ apply eqb_ok in Ek. subst k2. now rewrite Ef.
           ++ rewrite Hc. now destruct (first_value eqb past k2).
        -- cbn. now rewrite <- app_assoc.
    + cbn [serve answers traces map option_map].
      specialize (IH cs' (Wipe :: past) (fst (clear s)) HF').
      destruct (serve rs (fst (clear s))) as [l s2]. cbn [fst snd] in *.
      unfold clear in *. rewrite Hp in *. cbn [fst] in *.
      destruct IH as [-> ->]; auto.
Qed.

(** Any sequence of calls on a new Memoizer whose functions return: every call
    gives the value of the first call for its key since the last [clear], and
    only that first call runs its function. *)
Theorem C98_history : forall rs cs,
  Forall2 known rs cs ->
  fst (serve rs mem_new) = map (option_map (@Returned V)) (answers eqb [] cs) /\
  effects (snd (serve rs mem_new)) = traces eqb [] cs.
Proof. intros rs cs H. now apply serve_ok. Qed.

(** Commutativity: calls for different keys may be exchanged when their functions
    return and have no effects of their own. *)
Theorem C98_commutativity_partial : forall (s : mem) j k f g a b,
  j <> k -> poisoned s = false ->
  computes (f j) [] a -> computes (g k) [] b ->
  let '(s1, r1) := get j f s in let '(s2, r2) := get k g s1 in
  let '(t1, q1) := get k g s in let '(t2, q2) := get j f t1 in
  r1 = q2 /\ r2 = q1 /\ same_mem s2 t2.
Proof.
  intros s j k f g a b Hjk Hp Hf Hg.
  assert (G : forall (u : mem) i h w, computes (h i) [] w -> poisoned u = false ->
    get i h u = match cache u i with
                | Some x => (u, Returned x)
                | None => (insert i w u, Returned w)
                end).
  { intros u i h w Hh Hu. unfold get_or_compute. cbn [Memo1Model.exec]. rewrite Hu.
    destruct (cache u i); [reflexivity|]. rewrite (computes_exec _ _ _ _ _ Hh), after_nil. reflexivity. }
  assert (Ejk : eqb j k = false).
  { destruct (eqb j k) eqn:X; [apply eqb_ok in X; contradiction|reflexivity]. }
  assert (Ekj : eqb k j = false).
  { destruct (eqb k j) eqn:X; [apply eqb_ok in X; congruence|reflexivity]. }
  assert (refl : forall u : mem, same_mem u u) by (intros; repeat split).
  rewrite (G s j f a Hf Hp), (G s k g b Hg Hp).
  destruct (cache s j) as [x|] eqn:Ej; destruct (cache s k) as [y|] eqn:Ek.
  - rewrite (G s k g b Hg Hp), (G s j f a Hf Hp), Ek, Ej. auto.
  - rewrite (G s k g b Hg Hp), Ek, (G _ j f a Hf) by exact Hp. cbn [cache Memo1Model.insert].
    rewrite Ejk, Ej. auto.
  - rewrite (G s j f a Hf Hp), Ej, (G _ k g b Hg) by exact Hp. cbn [cache Memo1Model.insert].
    rewrite Ekj, Ek. auto.
  - rewrite (G _ k g b Hg), (G _ j f a Hf) by exact Hp. cbn [cache Memo1Model.insert].
    rewrite Ejk, Ekj, Ej, Ek. split; [reflexivity|]. split; [reflexivity|].
    split; [|split; reflexivity]. intros i. cbn.
    destruct (eqb i k) eqn:X; destruct (eqb i j) eqn:Y; try reflexivity.
    apply eqb_ok in X. apply eqb_ok in Y. congruence.
Qed.

(** A function that panics makes every later call panic, for every key, whether
    it is stored or not. *)
Theorem C98_after_panic : forall (s : mem) k f es k' g,
  poisoned s = false -> cache s k = None -> panics (f k) es ->
  exists s', get k f s = (s', Panicking) /\ effects s' = effects s ++ es /\
    get k' g s' = (s', Panicking) /\ clear s' = (s', false).
Proof.
  intros s k f es k' g Hp Hc Hf. unfold get_or_compute. cbn [Memo1Model.exec]. rewrite Hp, Hc.
  rewrite (panics_exec _ _ _ _ Hf). eexists. split; [reflexivity|]. repeat split.
Qed.

(** A function that uses the Memoizer it is computed for never returns. *)
Theorem C98_recursion : forall (s : mem) k f es,
  poisoned s = false -> cache s k = None -> uses_memo (f k) es ->
  exists s', get k f s = (s', Blocked) /\ effects s' = effects s ++ es.
Proof.
  intros s k f es Hp Hc Hf. unfold get_or_compute. cbn [Memo1Model.exec]. rewrite Hp, Hc.
  rewrite (uses_exec _ _ _ Hf). eexists. split; reflexivity.
Qed.
End Props.

(** ** Witnesses *)

(** [n! ], asking the Memoizer for [(n-1)!] *)
Fixpoint factorial (fuel n : nat) : prog nat nat nat :=
  match fuel, n with
  | S fuel', S (S m) => PGet (S m) (factorial fuel') (fun r => PRet (n * r))
  | _, _ => PRet 1
  end.
(** [n!] computed directly *)
Fixpoint plain_factorial (n : nat) : nat :=
  match n with O => 1 | S m => n * plain_factorial m end.

(** The recursive function that a Memoizer is most often wanted for blocks for
    every argument from 2 on, although computing it directly gives [n!]. *)
Theorem C98_recursion_refuted : forall n, 2 <= n ->
  snd (get_or_compute Nat.eqb n (factorial n) mem_new) = Blocked /\
  snd (get_or_compute Nat.eqb n (fun k => PRet (plain_factorial k)) (mem_new (E := nat)))
    = Returned (plain_factorial n).
Proof. intros [|[|n]] H; [lia|lia|]. split; reflexivity. Qed.

(** With a function that panics the order of two calls matters. *)
Theorem C98_commutativity_refuted : exists (f g : nat -> prog nat nat nat),
  let '(s1, r1) := get_or_compute Nat.eqb 0 f mem_new in
  let '(_, r2) := get_or_compute Nat.eqb 1 g s1 in
  let '(t1, q1) := get_or_compute Nat.eqb 1 g mem_new in
  let '(_, q2) := get_or_compute Nat.eqb 0 f t1 in
  r1 = q2 /\ r2 = Panicking /\ q1 = Returned 7.
Proof. exists (fun _ => PPanic), (fun _ => PRet 7). repeat split. Qed.

(** 5! and 4! one after the other; the effect says which key was computed. *)
Definition traced (k : nat) : prog nat nat nat := PEmit k (PRet (plain_factorial k)).
Example C98_case :
  let '(s1, r1) := get_or_compute Nat.eqb 5 traced mem_new in
  let '(s2, r2) := get_or_compute Nat.eqb 4 traced s1 in
  let '(s3, r3) := get_or_compute Nat.eqb 5 (fun _ => PPanic) s2 in
  r1 = Returned 120 /\ r2 = Returned 24 /\ r3 = Returned 120 /\ effects s3 = [5; 4] /\
  effects (fst (get_or_compute Nat.eqb 5 traced (fst (clear s3)))) = [5; 4; 5].
Proof. vm_compute. repeat split. Qed.
Example C98_history_case :
  let rs := [RGet 3 traced; RGet 2 traced; RGet 3 (fun _ => PRet 0); RClear;
             RGet 3 (fun _ => PRet 0); RGet 3 traced] in
  let cs := [Ask 3 [3] 6; Ask 2 [2] 2; Ask 3 [] 0; Wipe; Ask 3 [] 0; Ask 3 [3] 6] in
  Forall2 known rs cs /\
  answers Nat.eqb [] cs = [Some 6; Some 2; Some 6; None; Some 0; Some 0] /\
  traces Nat.eqb [] cs = [3; 2].
Proof. cbn. repeat split; repeat constructor. Qed.
Example C98_blocked_case : uses_memo (factorial 3 3) [] /\ ~ uses_memo (factorial 1 1) [].
Proof. split; [constructor|]. intros H. inversion H. Qed.

Print Assumptions C98_transparency_partial.
Print Assumptions C98_consistency.
Print Assumptions C98_clear.
Print Assumptions C98_sequence.
Print Assumptions C98_history.
Print Assumptions C98_commutativity_partial.
Print Assumptions C98_after_panic.
Print Assumptions C98_recursion.
Print Assumptions C98_recursion_refuted.
Print Assumptions C98_commutativity_refuted.

(** Theorems about [Memoizer]: C51, C52. *)
From Coq Require Import List Arith Lia Bool Relations.
From Verif Require Import Base ListFacts ConcModel ConcProps MemoSpec.
Import ListNotations.

Section Memo.
Context {K V : Type} (eqb : K -> K -> bool) (eqb_spec : forall a b, eqb a b = true <-> a = b).
Notation st := (mstate K V).
Notation thread := (mpc K V * list (mcall K V))%type.
Notation current := (MemoSpec.current (V := V) eqb).

Definition reading (t : thread) : nat := match fst t with MReading _ _ => 1 | _ => 0 end.
Definition writing (t : thread) : nat :=
  match fst t with MWriting _ _ | MCompute _ _ | MInsert _ _ | MClearing => 1 | _ => 0 end.
Definition pc_key (pc : mpc K V) : list (option K) :=
  match pc with
  | MIdle => []
  | MReading k _ | MWant k _ | MWriting k _ | MCompute k _ | MInsert k _ => [Some k]
  | MClearing => [None]
  end.
(** The function a thread is about to use, and on which key. *)
Definition pc_fun (pc : mpc K V) (k : K) (f : K -> outcome V) : Prop :=
  pc = MReading k f \/ pc = MWant k f \/ pc = MWriting k f \/ pc = MCompute k f.

Record minv (progs : list (list (mcall K V))) (s : st) : Prop :=
  { mi_readers : m_readers s = tally reading (m_threads s);
    mi_writer : tally writing (m_threads s) = if m_writer s then 1 else 0;
    mi_excl : m_writer s = true -> m_readers s = 0;
    mi_cache : forall k, m_cache s k = current (m_trace s) k \/
       (m_cache s k = None /\ exists i v p, nth_error (m_threads s) i = Some (MInsert k v, p));
    mi_insert : forall i k v p, nth_error (m_threads s) i = Some (MInsert k v, p) ->
       m_cache s k = None /\ current (m_trace s) k = Some v;
    mi_compute : forall i k f p, nth_error (m_threads s) i = Some (MCompute k f, p) -> m_cache s k = None;
    mi_poison : m_poisoned s = true -> m_writer s = false /\ m_readers s = 0 }.

Lemma current_other : forall (e : mevent K V) tr k,
  match e with EvCompute _ _ | EvClear _ => False | _ => True end -> current (e :: tr) k = current tr k.
Proof. intros [] tr k0 H; cbn; auto; contradiction. Qed.
Lemma current_compute : forall tr k v k',
  current (EvCompute k v :: tr) k' = if eqb k k' then Some v else current tr k'.
Proof. reflexivity. Qed.

(** What one step does, by cases. *)
Inductive effect (i : nat) (s : st) : mpc K V -> list (mcall K V) -> mpc K V -> list (mcall K V) ->
    (K -> option V) -> nat -> bool -> bool -> list (mevent K V) -> Prop :=
| ef_read k f p : m_writer s = false -> m_poisoned s = false ->
    effect i s MIdle (CGet k f :: p) (MReading k f) p (m_cache s) (S (m_readers s)) false false (m_trace s)
| ef_read_poison k f p : m_writer s = false -> m_poisoned s = true ->
    effect i s MIdle (CGet k f :: p) MIdle p (m_cache s) (m_readers s) false true (EvFail i (Some k) :: m_trace s)
| ef_clear p : m_writer s = false -> m_readers s = 0 -> m_poisoned s = false ->
    effect i s MIdle (CClear :: p) MClearing p (m_cache s) 0 true false (m_trace s)
| ef_clear_poison p : m_writer s = false -> m_readers s = 0 -> m_poisoned s = true ->
    effect i s MIdle (CClear :: p) MIdle p (m_cache s) 0 false true (EvFail i None :: m_trace s)
| ef_hit k f p v : m_cache s k = Some v ->
    effect i s (MReading k f) p MIdle p (m_cache s) (m_readers s - 1) (m_writer s) (m_poisoned s)
           (EvReturn i k v :: m_trace s)
| ef_miss k f p : m_cache s k = None ->
    effect i s (MReading k f) p (MWant k f) p (m_cache s) (m_readers s - 1) (m_writer s) (m_poisoned s) (m_trace s)
| ef_write k f p : m_writer s = false -> m_readers s = 0 -> m_poisoned s = false ->
    effect i s (MWant k f) p (MWriting k f) p (m_cache s) 0 true false (m_trace s)
| ef_write_poison k f p : m_writer s = false -> m_readers s = 0 -> m_poisoned s = true ->
    effect i s (MWant k f) p MIdle p (m_cache s) 0 false true (EvFail i (Some k) :: m_trace s)
| ef_hit2 k f p v : m_cache s k = Some v ->
    effect i s (MWriting k f) p MIdle p (m_cache s) (m_readers s) false (m_poisoned s) (EvReturn i k v :: m_trace s)
| ef_miss2 k f p : m_cache s k = None ->
    effect i s (MWriting k f) p (MCompute k f) p (m_cache s) (m_readers s) (m_writer s) (m_poisoned s) (m_trace s)
| ef_compute k f p v : f k = Ret v ->
    effect i s (MCompute k f) p (MInsert k v) p (m_cache s) (m_readers s) (m_writer s) (m_poisoned s)
           (EvCompute k v :: m_trace s)
| ef_panic k f p : f k = Panic ->
    effect i s (MCompute k f) p MIdle p (m_cache s) (m_readers s) false true
           (EvFail i (Some k) :: EvComputePanic k :: m_trace s)
| ef_insert k v p :
    effect i s (MInsert k v) p MIdle p (m_insert eqb (m_cache s) k v) (m_readers s) false (m_poisoned s)
           (EvReturn i k v :: m_trace s)
| ef_cleared p :
    effect i s MClearing p MIdle p (fun _ => None) (m_readers s) false (m_poisoned s) (EvClear i :: m_trace s).
Lemma mstep_effect : forall s s', mstep eqb s s' ->
  exists i pc prog pc' prog' c r w po tr, nth_error (m_threads s) i = Some (pc, prog) /\
    s' = mkM c r w po (list_set (m_threads s) i (pc', prog')) tr /\ effect i s pc prog pc' prog' c r w po tr.
Proof.
  intros s s' H. destruct H as [i pc prog pc' prog' s' Hn Hs].
  exists i, pc, prog, pc', prog', (m_cache s'), (m_readers s'), (m_writer s'), (m_poisoned s'), (m_trace s').
  split; [auto|split; [auto|]]. destruct s as [c r w po th tr]. cbn in *.
  destruct pc; cbn in Hs.
  - destruct prog as [|[k f|] prog0]; [discriminate| |].
    + destruct w eqn:?; [discriminate|]. destruct po eqn:?; injection Hs; intros; subst; cbn.
      * now apply (ef_read_poison i (mkM c r false true th tr)).
      * now apply (ef_read i (mkM c r false false th tr)).
    + destruct w; [discriminate|]. cbn in Hs. destruct r; [|discriminate]. cbn in Hs.
      destruct po; injection Hs; intros; subst; cbn.
      * now apply (ef_clear_poison i (mkM c 0 false true th tr)).
      * now apply (ef_clear i (mkM c 0 false false th tr)).
  - destruct (c k) eqn:E; injection Hs; intros; subst; cbn.
    + now apply (ef_hit i (mkM c r w po th tr)).
    + now apply (ef_miss i (mkM c r w po th tr)).
  - destruct w; [discriminate|]. cbn in Hs. destruct r; [|discriminate]. cbn in Hs.
    destruct po; injection Hs; intros; subst; cbn.
    + now apply (ef_write_poison i (mkM c 0 false true th tr)).
    + now apply (ef_write i (mkM c 0 false false th tr)).
  - destruct (c k) eqn:E; injection Hs; intros; subst; cbn.
    + now apply (ef_hit2 i (mkM c r w po th tr)).
    + now apply (ef_miss2 i (mkM c r w po th tr)).
  - destruct (f k) eqn:E; injection Hs; intros; subst; cbn.
    + now apply (ef_compute i (mkM c r w po th tr)).
    + now apply (ef_panic i (mkM c r w po th tr)).
  - injection Hs; intros; subst; cbn. apply (ef_insert i (mkM c r w po th tr)).
  - injection Hs; intros; subst; cbn. apply (ef_cleared i (mkM c r w po th tr)).
Qed.

Lemma minv_init : forall progs, minv progs (minit progs).
Proof.
  intros progs.
  assert (G : forall i t, nth_error (map (fun p => (@MIdle K V, p)) progs) i = Some t -> fst t = MIdle).
  { intros i t H. apply nth_error_In, in_map_iff in H as (p & <- & _). reflexivity. }
  assert (Z : forall f : thread -> nat, (forall p, f (MIdle, p) = 0) -> tally f (map (fun p => (MIdle, p)) progs) = 0).
  { intros f Hf. induction progs as [|p ps IH]; cbn; auto. rewrite Hf, IH; auto.
    intros i t H. apply (G (S i)). exact H. }
  split; cbn; auto; try discriminate.
  - now rewrite Z.
  - intros i k v p H. apply G in H. discriminate.
Qed.

Ltac tal T1 T2 := cbn in T1, T2.
Lemma minv_step : forall progs s s', minv progs s -> mstep eqb s s' -> minv progs s'.
Proof.
  intros progs s s' [Ir Iw Ie Ic Ii Ip Io] H.
  apply mstep_effect in H as (i & pc & prog & pc' & prog' & c & r & w & po & tr & Hn & -> & E).
  pose proof (tally_set _ reading _ i (pc', prog') _ Hn) as T1.
  pose proof (tally_set _ writing _ i (pc', prog') _ Hn) as T2.
  pose proof (tally_nth _ reading _ _ _ Hn) as N1.
  pose proof (tally_nth _ writing _ _ _ Hn) as N2.
  assert (New := nth_set_eq _ _ i (pc', prog') _ Hn).
  (* a thread that is inserting, while thread i holds the lock *)
  assert (Alone : forall j k v p, nth_error (m_threads s) j = Some (MInsert k v, p) ->
            reading (pc, prog) = 1 \/ writing (pc, prog) = 1 -> j = i).
  { intros j k v p Hj L. destruct (Nat.eq_dec j i) as [|N]; auto. exfalso.
    pose proof (tally_two _ writing _ j i _ _ N Hj Hn) as D.
    pose proof (tally_nth _ writing _ _ _ Hj) as D1. cbn in D, D1.
    destruct L as [L|L].
    - destruct (m_writer s); [specialize (Ie eq_refl); lia | lia].
    - destruct (m_writer s); lia. }
  assert (AloneC : forall j k f p, nth_error (m_threads s) j = Some (MCompute k f, p) ->
            writing (pc, prog) = 1 -> j = i).
  { intros j k f p Hj L. destruct (Nat.eq_dec j i) as [|N]; auto. exfalso.
    pose proof (tally_two _ writing _ j i _ _ N Hj Hn) as D. cbn in D.
    destruct (m_writer s); lia. }
  assert (Stay : forall j k v p, nth_error (m_threads s) j = Some (MInsert k v, p) -> j <> i ->
            nth_error (list_set (m_threads s) i (pc', prog')) j = Some (MInsert k v, p)).
  { intros. now rewrite nth_error_list_set_ne by auto. }
  (* the cache clause when neither the map nor the computed values change *)
  assert (Same : (forall k v, pc <> MInsert k v) -> (forall k, current tr k = current (m_trace s) k) ->
     forall k, m_cache s k = current tr k \/
      (m_cache s k = None /\ exists j v p, nth_error (list_set (m_threads s) i (pc', prog')) j = Some (MInsert k v, p))).
  { intros Hp Hc k. rewrite Hc. destruct (Ic k) as [?|(Z & j & v & p & Hj)]; auto. right. split; auto.
    exists j, v, p. apply Stay; auto. intros ->. rewrite Hn in Hj. injection Hj; intros; subst. now eapply Hp. }
  assert (SameI : (forall k v, pc' <> MInsert k v) -> (forall k, current tr k = current (m_trace s) k) ->
     forall j k v p, nth_error (list_set (m_threads s) i (pc', prog')) j = Some (MInsert k v, p) ->
       m_cache s k = None /\ current tr k = Some v).
  { intros Hp Hc j k v p Hj. rewrite Hc. apply nth_set in Hj as [[-> Hj]|[_ Hj]]; [|eauto].
    injection Hj; intros; subst. now edestruct Hp. }
  assert (SameC : (forall k f, pc' <> MCompute k f) ->
     forall j k f p, nth_error (list_set (m_threads s) i (pc', prog')) j = Some (MCompute k f, p) ->
       m_cache s k = None).
  { intros Hp j k f p Hj. apply nth_set in Hj as [[-> Hj]|[_ Hj]]; [|eauto].
    injection Hj; intros; subst. now edestruct Hp. }
  destruct E; tal T1 T2; tal N1 N2.
  - (* read *) rewrite H in *. split; cbn; auto; try discriminate; try lia;
      try (apply Same; [discriminate|auto]); try (apply SameI; [discriminate|auto]); try (apply SameC; discriminate).
  - (* read_poison *) rewrite H in *. split; cbn; auto; try discriminate; try lia;
      try (apply Same; [discriminate|auto]); try (apply SameI; [discriminate|auto]); try (apply SameC; discriminate); try (intros _; now destruct (Io H0)).
  - (* clear *) rewrite H in *. split; cbn; auto; try discriminate; try lia;
      try (apply Same; [discriminate|auto]); try (apply SameI; [discriminate|auto]); try (apply SameC; discriminate).
  - (* clear_poison *) rewrite H in *. split; cbn; auto; try discriminate; try lia;
      try (apply Same; [discriminate|auto]); try (apply SameI; [discriminate|auto]); try (apply SameC; discriminate).
  - (* hit *) assert (Wf : m_writer s = false).
    { destruct (m_writer s); auto. specialize (Ie eq_refl). lia. }
    rewrite Wf in *. split; cbn; auto; try discriminate; try lia;
      try (apply Same; [discriminate|auto]); try (apply SameI; [discriminate|auto]); try (apply SameC; discriminate); try (intros P; destruct (Io P); split; auto; lia).
  - (* miss *) assert (Wf : m_writer s = false).
    { destruct (m_writer s); auto. specialize (Ie eq_refl). lia. }
    rewrite Wf in *. split; cbn; auto; try discriminate; try lia;
      try (apply Same; [discriminate|auto]); try (apply SameI; [discriminate|auto]); try (apply SameC; discriminate); try (intros P; destruct (Io P); split; auto; lia).
  - (* write *) rewrite H in *. split; cbn; auto; try discriminate; try lia;
      try (apply Same; [discriminate|auto]); try (apply SameI; [discriminate|auto]); try (apply SameC; discriminate).
  - (* write_poison *) rewrite H in *. split; cbn; auto; try discriminate; try lia;
      try (apply Same; [discriminate|auto]); try (apply SameI; [discriminate|auto]); try (apply SameC; discriminate).
  - (* hit2 *) assert (Wt : m_writer s = true) by (destruct (m_writer s); auto; lia).
    rewrite Wt in *. split; cbn; auto; try discriminate; try lia;
      try (apply Same; [discriminate|auto]); try (apply SameI; [discriminate|auto]); try (apply SameC; discriminate).
  - (* miss2 *) assert (Wt : m_writer s = true) by (destruct (m_writer s); auto; lia).
    rewrite Wt in *. split; cbn; auto; try discriminate; try lia;
      try (apply Same; [discriminate|auto]); try (apply SameI; [discriminate|auto]).
    all: try (intros P; destruct (Io P); discriminate).
    intros j k0 f0 p0 Hj. apply nth_set in Hj as [[-> Hj]|[_ Hj]]; [|eauto].
    injection Hj; intros; subst. auto.
  - (* compute *) assert (Wt : m_writer s = true) by (destruct (m_writer s); auto; lia).
    assert (C0 : m_cache s k = None) by eauto.
    rewrite Wt in *. split; cbn; auto; try discriminate; try lia.
    + intros k'. destruct (eqb k k') eqn:Ek.
      * apply eqb_spec in Ek. subst. right. split; auto. exists i, v, p. auto.
      * destruct (Ic k') as [?|(Z & j & v' & p' & Hj)]; auto.
        exfalso. assert (j = i) by (eapply Alone; eauto). subst. rewrite Hn in Hj. discriminate.
    + intros j k0 v0 p0 Hj. apply nth_set in Hj as [[-> Hj]|[Nj Hj]].
      * injection Hj; intros; subst. split; auto. now rewrite (proj2 (eqb_spec k k) eq_refl).
      * exfalso. apply Nj. eapply Alone; eauto.
    + apply SameC; discriminate.
  - (* panic *) assert (Wt : m_writer s = true) by (destruct (m_writer s); auto; lia).
    rewrite Wt in *. split; cbn; auto; try discriminate; try lia;
      try (apply Same; [discriminate|auto]); try (apply SameI; [discriminate|auto]); try (apply SameC; discriminate).
  - (* insert *) assert (Wt : m_writer s = true) by (destruct (m_writer s); auto; lia).
    destruct (Ii _ _ _ _ Hn) as [C0 C1].
    rewrite Wt in *. split; cbn; auto; try discriminate; try lia.
    + intros k'. unfold m_insert. destruct (eqb k k') eqn:Ek.
      * apply eqb_spec in Ek. subst. now left.
      * destruct (Ic k') as [?|(Z & j & v' & p' & Hj)]; auto.
        exfalso. assert (j = i) by (eapply Alone; eauto). subst. rewrite Hn in Hj. injection Hj; intros; subst.
        rewrite (proj2 (eqb_spec k' k') eq_refl) in Ek. discriminate.
    + intros j k0 v0 p0 Hj. exfalso. apply nth_set in Hj as [[-> Hj]|[Nj Hj]]; [discriminate|].
      apply Nj. eapply Alone; eauto.
    + intros j k0 f0 p0 Hj. exfalso. apply nth_set in Hj as [[-> Hj]|[Nj Hj]]; [discriminate|].
      apply Nj. eapply AloneC; eauto.
  - (* cleared *) assert (Wt : m_writer s = true) by (destruct (m_writer s); auto; lia).
    rewrite Wt in *. split; cbn; auto; try discriminate; try lia.
    + intros j k0 v0 p0 Hj. exfalso. apply nth_set in Hj as [[-> Hj]|[Nj Hj]]; [discriminate|].
      apply Nj. eapply Alone; eauto.
Qed.
Lemma minv_reach : forall progs s, mreach eqb progs s -> minv progs s.
Proof. induction 1; [apply minv_init | eapply minv_step; eauto]. Qed.

(** ** C51 *)
(** Every step adds at most these events. *)
Lemma step_events : forall progs s s', minv progs s -> mstep eqb s s' ->
  m_trace s' = m_trace s \/
  (exists i k v, m_trace s' = EvReturn i k v :: m_trace s /\ current (m_trace s) k = Some v) \/
  (exists i k f p v, nth_error (m_threads s) i = Some (MCompute k f, p) /\ f k = Ret v /\
     m_trace s' = EvCompute k v :: m_trace s /\ current (m_trace s) k = None /\ m_poisoned s = false) \/
  (exists i k f p, nth_error (m_threads s) i = Some (MCompute k f, p) /\ f k = Panic /\
     m_trace s' = EvFail i (Some k) :: EvComputePanic k :: m_trace s /\ m_poisoned s = false) \/
  (exists i, m_trace s' = EvClear i :: m_trace s) \/
  (exists i k, m_trace s' = EvFail i k :: m_trace s /\ m_poisoned s = true).
Proof.
  intros progs s s' I H. destruct I as [Ir Iw Ie Ic Ii Ip Io].
  apply mstep_effect in H as (i & pc & prog & pc' & prog' & c & r & w & po & tr & Hn & -> & E).
  pose proof (tally_nth _ reading _ _ _ Hn) as N1.
  pose proof (tally_nth _ writing _ _ _ Hn) as N2.
  assert (NP : writing (pc, prog) = 1 -> m_poisoned s = false).
  { intros L. destruct (m_poisoned s); auto. destruct (Io eq_refl) as [W _]. rewrite W in Iw. lia. }
  assert (Alone : forall j k v p, nth_error (m_threads s) j = Some (MInsert k v, p) ->
            writing (pc, prog) = 1 -> j = i).
  { intros j k v p Hj L. destruct (Nat.eq_dec j i) as [|N]; auto. exfalso.
    pose proof (tally_two _ writing _ j i _ _ N Hj Hn) as D. cbn in D.
    destruct (m_writer s); lia. }
  destruct E; cbn [m_trace]; auto; try (do 5 right; eauto; fail).
  - right; left. exists i, k, v. split; auto. destruct (Ic k) as [<-|[Z _]]; congruence.
  - right; left. exists i, k, v. split; auto. destruct (Ic k) as [<-|[Z _]]; congruence.
  - do 2 right; left. exists i, k, f, p, v. repeat split; auto.
    destruct (Ic k) as [<-|(Z & j & v' & p' & Hj)]; [eauto|].
    assert (j = i) by (eapply Alone; eauto). subst. rewrite Hn in Hj. discriminate.
  - do 3 right; left. exists i, k, f, p. repeat split; auto.
  - right; left. exists i, k, v. split; auto. now destruct (Ii _ _ _ _ Hn).
  - do 4 right; left. eauto.
Qed.
(** Every value returned for a key is the one computed for it since the last
    [clear]; a key is computed only when it has no value since the last [clear]. *)
Theorem C51_returns_current : forall progs (s : st), mreach eqb progs s ->
  (forall newer older i k v, m_trace s = newer ++ EvReturn i k v :: older -> current older k = Some v) /\
  (forall newer older k v, m_trace s = newer ++ EvCompute k v :: older -> current older k = None).
Proof.
  induction 1 as [|s s' R [IH1 IH2] H].
  - split; intros [|]; discriminate.
  - destruct (step_events progs s s' (minv_reach _ _ R) H) as
      [E|[(i & k & v & E & C)|[(i & k & f & p & v & Hn & F & E & C & _)|[(i & k & f & p & Hn & F & E & _)|[(i & E)|(i & k & E & _)]]]]];
    rewrite E; split; auto.
    all: intros [|e [|e' newer]] older; intros; cbn in *;
      match goal with Q : _ :: _ = _ :: _ |- _ => injection Q; intros; subst; try discriminate; eauto end.
    all: first [eapply (IH1 []); eassumption | eapply (IH2 []); eassumption
               | eapply (IH1 (e' :: newer)); eassumption | eapply (IH2 (e' :: newer)); eassumption].
Qed.
(** Between two computations for the same key there is a [clear]. *)
Theorem C51_once_per_clear : forall progs (s : st), mreach eqb progs s ->
  forall a (b : list (mevent K V)) c k v w, m_trace s = a ++ EvCompute k v :: b ++ EvCompute k w :: c ->
  exists i, In (EvClear i) b.
Proof.
  intros progs s R a b c k v w E. destruct (C51_returns_current progs s R) as [_ C].
  specialize (C _ _ _ _ E). clear E R. induction b as [|e b IH]; cbn in *.
  - rewrite (proj2 (eqb_spec k k) eq_refl) in C. discriminate.
  - destruct e; cbn in C; try (destruct (IH C) as [j Hj]; exists j; auto; fail).
    + destruct (eqb k0 k); [discriminate|]. destruct (IH C) as [j Hj]. exists j. auto.
    + exists i. auto.
Qed.
(** Threads only use functions that the programs passed, on the keys they passed them with. *)
Definition from_progs (progs : list (list (mcall K V))) (s : st) : Prop :=
  (forall i pc p, nth_error (m_threads s) i = Some (pc, p) ->
     (forall k f, In (CGet k f) p -> called progs k f) /\ (forall k f, pc_fun pc k f -> called progs k f)) /\
  (forall k v, In (EvCompute k v) (m_trace s) -> exists f, called progs k f /\ f k = Ret v) /\
  (forall k, In (EvComputePanic k) (m_trace s) -> exists f, called progs k f /\ f k = Panic).
Lemma from_progs_reach : forall progs s, mreach eqb progs s -> from_progs progs s.
Proof.
  induction 1 as [|s s' R (IH1 & IH2 & IH3) H].
  - split; [|split]; cbn; try contradiction. intros i pc p H.
    apply nth_error_In, in_map_iff in H as (q & Q & Hq). injection Q; intros; subst. split.
    + intros k f Hk. now exists p.
    + intros k f [?|[?|[?|?]]]; discriminate.
  - pose proof (step_events progs s s' (minv_reach _ _ R) H) as SE.
    split; [|split].
    + apply mstep_effect in H as (i & pc & prog & pc' & prog' & c & r & w & po & tr & Hn & -> & E).
      destruct (IH1 _ _ _ Hn) as [P1 P2].
      intros j q p Hj. cbn in Hj. apply nth_set in Hj as [[-> Hj]|[_ Hj]]; [|eauto].
      injection Hj; intros; subst; clear Hj. split.
      * intros k f Hk. apply P1. destruct E; cbn; auto.
      * intros k0 f0 Hf. unfold pc_fun in *. destruct E;
          destruct Hf as [Hf|[Hf|[Hf|Hf]]]; try discriminate; injection Hf; intros; subst; auto.
        apply P1. now left.
    + intros k v Hk. destruct SE as
      [E|[(i & k0 & v0 & E & C)|[(i & k0 & f & p & v0 & Hn & F & E & C & _)|[(i & k0 & f & p & Hn & F & E & _)|[(i & E)|(i & k0 & E & _)]]]]];
      rewrite E in Hk; cbn in Hk; auto.
      * destruct Hk as [Hk|Hk]; [discriminate|auto].
      * destruct Hk as [Hk|Hk]; [|auto]. injection Hk; intros; subst. exists f. split; auto.
        destruct (IH1 _ _ _ Hn) as [_ P2]. apply P2. unfold pc_fun. auto.
      * destruct Hk as [Hk|[Hk|Hk]]; [discriminate|discriminate|auto].
      * destruct Hk as [Hk|Hk]; [discriminate|auto].
      * destruct Hk as [Hk|Hk]; [discriminate|auto].
    + intros k Hk. destruct SE as
      [E|[(i & k0 & v0 & E & C)|[(i & k0 & f & p & v0 & Hn & F & E & C & _)|[(i & k0 & f & p & Hn & F & E & _)|[(i & E)|(i & k0 & E & _)]]]]];
      rewrite E in Hk; cbn in Hk; auto.
      * destruct Hk as [Hk|Hk]; [discriminate|auto].
      * destruct Hk as [Hk|Hk]; [discriminate|auto].
      * destruct Hk as [Hk|[Hk|Hk]]; [discriminate| |auto]. injection Hk; intros; subst. exists f. split; auto.
        destruct (IH1 _ _ _ Hn) as [_ P2]. apply P2. unfold pc_fun. auto.
      * destruct Hk as [Hk|Hk]; [discriminate|auto].
      * destruct Hk as [Hk|Hk]; [discriminate|auto].
Qed.
Lemma current_in : forall (tr : list (mevent K V)) k v, current tr k = Some v -> In (EvCompute k v) tr.
Proof.
  induction tr as [|e tr IH]; intros k v H; cbn in *; [discriminate|].
  destruct e; try (right; auto; fail); try discriminate.
  destruct (eqb k0 k) eqn:E; [|auto]. apply eqb_spec in E. subst. injection H; intros; subst. auto.
Qed.
(** When all callers pass functions that agree with [f], every returned value is [f key]. *)
Theorem C51_value : forall progs (f : K -> outcome V) s, mreach eqb progs s ->
  (forall k g, called progs k g -> g k = f k) ->
  forall i k v, In (EvReturn i k v) (m_trace s) -> f k = Ret v.
Proof.
  intros progs f s R A i k v H. apply in_split in H as (newer & older & E).
  destruct (C51_returns_current progs s R) as [C _]. specialize (C _ _ _ _ _ E).
  apply current_in in C. destruct (from_progs_reach progs s R) as (_ & P & _).
  destruct (P k v) as (g & G1 & G2); [rewrite E; apply in_or_app; right; now right|].
  rewrite <- (A k g G1). exact G2.
Qed.
(** Every call ends exactly once, in program order, with an answer for its own key. *)
Theorem C51_answers : forall progs (s : st), mreach eqb progs s ->
  forall i prog, nth_error progs i = Some prog ->
  exists pc rest, nth_error (m_threads s) i = Some (pc, rest) /\
    map key_of prog = rev (answers i (m_trace s)) ++ pc_key pc ++ map key_of rest.
Proof.
  induction 1 as [|s s' R IH H]; intros i prog Hp.
  - exists MIdle, prog. cbn. split; auto. now rewrite nth_error_map, Hp.
  - destruct (IH i prog Hp) as (pc0 & rest0 & Ht & Ek).
    apply mstep_effect in H as (j & pc & q & pc' & q' & c & r & w & po & tr & Hn & -> & E). cbn.
    destruct (Nat.eq_dec j i) as [->|N].
    + rewrite Hn in Ht. injection Ht; intros; subst; clear Ht.
      exists pc', q'. split; [eapply nth_set_eq; eauto|]. rewrite Ek.
      destruct E; cbn; rewrite ?Nat.eqb_refl; cbn; rewrite <- ?app_assoc; reflexivity.
    + exists pc0, rest0. split; [now rewrite nth_error_list_set_ne by auto|]. rewrite Ek.
      apply Nat.eqb_neq in N. destruct E; cbn; rewrite ?N; reflexivity.
Qed.
(** No deadlock: as long as some thread has not finished, some thread can step. *)
Theorem C51_progress : forall progs (s : st), mreach eqb progs s -> finished s \/ exists s', mstep eqb s s'.
Proof.
  intros progs s R. pose proof (minv_reach progs s R) as [Ir Iw Ie Ic Ii Ip Io].
  assert (D : forall i pc p pc' p' s2, nth_error (m_threads s) i = Some (pc, p) ->
     mthread_step eqb i s pc p = Some (pc', p', s2) -> exists s', mstep eqb s s').
  { intros. eexists. econstructor; eauto. }
  destruct (m_writer s) eqn:W.
  - destruct (tally_pos _ writing (m_threads s)) as (i & [pc p] & Hn & L); [lia|]. right.
    destruct s as [c r w po th tr]. cbn in *.
    destruct pc; cbn in L; try lia.
    + destruct (c k) eqn:Ec; (eapply D; [eassumption|]); cbn; rewrite Ec; reflexivity.
    + destruct (f k) eqn:Ef; (eapply D; [eassumption|]); cbn; rewrite Ef; reflexivity.
    + eapply D; [eassumption|reflexivity].
    + eapply D; [eassumption|reflexivity].
  - destruct (m_readers s) eqn:Rd.
    + (* lock free: any unfinished thread can step *)
      destruct (m_threads s) as [|t0 ts0] eqn:ET.
      { left. intros i th Hi. rewrite ET in Hi. destruct i; discriminate. }
      rewrite <- ET in *. clear t0 ts0 ET.
      assert (C : (forall i th, nth_error (m_threads s) i = Some th -> th = (MIdle, [])) \/
                  exists i th, nth_error (m_threads s) i = Some th /\ th <> (MIdle, [])).
      { generalize (m_threads s). clear. intros l. induction l as [|[pc p] l [IH|(i & th & H1 & H2)]].
        - left. intros [|i] th H; discriminate.
        - destruct pc; try (right; exists 0; eexists; split; [reflexivity|discriminate]).
          destruct p; [|right; exists 0; eexists; split; [reflexivity|discriminate]].
          left. intros [|i] th H; [now injection H | eauto].
        - right. exists (S i), th. auto. }
      destruct C as [C|(i & [pc p] & Hn & Np)]; [left; exact C|]. right.
      pose proof (tally_nth _ writing _ _ _ Hn) as N2. pose proof (tally_nth _ reading _ _ _ Hn) as N1.
      destruct s as [c r w po th tr]. cbn in *. subst.
      destruct pc; cbn in N1, N2; try lia.
      * destruct p as [|[k f|] p]; [congruence| |]; destruct po; (eapply D; [eassumption|reflexivity]).
      * destruct po; (eapply D; [eassumption|reflexivity]).
    + destruct (tally_pos _ reading (m_threads s)) as (i & [pc p] & Hn & L); [lia|]. right.
      destruct s as [c r w po th tr]. cbn in *.
      destruct pc; cbn in L; try lia.
      destruct (c k) eqn:Ec; (eapply D; [eassumption|]); cbn; rewrite Ec; reflexivity.
Qed.
(** Every run ends: each step uses up some of a finite amount of work. *)
Definition work (s : st) : nat :=
  tally (fun t : thread => 6 * length (snd t) +
    match fst t with
    | MIdle => 0 | MReading _ _ => 5 | MWant _ _ => 4 | MWriting _ _ => 3 | MCompute _ _ => 2 | MInsert _ _ => 1
    | MClearing => 1
    end) (m_threads s).
Theorem C51_terminates : forall s s' : st, mstep eqb s s' -> work s' < work s.
Proof.
  intros s s' H. apply mstep_effect in H as (i & pc & q & pc' & q' & c & r & w & po & tr & Hn & -> & E).
  unfold work. cbn [m_threads].
  match goal with |- tally ?g _ < _ => pose proof (tally_set _ g _ i (pc', q') _ Hn) as T end.
  cbn beta in T. destruct E; cbn [fst snd length] in T; lia.
Qed.
(** So any execution that cannot continue has answered every call. *)
Theorem C51_all_answered : forall progs (s : st), mreach eqb progs s -> (forall s', ~ mstep eqb s s') ->
  forall i prog, nth_error progs i = Some prog -> rev (answers i (m_trace s)) = map key_of prog.
Proof.
  intros progs s R N i prog Hp. destruct (C51_progress progs s R) as [F|[s' F]]; [|now apply N in F].
  destruct (C51_answers progs s R i prog Hp) as (pc & rest & Ht & ->). apply F in Ht. injection Ht; intros; subst.
  cbn. now rewrite app_nil_r.
Qed.

(** ** C52 *)
Lemma poison_trace : forall progs (s : st), mreach eqb progs s ->
  (m_poisoned s = false -> (forall k, ~ In (EvComputePanic k) (m_trace s)) /\ (forall i k, ~ In (EvFail i k) (m_trace s))) /\
  (m_poisoned s = true -> exists newer k older, m_trace s = newer ++ EvComputePanic k :: older /\
     Forall is_fail newer /\ forall k', ~ In (EvComputePanic k') older).
Proof.
  induction 1 as [|s s' R [IH1 IH2] H].
  - split; [|discriminate]. intros _. split; intros; intros [].
  - pose proof (minv_reach _ _ R) as I. destruct I as [Ir Iw Ie Ic Ii Ip Io].
    apply mstep_effect in H as (i & pc & q & pc' & q' & c & r & w & po & tr & Hn & -> & E). cbn.
    pose proof (tally_nth _ reading _ _ _ Hn) as N1.
    pose proof (tally_nth _ writing _ _ _ Hn) as N2.
    assert (NP : writing (pc, q) = 1 \/ reading (pc, q) = 1 -> m_poisoned s = false).
    { intros L. destruct (m_poisoned s); auto. destruct (Io eq_refl) as [W Z]. rewrite W in Iw. lia. }
    assert (C : m_poisoned s = false \/ m_poisoned s = true) by (destruct (m_poisoned s); auto).
    assert (C' : writing (pc, q) = 1 \/ reading (pc, q) = 1 \/ (writing (pc, q) = 0 /\ reading (pc, q) = 0))
      by (destruct pc; cbn; auto).
    destruct C as [C|C].
    + destruct (IH1 C) as [A B]. clear IH1 IH2.
      destruct E; split; intros P; try congruence.
      all: try (split; [intros ? [F|F] | intros ? ? [F|F]]; try discriminate F; [exact (A _ F) | exact (B _ _ F)]).
      all: try (split; auto; fail).
      exists [EvFail i (Some k)], k, (m_trace s). split; [reflexivity|split; auto].
      constructor; auto. eexists _, _; reflexivity.
    + destruct (IH2 C) as (nw & k1 & od & E1 & E2 & E3). clear IH1 IH2.
      assert (C2 : writing (pc, q) = 0 /\ reading (pc, q) = 0).
      { destruct C' as [L|[L|L]]; auto; rewrite NP in C by auto; discriminate. }
      destruct C2 as [C2 C3].
      destruct E; cbn in C2, C3; try discriminate; split; intros P; try congruence.
      all: rewrite E1; eexists (_ :: nw), k1, od; (split; [reflexivity|split; auto]);
           constructor; auto; eexists _, _; reflexivity.
Qed.
(** If no function that is passed panics on its key, no call ever panics. *)
Theorem C52_no_panic_partial : forall progs (s : st), mreach eqb progs s ->
  (forall k f, called progs k f -> f k <> Panic) -> forall i k, ~ In (EvFail i k) (m_trace s).
Proof.
  intros progs s R A i k. destruct (poison_trace progs s R) as [P1 P2].
  destruct (m_poisoned s); [|now apply P1].
  destruct (P2 eq_refl) as (nw & k1 & od & E1 & _ & _). exfalso.
  destruct (from_progs_reach progs s R) as (_ & _ & Q). destruct (Q k1) as (f & F1 & F2).
  - rewrite E1. apply in_or_app. right. now left.
  - now apply (A k1 f F1).
Qed.
(** After one panicking computation every later call, for any key, by any
    thread, panics: nothing is returned, computed or cleared any more. *)
Theorem C52_poisoned_forever : forall progs (s : st) newer k older, mreach eqb progs s ->
  m_trace s = newer ++ EvComputePanic k :: older -> forall e, In e newer -> is_fail e.
Proof.
  intros progs s newer k older R E e He. destruct (poison_trace progs s R) as [P1 P2].
  destruct (m_poisoned s).
  - destruct (P2 eq_refl) as (nw & k1 & od & E1 & E2 & E3). rewrite E1 in E.
    assert (S : nw = newer).
    { clear - E E2 E3. revert newer E. induction nw as [|x nw IH]; intros [|y newer] E; cbn in E; auto.
      - injection E; intros; subst. exfalso. apply (E3 k). apply in_or_app. right. now left.
      - injection E; intros; subst. inversion E2; subst. destruct H1 as (? & ? & ?). discriminate.
      - injection E; intros; subst. f_equal. inversion E2; subst. auto. }
    subst. now apply (proj1 (Forall_forall _ _) E2).
  - exfalso. destruct (P1 eq_refl) as [P _]. apply (P k). rewrite E. apply in_or_app. right. now left.
Qed.
End Memo.

(** Concrete runs. *)
Ltac mrun i := eapply mreach_step; [|eapply mstep_intro with (i := i); [reflexivity | reflexivity]].
Definition two_gets : list (list (mcall nat nat)) :=
  [[CGet 3 (fun k => Ret (k * 10))]; [CGet 3 (fun k => Ret (k * 10)); CClear; CGet 3 (fun k => Ret (k * 10))]].
Fixpoint mexec (sched : list nat) (s : mstate nat nat) : mstate nat nat :=
  match sched with
  | [] => s
  | i :: sched' =>
      match nth_error (m_threads s) i with
      | Some (pc, prog) =>
          match mthread_step Nat.eqb i s pc prog with
          | Some (pc', prog', s') =>
              mexec sched' (mkM (m_cache s') (m_readers s') (m_writer s') (m_poisoned s')
                                (list_set (m_threads s) i (pc', prog')) (m_trace s'))
          | None => mexec sched' s
          end
      | None => mexec sched' s
      end
  end.
Lemma mexec_reach : forall progs sched s, mreach Nat.eqb progs s -> mreach Nat.eqb progs (mexec sched s).
Proof.
  induction sched as [|i sched IH]; intros s R; cbn; auto.
  destruct (nth_error (m_threads s) i) as [[pc prog]|] eqn:E; auto.
  destruct (mthread_step Nat.eqb i s pc prog) as [[[pc' prog'] s']|] eqn:F; auto.
  apply IH. eapply mreach_step; [eassumption|]. econstructor; eauto.
Qed.
(** Both threads miss, one computes, the other finds the value; after [clear] it is computed again. *)
Example C51_case : exists s, mreach Nat.eqb two_gets s /\ finished s /\
  rev (m_trace s) = [EvCompute 3 30; EvReturn 0 3 30; EvReturn 1 3 30; EvClear 1; EvCompute 3 30; EvReturn 1 3 30].
Proof.
  exists (mexec [0; 1; 0; 1; 0; 0; 0; 0; 1; 1; 1; 1; 1; 1; 1; 1; 1; 1] (minit two_gets)).
  split; [apply mexec_reach; constructor|]. split; [|reflexivity].
  assert (T : m_threads (mexec [0; 1; 0; 1; 0; 0; 0; 0; 1; 1; 1; 1; 1; 1; 1; 1; 1; 1] (minit two_gets)) =
    [(MIdle, []); (MIdle, [])]) by (vm_compute; reflexivity).
  intros i th H. rewrite T in H. destruct i as [|[|[|i]]]; [now injection H | now injection H | discriminate | discriminate].
Qed.
(** Two threads whose functions never panic; and one panic after which both threads fail at every key *)
Example C52_case :
  (exists s, mreach Nat.eqb two_gets s /\ (forall k f, called two_gets k f -> f k <> Panic) /\
     List.length (m_trace s) = 6) /\
  (let progs := [[CGet 1 (fun _ => Panic); CGet 3 (fun k => Ret k)]; [CGet 2 (fun k => Ret k); CClear]] in
   exists s : mstate nat nat, mreach Nat.eqb progs s /\
     rev (m_trace s) = [EvComputePanic 1; EvFail 0 (Some 1); EvFail 0 (Some 3); EvFail 1 (Some 2); EvFail 1 None]).
Proof.
  split.
  - exists (mexec [0; 1; 0; 1; 0; 0; 0; 0; 1; 1; 1; 1; 1; 1; 1; 1; 1; 1] (minit two_gets)).
    split; [apply mexec_reach; constructor|]. split; [|reflexivity].
    intros k f (p & Hp & Hc). destruct Hp as [<-|[<-|[]]]; cbn in Hc; intuition (try discriminate);
      match goal with H : CGet _ _ = CGet _ _ |- _ => injection H as <- <- end; discriminate.
  - cbv zeta. eexists (mexec [0; 0; 0; 0; 0; 0; 0; 0; 0; 1; 1; 1; 1; 1; 1; 1; 1] (minit _)).
    split; [apply mexec_reach; constructor|]. vm_compute. reflexivity.
Qed.
(** C52 as stated is false: the function panics for key 1, and the call for key 2 panics too. *)
Theorem C52_other_keys_refuted : exists progs (s : mstate nat nat),
  mreach Nat.eqb progs s /\ called progs 2 (fun k => Ret k) /\ In (EvComputePanic 1) (m_trace s) /\
  ~ In (EvComputePanic 2) (m_trace s) /\ In (EvFail 1 (Some 2)) (m_trace s).
Proof.
  exists [[CGet 1 (fun _ => Panic)]; [CGet 2 (fun k => Ret k)]],
    (mexec [0; 0; 0; 0; 0; 1; 1] (minit [[CGet 1 (fun _ => Panic)]; [CGet 2 (fun k => Ret k)]])).
  split; [apply mexec_reach; constructor|]. split; [|split; [|split]].
  - eexists. split; [right; left; reflexivity|]. now left.
  - vm_compute. auto.
  - vm_compute. intros [H|[H|[H|[]]]]; discriminate.
  - vm_compute. auto.
Qed.

Print Assumptions C51_returns_current.
Print Assumptions C51_once_per_clear.
Print Assumptions C51_value.
Print Assumptions C51_answers.
Print Assumptions C51_progress.
Print Assumptions C51_terminates.
Print Assumptions C51_all_answered.
Print Assumptions C52_no_panic_partial.
Print Assumptions C52_poisoned_forever.
Print Assumptions C52_other_keys_refuted.

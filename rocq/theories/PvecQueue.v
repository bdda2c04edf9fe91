(** Queues: growth mixed with [pop_front] is right as long as the front is
    never popped with fewer than 66 elements left in a tree. *)
From Coq Require Import List Arith Lia Bool.
From Verif Require Import Base ListFacts PvecModel PvecSpec PvecFacts PvecShape PvecEnds PvecHist PvecFront.
Import ListNotations.
Open Scope outcome_scope.
Set Implicit Arguments.

Section Queue.
Context {T : Type}.
Notation node := (node T).
Notation tree := (tree T).
Notation pvec := (pvec T).
Notation op := (op T).

Lemma node_pop_front_keeps_full (n : node) : node_ok n -> full n ->
  exists n' x, node_pop_front n = Ret (Some (n', x)) /\ node_ok n' /\ elems n = x :: elems n'
               /\ (0 < esize n' -> full n').
Proof.
  induction n as [es|cs sz IH] using node_ind'; intros Hok Hf.
  - inversion Hf; subst. destruct es as [|x es']; [easy|].
    exists (Leaf es'), x. repeat split; [constructor|]. unfold esize. cbn. intros H. constructor. now destruct es'.
  - apply node_ok_branch_inv in Hok as (Hne & Hok & ->). inversion Hf as [|? ? _ Hfs]; subst.
    destruct cs as [|c cs']; [easy|].
    inversion IH as [|? ? IHc _]; subst. inversion Hok as [|? ? Hokc Hok1]; subst. inversion Hfs as [|? ? Hfc Hf1]; subst.
    destruct (IHc Hokc Hfc) as (c' & x & E & Hc' & He & Hf').
    exists (drop_front c' cs'), x.
    rewrite (node_pop_front_branch _ _ Hc' E).
    destruct (drop_front_ok Hok1 Hc') as [D1 D2]. split; auto. split; auto.
    split. { rewrite D2. cbn [elems flat_map]. now rewrite He. }
    unfold drop_front. destruct (Nat.eqb_spec (esize c') 0) as [E0|E0].
    + destruct cs' as [|a cs']; [unfold esize; cbn; lia|]. intros _. now constructor.
    + intros _. constructor; [discriminate|]. constructor; auto. apply Hf'. lia.
Qed.

Lemma queue_pop (v : pvec) : grow_inv v -> 66 <= length (pv_elems v) ->
  exists v', vec_step PopFront v = Ret (v', snd (list_step PopFront (pv_elems v))) /\
             grow_inv v' /\ pv_elems v' = fst (list_step PopFront (pv_elems v)).
Proof.
  intros [[Hl Ho] Hf] L. cbn [vec_step list_step]. unfold pv_pop_front, pv_is_empty.
  rewrite (proj2 (Nat.eqb_neq _ _)) by lia.
  Local Transparent LEAF_CAPACITY ADAPTIVE_INLINE_SIZE. assert (C : LEAF_CAPACITY = 64) by reflexivity. assert (C2 : ADAPTIVE_INLINE_SIZE = 64) by reflexivity.
  Local Opaque LEAF_CAPACITY ADAPTIVE_INLINE_SIZE.
  unfold pv_elems in *. destruct (inner v) as [es|t] eqn:Ei; [lia|].
  destruct Hf as [F1 F2]. pose proof Ho as [Hok Hlen]. rewrite tree_elems_length in *.
  unfold tree_pop_front. rewrite (proj2 (Nat.eqb_neq _ _)) by lia.
  destruct (t_head t) as [|h hs] eqn:Eh.
  - unfold pop_front_from_tree. rewrite Eh. cbn [length] in *.
    rewrite usub_ok by lia. cbn [obind]. rewrite usub_ok by lia. cbn [obind].
    rewrite (proj2 (Nat.ltb_lt _ _)) by lia.
    destruct (node_pop_front_keeps_full Hok F1) as (n' & x & P1 & P2 & P3 & P4). rewrite P1. cbn [obind].
    assert (Es : esize (t_root t) = S (esize n')) by (unfold esize; now rewrite P3).
    unfold tree_elems. rewrite Eh, P3. cbn [app fst snd]. eexists. split; [reflexivity|]. split; [|reflexivity].
    split; [split; [|apply mk_tree_ok; auto; cbn; lia]|].
    + unfold pv_elems, tree_elems. cbn. rewrite app_length. fold (esize n'). lia.
    + cbn. split; auto. apply P4. lia.
  - unfold tree_elems. rewrite Eh. cbn [obind app fst snd]. eexists. split; [reflexivity|]. split; [|reflexivity].
    split; [split; [|apply mk_tree_ok; auto; cbn in *; lia]|].
    + unfold pv_elems, tree_elems. cbn in *. rewrite !app_length. fold (esize (t_root t)). lia.
    + cbn. auto.
Qed.

Lemma queue_faithful (v : pvec) l ops : starts v l ->
  Forall (fun o => is_feed o = true) ops -> fed 66 ops l -> faithful v l ops.
Proof.
  intros Hs. destruct (starts_ok Hs) as [_ <-]. pose proof (starts_grow Hs) as Hg. clear Hs. revert v Hg.
  induction ops as [|o ops IH]; intros v Hg Ho Hw.
  - exists v. split; auto. apply pv_ok_represents, Hg.
  - inversion Ho; subst. destruct Hw as [Hp Hw].
    assert (S0 : exists v', vec_step o v = Ret (v', snd (list_step o (pv_elems v))) /\
             grow_inv v' /\ pv_elems v' = fst (list_step o (pv_elems v))).
    { destruct (is_grow o) eqn:Eg; [now apply grow_inv_step|]. destruct o; try discriminate. apply queue_pop; auto. }
    destruct S0 as (v1 & S1 & I1 & E1). rewrite <- E1 in Hw.
    destruct (IH v1 I1 H2 Hw) as (v2 & S2 & R2).
    exists v2. cbn [vec_run list_run]. rewrite S1. cbn [obind fst snd]. rewrite S2. cbn [obind fst snd]. rewrite E1 in *.
    destruct (list_step o (pv_elems v)) as [l1 r1]. cbn [fst snd] in *.
    destruct (list_run ops l1) as [l2 rs]. cbn [fst snd] in *. auto.
Qed.

End Queue.

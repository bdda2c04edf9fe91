(** C04 for any mixture of calls at both ends: right as long as [PvecDequeSpec.place_run] goes on, and wrong after it stops. *)
From Coq Require Import List Arith Lia Bool.
From Verif Require Import Base ListFacts PvecModel PvecSpec PvecFacts PvecShape PvecEnds PvecHist PvecFront PvecQueue
  PvecProps PvecDequeSpec.
Import ListNotations.
Open Scope outcome_scope.
Set Implicit Arguments.
Unset Strict Implicit.

Section Deque.
Context {T : Type}.
Notation node := (node T).
Notation tree := (tree T).
Notation pvec := (pvec T).
Notation op := (op T).

Lemma leaf64 : LEAF_CAPACITY = 64.
Proof. Local Transparent LEAF_CAPACITY. reflexivity. Local Opaque LEAF_CAPACITY. Qed.
Lemma inline64 : ADAPTIVE_INLINE_SIZE = 64.
Proof. Local Transparent ADAPTIVE_INLINE_SIZE. reflexivity. Local Opaque ADAPTIVE_INLINE_SIZE. Qed.

(** No empty leaf anywhere, or nothing but one *)
Definition filled (n : node) : Prop := n = Leaf [] \/ full n.
Lemma filled_full (n : node) : filled n -> 0 < esize n -> full n.
Proof. intros [->|H] L; [unfold esize in L; cbn in L; lia|exact H]. Qed.
Lemma filled_empty (n : node) : filled n -> esize n = 0 -> n = Leaf [].
Proof. intros [->|H] L; [reflexivity|]. apply full_size in H. lia. Qed.

Lemma node_pop_front_filled (n : node) : node_ok n -> full n ->
  exists n' x, node_pop_front n = Ret (Some (n', x)) /\ node_ok n' /\ elems n = x :: elems n' /\ filled n'.
Proof.
  induction n as [es|cs sz IH] using node_ind'; intros Hok Hf.
  - inversion Hf; subst. destruct es as [|x es']; [easy|].
    exists (Leaf es'), x. repeat split; [constructor|]. destruct es'; [now left|right; now constructor].
  - apply node_ok_branch_inv in Hok as (Hne & Hok & ->). inversion Hf as [|? ? _ Hfs]; subst.
    destruct cs as [|c cs']; [easy|].
    inversion IH as [|? ? IHc _]; subst. inversion Hok as [|? ? Hokc Hok1]; subst. inversion Hfs as [|? ? Hfc Hf1]; subst.
    destruct (IHc Hokc Hfc) as (c' & x & E & Hc' & He & Hf').
    exists (drop_front c' cs'), x. rewrite (node_pop_front_branch _ _ Hc' E).
    destruct (drop_front_ok Hok1 Hc') as [D1 D2]. split; auto. split; auto.
    split. { rewrite D2. cbn [elems flat_map]. now rewrite He. }
    unfold drop_front. destruct (Nat.eqb_spec (esize c') 0) as [E0|E0].
    + destruct cs' as [|a cs']; [now left|]. right. now constructor.
    + right. constructor; [discriminate|]. constructor; auto. apply filled_full; [exact Hf'|lia].
Qed.
Lemma node_pop_back_filled (n : node) : node_ok n -> full n ->
  exists n' x, node_pop_back n = Ret (Some (n', x)) /\ node_ok n' /\ elems n = elems n' ++ [x] /\ filled n'.
Proof.
  induction n as [es|cs sz IH] using node_ind'; intros Hok Hf.
  - inversion Hf; subst. destruct (list_last_case es) as [->|(es' & x & ->)]; [easy|].
    exists (Leaf es'), x. cbn. rewrite pop_last_app. repeat split; [constructor|].
    destruct es'; [now left|right; now constructor].
  - apply node_ok_branch_inv in Hok as (Hne & Hok & ->). inversion Hf as [|? ? _ Hfs]; subst.
    destruct (list_last_case cs) as [->|(cs' & c & ->)]; [easy|].
    apply Forall_app in IH as [_ IH]. inversion IH as [|? ? IHc _]; subst.
    apply Forall_app in Hok as [Hok1 Hok2]. inversion Hok2 as [|? ? Hokc _]; subst.
    apply Forall_app in Hfs as [Hf1 Hf2]. inversion Hf2 as [|? ? Hfc _]; subst.
    destruct (IHc Hokc Hfc) as (c' & x & E & Hc' & He & Hf').
    exists (drop_back cs' c'), x. rewrite (node_pop_back_branch _ _ Hc' E).
    destruct (drop_back_ok Hok1 Hc') as [D1 D2]. split; auto. split; auto.
    split. { rewrite D2. cbn [elems]. rewrite flat_map_app. cbn. now rewrite app_nil_r, He, app_assoc. }
    unfold drop_back. destruct (Nat.eqb_spec (esize c') 0) as [E0|E0].
    + destruct cs' as [|a cs']; [now left|]. right. now constructor.
    + right. constructor; [destruct cs'; discriminate|]. apply Forall_app; split; auto. constructor; auto.
      apply filled_full; [exact Hf'|lia].
Qed.

(** The vector is right and its elements are where [s] says *)
Definition at_place (v : pvec) (s : place) : Prop :=
  pv_ok v /\
  match inner v, s with
  | Inline es, Short n => length es = n /\ n <= 64
  | Tree t, Long f m b =>
      length (t_head t) = f /\ esize (t_root t) = m /\ length (t_tail t) = b /\ b <= 64 /\ f <= 64 /\ filled (t_root t)
  | _, _ => False
  end.
Lemma at_place_size (v : pvec) s : at_place v s -> length (pv_elems v) = place_size s.
Proof.
  intros [_ H]. unfold pv_elems. destruct (inner v) as [es|t], s as [n|f m b]; try easy.
  rewrite tree_elems_length. cbn. lia.
Qed.

Lemma from_elements_place (l : list T) : 64 <= length l ->
  let t := from_elements l in
  t_head t = [] /\ filled (t_root t) /\ length (t_tail t) = length l mod 64 /\
  esize (t_root t) = length l - length l mod 64.
Proof.
  intros L. destruct (from_elements_shape l) as [Hh H]. pose proof (from_elements_ok l) as [[_ Hlen] He].
  assert (Ht : length (t_tail (from_elements l)) = length l mod 64 /\ filled (t_root (from_elements l))).
  { rewrite leaf64 in H. destruct H as [[Hl E]|(Hl & Hu & Ht)].
    - rewrite E. cbn [t_tail t_root length]. replace (length l) with 64 by lia. split; [reflexivity|]. right.
      constructor. intros ->. cbn in L. lia.
    - split; [exact Ht|]. right. eapply uni_full; eauto. }
  destruct Ht as [Ht Hf]. cbv zeta. repeat split; auto.
  apply (f_equal (@length T)) in He. rewrite tree_elems_length, Hh, Ht in He. cbn [length] in He. lia.
Qed.
Lemma from_iter_place (l : list T) : at_place (pv_from_iter l) (place_start (length l)).
Proof.
  split; [apply pv_from_iter_ok|]. unfold pv_from_iter, place_start. rewrite inline64.
  destruct (Nat.leb_spec (length l) 64) as [L|L]; cbn [inner]; [auto|].
  destruct (@from_elements_place l) as (A & B & C & D); [lia|].
  assert (Hm : length l mod 64 < 64) by (apply Nat.mod_upper_bound; lia).
  rewrite A, C, D. cbn [length]. repeat split; auto; lia.
Qed.
Lemma starts_place (v : pvec) l : starts v l -> at_place v (place_start (length l)).
Proof.
  intros [|x|l']; [repeat split; cbn; lia|repeat split; cbn; lia|apply from_iter_place].
Qed.

(** ** Pushing *)
Lemma push_back_place (v : pvec) x s s' : at_place v s -> place_push_back s = Some s' -> at_place (pv_push_back v x) s'.
Proof.
  intros [Hok H] E. split; [now apply pv_push_back_ok|]. unfold pv_push_back.
  destruct (inner v) as [es|t] eqn:Ei, s as [n|f m b]; try easy; cbn [place_push_back] in E.
  - destruct H as [<- L]. rewrite inline64. injection E as <-.
    destruct (Nat.ltb_spec (length es) 64) as [Lt|Ge]; cbn [inner pv_tree_push_back].
    + rewrite app_length. cbn. lia.
    + destruct (@from_elements_place es) as (A & B & C & D); [lia|]. replace (length es) with 64 in * by lia.
      cbn in C, D. unfold tree_push_back. rewrite C, leaf64. cbn [Nat.ltb Nat.leb].
      unfold tree_push_back_tail. cbn [t_head t_root t_tail]. rewrite app_length, A, C, D. cbn. repeat split; auto; lia.
  - destruct H as (Hf & Hm & Hb & Lb & Lf & Hfill). unfold pv_tree_push_back. cbn [inner]. unfold tree_push_back.
    rewrite leaf64, Hb. destruct (Nat.ltb_spec b 64) as [Lt|Ge].
    + injection E as <-. unfold tree_push_back_tail. cbn [t_head t_root t_tail]. rewrite app_length, Hb. cbn.
      repeat split; auto; lia.
    + destruct (Nat.eqb_spec m 0) as [->|Nz]; [discriminate|]. injection E as <-.
      unfold push_tail_to_tree. destruct (t_tail t) as [|y ys] eqn:Et; [cbn in Hb; lia|].
      unfold tree_push_back_tail. cbn [t_head t_root t_tail app length].
      assert (Fu : full (t_root t)) by (apply filled_full; [exact Hfill|lia]).
      assert (Nk : node_ok (t_root t)) by (destruct Hok as [_ Ho]; rewrite Ei in Ho; apply Ho).
      repeat split; auto; try lia.
      * destruct (@push_leaf_ok T (t_root t) (Leaf (y :: ys)) Nk (ok_leaf _)) as [_ Ee].
        unfold esize in *. rewrite Ee, app_length. cbn [elems length] in *. lia.
      * right. apply full_push_leaf; [discriminate|exact Fu].
Qed.
Lemma push_front_place (v : pvec) x s s' : at_place v s -> place_push_front s = Some s' -> at_place (pv_push_front v x) s'.
Proof.
  intros [Hok H] E. split; [now apply pv_push_front_ok|]. unfold pv_push_front.
  destruct (inner v) as [es|t] eqn:Ei, s as [n|f m b]; try easy; cbn [place_push_front] in E.
  - destruct H as [<- L]. rewrite inline64. injection E as <-.
    destruct (Nat.ltb_spec (length es) 64) as [Lt|Ge]; cbn [inner pv_tree_push_front].
    + cbn. lia.
    + destruct (@from_elements_place es) as (A & B & C & D); [lia|]. replace (length es) with 64 in * by lia.
      cbn in C, D. unfold tree_push_front. rewrite A, leaf64. cbn [Nat.ltb Nat.leb length].
      unfold tree_push_front_head. cbn [t_head t_root t_tail length]. rewrite A, C, D. cbn. repeat split; auto; lia.
  - destruct H as (Hf & Hm & Hb & Lb & Lf & Hfill). unfold pv_tree_push_front. cbn [inner]. unfold tree_push_front.
    rewrite leaf64, Hf. destruct (Nat.ltb_spec f 64) as [Lt|Ge].
    + injection E as <-. unfold tree_push_front_head. cbn [t_head t_root t_tail length]. repeat split; auto; lia.
    + destruct (Nat.eqb_spec m 0) as [->|Nz]; [discriminate|]. injection E as <-.
      unfold push_head_to_tree. destruct (t_head t) as [|y ys] eqn:Et; [cbn in Hf; lia|].
      unfold tree_push_front_head. cbn [t_head t_root t_tail length].
      assert (Fu : full (t_root t)) by (apply filled_full; [exact Hfill|lia]).
      assert (Nk : node_ok (t_root t)) by (destruct Hok as [_ Ho]; rewrite Ei in Ho; apply Ho).
      repeat split; auto; try lia.
      * destruct (@push_front_leaf_ok T (t_root t) (Leaf (y :: ys)) Nk (ok_leaf _)) as [_ Ee].
        unfold esize in *. rewrite Ee, app_length. cbn [elems length] in *. lia.
      * right. apply full_push_front_leaf; [discriminate|exact Fu].
Qed.
Lemma extend_place xs : forall (v : pvec) s s', at_place v s -> place_pushes (length xs) s = Some s' ->
  at_place (pv_extend v xs) s'.
Proof.
  unfold pv_extend. induction xs as [|x xs IH]; intros v s s' H E; cbn in *; [now injection E as <-|].
  destruct (place_push_back s) as [s1|] eqn:E1; [|discriminate]. eapply IH; [|exact E]. eapply push_back_place; eauto.
Qed.
Lemma update_place (v v' : pvec) i x s : at_place v s -> pv_update v i x = Ret v' -> at_place v' s.
Proof.
  intros [Hok H] E. destruct (pv_update_ok i x Hok) as (w & E1 & E2 & _). rewrite E in E1. injection E1 as <-.
  split; [exact E2|].
  destruct (pv_update_inner _ _ _ E) as [->|[(es & A1 & A2)|(t & t' & A1 & A2 & A3)]]; [exact H| |].
  - rewrite A1 in H. rewrite A2, list_set_length. exact H.
  - rewrite A1 in H. rewrite A2. destruct s as [n|f m b]; [easy|].
    destruct Hok as [_ Ho]. rewrite A1 in Ho. destruct Ho as [Ho _].
    destruct H as (Hf & Hm & Hb & Lb & Lf & Hfill).
    destruct (tree_update_cases _ _ _ A3) as [->|[->|[(j & ->)|(j & ->)]]]; cbn [t_head t_root t_tail];
      rewrite ?list_set_length; repeat split; auto.
    + rewrite node_update_esize; auto.
    + destruct Hfill as [->|Fu]; [left; cbn; now destruct j|right; now apply node_update_full].
Qed.

(** ** Popping *)
Lemma rev_pop (l : list T) x : rev (l ++ [x]) = x :: rev l.
Proof. now rewrite rev_app_distr. Qed.
Lemma list_pop_back (l : list T) x : list_step PopBack (l ++ [x]) = (l, Some x).
Proof. cbn [list_step]. rewrite rev_pop. now rewrite rev_involutive. Qed.
Lemma is_empty_place (v : pvec) s : at_place v s -> pv_is_empty v = (place_size s =? 0).
Proof. intros H. unfold pv_is_empty. pose proof (at_place_size H) as <-. destruct H as [[Hl _] _]. now rewrite Hl. Qed.

Lemma pop_back_place (v : pvec) s s' : at_place v s -> place_pop_back s = Some s' ->
  exists v', vec_step PopBack v = Ret (v', snd (list_step PopBack (pv_elems v))) /\
    at_place v' s' /\ pv_elems v' = fst (list_step PopBack (pv_elems v)).
Proof.
  intros H E. cbn [vec_step]. unfold pv_pop_back. rewrite (is_empty_place H).
  pose proof (at_place_size H) as Hsz. destruct (Nat.eqb_spec (place_size s) 0) as [Z|Z].
  - rewrite Z in Hsz. apply length_zero_iff_nil in Hsz. rewrite Hsz. cbn [obind list_step rev fst snd].
    exists v. split; [reflexivity|]. split; [|exact Hsz].
    destruct s as [n|f m b]; cbn in *.
    + injection E as <-. now replace (n - 1) with n by lia.
    + destruct f, m, b; try lia. cbn in E. now injection E as <-.
  - destruct H as [[Hl Ho] H]. unfold pv_elems in *. destruct (inner v) as [es|t] eqn:Ei, s as [n|f m b]; try easy;
      cbn [place_pop_back place_size] in *.
    + injection E as <-. destruct H as [<- L]. destruct (list_last_case es) as [->|(a & x & ->)]; [cbn in Z; lia|].
      rewrite pop_last_app, list_pop_back. cbn [obind fst snd]. eexists. split; [reflexivity|].
      rewrite app_length in *. cbn [length] in *. split; [|reflexivity].
      split; [split; [cbn; lia|exact I]|]. cbn. lia.
    + destruct H as (Hf & Hm & Hb & Lb & Lf & Hfill). destruct Ho as [Nk Hlen]. rewrite Hsz in Hlen.
      unfold tree_pop_back. rewrite (proj2 (Nat.eqb_neq _ _)) by lia.
      destruct (list_last_case (t_tail t)) as [Et|(a & x & Et)].
      * rewrite Et in *. cbn [pop_last length] in *. subst b. destruct f as [|f]; [|discriminate]. injection E as <-.
        apply length_zero_iff_nil in Hf. unfold pop_from_tree. rewrite (proj2 (Nat.eqb_neq _ _)) by lia. rewrite Et.
        rewrite usub_ok by (cbn; lia). cbn [obind length]. rewrite Nat.sub_0_r.
        rewrite (proj2 (Nat.eqb_neq (t_len t) 0)) by lia.
        assert (Fu : full (t_root t)) by (apply filled_full; [exact Hfill|lia]).
        destruct (node_pop_back_filled Nk Fu) as (n' & x & E1 & Nk' & Ee & Hf').
        assert (Em : esize (t_root t) = esize n' + 1) by (unfold esize; rewrite Ee, app_length; cbn; lia).
        rewrite node_get_ok, Ee, nth_error_app2 by (auto; fold (esize n'); lia). fold (esize n').
        replace (t_len t - 1 - esize n') with 0 by lia. cbn [nth_error].
        assert (El : tree_elems t = elems n' ++ [x]) by (unfold tree_elems; rewrite Hf, Et, Ee; cbn; now rewrite app_nil_r).
        rewrite El, list_pop_back. cbn [fst snd].
        destruct (Nat.eqb_spec (t_len t) 1) as [L1|L1].
        -- assert (Z' : esize n' = 0) by lia. rewrite (esize0 _ Z').
           cbn [obind fst snd]. eexists. split; [reflexivity|]. split.
           ++ split; [split; [unfold pv_elems, tree_elems; cbn; rewrite Hf; cbn; lia|]|].
              ** cbn. apply mk_tree_ok; [constructor|]. rewrite Hf. cbn. unfold esize. cbn. lia.
              ** cbn. rewrite Hf. unfold esize. cbn. repeat split; auto; try lia. now left.
           ++ unfold pv_elems, tree_elems. cbn. now rewrite Hf.
        -- rewrite E1. cbn [obind fst snd]. eexists. split; [reflexivity|]. split.
           ++ split; [split; [unfold pv_elems, tree_elems; cbn; rewrite Hf; cbn; rewrite app_nil_r; fold (esize n'); lia|]|].
              ** cbn. apply mk_tree_ok; [exact Nk'|]. rewrite Hf. cbn. lia.
              ** cbn [inner t_head t_root t_tail]. rewrite Hf. cbn [length]. repeat split; auto; lia.
           ++ unfold pv_elems, tree_elems. cbn. now rewrite Hf, app_nil_r.
      * rewrite Et in *. rewrite app_length in Hb. cbn [length] in Hb. destruct b as [|b]; [lia|].
        assert (Es' : s' = Long f m b) by (destruct f; now injection E as <-). subst s'. rewrite pop_last_app. cbn [obind].
        assert (El : tree_elems t = (t_head t ++ elems (t_root t) ++ a) ++ [x])
          by (unfold tree_elems; rewrite Et; now rewrite <- !app_assoc).
        rewrite El, list_pop_back. cbn [fst snd]. eexists. split; [reflexivity|]. split; [|reflexivity].
        assert (La : length (t_head t ++ elems (t_root t) ++ a) = f + m + b)
          by (rewrite !app_length; fold (esize (t_root t)); lia).
        split; [split|].
        -- unfold pv_elems, tree_elems. cbn. lia.
        -- cbn. apply mk_tree_ok; [exact Nk|]. lia.
        -- cbn. repeat split; auto; lia.
Qed.
Lemma pop_front_place (v : pvec) s s' : at_place v s -> place_pop_front s = Some s' ->
  exists v', vec_step PopFront v = Ret (v', snd (list_step PopFront (pv_elems v))) /\
    at_place v' s' /\ pv_elems v' = fst (list_step PopFront (pv_elems v)).
Proof.
  intros H E. cbn [vec_step]. unfold pv_pop_front. rewrite (is_empty_place H).
  pose proof (at_place_size H) as Hsz. destruct (Nat.eqb_spec (place_size s) 0) as [Z|Z].
  - rewrite Z in Hsz. apply length_zero_iff_nil in Hsz. rewrite Hsz. cbn [obind list_step fst snd].
    exists v. split; [reflexivity|]. split; [|exact Hsz].
    destruct s as [n|f m b]; cbn in *.
    + injection E as <-. now replace (n - 1) with n by lia.
    + destruct f, m, b; try lia. cbn in E. now injection E as <-.
  - destruct H as [[Hl Ho] H]. unfold pv_elems in *. destruct (inner v) as [es|t] eqn:Ei, s as [n|f m b]; try easy;
      cbn [place_pop_front place_size] in *.
    + injection E as <-. destruct H as [<- L]. destruct es as [|x es]; [cbn in Z; lia|].
      cbn [obind list_step fst snd]. eexists. split; [reflexivity|]. cbn in *. split; [|reflexivity].
      split; [split; [cbn; lia|exact I]|]. cbn. lia.
    + destruct H as (Hf & Hm & Hb & Lb & Lf & Hfill). destruct Ho as [Nk Hlen]. rewrite Hsz in Hlen.
      unfold tree_pop_front. rewrite (proj2 (Nat.eqb_neq _ _)) by lia.
      destruct (t_head t) as [|h hs] eqn:Eh.
      * cbn in Hf. subst f. unfold pop_front_from_tree. rewrite Eh. cbn [length].
        rewrite usub_ok by lia. cbn [obind]. rewrite usub_ok by lia. cbn [obind].
        destruct m as [|m].
        -- rewrite (proj2 (Nat.ltb_ge _ _)) by lia. cbn [obind]. unfold pop_front_from_tail.
           destruct (Nat.leb_spec b 2) as [L2|L2]; [|discriminate]. injection E as <-.
           pose proof (esize0 _ Hm) as E0.
           assert (El : tree_elems t = t_tail t) by (unfold tree_elems; now rewrite Eh, E0).
           rewrite El. destruct (t_tail t) as [|x rest] eqn:Et; [cbn in Hb; lia|].
           cbn [rev]. rewrite pop_last_app. cbn [obind list_step fst snd]. eexists. split; [reflexivity|].
           assert (Er : rev rest = rest) by (destruct rest as [|y [|z rest]]; auto; cbn in Hb; lia). rewrite Er.
           cbn in Hb. split; [split; [split|]|].
           ++ unfold pv_elems, tree_elems. cbn. rewrite app_nil_r. lia.
           ++ cbn. apply mk_tree_ok; [constructor|]. unfold esize. cbn. lia.
           ++ cbn. unfold esize. cbn. repeat split; auto; try lia. now left.
           ++ unfold pv_elems, tree_elems. cbn. now rewrite app_nil_r.
        -- injection E as <-. rewrite (proj2 (Nat.ltb_lt _ _)) by lia.
           assert (Fu : full (t_root t)) by (apply filled_full; [exact Hfill|lia]).
           destruct (node_pop_front_filled Nk Fu) as (n' & x & E1 & Nk' & Ee & Hf'). rewrite E1. cbn [obind].
           assert (Em : esize (t_root t) = S (esize n')) by (unfold esize; rewrite Ee; reflexivity).
           assert (El : tree_elems t = x :: elems n' ++ t_tail t) by (unfold tree_elems; now rewrite Eh, Ee).
           rewrite El. cbn [list_step fst snd]. eexists. split; [reflexivity|]. split; [|cbn; unfold tree_elems; cbn; auto].
           split; [split|].
           ++ unfold pv_elems, tree_elems. cbn. rewrite app_length. fold (esize n'). lia.
           ++ cbn. apply mk_tree_ok; [exact Nk'|]. cbn. lia.
           ++ cbn [inner t_head t_root t_tail length]. repeat split; auto; lia.
      * cbn in Hf. destruct f as [|f]; [lia|].
        assert (Es' : s' = Long f m b) by (destruct m; now injection E as <-). subst s'.
        assert (El : tree_elems t = h :: hs ++ elems (t_root t) ++ t_tail t) by (unfold tree_elems; now rewrite Eh).
        rewrite El. cbn [obind list_step fst snd]. eexists. split; [reflexivity|]. split; [|reflexivity].
        split; [split|].
        -- unfold pv_elems, tree_elems. cbn. rewrite !app_length. fold (esize (t_root t)). lia.
        -- cbn. apply mk_tree_ok; [exact Nk|]. lia.
        -- cbn. repeat split; auto; lia.
Qed.

(** ** Histories *)
Lemma place_step_right (v : pvec) s s' o : at_place v s -> is_ends o = true -> place_step o (pv_elems v) s = Some s' ->
  exists v', vec_step o v = Ret (v', snd (list_step o (pv_elems v))) /\
    at_place v' s' /\ pv_elems v' = fst (list_step o (pv_elems v)).
Proof.
  intros H Ho E. pose proof H as [Hok _]. destruct o as [x|x| | |i x|xs|f|p|n|n|i|i|i x|i|xs|xs]; try discriminate Ho;
    cbn [place_step] in E.
  - cbn [vec_step list_step fst snd]. eexists. split; [reflexivity|]. split; [eapply push_back_place; eauto|].
    now apply pv_push_back_ok.
  - cbn [vec_step list_step fst snd]. eexists. split; [reflexivity|]. split; [eapply push_front_place; eauto|].
    now apply pv_push_front_ok.
  - eapply pop_back_place; eauto.
  - eapply pop_front_place; eauto.
  - injection E as <-. destruct (@grow_step T (Update i x) v eq_refl Hok) as (v' & E1 & _ & E2). exists v'.
    split; [exact E1|]. split; [|exact E2]. cbn [vec_step] in E1.
    destruct (pv_update v i x) as [w|] eqn:Eu; [|discriminate]. injection E1 as <-. eapply update_place; eauto.
  - destruct (@grow_step T (Extend xs) v eq_refl Hok) as (v' & E1 & _ & E2). exists v'.
    split; [exact E1|]. split; [|exact E2]. injection E1 as <-. eapply extend_place; eauto.
  - injection E as <-. cbn [vec_step list_step fst snd]. rewrite pv_map_ok by exact Hok. cbn [obind].
    eexists. split; [reflexivity|]. split; [apply from_iter_place|apply pv_from_iter_ok].
  - injection E as <-. cbn [vec_step list_step fst snd]. rewrite pv_filter_ok by exact Hok. cbn [obind].
    eexists. split; [reflexivity|]. split; [apply from_iter_place|apply pv_from_iter_ok].
Qed.
Lemma place_run_right ops : forall (v : pvec) s s', at_place v s -> Forall (fun o => is_ends o = true) ops ->
  place_run ops (pv_elems v) s = Some s' ->
  exists v', vec_run ops v = Ret (v', snd (list_run ops (pv_elems v))) /\
    at_place v' s' /\ pv_elems v' = fst (list_run ops (pv_elems v)).
Proof.
  induction ops as [|o ops IH]; intros v s s' H Ho E.
  - injection E as <-. exists v. auto.
  - inversion Ho; subst. cbn [place_run] in E. destruct (place_step o (pv_elems v) s) as [s1|] eqn:E1; [|discriminate].
    destruct (place_step_right H H2 E1) as (v1 & R1 & P1 & L1). rewrite <- L1 in E.
    destruct (IH v1 s1 s' P1 H3 E) as (v2 & R2 & P2 & L2). rewrite L1 in R2, L2.
    exists v2. cbn [vec_run list_run]. rewrite R1. cbn [obind fst snd]. rewrite R2. cbn [obind fst snd].
    destruct (list_step o (pv_elems v)) as [l1 r1]. cbn [fst snd] in *.
    destruct (list_run ops l1) as [l2 rs]. cbn [fst snd] in *. auto.
Qed.
Lemma place_history (v : pvec) l ops s : starts v l -> Forall (fun o => is_ends o = true) ops ->
  place_run ops l (place_start (length l)) = Some s ->
  exists v', vec_run ops v = Ret (v', snd (list_run ops l)) /\ at_place v' s /\ pv_elems v' = fst (list_run ops l).
Proof.
  intros Hs Ho E. pose proof (starts_place Hs) as P. destruct (starts_ok Hs) as [_ <-]. eapply place_run_right; eauto.
Qed.
(** Continuing a history *)
Lemma faithful_after (v v1 : pvec) l ops more :
  vec_run ops v = Ret (v1, snd (list_run ops l)) ->
  (faithful v l (ops ++ more) <-> faithful v1 (fst (list_run ops l)) more).
Proof.
  intros R. unfold faithful. rewrite vec_run_app, list_run_app, R. cbn [obind fst snd]. split.
  - intros (w & E & Rep). destruct (vec_run more v1) as [[w' rs]|]; [|discriminate]. cbn in E. injection E as <- E.
    apply app_inv_head in E. exists w'. split; [now rewrite E|exact Rep].
  - intros (w & E & Rep). exists w. rewrite E. auto.
Qed.
End Deque.

(** ** C04 *)

(** Right as long as every call is one [place_run] goes on at *)
Theorem C04_both_ends_partial {T} (v : pvec T) l ops : starts v l -> Forall (fun o => is_ends o = true) ops ->
  place_run ops l (place_start (length l)) <> None -> faithful v l ops.
Proof.
  intros Hs Ho E. destruct (place_run ops l (place_start (length l))) as [s|] eqn:Es; [|congruence].
  destruct (place_history Hs Ho Es) as (v' & R & P & L). exists v'. split; [exact R|]. rewrite <- L.
  apply pv_ok_represents, P.
Qed.
(** [pop_back] with nothing in the back buffer and something in the front buffer hands back nothing, so that no
    continuation is right. *)
Theorem C04_pop_back_always_wrong {T} (v : pvec T) l ops more f m : starts v l ->
  Forall (fun o => is_ends o = true) ops ->
  place_run ops l (place_start (length l)) = Some (Long (S f) m 0) -> ~ faithful v l (ops ++ PopBack :: more).
Proof.
  intros Hs Ho E F. destruct (place_history Hs Ho E) as (v1 & R & P & L).
  apply (proj1 (faithful_after (PopBack :: more) R)) in F.
  rewrite <- L in F. pose proof (at_place_size P) as Hsz.
  assert (Hstep : vec_step PopBack v1 = Ret (v1, None)).
  { cbn [vec_step]. unfold pv_pop_back. rewrite (is_empty_place P). cbn [place_size Nat.add Nat.eqb].
    destruct P as [[_ Hok] P]. unfold pv_elems in Hsz. destruct (inner v1) as [es|t]; [easy|].
    destruct P as (Hf & Hm & Hb & _). apply length_zero_iff_nil in Hb. destruct Hok as [Nk Hlen].
    rewrite Hsz in Hlen. cbn [place_size] in Hlen. unfold tree_pop_back. rewrite (proj2 (Nat.eqb_neq _ _)) by lia.
    rewrite Hb. cbn [pop_last]. unfold pop_from_tree. rewrite (proj2 (Nat.eqb_neq _ _)), Hb by lia.
    rewrite usub_ok by (cbn; lia). cbn [obind length]. rewrite (proj2 (Nat.eqb_neq (t_len t - 0) 0)) by lia.
    rewrite node_get_ok by exact Nk.
    assert (En : nth_error (elems (t_root t)) (t_len t - 0 - 1) = None)
      by (apply nth_error_None; fold (esize (t_root t)); lia).
    rewrite En. reflexivity. }
  destruct F as (w & E1 & _). cbn [vec_run] in E1. rewrite Hstep in E1. cbn [obind fst snd] in E1.
  destruct (vec_run more v1) as [[w' rs]|]; [|discriminate]. cbn [obind fst snd] in E1.
  destruct (list_last_case (pv_elems v1)) as [E0|(a & x & E0)]; [rewrite E0 in Hsz; discriminate|].
  cbn [list_run] in E1. rewrite E0, list_pop_back in E1. destruct (list_run more a) as [l2 rs2]. cbn in E1. discriminate.
Qed.
(** [pop_front] with only the back buffer left, holding at least three: the right element, and the others in reverse. *)
Theorem C04_pop_front_reverses {T} (v : pvec T) l ops b : starts v l -> Forall (fun o => is_ends o = true) ops ->
  place_run ops l (place_start (length l)) = Some (Long 0 0 b) -> 3 <= b ->
  let left := tl (fst (list_run ops l)) in
  (exists v', vec_run (ops ++ [PopFront]) v = Ret (v', snd (list_run (ops ++ [PopFront]) l)) /\ represents v' (rev left)) /\
  (faithful v l (ops ++ [PopFront]) <-> rev left = left).
Proof.
  intros Hs Ho E Hb left. destruct (place_history Hs Ho E) as (v1 & R & P & L). unfold left. rewrite <- L.
  pose proof (at_place_size P) as Hsz. cbn [place_size] in Hsz.
  assert (Hstep : exists v2 x, pv_elems v1 = x :: tl (pv_elems v1) /\ vec_step PopFront v1 = Ret (v2, Some x) /\
    represents v2 (rev (tl (pv_elems v1)))).
  { cbn [vec_step]. unfold pv_pop_front. rewrite (is_empty_place P). cbn [place_size].
    rewrite (proj2 (Nat.eqb_neq _ _)) by lia. destruct P as [[Hl Hok] P]. unfold pv_elems in *.
    destruct (inner v1) as [es|t]; [easy|]. destruct P as (Hf & Hm & Hbk & _). apply length_zero_iff_nil in Hf.
    destruct Hok as [Nk Hlen]. pose proof (esize0 _ Hm) as E0.
    assert (El : tree_elems t = t_tail t) by (unfold tree_elems; now rewrite Hf, E0). rewrite El in *.
    unfold tree_pop_front. rewrite (proj2 (Nat.eqb_neq _ _)), Hf by lia. unfold pop_front_from_tree. rewrite Hf.
    cbn [length]. rewrite usub_ok by lia. cbn [obind]. rewrite usub_ok by lia. cbn [obind].
    rewrite (proj2 (Nat.ltb_ge _ _)) by lia. cbn [obind]. unfold pop_front_from_tail.
    destruct (t_tail t) as [|x rest]; [cbn in Hbk; lia|]. cbn [rev tl]. rewrite pop_last_app. cbn [obind].
    eexists _, x. split; [reflexivity|]. split; [reflexivity|].
    set (w := mkPvec _ _ _). assert (Ew : pv_elems w = rev rest) by (unfold pv_elems, tree_elems; cbn; now rewrite app_nil_r).
    rewrite <- Ew. apply pv_ok_represents. split.
    - rewrite Ew, rev_length. cbn in *. lia.
    - cbn. apply mk_tree_ok; [constructor|]. rewrite rev_length. unfold esize. cbn in *. lia. }
  destruct Hstep as (v2 & x & Ex & S2 & R2).
  assert (Rn : vec_run [PopFront] v1 = Ret (v2, snd (list_run [PopFront] (pv_elems v1)))).
  { cbn [vec_run]. rewrite S2, Ex. reflexivity. }
  split.
  - exists v2. rewrite vec_run_app, R, list_run_app, <- L. cbn [obind fst snd]. rewrite Rn. auto.
  - rewrite (faithful_after [PopFront] R), <- L. split.
    + intros (w & E1 & Rep). rewrite Rn in E1. injection E1 as <-.
      assert (Ef : fst (list_run [PopFront] (pv_elems v1)) = tl (pv_elems v1)) by (rewrite Ex; reflexivity).
      rewrite Ef in Rep. destruct Rep as (_ & _ & A), R2 as (_ & _ & B). congruence.
    + intros Er. exists v2. split; [exact Rn|].
      assert (Ef : fst (list_run [PopFront] (pv_elems v1)) = tl (pv_elems v1)) by (rewrite Ex; reflexivity).
      rewrite Ef. now rewrite <- Er at 1.
Qed.

(** *** Refilling: a full buffer handed on while nothing is in between *)
Section Refill.
Context {T : Type}.
Implicit Types (v : pvec T) (t : tree T) (l : list T).

Lemma run_pop_front k : forall l, fst (list_run (repeat PopFront k) l) = skipn k l.
Proof.
  induction k as [|k IH]; intros l; [reflexivity|]. cbn [repeat list_run].
  destruct l as [|x l]; cbn [list_step]; specialize (IH (tl (x :: l))) || specialize (IH []).
  - destruct (list_run (repeat PopFront k) []) eqn:E. cbn in *. rewrite IH. now destruct k.
  - cbn [tl] in IH. destruct (list_run (repeat PopFront k) l) eqn:E. cbn in *. exact IH.
Qed.
Lemma run_pop_back k : forall l, fst (list_run (repeat PopBack k) l) = firstn (length l - k) l.
Proof.
  induction k as [|k IH]; intros l; [cbn; now rewrite Nat.sub_0_r, firstn_all|]. cbn [repeat list_run].
  destruct (list_last_case l) as [->|(a & x & ->)].
  - cbn [list_step rev]. specialize (IH []). destruct (list_run (repeat PopBack k) []) eqn:E. cbn in *. now rewrite IH.
  - rewrite list_pop_back. specialize (IH a). destruct (list_run (repeat PopBack k) a) eqn:E. cbn [fst] in *. rewrite IH.
    rewrite app_length. cbn [length]. replace (length a + 1 - S k) with (length a - k) by lia.
    rewrite firstn_app. replace (length a - k - length a) with 0 by lia. cbn. now rewrite app_nil_r.
Qed.
Lemma run_push_back k : forall l y, fst (list_run (repeat (PushBack y) k) l) = l ++ repeat y k.
Proof.
  induction k as [|k IH]; intros l y; [cbn; now rewrite app_nil_r|]. cbn [repeat list_run list_step].
  specialize (IH (l ++ [y]) y). destruct (list_run (repeat (PushBack y) k) (l ++ [y])) eqn:E. cbn [fst] in *. rewrite IH.
  now rewrite <- app_assoc.
Qed.

(** The front buffer is used up first *)
Lemma use_up_front hs : forall v t, inner v = Tree t -> t_head t = hs -> length hs <= t_len t -> length hs <= pv_len v ->
  exists v' rs, vec_run (repeat PopFront (length hs)) v = Ret (v', rs) /\ pv_len v' = pv_len v - length hs /\
    inner v' = Tree (mkTree (t_root t) (t_tail t) [] (t_height t) (t_len t - length hs)).
Proof.
  induction hs as [|h hs IH]; intros v t Ei Eh Lt Lp; cbn [length repeat] in *.
  - exists v, []. split; [reflexivity|]. split; [lia|]. rewrite Ei, Nat.sub_0_r, <- Eh. now destruct t.
  - cbn [vec_run vec_step]. unfold pv_pop_front, pv_is_empty. rewrite (proj2 (Nat.eqb_neq _ _)), Ei by lia.
    unfold tree_pop_front. rewrite (proj2 (Nat.eqb_neq _ _)), Eh by lia. cbn [obind fst snd].
    set (v2 := mkPvec _ _ _). set (t2 := mkTree _ _ _ _ _) in v2.
    destruct (IH v2 t2) as (v3 & rs & R & A & B); [reflexivity|reflexivity|cbn; lia|cbn; lia|].
    rewrite R. cbn [obind fst snd]. eexists v3, _. split; [reflexivity|]. cbn in A, B.
    replace (t_len t - S (length hs)) with (t_len t - 1 - length hs) by lia. split; [lia|exact B].
Qed.
(** The back buffer too *)
Lemma use_up_back ts : forall v t, inner v = Tree t -> t_tail t = ts -> length ts <= t_len t -> length ts <= pv_len v ->
  exists v' rs, vec_run (repeat PopBack (length ts)) v = Ret (v', rs) /\ pv_len v' = pv_len v - length ts /\
    inner v' = Tree (mkTree (t_root t) [] (t_head t) (t_height t) (t_len t - length ts)).
Proof.
  induction ts as [|x ts IH] using rev_ind; intros v t Ei Eh Lt Lp; [|rewrite app_length in *; cbn [length] in *].
  - exists v, []. split; [reflexivity|]. cbn. split; [lia|]. rewrite Ei, Nat.sub_0_r, <- Eh. now destruct t.
  - rewrite Nat.add_1_r. cbn [repeat vec_run vec_step]. unfold pv_pop_back, pv_is_empty.
    rewrite (proj2 (Nat.eqb_neq _ _)), Ei by lia.
    unfold tree_pop_back. rewrite (proj2 (Nat.eqb_neq _ _)), Eh, pop_last_app by lia. cbn [obind fst snd].
    set (v2 := mkPvec _ _ _). set (t2 := mkTree _ _ _ _ _) in v2.
    destruct (IH v2 t2) as (v3 & rs & R & A & B); [reflexivity|reflexivity|cbn; lia|cbn; lia|].
    rewrite R. cbn [obind fst snd]. eexists v3, _. split; [reflexivity|]. cbn in A, B.
    replace (t_len t - S (length ts)) with (t_len t - 1 - length ts) by lia. split; [lia|exact B].
Qed.

Lemma get_nothing n : tree_get (mkTree (@Leaf T []) [] [] 0 n) 0 = Ret None.
Proof. destruct n as [|n]; [reflexivity|]. unfold tree_get, usub. cbn. now destruct n. Qed.

(** At the back: the [pop_front] calls that should then reach the elements handed on lose them all. *)
Theorem C04_refill_back_wrong v l ops f x : starts v l -> Forall (fun o => is_ends o = true) ops ->
  place_run ops l (place_start (length l)) = Some (Long f 0 64) ->
  faithful v l (ops ++ [PushBack x]) /\ ~ faithful v l (ops ++ PushBack x :: repeat PopFront (S f)).
Proof.
  intros Hs Ho E. destruct (place_history Hs Ho E) as (v1 & R & P & L).
  rewrite (faithful_after [PushBack x] R), (faithful_after (PushBack x :: repeat PopFront (S f)) R), <- L. split.
  { exists (pv_push_back v1 x). split; [reflexivity|]. destruct P as [Hok _].
    destruct (pv_push_back_ok x Hok) as [A B]. cbn. rewrite <- B. now apply pv_ok_represents. }
  intros (w & E1 & Rep). pose proof (at_place_size P) as Hsz. cbn [place_size] in Hsz.
  destruct P as [[Hl Hok] P]. unfold pv_elems in Hsz, Hl. destruct (inner v1) as [es|t] eqn:Ei; [easy|].
  destruct P as (Hf & Hm & Hb & _ & _ & Hfill). destruct Hok as [Nk Hlen].
  pose proof (filled_empty Hfill Hm) as Er.
  cbn [vec_run vec_step obind fst snd] in E1.
  set (v2 := pv_push_back v1 x) in E1.
  assert (Ei2 : exists h, inner v2 = Tree (mkTree (Branch [Leaf []; Leaf (t_tail t)] (Some [0; 64])) [x]
                                    (t_head t) h (t_len t + 1)) /\ pv_len v2 = pv_len v1 + 1).
  { unfold v2, pv_push_back. rewrite Ei. cbn [inner pv_tree_push_back pv_len]. unfold tree_push_back.
    rewrite Hb, leaf64. cbn [Nat.ltb Nat.leb]. unfold push_tail_to_tree. rewrite Er.
    destruct (t_tail t) as [|y ys] eqn:Et; [discriminate|].
    unfold tree_push_back_tail, push_leaf. cbn [t_root t_tail t_head t_height t_len calculate_size app length] in *.
    rewrite Hb. eexists. split; reflexivity. }
  destruct Ei2 as (h & Ei2 & El2). clearbody v2.
  destruct (@use_up_front (t_head t) v2 _ Ei2) as (v3 & rs & R3 & L3 & I3); [reflexivity|cbn; lia|lia|].
  rewrite Hf in *. cbn [t_root t_tail t_height t_len] in I3.
  assert (S4 : exists v4, vec_step PopFront v3 = Ret (v4, Some x) /\
    inner v4 = Tree (mkTree (Leaf []) [] [] 0 (t_len t + 1 - f - 1))).
  { cbn [vec_step]. unfold pv_pop_front, pv_is_empty. rewrite (proj2 (Nat.eqb_neq _ _)), I3 by lia.
    unfold tree_pop_front. cbn [t_len t_head]. rewrite (proj2 (Nat.eqb_neq _ _)) by lia.
    unfold pop_front_from_tree. cbn [t_len t_head t_tail t_root length]. rewrite usub_ok by lia. cbn [obind].
    rewrite usub_ok by lia. cbn [obind]. destruct (0 <? _); cbn; eexists; split; reflexivity. }
  destruct S4 as (v4 & S4 & I4).
  assert (Rn : exists rs', vec_run (repeat PopFront (S f)) v2 = Ret (v4, rs')).
  { replace (S f) with (f + 1) by lia. rewrite repeat_app, vec_run_app, R3. cbn [obind fst snd repeat vec_run].
    rewrite S4. cbn. eauto. }
  destruct Rn as [rs' Rn]. rewrite Rn in E1. cbn [obind fst snd] in E1. injection E1 as <- _.
  destruct Rep as (_ & G & _).
  assert (Hlast : exists z r, fst (list_run (PushBack x :: repeat PopFront (S f)) (pv_elems v1)) = z :: r).
  { cbn [list_run list_step]. pose proof (run_pop_front (S f) (pv_elems v1 ++ [x])) as Hr.
    destruct (list_run (repeat PopFront (S f)) (pv_elems v1 ++ [x])) as [a b]. cbn [fst] in *. subst a.
    destruct (skipn (S f) (pv_elems v1 ++ [x])) eqn:Es; [|eauto]. apply (f_equal (@length T)) in Es.
    rewrite skipn_length, app_length in Es. unfold pv_elems in Es. rewrite Ei, Hsz in Es. cbn in Es. lia. }
  destruct Hlast as (z & r & Hz). specialize (G 0). rewrite Hz in G. cbn [nth_error] in G.
  unfold pv_get in G. rewrite I4 in G. destruct (pv_len v4 <=? 0); [discriminate|].
  rewrite get_nothing in G. discriminate.
Qed.

Lemma fill_back y k : forall v t, inner v = Tree t -> length (t_tail t) + k <= 64 ->
  exists v' rs, vec_run (repeat (PushBack y) k) v = Ret (v', rs) /\ pv_len v' = pv_len v + k /\
    inner v' = Tree (mkTree (t_root t) (t_tail t ++ repeat y k) (t_head t) (t_height t) (t_len t + k)).
Proof.
  induction k as [|k IH]; intros v t Ei L; cbn [repeat].
  - exists v, []. split; [reflexivity|]. rewrite app_nil_r, !Nat.add_0_r. split; [lia|]. rewrite Ei. now destruct t.
  - cbn [vec_run vec_step obind fst snd]. unfold pv_push_back. rewrite Ei. unfold pv_tree_push_back, tree_push_back.
    rewrite leaf64, (proj2 (Nat.ltb_lt _ _)) by lia.
    set (v2 := mkPvec _ _ _). destruct (IH v2 (tree_push_back_tail t y)) as (v3 & rs & R & A & B); [reflexivity| |].
    { cbn. rewrite app_length. cbn. lia. }
    rewrite R. cbn [obind fst snd]. eexists v3, _. split; [reflexivity|]. cbn [pv_len v2] in A. split; [lia|].
    rewrite B. cbn. rewrite <- app_assoc. cbn. do 2 f_equal. lia.
Qed.

Lemma stale_pop v (hd : list T) h : length hd = 64 -> pv_len v = 64 ->
  inner v = Tree (mkTree (Branch [Leaf hd; Leaf []] (Some [64; 0])) [] [] h 64) ->
  exists v' z, vec_step PopBack v = Ret (v', z) /\ pv_len v' = 63 /\
    inner v' = Tree (mkTree (Branch [Leaf hd; Leaf []] (Some [64; 0])) [] [] h 63).
Proof.
  intros Hh Hl Hi. cbn [vec_step]. unfold pv_pop_back, pv_is_empty. rewrite Hl, Hi. cbn [Nat.eqb].
  unfold tree_pop_back, pop_from_tree. cbn [t_len t_tail t_root t_head t_height pop_last rev Nat.eqb length].
  rewrite usub_ok by lia. cbn [obind Nat.sub Nat.eqb].
  assert (En : exists z, node_get (Branch [Leaf hd; Leaf []] (Some [64; 0])) 63 = Some z).
  { cbn. destruct (nth_error hd 63) as [z|] eqn:En; [eauto|]. apply nth_error_None in En. lia. }
  destruct En as [z En]. rewrite En.
  cbn [node_pop_back length Nat.sub map nth_error obind pop_last rev fst snd]. eexists _, _. split; [reflexivity|].
  split; reflexivity.
Qed.
Lemma stale_get v (hd ys : list T) h y : length hd = 64 -> length ys = 64 -> pv_len v = 127 ->
  inner v = Tree (mkTree (Branch [Leaf hd; Leaf []] (Some [64; 0])) ys [] h 127) ->
  pv_get (pv_push_back v y) 63 = Ret (nth_error hd 63).
Proof.
  intros Hh Hy Hl Hi. unfold pv_push_back. rewrite Hi. unfold pv_tree_push_back, tree_push_back. cbn [t_tail].
  rewrite Hy, leaf64. cbn [Nat.ltb Nat.leb]. unfold push_tail_to_tree, pv_get. cbn [t_tail pv_len inner].
  rewrite Hl. cbn [Nat.add Nat.leb]. destruct ys as [|y0 ys]; [discriminate|].
  assert (Hr : exists sz, push_leaf (Branch [Leaf hd; Leaf []] (Some [64; 0])) (Leaf (y0 :: ys)) =
    Branch [Leaf hd; Leaf []; Leaf (y0 :: ys)] (Some (64 :: sz))) by (eexists; reflexivity).
  destruct Hr as [sz Hr]. cbn [t_root t_head t_len]. rewrite Hr. unfold tree_push_back_tail, tree_get.
  cbn [t_root t_len t_head t_tail t_height length app Nat.add Nat.leb Nat.ltb].
  rewrite !usub_ok by lia. cbn [obind Nat.sub]. rewrite !usub_ok by lia. cbn [obind Nat.sub Nat.ltb Nat.leb]. reflexivity.
Qed.

Lemma run_chain (v2 v3 v4 v5 v6 : pvec T) r3 rs4 r5 rs6 b n y : vec_step PopFront v2 = Ret (v3, r3) ->
  vec_run (repeat PopBack b) v3 = Ret (v4, rs4) -> vec_step PopBack v4 = Ret (v5, r5) ->
  vec_run (repeat (PushBack y) n) v5 = Ret (v6, rs6) ->
  exists rs, vec_run (PopFront :: repeat PopBack (S b) ++ repeat (PushBack y) (n + 1)) v2 =
             Ret (pv_push_back v6 y, rs).
Proof.
  intros S3 R4 S5 R6. cbn [vec_run]. rewrite S3. cbn [obind fst snd].
  replace (S b) with (b + 1) by lia. rewrite !repeat_app, <- app_assoc, vec_run_app, R4. cbn [obind fst snd].
  cbn [repeat app vec_run]. rewrite S5. cbn [obind fst snd]. rewrite vec_run_app, R6. cbn. eauto.
Qed.

(** At the front: an element that [pop_back] has handed back stays where later ones are handed on behind it, so the
    calls below are wrong for every [y] but that element. *)
Theorem C04_refill_front_wrong v l ops b x y : starts v l -> Forall (fun o => is_ends o = true) ops ->
  place_run ops l (place_start (length l)) = Some (Long 64 0 b) ->
  faithful v l (ops ++ [PushFront x]) /\
  (faithful v l (ops ++ PushFront x :: PopFront :: repeat PopBack (S b) ++ repeat (PushBack y) 65) ->
   nth_error (fst (list_run ops l)) 63 = Some y).
Proof.
  intros Hs Ho E. destruct (place_history Hs Ho E) as (v1 & R & P & L).
  remember 65 as k eqn:Hk. assert (Hk' : k = 64 + 1) by lia. clear Hk.
  set (more := PopFront :: repeat PopBack (S b) ++ repeat (PushBack y) k).
  rewrite (faithful_after [PushFront x] R), (faithful_after (PushFront x :: more) R), <- L. split.
  { exists (pv_push_front v1 x). split; [reflexivity|]. destruct P as [Hok _].
    destruct (pv_push_front_ok x Hok) as [A B]. cbn. rewrite <- B. now apply pv_ok_represents. }
  intros (w & E1 & Rep). pose proof (at_place_size P) as Hsz. cbn [place_size] in Hsz.
  destruct P as [[Hl Hok] P]. unfold pv_elems in Hsz, Hl. destruct (inner v1) as [es|t] eqn:Ei; [easy|].
  destruct P as (Hf & Hm & Hb & _ & _ & Hfill). destruct Hok as [Nk Hlen].
  pose proof (filled_empty Hfill Hm) as Er.
  assert (El : pv_elems v1 = t_head t ++ t_tail t) by (unfold pv_elems, tree_elems; now rewrite Ei, Er).
  assert (Hlast : nth_error (fst (list_run (PushFront x :: more) (pv_elems v1))) 63 = Some y).
  { unfold more. cbn [list_run list_step].
    assert (Hr : fst (list_run (repeat PopBack (S b) ++ repeat (PushBack y) k) (pv_elems v1)) =
                 firstn 63 (pv_elems v1) ++ repeat y k).
    { rewrite list_run_app. cbn [fst]. rewrite run_push_back, run_pop_back. do 2 f_equal.
      rewrite El, app_length. lia. }
    destruct (list_run (repeat PopBack (S b) ++ repeat (PushBack y) k) (pv_elems v1)) as [c d]. cbn [fst] in *.
    rewrite Hr, nth_error_app2; rewrite firstn_length, El, app_length, Hf; [|lia].
    replace (63 - Nat.min 63 (64 + length (t_tail t))) with 0 by lia. rewrite Hk', Nat.add_comm. reflexivity. }
  destruct Rep as (_ & G & _). specialize (G 63). rewrite Hlast in G. clear Hlast.
  cbn [vec_run vec_step obind fst snd] in E1. set (v2 := pv_push_front v1 x) in E1.
  assert (Ei2 : exists h, inner v2 = Tree (mkTree (Branch [Leaf (t_head t); Leaf []] (Some [64; 0])) (t_tail t)
                                    [x] h (t_len t + 1)) /\ pv_len v2 = pv_len v1 + 1).
  { unfold v2, pv_push_front. rewrite Ei. cbn [inner pv_tree_push_front pv_len]. unfold tree_push_front.
    rewrite Hf, leaf64. cbn [Nat.ltb Nat.leb]. unfold push_head_to_tree. rewrite Er.
    destruct (t_head t) as [|z zs] eqn:Et; [discriminate|].
    unfold tree_push_front_head, push_front_leaf. cbn [t_root t_tail t_head t_height t_len calculate_size length] in *.
    rewrite Hf. eexists. split; reflexivity. }
  destruct Ei2 as (h & Ei2 & El2). clearbody v2.
  destruct (@use_up_front [x] v2 _ Ei2) as (v3 & rs3 & R3 & L3 & I3); [reflexivity|cbn; lia|cbn; lia|].
  cbn [t_root t_tail t_height t_len length] in I3, L3.
  assert (S3 : exists r3, vec_step PopFront v2 = Ret (v3, r3)).
  { clear - R3. cbn [length repeat vec_run] in R3. destruct (vec_step PopFront v2) as [[v3' r3]|]; [|discriminate].
    cbn [obind fst snd] in R3. injection R3 as -> _. eauto. }
  destruct S3 as [r3 S3].
  destruct (@use_up_back (t_tail t) v3 _ I3) as (v4 & rs4 & R4 & L4 & I4); [reflexivity|cbn; lia|lia|].
  rewrite Hb in R4, L4, I4. cbn [t_root t_head t_height t_len] in I4.
  destruct (@stale_pop v4 (t_head t) h Hf) as (v5 & z & S5 & L5 & I5); [lia| |].
  { rewrite I4. do 2 f_equal. lia. }
  destruct (@fill_back y 64 v5 _ I5) as (v6 & rs6 & R6 & L6 & I6); [cbn; lia|].
  cbn [t_root t_head t_height t_len t_tail app] in I6.
  set (v7 := pv_push_back v6 y).
  destruct (run_chain S3 R4 S5 R6) as [rs' Rn]. rewrite <- Hk' in Rn. fold more in Rn. fold v7 in Rn.
  rewrite Rn in E1. cbn [obind fst snd] in E1. injection E1 as <- _.
  rewrite El, nth_error_app1 by lia.
  unfold v7 in G. rewrite (stale_get (hd := t_head t) (ys := repeat y 64) (h := h)) in G;
    [now injection G|exact Hf|apply repeat_length|lia|exact I6].
Qed.
End Refill.

(** ** Concrete histories meeting the hypotheses *)
Definition lots := map (fun i => i) (seq 0 200).
Definition both_ends_history : list (op nat) :=
  [PushFront 500; PushBack 501; PushFront 502; PopFront; Update 3 9; PopBack; Extend (repeat 7 70); PushFront 503;
   PopBack; PopFront; PopFront] ++ repeat PopFront 130 ++ [PushFront 504; PushBack 505] ++
  [Filter Nat.even] ++ repeat (PushBack 8) 40 ++ repeat (PushFront 9) 30 ++ repeat PopFront 35.
Example C04_both_ends_case : place_run both_ends_history lots (place_start 200) <> None /\
  faithful (pv_from_iter lots) lots both_ends_history.
Proof.
  assert (E : place_run both_ends_history lots (place_start 200) <> None) by (vm_compute; discriminate).
  split; [exact E|]. apply C04_both_ends_partial; [constructor|apply Forall_forall|exact E].
  intros o Ho. assert (F : forallb is_ends both_ends_history = true) by (vm_compute; reflexivity).
  rewrite forallb_forall in F. exact (F o Ho).
Qed.
Example C04_pop_back_always_case :
  place_run [PushFront 1; PushFront 2] (seq 0 128) (place_start 128) = Some (Long 2 128 0) /\
  ~ faithful (pv_from_iter (seq 0 128)) (seq 0 128) [PushFront 1; PushFront 2; PopBack; PushBack 127].
Proof.
  assert (E : place_run [PushFront 1; PushFront 2] (seq 0 128) (place_start 128) = Some (Long 2 128 0))
    by (vm_compute; reflexivity).
  split; [exact E|].
  apply (@C04_pop_back_always_wrong nat _ (seq 0 128) [PushFront 1; PushFront 2] [PushBack 127] 1 128);
    [constructor|repeat constructor|exact E].
Qed.
(** Sixty-four elements between and four behind, all sixty-four taken from the front *)
Example C04_pop_front_reverses_case :
  place_run (repeat PopFront 64) (seq 0 68) (place_start 68) = Some (Long 0 0 4) /\
  ~ faithful (pv_from_iter (seq 0 68)) (seq 0 68) (repeat PopFront 64 ++ [PopFront]).
Proof.
  assert (E : place_run (repeat PopFront 64) (seq 0 68) (place_start 68) = Some (Long 0 0 4)) by (vm_compute; reflexivity).
  split; [exact E|].
  assert (F : Forall (fun o => is_ends o = true) (repeat (@PopFront nat) 64)).
  { apply Forall_forall. intros o Ho. now rewrite (repeat_spec _ _ _ Ho). }
  rewrite (proj2 (C04_pop_front_reverses (starts_slice (seq 0 68)) F E ltac:(lia))).
  vm_compute. discriminate.
Qed.
Example C04_refill_back_case :
  place_run (repeat PopFront 64 ++ repeat (PushBack 5) 60) (seq 0 68) (place_start 68) = Some (Long 0 0 64).
Proof. vm_compute. reflexivity. Qed.
Example C04_refill_front_case :
  place_run (repeat PopFront 65 ++ repeat (PushFront 5) 64 ++ [PushBack 6; PushBack 7]) (seq 0 65) (place_start 65) =
    Some (Long 64 0 2).
Proof. vm_compute. reflexivity. Qed.

Print Assumptions C04_both_ends_partial.
Print Assumptions C04_pop_back_always_wrong.
Print Assumptions C04_pop_front_reverses.
Print Assumptions C04_refill_back_wrong.
Print Assumptions C04_refill_front_wrong.

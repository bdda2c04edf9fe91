(** C04 past taking, from the back, an element that lies before a hole. *)
From Coq Require Import List Arith Lia Bool.
From Verif Require Import Base ListFacts PvecModel PvecSpec PvecFacts PvecShape PvecEnds PvecHist PvecFront PvecQueue
  PvecProps PvecDequeSpec PvecDequeProps PvecGapSpec PvecGapProps PvecTrimSpec.
Import ListNotations.
Open Scope outcome_scope.
Set Implicit Arguments.
Unset Strict Implicit.

Section Trim.
Context {T : Type}.
Notation node := (node T).
Notation tree := (tree T).
Notation pvec := (pvec T).
Notation op := (op T).
Implicit Types (v : pvec) (t : tree) (l : list T).

(** ** A middle that ends in a hole *)
Lemma full_sizes (R : list node) : Forall full R -> length (flat_map elems R) = 0 -> R = [].
Proof.
  destruct R as [|r R]; [reflexivity|]. intros H E. inversion H as [|? ? F _]; subst. apply full_size in F. unfold esize in F.
  cbn in E. rewrite app_length in E. lia.
Qed.
Lemma gap_end_inv (L : list node) c (R : list node) a : Forall full R -> gap c a ->
  length (flat_map elems (L ++ c :: R)) = length (flat_map elems L) + a -> R = [] /\ esize c = a.
Proof.
  intros HR Hc E. rewrite flat_map_app, app_length in E. cbn [flat_map] in E. rewrite app_length in E.
  pose proof (gap_le Hc) as Hle. unfold esize in *. split; [apply full_sizes; [exact HR|lia]|lia].
Qed.
Lemma node_pop_back_end (n : node) a : gap n a -> esize n = a -> node_pop_back n = Ret None.
Proof.
  induction 1 as [|L c R sz a HL HR Hc IH]; intros E; [reflexivity|].
  destruct (gap_end_inv HR Hc E) as [-> Ec]. cbn [node_pop_back]. rewrite app_length. cbn [length].
  replace (length L + 1 - 1) with (length L) by lia. rewrite map_app, nth_error_app2 by (rewrite map_length; lia).
  rewrite map_length, Nat.sub_diag. cbn [map nth_error]. rewrite (IH Ec). reflexivity.
Qed.
Lemma node_pop_front_end (n : node) : forall a, gap n (S a) -> esize n = S a -> node_ok n ->
  exists n' x, node_pop_front n = Ret (Some (n', x)) /\ node_ok n' /\ elems n = x :: elems n' /\
    (gap n' a \/ (n' = Leaf [] /\ a = 0)).
Proof.
  induction n as [es|cs sz IH] using node_ind'; intros a H Hsz Hok; [inversion H|].
  inversion H as [|L c R sz' a' HL HR Hc Es Ea]; subst.
  apply node_ok_branch_inv in Hok as (_ & Hok & ->). apply Forall_app in Hok as [OL Hok].
  inversion Hok as [|? ? Oc OR]; subst.
  assert (Hsz' : length (flat_map elems (L ++ c :: R)) = length (flat_map elems L) + a') by (unfold esize in Hsz; cbn [elems] in Hsz; lia).
  destruct (gap_end_inv HR Hc Hsz') as [-> Ec].
  destruct L as [|y L].
  - cbn in Ea. subst a'. cbn [app] in *. inversion IH as [|? ? IHc _]; subst.
    destruct (IHc _ Hc Ec Oc) as (c' & x & E & Oc' & Ee & Hh).
    exists (drop_front c' []), x. rewrite (node_pop_front_branch _ _ Oc' E).
    destruct (drop_front_ok OR Oc') as [D1 D2]. split; [reflexivity|]. split; [exact D1|].
    split. { rewrite D2. cbn [elems flat_map]. now rewrite Ee. }
    assert (Es' : esize c' = a) by (unfold esize in *; rewrite Ee in Ec; cbn in Ec; lia).
    unfold drop_front. rewrite Es'. destruct (Nat.eqb_spec a 0) as [->|Nz]; [now right|].
    left. destruct Hh as [Hg|[_ ->]]; [|easy]. apply (@gap_branch T [] c' [] _ a); auto.
  - cbn [app] in *. inversion HL as [|? ? Fy FL]; subst. inversion OL as [|? ? Oy OL']; subst.
    destruct (node_pop_front_filled Oy Fy) as (y' & x & E & Oy' & Ee & Hf).
    exists (drop_front y' (L ++ [c])), x. rewrite (node_pop_front_branch _ _ Oy' E).
    assert (Orest : Forall node_ok (L ++ [c])) by (apply Forall_app; split; auto).
    destruct (drop_front_ok Orest Oy') as [D1 D2]. split; [reflexivity|]. split; [exact D1|].
    split. { rewrite D2. cbn [elems flat_map]. now rewrite Ee. }
    cbn [flat_map] in Ea. rewrite Ee in Ea. cbn [app length] in Ea. rewrite app_length in Ea.
    left. unfold drop_front. destruct (Nat.eqb_spec (esize y') 0) as [E0|E0].
    + replace a with (length (flat_map elems L) + esize c) by (unfold esize in *; lia).
      destruct (L ++ [c]) eqn:El; [destruct L; discriminate|]. rewrite <- El. now constructor.
    + replace a with (length (flat_map elems (y' :: L)) + esize c) by (cbn; rewrite app_length; unfold esize in *; lia).
      change (y' :: L ++ [c]) with ((y' :: L) ++ [c]). constructor; auto.
      constructor; auto. apply filled_full; [exact Hf|lia].
Qed.

(** Exactly [m] elements and no hole, or at least [m] and then a hole *)
Definition trimmed (n : node) (m : nat) : Prop :=
  m <= esize n /\ ((filled n /\ esize n = m) \/ gap n (esize n)).
Lemma trimmed_pop_front (n : node) m : trimmed n (S m) -> node_ok n ->
  exists n' x, node_pop_front n = Ret (Some (n', x)) /\ node_ok n' /\ elems n = x :: elems n' /\ trimmed n' m.
Proof.
  intros [Hle H] Hok. destruct H as [[Hf Es]|Hg].
  - assert (Fu : full n) by (apply filled_full; [exact Hf|lia]).
    destruct (node_pop_front_filled Hok Fu) as (n' & x & A & B & C & D). exists n', x. repeat (split; auto).
    + unfold esize in *. rewrite C in Es. cbn in Es. lia.
    + left. split; [exact D|]. unfold esize in *. rewrite C in Es. cbn in Es. lia.
  - destruct (esize n) as [|e] eqn:Es; [lia|].
    destruct (node_pop_front_end Hg Es Hok) as (n' & x & A & B & C & D). exists n', x. repeat (split; auto).
    + unfold esize in *. rewrite C in Es. cbn in Es. lia.
    + assert (En : esize n' = e) by (unfold esize in *; rewrite C in Es; cbn in Es; lia). rewrite En.
      destruct D as [D|[-> ->]]; [now right|]. left. split; [now left|]. unfold esize. cbn. lia.
Qed.
Lemma trimmed_push_front (n : node) es m : es <> [] -> trimmed n m -> node_ok n ->
  trimmed (push_front_leaf n (Leaf es)) (m + length es).
Proof.
  intros Hne [Hle H] Hok. destruct (@push_front_leaf_ok T n (Leaf es) Hok (ok_leaf _)) as [_ Ee]. cbn [elems] in Ee.
  assert (Es : esize (push_front_leaf n (Leaf es)) = length es + esize n) by (unfold esize; rewrite Ee; apply app_length).
  split; [lia|]. rewrite Es. destruct H as [[Hf E]|Hg]; [|right; now apply gap_push_front_leaf].
  destruct (Nat.eq_dec (esize n) 0) as [Z|Z].
  - right. rewrite Z, (filled_empty Hf Z). apply gap_push_front_leaf; [exact Hne|constructor].
  - left. split; [|lia]. right. apply full_push_front_leaf; [exact Hne|]. apply filled_full; [exact Hf|lia].
Qed.
Lemma trimmed_update (n : node) m i x : trimmed n m -> node_ok n -> trimmed (node_update n i x) m.
Proof.
  intros [Hle H] Hok. unfold trimmed. rewrite node_update_esize by exact Hok. split; [exact Hle|].
  destruct H as [[[->|Fu] E]|Hg].
  - left. split; [left; cbn; now destruct i|exact E].
  - left. split; [right; now apply node_update_full|exact E].
  - right. now apply node_update_gap.
Qed.

(** ** Reading *)
Definition at_trim v f m b l : Prop :=
  exists t, inner v = Tree t /\ pv_len v = f + m + b /\ t_len t = f + m + b /\ node_ok (t_root t) /\
    length (t_head t) = f /\ length (t_tail t) = b /\ f <= 64 /\ b <= 64 /\ trimmed (t_root t) m /\
    l = t_head t ++ firstn m (elems (t_root t)) ++ t_tail t.
Lemma at_trim_length v f m b l : at_trim v f m b l -> length l = f + m + b.
Proof.
  intros (t & _ & _ & _ & _ & Hf & Hb & _ & _ & [Hle _] & ->). rewrite !app_length, firstn_length. unfold esize in Hle. lia.
Qed.
Lemma nth_firstn (l : list T) : forall m i, i < m -> nth_error (firstn m l) i = nth_error l i.
Proof.
  induction l as [|x l IH]; intros [|m] [|i] H; cbn; try lia; auto. apply IH. lia.
Qed.
Lemma trim_get v f m b l i : at_trim v f m b l -> pv_get v i = Ret (nth_error l i).
Proof.
  intros H. pose proof (at_trim_length H) as Hlen.
  destruct H as (t & Ei & Hl & Ht & Nk & Hf & Hb & _ & _ & [Hle _] & ->). unfold pv_get. rewrite Hl, Ei.
  destruct (Nat.leb_spec (f + m + b) i) as [Ge|Lt].
  - f_equal. symmetry. apply nth_error_None. lia.
  - unfold tree_get. rewrite Ht, Hf, Hb. rewrite (proj2 (Nat.leb_gt _ _)) by lia.
    assert (Lm : length (firstn m (elems (t_root t))) = m) by (rewrite firstn_length; unfold esize in Hle; lia).
    destruct (Nat.ltb_spec i f) as [L1|L1]; [now rewrite nth_error_app1 by lia|].
    rewrite usub_ok by lia. cbn [obind]. rewrite usub_ok by lia. cbn [obind]. rewrite usub_ok by lia. cbn [obind].
    rewrite nth_error_app2 by lia. rewrite Hf.
    destruct (Nat.ltb_spec (i - f) (f + m + b - f - b)) as [L2|L2].
    + rewrite get_from_tree_ok by auto. rewrite nth_error_app1, nth_firstn by lia. reflexivity.
    + rewrite usub_ok by lia. cbn [obind]. rewrite nth_error_app2, Lm by lia. do 2 f_equal. lia.
Qed.
Lemma collect_read v l fuel : (forall i, pv_get v i = Ret (nth_error l i)) -> pv_len v = length l ->
  forall pos, pv_len v < fuel + pos -> iter_collect fuel v pos = Ret (skipn pos l).
Proof.
  intros G Hl. induction fuel as [|fuel IH]; intros pos Hf; cbn.
  - rewrite skipn_all2; auto. lia.
  - unfold iter_next. destruct (Nat.ltb_spec pos (pv_len v)) as [Hlt|Hge].
    + rewrite G. cbn. destruct (nth_error l pos) as [x|] eqn:E.
      * rewrite IH by lia. cbn. f_equal. rewrite (nth_error_split' _ _ E) at 2. rewrite skipn_all_app; auto.
        rewrite firstn_length. lia.
      * apply nth_error_None in E. lia.
    + cbn. rewrite skipn_all2; auto. lia.
Qed.
Lemma trim_represents v f m b l : at_trim v f m b l -> represents v l.
Proof.
  intros H. assert (Hl : pv_len v = length l).
  { rewrite (at_trim_length H). destruct H as (t & _ & Hl & _). exact Hl. }
  split; [exact Hl|]. split; [intros i; eapply trim_get; eauto|]. unfold pv_to_vec, pv_iter.
  change (Ret l) with (Ret (skipn 0 l)). apply collect_read; [|exact Hl|lia]. intros i. eapply trim_get; eauto.
Qed.

(** ** Steps *)
Definition at_far v (s : far) l : Prop :=
  match s with Near w => at_wide v w /\ pv_elems v = l | Trimmed f m b => at_trim v f m b l end.
Lemma at_far_represents v s l : at_far v s l -> represents v l.
Proof.
  destruct s as [w|f m b]; [|apply trim_represents]. intros [P <-]. apply pv_ok_represents, (at_wide_ok P).
Qed.
Definition far_right (o : op) v s l : Prop :=
  exists v', vec_step o v = Ret (v', snd (list_step o l)) /\ at_far v' s (fst (list_step o l)).

Lemma push_back_far v x s s' l : at_far v s l -> far_push_back s = Some s' -> at_far (pv_push_back v x) s' (l ++ [x]).
Proof.
  destruct s as [w|f m b]; cbn [at_far far_push_back].
  - intros [P <-] E. injection E as <-. split; [now apply push_back_wide|]. apply pv_push_back_ok, (at_wide_ok P).
  - intros (t & Ei & Hl & Ht & Nk & Hf & Hb & Lf & Lb & Hr & ->) E.
    destruct (Nat.ltb_spec b 64) as [L|L]; [|discriminate]. injection E as <-.
    unfold pv_push_back. rewrite Ei. unfold pv_tree_push_back, tree_push_back. rewrite leaf64, Hb, (proj2 (Nat.ltb_lt _ _) L).
    eexists. split; [reflexivity|]. unfold tree_push_back_tail. cbn [pv_len t_head t_root t_tail t_len].
    rewrite app_length, Hb, Hl, Ht. cbn [length]. repeat split; auto; try lia; [apply Hr|apply Hr|]. now rewrite <- !app_assoc.
Qed.
Lemma pushes_far xs : forall v s s' l, at_far v s l -> far_pushes (length xs) s = Some s' ->
  at_far (pv_extend v xs) s' (l ++ xs).
Proof.
  unfold pv_extend. induction xs as [|x xs IH]; intros v s s' l H E; cbn [length far_pushes fold_left] in *.
  - injection E as <-. now rewrite app_nil_r.
  - destruct (far_push_back s) as [s1|] eqn:E1; [|discriminate].
    replace (l ++ x :: xs) with ((l ++ [x]) ++ xs) by (now rewrite <- app_assoc). eapply IH; [|exact E].
    eapply push_back_far; eauto.
Qed.
Lemma push_front_far v x s l : at_far v s l -> at_far (pv_push_front v x) (far_push_front s) (x :: l).
Proof.
  destruct s as [w|f m b]; cbn [at_far far_push_front].
  - intros [P <-]. split; [now apply push_front_wide|]. apply pv_push_front_ok, (at_wide_ok P).
  - intros (t & Ei & Hl & Ht & Nk & Hf & Hb & Lf & Lb & Hr & ->).
    unfold pv_push_front. rewrite Ei. unfold pv_tree_push_front, tree_push_front. rewrite leaf64, Hf.
    destruct (Nat.ltb_spec f 64) as [L|L]; (eexists; split; [reflexivity|]).
    + unfold tree_push_front_head. cbn [pv_len t_head t_root t_tail t_len length].
      rewrite Hl, Ht. repeat split; auto; try lia; apply Hr.
    + unfold push_head_to_tree. destruct (t_head t) as [|y ys] eqn:Et; [cbn in Hf; lia|].
      unfold tree_push_front_head. cbn [pv_len t_head t_root t_tail t_len length app].
      destruct (@push_front_leaf_ok T (t_root t) (Leaf (y :: ys)) Nk (ok_leaf _)) as [Nk' Ee]. cbn [elems] in Ee.
      assert (Ht' : trimmed (push_front_leaf (t_root t) (Leaf (y :: ys))) (m + f))
        by (rewrite <- Hf; apply trimmed_push_front; [discriminate|exact Hr|exact Nk]).
      split; [lia|]. split; [lia|]. split; [exact Nk'|]. split; [reflexivity|]. split; [exact Hb|]. split; [lia|]. split; [lia|].
      split; [exact Ht'|]. f_equal. rewrite Ee. rewrite firstn_app, (@firstn_all2 T (m + f) (y :: ys)) by lia.
      replace (m + f - length (y :: ys)) with m by lia. now rewrite <- app_assoc.
Qed.
Lemma list_set_app (a b : list T) i x : list_set (a ++ b) i x =
  if i <? length a then list_set a i x ++ b else a ++ list_set b (i - length a) x.
Proof.
  destruct (Nat.ltb_spec i (length a)) as [L|L]; [now rewrite list_set_app1|now rewrite list_set_app2].
Qed.
Lemma firstn_list_set (l : list T) x : forall m i, firstn m (list_set l i x) = list_set (firstn m l) i x.
Proof. induction l as [|y l IH]; intros [|m] [|i]; cbn; auto. now rewrite IH. Qed.
Lemma update_far v i x s l : at_far v s l -> far_right (Update i x) v s l.
Proof.
  destruct s as [w|f m b]; cbn [at_far].
  - intros [P <-]. destruct (@wide_step_right T v w w (Update i x) P eq_refl eq_refl) as (v' & A & B & C).
    exists v'. split; [exact A|]. split; [exact B|exact C].
  - intros (t & Ei & Hl & Ht & Nk & Hf & Hb & Lf & Lb & Hr & ->).
    unfold far_right. cbn [vec_step list_step fst snd]. rewrite <- list_set_update. unfold pv_update. rewrite Hl.
    assert (Lm : length (firstn m (elems (t_root t))) = m) by (rewrite firstn_length; destruct Hr as [Hle _]; unfold esize in Hle; lia).
    destruct (Nat.leb_spec (f + m + b) i) as [Ge|Lt].
    + cbn [obind]. exists v. split; [reflexivity|]. rewrite list_set_ge by (rewrite !app_length; lia). exists t. auto 12.
    + rewrite Ei. unfold tree_update. rewrite Ht, Hf, Hb, (proj2 (Nat.leb_gt _ _)) by lia.
      rewrite list_set_app, Hf. destruct (Nat.ltb_spec i f) as [L1|L1].
      * cbn [obind]. eexists. split; [reflexivity|]. eexists. split; [reflexivity|]. cbn [pv_len t_len t_head t_root t_tail].
        rewrite list_set_length. repeat split; auto; apply Hr.
      * rewrite usub_ok by lia. cbn [obind]. rewrite usub_ok by lia. cbn [obind]. rewrite usub_ok by lia. cbn [obind].
        rewrite list_set_app, Lm. destruct (Nat.ltb_spec (i - f) (f + m + b - f - b)) as [L2|L2].
        -- rewrite (proj2 (Nat.ltb_lt (i - f) m)) by lia. cbn [obind]. eexists. split; [reflexivity|].
           eexists. split; [reflexivity|]. cbn [pv_len t_len t_head t_root t_tail].
           destruct (@node_update_ok T (t_root t) (i - f) x Nk) as [U1 U2].
           split; [auto|]. split; [auto|]. split; [exact U1|]. do 4 (split; [auto|]).
           split; [now apply trimmed_update|]. now rewrite U2, firstn_list_set.
        -- rewrite (proj2 (Nat.ltb_ge (i - f) m)) by lia. rewrite usub_ok by lia. cbn [obind]. eexists. split; [reflexivity|].
           eexists. split; [reflexivity|]. cbn [pv_len t_len t_head t_root t_tail]. rewrite list_set_length.
           repeat split; auto; try apply Hr. do 2 f_equal. f_equal. lia.
Qed.

Lemma list_nil_back : list_step PopBack (@nil T) = ([], None).
Proof. reflexivity. Qed.
Lemma firstn_last (l : list T) : forall m, S m <= length l ->
  exists x, nth_error l m = Some x /\ firstn (S m) l = firstn m l ++ [x].
Proof.
  induction l as [|y l IH]; intros [|m] H; cbn in *; try lia; [eauto|].
  destruct (IH m ltac:(lia)) as (x & A & B). exists x. split; [exact A|]. f_equal. exact B.
Qed.
(** Taking the last element of the middle, the buffers being empty *)
Lemma pop_middle v m l : at_trim v 0 (S m) 0 l ->
  far_right PopBack v (if m =? 0 then Near (Whole (Long 0 0 0)) else Trimmed 0 m 0) l.
Proof.
  intros (t & Ei & Hl & Ht & Nk & Hf & Hb & _ & _ & Hr & ->).
  apply length_zero_iff_nil in Hf, Hb. unfold far_right. rewrite Hf, Hb, app_nil_r. cbn [app vec_step].
  destruct Hr as [Hle Hr]. destruct (@firstn_last (elems (t_root t)) m ltac:(unfold esize in Hle; lia)) as (x & Hx & Ex).
  rewrite Ex, list_pop_back. cbn [fst snd]. unfold pv_pop_back, pv_is_empty.
  rewrite (proj2 (Nat.eqb_neq _ _)), Ei by lia. unfold tree_pop_back. rewrite (proj2 (Nat.eqb_neq _ _)), Hb by lia.
  cbn [pop_last]. unfold pop_from_tree. rewrite (proj2 (Nat.eqb_neq _ _)), Hb by lia. rewrite usub_ok by (cbn; lia).
  cbn [obind length]. rewrite Ht. replace (0 + S m + 0 - 0) with (S m) by lia. cbn [Nat.eqb].
  replace (S m - 1) with m by lia. rewrite node_get_ok, Hx by exact Nk.
  destruct (Nat.eqb_spec m 0) as [->|Nz].
  - cbn [obind fst snd]. eexists. split; [reflexivity|]. split.
    + split; [split; [unfold pv_elems, tree_elems; cbn; rewrite Hf; cbn; lia|]|].
      * cbn. apply mk_tree_ok; [constructor|]. rewrite Hf. cbn. unfold esize. cbn. lia.
      * cbn. rewrite Hf. unfold esize. cbn. repeat split; auto; try lia. now left.
    + unfold pv_elems, tree_elems. cbn. now rewrite Hf.
  - destruct Hr as [[Hfl Es]|Hg].
    + assert (Fu : full (t_root t)) by (apply filled_full; [exact Hfl|lia]).
      destruct (node_pop_back_filled Nk Fu) as (n' & y & E1 & Nk' & Ee & Hf').
      assert (En : esize n' = m) by (unfold esize in *; rewrite Ee, app_length in Es; cbn in Es; lia).
      rewrite E1. cbn [obind fst snd]. eexists. split; [reflexivity|]. eexists. split; [reflexivity|].
      cbn [pv_len t_len t_head t_root t_tail]. rewrite Hf. cbn [length app].
      split; [lia|]. split; [lia|]. split; [exact Nk'|]. do 4 (split; [auto; lia|]).
      split; [split; [lia|left; auto]|]. rewrite Ee, app_nil_r, firstn_app. unfold esize in En. rewrite En, Nat.sub_diag. cbn.
      now rewrite app_nil_r.
    + rewrite (node_pop_back_end Hg eq_refl). cbn [obind fst snd]. eexists. split; [reflexivity|]. eexists. split; [reflexivity|].
      cbn [pv_len t_len t_head t_root t_tail]. rewrite Hf. cbn [length app].
      split; [lia|]. split; [lia|]. split; [exact Nk|]. do 4 (split; [auto; lia|]).
      split; [split; [lia|now right]|]. now rewrite app_nil_r.
Qed.
Lemma holed_trim v a : at_wide v (Holed 0 a 0 0) -> at_trim v 0 a 0 (pv_elems v).
Proof.
  intros P. pose proof (at_wide_size P) as Hsz. cbn [wide_size] in Hsz.
  destruct P as ([Hl Hok] & t & Ei & Hf & Hm & Hb & Lb & Lf & Hh). exists t. rewrite Ei in Hok. destruct Hok as [Nk Hlen].
  assert (El : pv_elems v = tree_elems t) by (unfold pv_elems; now rewrite Ei).
  split; [exact Ei|]. split; [lia|]. split; [rewrite Hlen, <- El; lia|]. split; [exact Nk|]. do 4 (split; [auto|]).
  split.
  - split; [lia|]. destruct Hh as [Hh|Hh]; [left; split; [exact Hh|lia]|right; now replace (esize (t_root t)) with a by lia].
  - rewrite El. unfold tree_elems. rewrite firstn_all2 by (unfold esize in Hm; lia). reflexivity.
Qed.

Lemma pop_back_far v s s' l : at_far v s l -> far_pop_back s = Some s' -> far_right PopBack v s' l.
Proof.
  destruct s as [w|f m b]; cbn [at_far].
  - intros [P <-] E.
    assert (Case : (exists a, w = Holed 0 (S a) 0 0) \/ far_pop_back (Near w) = option_map Near (wide_pop_back w)).
    { destruct w as [s|[|f] [|a] [|z] [|b]]; eauto. }
    destruct Case as [[a ->]|Case].
    + cbn [far_pop_back] in E. injection E as <-. apply pop_middle. now apply holed_trim.
    + rewrite Case in E. destruct (wide_pop_back w) as [w'|] eqn:Ew; [|discriminate]. injection E as <-.
      destruct (pop_back_wide P Ew) as (v' & A & B & C). exists v'. split; [exact A|]. split; [exact B|exact C].
  - intros H E. destruct b as [|b].
    + destruct f as [|f]; [|discriminate]. destruct m as [|m]; cbn [far_pop_back] in E.
      * injection E as <-. pose proof (at_trim_length H) as Hlen. apply length_zero_iff_nil in Hlen. subst l.
        exists v. split; [|exact H]. cbn [vec_step list_step rev fst snd]. unfold pv_pop_back, pv_is_empty.
        destruct H as (t & _ & -> & _). reflexivity.
      * injection E as <-. now apply pop_middle.
    + assert (Es : s' = Trimmed f m b) by (destruct f, m; now injection E as <-). subst s'.
      destruct H as (t & Ei & Hl & Ht & Nk & Hf & Hb & Lf & Lb & Hr & ->).
      destruct (list_last_case (t_tail t)) as [Et|(c & x & Et)]; rewrite Et in *; [discriminate|].
      rewrite app_length in Hb. cbn [length] in Hb.
      unfold far_right. cbn [vec_step]. rewrite 2 app_assoc, list_pop_back, <- app_assoc. cbn [fst snd].
      unfold pv_pop_back, pv_is_empty. rewrite (proj2 (Nat.eqb_neq _ _)), Ei by lia.
      unfold tree_pop_back. rewrite (proj2 (Nat.eqb_neq _ _)), Et, pop_last_app by lia. cbn [obind].
      eexists. split; [reflexivity|]. eexists. split; [reflexivity|]. cbn [pv_len t_len t_head t_root t_tail].
      repeat split; auto; try lia; apply Hr.
Qed.
Lemma pop_front_far v s s' l : at_far v s l -> far_pop_front s = Some s' -> far_right PopFront v s' l.
Proof.
  destruct s as [w|f m b]; cbn [at_far far_pop_front].
  - intros [P <-] E. destruct (wide_pop_front w) as [w'|] eqn:Ew; [|discriminate]. injection E as <-.
    destruct (pop_front_wide P Ew) as (v' & A & B & C). exists v'. split; [exact A|]. split; [exact B|exact C].
  - intros H E. pose proof (at_trim_length H) as Hlen.
    assert (Hemp : pv_is_empty v = (f + m + b =? 0)) by (unfold pv_is_empty; destruct H as (t & _ & -> & _); reflexivity).
    destruct (Nat.eq_dec (f + m + b) 0) as [Z|Z].
    { destruct f, m, b; try lia. injection E as <-. apply length_zero_iff_nil in Hlen. subst l. exists v.
      split; [|exact H]. cbn [vec_step list_step fst snd]. unfold pv_pop_front. rewrite Hemp. reflexivity. }
    destruct H as (t & Ei & Hl & Ht & Nk & Hf & Hb & Lf & Lb & Hr & ->).
    unfold far_right. cbn [vec_step]. unfold pv_pop_front. rewrite Hemp, (proj2 (Nat.eqb_neq _ _)), Ei by lia.
    unfold tree_pop_front. rewrite (proj2 (Nat.eqb_neq _ _)) by lia.
    destruct (t_head t) as [|h hs] eqn:Eh.
    + cbn in Hf. subst f. unfold pop_front_from_tree. rewrite Eh, Ht. cbn [length].
      rewrite usub_ok by lia. cbn [obind]. rewrite usub_ok by lia. cbn [obind].
      destruct m as [|m].
      * rewrite (proj2 (Nat.ltb_ge _ _)) by lia. cbn [obind]. unfold pop_front_from_tail.
        destruct b as [|b]; [lia|]. destruct (Nat.leb_spec (S b) 2) as [L2|L2]; [|discriminate]. injection E as <-.
        cbn [app firstn]. destruct (t_tail t) as [|x rest] eqn:Et; [cbn in Hb; lia|].
        cbn [rev]. rewrite pop_last_app. cbn [obind list_step fst snd]. eexists. split; [reflexivity|].
        assert (Er : rev rest = rest) by (destruct rest as [|y [|z rest]]; auto; cbn in Hb; lia). rewrite Er.
        cbn in Hb. split; [split; [split|]|].
        -- unfold pv_elems, tree_elems. cbn. rewrite app_nil_r. lia.
        -- cbn. apply mk_tree_ok; [constructor|]. unfold esize. cbn. lia.
        -- cbn. unfold esize. cbn. repeat split; auto; try lia. now left.
        -- unfold pv_elems, tree_elems. cbn. now rewrite app_nil_r.
      * injection E as <-. rewrite (proj2 (Nat.ltb_lt _ _)) by lia.
        destruct (trimmed_pop_front Hr Nk) as (n' & x & E1 & Nk' & Ee & Hr'). rewrite E1. cbn [obind].
        rewrite Ee. cbn [firstn app list_step fst snd]. eexists. split; [reflexivity|]. eexists. split; [reflexivity|].
        cbn [pv_len t_len t_head t_root t_tail length app]. repeat split; auto; try lia; apply Hr'.
    + cbn in Hf. destruct f as [|f]; [lia|]. injection E as <-. cbn [obind app list_step fst snd].
      eexists. split; [reflexivity|]. eexists. split; [reflexivity|]. cbn [pv_len t_len t_head t_root t_tail].
      repeat split; auto; try lia; apply Hr.
Qed.
Lemma far_step_right v s s' l o : at_far v s l -> is_ends o = true -> far_step o l s = Some s' -> far_right o v s' l.
Proof.
  intros H Ho E. destruct o as [x|x| | |i x|xs|g|p|n|n|i|i|i x|i|xs|xs]; try discriminate Ho; cbn [far_step] in E.
  - eexists. split; [reflexivity|]. now apply push_back_far with (s := s).
  - injection E as <-. eexists. split; [reflexivity|]. now apply push_front_far.
  - eapply pop_back_far; eauto.
  - eapply pop_front_far; eauto.
  - injection E as <-. now apply update_far.
  - eexists. split; [reflexivity|]. now apply pushes_far with (s := s).
  - injection E as <-. destruct (at_far_represents H) as (_ & _ & G). unfold pv_to_vec in G.
    unfold far_right. cbn [vec_step list_step fst snd]. unfold pv_map. rewrite G. cbn [omap obind].
    eexists. split; [reflexivity|]. split; [apply from_iter_place|apply pv_from_iter_ok].
  - injection E as <-. destruct (at_far_represents H) as (_ & _ & G). unfold pv_to_vec in G.
    unfold far_right. cbn [vec_step list_step fst snd]. unfold pv_filter. rewrite G. cbn [omap obind].
    eexists. split; [reflexivity|]. split; [apply from_iter_place|apply pv_from_iter_ok].
Qed.
Lemma far_run_right ops : forall v s s' l, at_far v s l -> Forall (fun o => is_ends o = true) ops ->
  far_run ops l s = Some s' ->
  exists v', vec_run ops v = Ret (v', snd (list_run ops l)) /\ at_far v' s' (fst (list_run ops l)).
Proof.
  induction ops as [|o ops IH]; intros v s s' l H Ho E.
  - injection E as <-. exists v. auto.
  - inversion Ho as [|? ? Ho1 Ho2]; subst. cbn [far_run] in E. destruct (far_step o l s) as [s1|] eqn:E1; [|discriminate].
    destruct (far_step_right H Ho1 E1) as (v1 & R1 & P1).
    destruct (IH v1 s1 s' _ P1 Ho2 E) as (v2 & R2 & P2).
    exists v2. cbn [vec_run list_run]. rewrite R1. cbn [obind fst snd]. rewrite R2. cbn [obind fst snd].
    destruct (list_step o l) as [l1 r1]. cbn [fst snd] in *.
    destruct (list_run ops l1) as [l2 rs]. cbn [fst snd] in *. auto.
Qed.
Lemma starts_far v l : starts v l -> at_far v (far_start (length l)) l.
Proof. intros Hs. split; [exact (starts_place Hs)|]. apply (starts_ok Hs). Qed.
End Trim.

(** ** C04 *)

(** Right as long as every call is one [far_run] goes on at *)
Theorem C04_past_hole_partial {T} (v : pvec T) l ops : starts v l -> Forall (fun o => is_ends o = true) ops ->
  far_run ops l (far_start (length l)) <> None -> faithful v l ops.
Proof.
  intros Hs Ho E. destruct (far_run ops l (far_start (length l))) as [s|] eqn:Es; [|congruence].
  destruct (far_run_right (starts_far Hs) Ho Es) as (v' & R & P). exists v'. split; [exact R|].
  exact (at_far_represents P).
Qed.
(** [pop_front] with only the back buffer left, holding at least three: the right element, and the others in reverse. *)
Theorem C04_trimmed_pop_front_reverses {T} (v : pvec T) l ops b : starts v l -> Forall (fun o => is_ends o = true) ops ->
  far_run ops l (far_start (length l)) = Some (Trimmed 0 0 b) -> 3 <= b ->
  let left := tl (fst (list_run ops l)) in
  (exists v', vec_run (ops ++ [PopFront]) v = Ret (v', snd (list_run (ops ++ [PopFront]) l)) /\ represents v' (rev left)) /\
  (faithful v l (ops ++ [PopFront]) <-> rev left = left).
Proof.
  intros Hs Ho E Hb left. destruct (far_run_right (starts_far Hs) Ho E) as (v1 & R & P). cbn [at_far] in P. unfold left.
  set (l1 := fst (list_run ops l)) in *. pose proof (at_trim_length P) as Hsz.
  assert (Hstep : exists v2 x, l1 = x :: tl l1 /\ vec_step PopFront v1 = Ret (v2, Some x) /\ represents v2 (rev (tl l1))).
  { cbn [vec_step]. destruct P as (t & Ei & Hl & Ht & Nk & Hf & Hbk & _ & _ & _ & El).
    apply length_zero_iff_nil in Hf. rewrite Hf in El. cbn [app firstn] in El. clearbody l1. subst l1.
    unfold pv_pop_front, pv_is_empty. rewrite (proj2 (Nat.eqb_neq _ _)), Ei by lia.
    unfold tree_pop_front. rewrite (proj2 (Nat.eqb_neq _ _)), Hf by lia. unfold pop_front_from_tree. rewrite Hf.
    cbn [length]. rewrite usub_ok by lia. cbn [obind]. rewrite usub_ok by lia. cbn [obind].
    rewrite (proj2 (Nat.ltb_ge _ _)) by lia. cbn [obind]. unfold pop_front_from_tail.
    destruct (t_tail t) as [|x rest]; [cbn in Hbk; lia|]. cbn [rev tl]. rewrite pop_last_app. cbn [obind].
    eexists _, x. split; [reflexivity|]. split; [reflexivity|].
    set (w := mkPvec _ _ _). assert (Ew : pv_elems w = rev rest) by (unfold pv_elems, tree_elems; cbn; now rewrite app_nil_r).
    rewrite <- Ew. apply pv_ok_represents. split.
    - rewrite Ew, rev_length. cbn in *. lia.
    - cbn. apply mk_tree_ok; [constructor|]. rewrite rev_length. unfold esize. cbn in *. lia. }
  destruct Hstep as (v2 & x & Ex & S2 & R2).
  assert (Rn : vec_run [PopFront] v1 = Ret (v2, snd (list_run [PopFront] l1))).
  { cbn [vec_run]. rewrite S2, Ex. reflexivity. }
  assert (Ef : fst (list_run [PopFront] l1) = tl l1) by (rewrite Ex; reflexivity).
  split.
  - exists v2. rewrite vec_run_app, R, list_run_app. fold l1. cbn [obind fst snd]. rewrite Rn. auto.
  - rewrite (faithful_after [PopFront] R). fold l1. split.
    + intros (w & E1 & Rep). rewrite Rn in E1. injection E1 as <-.
      rewrite Ef in Rep. destruct Rep as (_ & _ & A), R2 as (_ & _ & B). congruence.
    + intros Er. exists v2. split; [exact Rn|]. rewrite Ef. now rewrite <- Er at 1.
Qed.

(** *** The counts alone do not decide what happens at a hole *)
Definition same_option (a b : option nat) : bool :=
  match a, b with Some x, Some y => x =? y | None, None => true | _, _ => false end.
Lemma same_option_spec a b : same_option a b = true <-> a = b.
Proof.
  destruct a, b; cbn; split; intros H; try discriminate; auto; [apply Nat.eqb_eq in H; congruence|].
  injection H as <-. apply Nat.eqb_refl.
Qed.
Definition reads (v : pvec nat) (l : list nat) : bool :=
  (pv_len v =? length l) &&
  forallb (fun i => match pv_get v i with Ret o => same_option o (nth_error l i) | Panic => false end) (seq 0 (length l)).
Lemma reads_spec (v : pvec nat) l : reads v l = true <-> represents v l.
Proof.
  unfold reads. rewrite andb_true_iff, Nat.eqb_eq, forallb_forall. split.
  - intros [Hl H]. assert (G : forall i, pv_get v i = Ret (nth_error l i)).
    { intros i. destruct (Nat.lt_ge_cases i (length l)) as [L|L].
      - assert (Hi : In i (seq 0 (length l))) by (apply in_seq; lia). specialize (H i Hi). destruct (pv_get v i) as [o|]; [|discriminate].
        apply same_option_spec in H. now rewrite H.
      - unfold pv_get. rewrite (proj2 (Nat.leb_le _ _)) by lia. f_equal. symmetry. now apply nth_error_None. }
    split; [exact Hl|]. split; [exact G|]. unfold pv_to_vec, pv_iter. change (Ret l) with (Ret (skipn 0 l)).
    apply collect_read; [exact G|exact Hl|lia].
  - intros (Hl & G & _). split; [exact Hl|]. intros i _. rewrite G. now apply same_option_spec.
Qed.
Definition same_dec (a b : option nat) : {a = b} + {a <> b}.
Proof. repeat decide equality. Defined.
(** The list's side with a reversal that takes linear time *)
Definition fast_step (o : op nat) (l : list nat) : list nat * option nat :=
  match o with
  | PopBack => match rev_append l [] with [] => (l, None) | x :: r => (rev_append r [], Some x) end
  | _ => list_step o l
  end.
Lemma fast_step_eq o l : fast_step o l = list_step o l.
Proof.
  destruct o; try reflexivity. cbn [fast_step list_step]. rewrite <- rev_alt. destruct (rev l) as [|x r]; [reflexivity|].
  now rewrite <- rev_alt.
Qed.
Fixpoint fast_run (ops : list (op nat)) (l : list nat) : list nat * list (option nat) :=
  match ops with
  | [] => (l, [])
  | o :: ops' => let r := fast_step o l in let rs := fast_run ops' (fst r) in (fst rs, snd r :: snd rs)
  end.
Lemma fast_run_eq ops : forall l, fast_run ops l = list_run ops l.
Proof.
  induction ops as [|o ops IH]; intros l; [reflexivity|]. cbn [fast_run list_run]. rewrite fast_step_eq, IH.
  destruct (list_step o l) as [l1 r]. cbn [fst snd]. now destruct (list_run ops l1).
Qed.
Fixpoint fast_far (ops : list (op nat)) (l : list nat) (s : far) : option far :=
  match ops with
  | [] => Some s
  | o :: ops' => match far_step o l s with Some s' => fast_far ops' (fst (fast_step o l)) s' | None => None end
  end.
Lemma fast_far_eq ops : forall l s, fast_far ops l s = far_run ops l s.
Proof.
  induction ops as [|o ops IH]; intros l s; [reflexivity|]. cbn [fast_far far_run]. rewrite fast_step_eq.
  destruct (far_step o l s); auto.
Qed.
Definition right_run (v : pvec nat) l ops : bool :=
  match vec_run ops v with
  | Ret (v', rs) => let r := fast_run ops l in if list_eq_dec same_dec rs (snd r) then reads v' (fst r) else false
  | Panic => false
  end.
Lemma right_run_spec v l ops : right_run v l ops = true <-> faithful v l ops.
Proof.
  unfold right_run, faithful. rewrite fast_run_eq. cbv zeta. destruct (vec_run ops v) as [[v' rs]|].
  - destruct list_eq_dec as [->|N].
    + rewrite reads_spec. split; [intros H; exists v'; auto|]. now intros (w & [= <-] & H).
    + split; [discriminate|]. intros (w & [= <- E] & _). congruence.
  - split; [discriminate|]. now intros (w & E & _).
Qed.

(** Nothing left of sixty-eight elements *)
Definition emptied : list (op nat) := repeat PopFront 64 ++ repeat PopBack 4.
(** A hole made at the front, enough put before it to enclose it, all of that taken again: the hole has gone. *)
Definition enclosed_front : list (op nat) :=
  emptied ++ repeat (PushFront 9) (65 + 30 * 64) ++ repeat (PushBack 7) 65 ++ repeat PopFront (1 + 31 * 64).
Definition plain_front : list (op nat) := emptied ++ repeat (PushBack 7) 65.
(** The same from the other end *)
Definition enclosed_back : list (op nat) :=
  emptied ++ repeat (PushBack 9) (65 + 30 * 64) ++ repeat (PushFront 8) 65 ++ PopFront :: repeat PopBack (1 + 31 * 64) ++
  PopBack :: repeat (PushBack 7) 64.
Definition plain_back : list (op nat) :=
  emptied ++ repeat (PushFront 8) 65 ++ [PopFront; PopBack] ++ repeat (PushBack 7) 64.

(** Two histories of which [far_run] counts the same, after which the same call is right and wrong *)
Definition undecided (o : op nat) (s : far) : Prop :=
  exists l ops1 ops2, Forall (fun o => is_ends o = true) ops1 /\ Forall (fun o => is_ends o = true) ops2 /\
    far_run ops1 l (far_start (length l)) = Some s /\ far_run ops2 l (far_start (length l)) = Some s /\
    faithful (pv_from_iter l) l (ops1 ++ [o]) /\ ~ faithful (pv_from_iter l) l (ops2 ++ [o]).
Lemma ends_all (ops : list (op nat)) : forallb is_ends ops = true -> Forall (fun o => is_ends o = true) ops.
Proof. intros F. apply Forall_forall. now apply forallb_forall. Qed.
Lemma not_right v l ops : right_run v l ops = false -> ~ faithful v l ops.
Proof. intros E H. apply right_run_spec in H. congruence. Qed.
Theorem C04_counts_do_not_decide :
  undecided PopFront (Near (Holed 0 0 64 1)) /\ undecided (PushBack 7) (Trimmed 0 63 64).
Proof.
  split.
  - exists (seq 0 68), enclosed_front, plain_front.
    split; [apply ends_all; vm_compute; reflexivity|]. split; [apply ends_all; vm_compute; reflexivity|].
    split; [rewrite <- fast_far_eq; vm_compute; reflexivity|]. split; [rewrite <- fast_far_eq; vm_compute; reflexivity|].
    split; [apply right_run_spec; vm_compute; reflexivity|]. apply not_right. vm_compute. reflexivity.
  - exists (seq 0 68), enclosed_back, plain_back.
    split; [apply ends_all; vm_compute; reflexivity|]. split; [apply ends_all; vm_compute; reflexivity|].
    split; [rewrite <- fast_far_eq; vm_compute; reflexivity|]. split; [rewrite <- fast_far_eq; vm_compute; reflexivity|].
    split; [apply right_run_spec; vm_compute; reflexivity|]. apply not_right. vm_compute. reflexivity.
Qed.

(** ** Concrete histories meeting the hypotheses *)

(** Past a hole from the back: the middle used up from both ends behind it, and refilled at the front *)
Definition past_hole_history : list (op nat) :=
  emptied ++ repeat (PushFront 8) 70 ++ repeat PopFront 6 ++ repeat PopBack 5 ++ [PushBack 1; Update 58 3; PopBack; PopFront] ++
  repeat (PushFront 2) 66 ++ repeat (PushBack 4) 64 ++ [PopBack; Update 70 5].
Example C04_past_hole_case :
  wide_run past_hole_history (seq 0 68) (wide_start 68) = None /\
  far_run past_hole_history (seq 0 68) (far_start 68) = Some (Trimmed 2 122 63) /\
  faithful (pv_from_iter (seq 0 68)) (seq 0 68) past_hole_history.
Proof.
  assert (E : far_run past_hole_history (seq 0 68) (far_start 68) = Some (Trimmed 2 122 63)) by (vm_compute; reflexivity).
  split; [vm_compute; reflexivity|]. split; [exact E|]. apply C04_past_hole_partial; [constructor| |].
  - apply ends_all. vm_compute. reflexivity.
  - change (length (seq 0 68)) with 68. rewrite E. discriminate.
Qed.
Example C04_trimmed_pop_front_case :
  far_run (emptied ++ repeat (PushFront 8) 65 ++ [PopFront; PopBack] ++ repeat PopFront 63 ++ [PushBack 1; PushBack 2; PushBack 3])
    (seq 0 68) (far_start 68) = Some (Trimmed 0 0 3).
Proof. vm_compute. reflexivity. Qed.

Print Assumptions C04_past_hole_partial.
Print Assumptions C04_trimmed_pop_front_reverses.
Print Assumptions C04_counts_do_not_decide.

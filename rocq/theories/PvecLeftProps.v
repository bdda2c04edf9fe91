(** C04 after a hole was reached from the back: [pop_back] with an empty back buffer and a filled front buffer. *)
From Coq Require Import List Arith Lia Bool.
From Verif Require Import Base ListFacts PvecModel PvecSpec PvecFacts PvecShape PvecEnds PvecHist PvecFront PvecQueue
  PvecProps PvecDequeSpec PvecDequeProps PvecGapSpec PvecGapProps PvecTrimSpec PvecTrimProps.
Import ListNotations.
Open Scope outcome_scope.
Set Implicit Arguments.
Unset Strict Implicit.

Section Left.
Context {T : Type}.
Notation node := (node T).
Notation tree := (tree T).
Notation pvec := (pvec T).
Notation op := (op T).
Implicit Types (v : pvec) (t : tree) (l seen : list T).

(** ** What a vector stores, counted or not *)
Definition distinct seen l : Prop := NoDup l /\ incl l seen.
Lemma NoDup_middle (a b c : list T) : NoDup (a ++ b ++ c) -> NoDup (a ++ c).
Proof. induction b as [|x b IH]; [auto|]. intros H. apply IH. cbn [app] in H. now apply NoDup_remove_1 in H. Qed.
Lemma distinct_middle seen (a b c : list T) : distinct seen (a ++ b ++ c) -> distinct seen (a ++ c).
Proof.
  intros [H I]. split; [now apply NoDup_middle with b|]. intros x Hx. apply I. rewrite !in_app_iff in *. tauto.
Qed.
Lemma distinct_firstn seen (a b c : list T) m : distinct seen (a ++ b ++ c) -> distinct seen (a ++ firstn m b ++ c).
Proof.
  intros H. rewrite app_assoc. apply distinct_middle with (skipn m b). rewrite <- app_assoc. now rewrite (app_assoc (firstn m b)), firstn_skipn.
Qed.
Lemma distinct_push_back seen l x : distinct seen l -> NoDup (seen ++ [x]) -> distinct (seen ++ [x]) (l ++ [x]).
Proof.
  intros [H I] N. split; [|intros y; rewrite !in_app_iff; intros [Hy|Hy]; auto].
  apply NoDup_remove_2 in N as Nx. rewrite app_nil_r in Nx.
  apply NoDup_rev in H. rewrite <- (rev_involutive (l ++ [x])). apply NoDup_rev. rewrite rev_unit. constructor; [|exact H].
  rewrite <- in_rev. auto.
Qed.
Lemma distinct_push_front seen l x : distinct seen l -> NoDup (seen ++ [x]) -> distinct (seen ++ [x]) (x :: l).
Proof.
  intros [H I] N. apply NoDup_remove_2 in N as Nx. rewrite app_nil_r in Nx. split; [constructor; auto|].
  intros y [<-|Hy]; rewrite in_app_iff; cbn; auto.
Qed.
Lemma distinct_step seen l o : is_deque o = true -> distinct seen l -> NoDup (seen ++ puts o) ->
  distinct (seen ++ puts o) (fst (list_step o l)).
Proof.
  intros Ho H N. destruct o; try discriminate Ho; cbn [puts] in *.
  - now apply distinct_push_back.
  - now apply distinct_push_front.
  - rewrite app_nil_r. destruct (list_last_case l) as [->|(c & x & ->)]; [exact H|]. rewrite list_pop_back. cbn [fst].
    rewrite <- (app_nil_r c). apply distinct_middle with [x]. exact H.
  - rewrite app_nil_r. destruct l as [|x l]; [exact H|]. exact (@distinct_middle seen [] [x] l H).
Qed.

Lemma pop_back_stores v f m b l seen v' r : at_trim v f m b l -> distinct seen (pv_elems v) ->
  vec_step PopBack v = Ret (v', r) -> distinct seen (pv_elems v').
Proof.
  intros (t & Ei & Hl & Ht & Nk & _) H E. cbn [vec_step] in E. unfold pv_pop_back in E.
  destruct (pv_is_empty v); [now injection E as <- _|]. unfold pv_elems in H. rewrite Ei in *.
  assert (Keep : distinct seen (pv_elems v)) by (unfold pv_elems; now rewrite Ei).
  unfold tree_pop_back in E. destruct (t_len t =? 0); [now injection E as <- _|].
  destruct (list_last_case (t_tail t)) as [Et|(c & x & Et)]; rewrite Et in E.
  - cbn [pop_last] in E. unfold pop_from_tree in E. destruct (t_len t =? 0); [now injection E as <- _|].
    rewrite Et in E. destruct (usub (t_len t) (length [])) as [sz|]; [|discriminate]. cbn [obind] in E.
    destruct (sz =? 0); [now injection E as <- _|].
    destruct (node_get (t_root t) (sz - 1)) as [y|]; [|now injection E as <- _].
    unfold tree_elems in H. rewrite Et, app_nil_r in H. destruct (sz =? 1).
    + cbn [obind fst snd] in E. injection E as <- _. unfold pv_elems, tree_elems. cbn.
      apply (@distinct_middle seen (t_head t) (elems (t_root t)) []). now rewrite app_nil_r.
    + destruct (node_pop_back_safe Nk) as [E1|(n' & z & E1 & _ & Ee)]; rewrite E1 in E; cbn [obind fst snd] in E; injection E as <- _;
        unfold pv_elems, tree_elems; cbn [inner t_head t_root t_tail]; rewrite app_nil_r; [exact H|].
      rewrite Ee in H. rewrite <- (app_nil_r (t_head t ++ elems n')). apply distinct_middle with [z].
      now rewrite <- app_assoc.
  - rewrite pop_last_app in E. cbn [obind] in E. injection E as <- _. unfold pv_elems, tree_elems in *. cbn [inner t_head t_root t_tail].
    rewrite Et in H. rewrite app_assoc, <- (app_nil_r (_ ++ c)). apply distinct_middle with [x].
    now rewrite <- !app_assoc.
Qed.
Lemma stores_step v s s' l o seen v' r : at_far v s l -> is_deque o = true -> far_step o l s = Some s' ->
  distinct seen (pv_elems v) -> NoDup (seen ++ puts o) -> vec_step o v = Ret (v', r) -> distinct (seen ++ puts o) (pv_elems v').
Proof.
  intros H Ho E D N R.
  assert (Ho' : is_ends o = true) by (now destruct o).
  destruct (far_step_right H Ho' E) as (w & R' & P). rewrite R in R'. injection R' as <- _.
  assert (Dl : distinct seen l).
  { destruct s as [w0|f m b]; cbn [at_far] in H; [destruct H as [_ <-]; exact D|].
    destruct H as (t & Ei & _ & _ & _ & _ & _ & _ & _ & _ & ->). unfold pv_elems in D. rewrite Ei in D. now apply distinct_firstn. }
  destruct s' as [w'|f' m' b']; [cbn [at_far] in P; destruct P as [_ ->]; now apply distinct_step|].
  destruct o as [x|x| | | | | | | | | | | | | |]; try discriminate Ho; cbn [puts far_step] in *; rewrite ?app_nil_r in *.
  - destruct s as [w0|f m b]; cbn [far_push_back] in E; [discriminate|]. destruct (Nat.ltb_spec b 64) as [L|L]; [|discriminate].
    cbn [at_far] in H. destruct H as (t & Ei & _ & _ & _ & _ & Hb & _). cbn [vec_step] in R. injection R as <- _.
    unfold pv_elems in D. rewrite Ei in D. unfold pv_push_back. rewrite Ei. unfold pv_tree_push_back, tree_push_back.
    rewrite leaf64, Hb, (proj2 (Nat.ltb_lt _ _) L). unfold pv_elems, tree_push_back_tail, tree_elems. cbn [inner t_head t_root t_tail].
    rewrite 2 app_assoc. apply distinct_push_back; [|exact N]. rewrite <- app_assoc. exact D.
  - destruct s as [w0|f m b]; cbn [far_push_front] in E; [discriminate|].
    cbn [at_far] in H. destruct H as (t & Ei & _ & _ & Nk & Hf & _). cbn [vec_step] in R. injection R as <- _.
    unfold pv_elems in D. rewrite Ei in D. unfold pv_push_front. rewrite Ei. unfold pv_tree_push_front, tree_push_front.
    rewrite leaf64, Hf. destruct (Nat.ltb_spec f 64) as [L|L].
    + unfold pv_elems, tree_push_front_head, tree_elems. cbn [inner t_head t_root t_tail app]. now apply distinct_push_front.
    + unfold push_head_to_tree. destruct (t_head t) as [|y ys] eqn:Et; [cbn in Hf; lia|].
      destruct (@push_front_leaf_ok T (t_root t) (Leaf (y :: ys)) Nk (ok_leaf _)) as [_ Ee]. cbn [elems] in Ee.
      unfold pv_elems, tree_push_front_head, tree_elems. cbn [inner t_head t_root t_tail app]. rewrite Ee.
      apply distinct_push_front; [|exact N]. unfold tree_elems in D. rewrite Et in D. now rewrite <- app_assoc.
  - destruct s as [w0|f m b]; [|eapply pop_back_stores; [exact H|exact D|exact R]].
    cbn [at_far] in H. destruct H as [P0 El].
    assert (Case : (exists a, w0 = Holed 0 (S a) 0 0) \/ far_pop_back (Near w0) = option_map Near (wide_pop_back w0)).
    { destruct w0 as [s|[|f] [|a] [|z] [|b]]; eauto. }
    destruct Case as [[a ->]|Case].
    + eapply pop_back_stores; [exact (holed_trim P0)|exact D|exact R].
    + rewrite Case in E. destruct (wide_pop_back w0); discriminate.
  - destruct s as [w0|f m b]; cbn [far_pop_front] in E; [destruct (wide_pop_front w0); discriminate|].
    cbn [at_far] in H. destruct H as (t & Ei & Hl & Ht & Nk & Hf & Hb & _ & _ & Hr & El).
    unfold pv_elems in D. rewrite Ei in D. cbn [vec_step] in R. unfold pv_pop_front, pv_is_empty in R.
    destruct (Nat.eqb_spec (pv_len v) 0) as [Z|Z]; [injection R as <- _; unfold pv_elems; now rewrite Ei|].
    rewrite Ei in R. unfold tree_pop_front in R. rewrite (proj2 (Nat.eqb_neq _ _)) in R by lia.
    destruct (t_head t) as [|h hs] eqn:Eh.
    + cbn in Hf. subst f. destruct m as [|m].
      { destruct b as [|b]; [lia|]. destruct (S b <=? 2); discriminate. }
      unfold pop_front_from_tree in R. rewrite Eh, Ht in R. cbn [length] in R.
      rewrite usub_ok in R by lia. cbn [obind] in R. rewrite usub_ok in R by lia. cbn [obind] in R.
      rewrite (proj2 (Nat.ltb_lt _ _)) in R by lia. destruct (trimmed_pop_front Hr Nk) as (n' & x & E1 & _ & Ee & _).
      rewrite E1 in R. cbn [obind] in R. injection R as <- _. unfold pv_elems, tree_elems in *. cbn [inner t_head t_root t_tail].
      rewrite Eh in *. rewrite Ee in D. exact (@distinct_middle seen [] [x] _ D).
    + cbn [obind] in R. injection R as <- _. unfold pv_elems, tree_elems in *. cbn [inner t_head t_root t_tail].
      rewrite Eh in D. exact (@distinct_middle seen [] [h] _ D).
Qed.
Lemma stores_run ops : forall v s s' l seen, at_far v s l -> Forall (fun o => is_deque o = true) ops ->
  far_run ops l s = Some s' -> distinct seen (pv_elems v) -> NoDup (seen ++ flat_map puts ops) ->
  exists v', vec_run ops v = Ret (v', snd (list_run ops l)) /\ at_far v' s' (fst (list_run ops l)) /\ NoDup (pv_elems v').
Proof.
  induction ops as [|o ops IH]; intros v s s' l seen H Ho E D N.
  - injection E as <-. exists v. split; [reflexivity|]. split; [exact H|apply D].
  - inversion Ho as [|? ? Ho1 Ho2]; subst. cbn [far_run] in E. destruct (far_step o l s) as [s1|] eqn:E1; [|discriminate].
    assert (He : is_ends o = true) by (now destruct o). destruct (far_step_right H He E1) as (v1 & R1 & P1).
    cbn [flat_map] in N. rewrite app_assoc in N.
    assert (N1 : NoDup (seen ++ puts o)).
    { rewrite <- (app_nil_r (seen ++ puts o)). apply NoDup_middle with (flat_map puts ops). now rewrite app_nil_r. }
    pose proof (stores_step H Ho1 E1 D N1 R1) as D1.
    destruct (IH v1 s1 s' _ _ P1 Ho2 E D1 N) as (v2 & R2 & P2 & N2).
    exists v2. cbn [vec_run list_run]. rewrite R1. cbn [obind fst snd]. rewrite R2. cbn [obind fst snd].
    destruct (list_step o l) as [l1 r1]. cbn [fst snd] in *.
    destruct (list_run ops l1) as [l2 rs]. cbn [fst snd] in *. auto.
Qed.
Lemma NoDup_at (l : list T) i j x : NoDup l -> nth_error l i = Some x -> nth_error l j = Some x -> i = j.
Proof.
  intros N Hi Hj. apply (proj1 (NoDup_nth_error l) N); [|congruence]. apply nth_error_Some. congruence.
Qed.
End Left.

(** ** C04 *)

(** Always wrong if all elements ever put in are different *)
Theorem C04_trimmed_pop_back_wrong {T} (v : pvec T) l ops more f m : starts v l ->
  Forall (fun o => is_deque o = true) ops -> NoDup (l ++ flat_map puts ops) ->
  far_run ops l (far_start (length l)) = Some (Trimmed (S f) m 0) -> ~ faithful v l (ops ++ PopBack :: more).
Proof.
  intros Hs Ho N E F.
  assert (D : distinct l (pv_elems v)).
  { destruct (starts_far Hs) as [_ ->]. split; [|apply incl_refl].
    rewrite <- (app_nil_r l). apply NoDup_middle with (flat_map puts ops). now rewrite app_nil_r. }
  destruct (stores_run (starts_far Hs) Ho E D N) as (v1 & R & P & Nd).
  apply (proj1 (faithful_after (PopBack :: more) R)) in F. cbn [at_far] in P.
  set (l1 := fst (list_run ops l)) in *. pose proof (at_trim_length P) as Hsz.
  destruct (list_last_case l1) as [E0|(c & y & E0)]; [rewrite E0 in Hsz; cbn in Hsz; lia|].
  destruct F as (w & E1 & _). cbn [vec_run list_run] in E1. rewrite E0, list_pop_back in E1.
  destruct (list_run more c) as [l2 rs2]. cbn [fst snd] in E1.
  assert (Y : exists w', vec_step PopBack v1 = Ret (w', Some y)).
  { destruct (vec_step PopBack v1) as [[w' o]|]; [|discriminate]. cbn [obind fst snd] in E1.
    destruct (vec_run more w') as [[w2 rs]|]; [|discriminate]. cbn [obind fst snd] in E1. injection E1 as _ <- _. eauto. }
  destruct Y as (w' & Y). clear E1.
  assert (Yl : nth_error l1 (f + m) = Some y).
  { rewrite E0, nth_error_app2; rewrite E0, app_length in Hsz; cbn in Hsz; [|lia]. now replace (f + m - length c) with 0 by lia. }
  destruct P as (t & Ei & Hl & Ht & Nk & Hf & Hb & _ & _ & [Hle _] & El). rewrite El in Yl.
  apply length_zero_iff_nil in Hb. cbn [vec_step] in Y. unfold pv_pop_back, pv_is_empty in Y.
  rewrite (proj2 (Nat.eqb_neq _ _)), Ei in Y by lia. unfold tree_pop_back in Y.
  rewrite (proj2 (Nat.eqb_neq _ _)), Hb in Y by lia. cbn [pop_last] in Y. unfold pop_from_tree in Y.
  rewrite (proj2 (Nat.eqb_neq _ _)), Hb in Y by lia. rewrite usub_ok in Y by (cbn; lia). cbn [obind length] in Y.
  rewrite (proj2 (Nat.eqb_neq (t_len t - 0) 0)) in Y by lia. rewrite node_get_ok in Y by exact Nk.
  replace (t_len t - 0 - 1) with (f + m) in Y by lia.
  destruct (nth_error (elems (t_root t)) (f + m)) as [z|] eqn:Ez; [|cbn in Y; discriminate].
  assert (z = y).
  { destruct (t_len t - 0 =? 1); [cbn in Y; congruence|].
    destruct (node_pop_back (t_root t)) as [[[n' q]|]|]; cbn in Y; congruence. }
  subst z. unfold pv_elems in Nd. rewrite Ei in Nd. unfold tree_elems in Nd. rewrite Hb, app_nil_r in Nd, Yl.
  assert (I1 : nth_error (t_head t ++ elems (t_root t)) (S f + (f + m)) = Some y).
  { rewrite nth_error_app2 by lia. now replace (S f + (f + m) - length (t_head t)) with (f + m) by lia. }
  assert (I2 : nth_error (t_head t ++ elems (t_root t)) (f + m) = Some y).
  { destruct (Nat.lt_ge_cases (f + m) (S f)) as [L|L].
    - rewrite nth_error_app1 in * by lia. exact Yl.
    - rewrite nth_error_app2 in * by lia. rewrite nth_firstn in Yl by lia. exact Yl. }
  pose proof (NoDup_at Nd I1 I2). lia.
Qed.

(** Otherwise the counts do not decide: an element taken earlier is handed back once more, and may equal the right one. *)
Definition again (xs : list nat) : list (op nat) := emptied ++ map (@PushFront nat) xs ++ [PopFront; PopBack; PushFront 300].
Theorem C04_trimmed_pop_back_undecided : undecided PopBack (Trimmed 1 63 0).
Proof.
  exists (seq 0 68), (again (repeat 300 65)), (again (seq 100 65)).
  split; [apply ends_all; vm_compute; reflexivity|]. split; [apply ends_all; vm_compute; reflexivity|].
  split; [vm_compute; reflexivity|]. split; [vm_compute; reflexivity|].
  split; [apply right_run_spec; vm_compute; reflexivity|]. apply not_right. vm_compute. reflexivity.
Qed.

(** The other calls at which [far_run] stops and the counts decide, whatever was passed before *)
Theorem C04_stopped_pop_back_wrong {T} (v : pvec T) l ops more w : starts v l -> Forall (fun o => is_ends o = true) ops ->
  far_run ops l (far_start (length l)) = Some (Near w) -> far_pop_back (Near w) = None -> ~ faithful v l (ops ++ PopBack :: more).
Proof.
  intros Hs Ho E Hn F. destruct (far_run_right (starts_far Hs) Ho E) as (v1 & R & P & L).
  apply (proj1 (faithful_after (PopBack :: more) R)) in F. rewrite <- L in F. pose proof (at_wide_size P) as Hsz.
  assert (Sh : exists t, inner v1 = Tree t /\ 0 < length (t_head t) /\ t_tail t = [] /\ tree_ok t /\ tree_elems t = pv_elems v1).
  { destruct w as [[n|f m b]|f a z b].
    - discriminate Hn.
    - destruct f as [|f], b as [|b]; try discriminate Hn.
      destruct P as [[_ Hok] P]. unfold pv_elems. destruct (inner v1) as [|t]; [easy|]. destruct P as (Hf & _ & Hb & _).
      exists t. apply length_zero_iff_nil in Hb. repeat (split; auto). lia.
    - destruct f as [|f]; [destruct a, z, b; discriminate Hn|]. destruct b as [|b]; [|destruct a, z; discriminate Hn].
      destruct P as ([_ Hok] & t & Ei & Hf & _ & Hb & _). unfold pv_elems. rewrite Ei in *. exists t.
      apply length_zero_iff_nil in Hb. repeat (split; auto). lia. }
  destruct Sh as (t & Ei & Hf & Hb & [Nk Hlen] & Et). rewrite tree_elems_length, Hb in Hlen. cbn [length] in Hlen.
  assert (Hstep : vec_step PopBack v1 = Ret (v1, None)).
  { cbn [vec_step]. unfold pv_pop_back. destruct (pv_is_empty v1); [reflexivity|]. rewrite Ei.
    unfold tree_pop_back. rewrite (proj2 (Nat.eqb_neq _ _)) by lia.
    rewrite Hb. cbn [pop_last]. unfold pop_from_tree. rewrite (proj2 (Nat.eqb_neq _ _)), Hb by lia.
    rewrite usub_ok by (cbn; lia). cbn [obind length]. rewrite (proj2 (Nat.eqb_neq (t_len t - 0) 0)) by lia.
    rewrite node_get_ok by exact Nk.
    assert (En : nth_error (elems (t_root t)) (t_len t - 0 - 1) = None)
      by (apply nth_error_None; fold (esize (t_root t)); lia).
    rewrite En. reflexivity. }
  destruct F as (w' & E1 & _). cbn [vec_run] in E1. rewrite Hstep in E1. cbn [obind fst snd] in E1.
  destruct (vec_run more v1) as [[w2 rs]|]; [|discriminate]. cbn [obind fst snd] in E1.
  destruct (list_last_case (pv_elems v1)) as [E0|(c & x & E0)].
  { rewrite <- Et in E0. apply (f_equal (@length T)) in E0. rewrite tree_elems_length in E0. cbn in E0. lia. }
  cbn [list_run] in E1. rewrite E0, list_pop_back in E1. destruct (list_run more c) as [l2 rs2]. cbn in E1. discriminate.
Qed.
Lemma back_only_trim {T} (v : pvec T) s b l : at_far v s l -> back_only s = Some b -> at_trim v 0 0 b l.
Proof.
  destruct s as [[[n|[|f] [|m] b0]|[|f] [|a] [|z] b0]|[|f] [|m] b0]; try discriminate; intros P E; injection E as ->.
  - destruct P as [P <-]. pose proof (at_wide_size P) as Hsz. cbn [wide_size place_size Nat.add] in Hsz.
    destruct P as [[Hl Hok] P]. unfold pv_elems in *. destruct (inner v) as [|t] eqn:Ei; [easy|].
    destruct P as (Hf & Hm & Hb & Lb & _ & Hfl). destruct Hok as [Nk Hlen]. exists t.
    split; [exact Ei|]. split; [cbn; lia|]. split; [cbn; lia|]. split; [exact Nk|]. do 4 (split; [auto; lia|]).
    split; [split; [lia|left; auto]|]. unfold tree_elems. now rewrite (esize0 _ Hm).
  - destruct P as [P <-]. pose proof (at_wide_size P) as Hsz. cbn [wide_size Nat.add] in Hsz.
    destruct P as ([Hl Hok] & t & Ei & Hf & Hm & Hb & Lb & _ & Hh). unfold pv_elems in *. rewrite Ei in *.
    destruct Hok as [Nk Hlen]. cbn [Nat.add] in Hm. exists t.
    split; [exact Ei|]. split; [cbn; lia|]. split; [cbn; lia|]. split; [exact Nk|]. do 4 (split; [auto; lia|]).
    split; [split; [lia|destruct Hh as [Hh|Hh]; [left; auto|right; now rewrite Hm]]|]. unfold tree_elems. now rewrite (esize0 _ Hm).
  - exact P.
Qed.
Theorem C04_stopped_pop_front_reverses {T} (v : pvec T) l ops s b : starts v l -> Forall (fun o => is_ends o = true) ops ->
  far_run ops l (far_start (length l)) = Some s -> back_only s = Some b -> 3 <= b ->
  let left := tl (fst (list_run ops l)) in
  (exists v', vec_run (ops ++ [PopFront]) v = Ret (v', snd (list_run (ops ++ [PopFront]) l)) /\ represents v' (rev left)) /\
  (faithful v l (ops ++ [PopFront]) <-> rev left = left).
Proof.
  intros Hs Ho E Eb Hb left. destruct (far_run_right (starts_far Hs) Ho E) as (v1 & R & P0).
  pose proof (back_only_trim P0 Eb) as P. clear P0. unfold left.
  set (l1 := fst (list_run ops l)) in *. pose proof (at_trim_length P) as Hsz.
  assert (Hstep : exists v2 x, l1 = x :: tl l1 /\ vec_step PopFront v1 = Ret (v2, Some x) /\ represents v2 (rev (tl l1))).
  { cbn [vec_step]. destruct P as (t & Ei & Hl & Ht & Nk & Hf & Hbk & _ & _ & _ & El).
    apply length_zero_iff_nil in Hf. rewrite Hf in El. cbn [app firstn] in El. clearbody l1. subst l1.
    unfold pv_pop_front, pv_is_empty. rewrite (proj2 (Nat.eqb_neq _ _)), Ei by lia.
    unfold tree_pop_front. rewrite (proj2 (Nat.eqb_neq _ _)), Hf by lia. unfold pop_front_from_tree. rewrite Hf.
    cbn [length]. rewrite usub_ok by lia. cbn [obind]. rewrite usub_ok by lia. cbn [obind].
    rewrite (proj2 (Nat.ltb_ge _ _)) by lia. cbn [obind]. unfold pop_front_from_tail.
    destruct (t_tail t) as [|x rest]; [cbn in Hbk; lia|]. cbn [rev tl]. rewrite pop_last_app. cbn [obind].
    eexists _, x. split; [reflexivity|]. split; [reflexivity|].
    set (w := mkPvec _ _ _). assert (Ew : pv_elems w = rev rest) by (unfold pv_elems, tree_elems; cbn; now rewrite app_nil_r).
    rewrite <- Ew. apply pv_ok_represents. split.
    - rewrite Ew, rev_length. cbn in *. lia.
    - cbn. apply mk_tree_ok; [constructor|]. rewrite rev_length. unfold esize. cbn in *. lia. }
  destruct Hstep as (v2 & x & Ex & S2 & R2).
  assert (Rn : vec_run [PopFront] v1 = Ret (v2, snd (list_run [PopFront] l1))).
  { cbn [vec_run]. rewrite S2, Ex. reflexivity. }
  assert (Ef : fst (list_run [PopFront] l1) = tl l1) by (rewrite Ex; reflexivity).
  split.
  - exists v2. rewrite vec_run_app, R, list_run_app. fold l1. cbn [obind fst snd]. rewrite Rn. auto.
  - rewrite (faithful_after [PopFront] R). fold l1. split.
    + intros (w & E1 & Rep). rewrite Rn in E1. injection E1 as <-.
      rewrite Ef in Rep. destruct Rep as (_ & _ & A), R2 as (_ & _ & B). congruence.
    + intros Er. exists v2. split; [exact Rn|]. rewrite Ef. now rewrite <- Er at 1.
Qed.

(** ** Concrete histories meeting the hypotheses *)
Example C04_trimmed_pop_back_case :
  far_run (again (seq 100 65)) (seq 0 68) (far_start 68) = Some (Trimmed 1 63 0) /\
  ~ faithful (pv_from_iter (seq 0 68)) (seq 0 68) (again (seq 100 65) ++ [PopBack]).
Proof.
  split; [vm_compute; reflexivity|]. apply C04_trimmed_pop_back_wrong with 0 63; [constructor| | |vm_compute; reflexivity].
  - apply Forall_forall. apply forallb_forall. vm_compute. reflexivity.
  - assert (E : nodup Nat.eq_dec (seq 0 68 ++ flat_map puts (again (seq 100 65))) = seq 0 68 ++ flat_map puts (again (seq 100 65)))
      by (vm_compute; reflexivity).
    rewrite <- E. apply NoDup_nodup.
Qed.

(** A hole passed from the back, and the vector emptied *)
Definition passed : list (op nat) :=
  emptied ++ repeat (PushFront 8) 65 ++ repeat PopFront 1 ++ repeat PopBack 64.
Example C04_stopped_pop_back_case :
  wide_run (passed ++ [PushFront 1]) (seq 0 68) (wide_start 68) = None /\
  far_run (passed ++ [PushFront 1]) (seq 0 68) (far_start 68) = Some (Near (Whole (Long 1 0 0))) /\
  ~ faithful (pv_from_iter (seq 0 68)) (seq 0 68) ((passed ++ [PushFront 1]) ++ [PopBack]).
Proof.
  assert (E : far_run (passed ++ [PushFront 1]) (seq 0 68) (far_start 68) = Some (Near (Whole (Long 1 0 0))))
    by (vm_compute; reflexivity).
  split; [vm_compute; reflexivity|]. split; [exact E|].
  apply C04_stopped_pop_back_wrong with (Whole (Long 1 0 0)); [constructor| |exact E|reflexivity].
  apply ends_all. vm_compute. reflexivity.
Qed.
Example C04_stopped_pop_front_case :
  wide_run (passed ++ repeat (PushBack 1) 3) (seq 0 68) (wide_start 68) = None /\
  exists s, far_run (passed ++ repeat (PushBack 1) 3) (seq 0 68) (far_start 68) = Some s /\ back_only s = Some 3.
Proof. split; [vm_compute; reflexivity|]. eexists. split; vm_compute; reflexivity. Qed.

Print Assumptions C04_trimmed_pop_back_wrong.
Print Assumptions C04_trimmed_pop_back_undecided.
Print Assumptions C04_stopped_pop_back_wrong.
Print Assumptions C04_stopped_pop_front_reverses.

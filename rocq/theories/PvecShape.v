(** Shape invariants of the tree: depth, splitting and popping at the back. *)
From Coq Require Import List Arith Lia Bool.
From Verif Require Import Base ListFacts PvecModel PvecFacts.
Import ListNotations.
Open Scope outcome_scope.
Set Implicit Arguments.

Section Shape.
Context {T : Type}.
Notation node := (node T).
Notation tree := (tree T).
Notation pvec := (pvec T).

Fixpoint depth (n : node) : nat :=
  match n with
  | Leaf _ => 0
  | Branch cs _ => S (list_max (map depth cs))
  end.

Lemma list_max_In l x : In x l -> x <= list_max l.
Proof.
  intros H. pose proof (proj1 (list_max_le l (list_max l)) (le_n _)) as F.
  rewrite Forall_forall in F. auto.
Qed.

Lemma depth_child cs sz k c : nth_error cs k = Some c -> depth c < depth (Branch cs sz).
Proof.
  intros H. cbn. apply le_n_S. apply list_max_In. apply in_map.
  now apply nth_error_In with k.
Qed.

(** ** Splitting *)

(** [splits n i l r]: the shape of a correct split of [n] at [i < size]. *)
Inductive splits : node -> nat -> node -> node -> Prop :=
| sp_leaf es i :
    i < length es -> splits (Leaf es) i (Leaf (firstn i es)) (Leaf (skipn i es))
| sp_branch cs sz k c j l r :
    nth_error cs k = Some c -> j < esize c -> splits c j l r ->
    splits (Branch cs sz) (length (flat_map elems (firstn k cs)) + j)
      (create_left_branch cs k l) (create_right_branch cs k r).

Lemma sum_firstn_sizes (cs : list node) k :
  sum_list (firstn k (map esize cs)) = length (flat_map elems (firstn k cs)).
Proof. now rewrite firstn_map, length_flat_map. Qed.

Lemma split_along_path_splits n h h2 i :
  node_ok n -> depth n <= h -> i < esize n ->
  exists l r, split_along_path n (find_path_to_index h n i) i h2 = (l, r) /\ splits n i l r.
Proof.
  revert h h2 i; induction n as [es|cs sz IH] using node_ind'; intros h h2 i Hok Hd Hi.
  - exists (Leaf (firstn i es)), (Leaf (skipn i es)). split.
    + destruct (find_path_to_index h (Leaf es) i); reflexivity.
    + now constructor.
  - apply node_ok_branch_inv in Hok as (Hne & Hok & ->).
    destruct h as [|h]; [cbn in Hd; lia|].
    cbn [find_path_to_index find_child_relaxed].
    destruct (scan0 cs i) as [[Hlt (k & j & c & E & Hc & Hj & Hij)]|[Hge E]].
    2:{ unfold esize in Hi. cbn in Hi. lia. }
    rewrite E, Hc. cbn [split_along_path calculate_adjusted_index].
    rewrite (nth_error_map_some _ _ _ Hc).
    rewrite sum_firstn_sizes.
    replace (i - length (flat_map elems (firstn k cs))) with j by lia.
    pose proof (@depth_child cs (Some (map esize cs)) k c Hc) as Hdc.
    destruct (Forall_nth _ IH Hc h (h2 - 1) j (Forall_nth _ Hok Hc)) as (l & r & E1 & S1);
      [lia|auto|].
    rewrite E1. eexists _, _; split; [reflexivity|].
    rewrite Hij. eapply sp_branch; eauto.
Qed.

Lemma opt_child_elems (l : node) : node_ok l ->
  flat_map elems (if 0 <? calculate_size l then [l] else []) = elems l.
Proof.
  intros H. rewrite calculate_size_ok by auto.
  destruct (Nat.ltb_spec 0 (esize l)) as [Hs|Hs]; cbn.
  - apply app_nil_r.
  - unfold esize in Hs. destruct (elems l); [reflexivity|cbn in Hs; lia].
Qed.

Lemma opt_child_ok (l : node) : node_ok l ->
  Forall node_ok (if 0 <? calculate_size l then [l] else []).
Proof. intros H. destruct (0 <? calculate_size l); auto. Qed.

Lemma opt_branch_ok (cs : list node) : Forall node_ok cs ->
  node_ok (match cs with [] => Leaf [] | _ => make_relaxed cs end) /\
  elems (match cs with [] => Leaf [] | _ => make_relaxed cs end) = flat_map elems cs.
Proof.
  intros H. destruct cs as [|c cs]; [split; [constructor|reflexivity]|].
  split; [apply make_relaxed_ok; [discriminate|auto]|reflexivity].
Qed.

Lemma Forall_firstn' {A} (P : A -> Prop) k l : Forall P l -> Forall P (firstn k l).
Proof. intros H. rewrite <- (firstn_skipn k l) in H. now apply Forall_app in H. Qed.
Lemma Forall_skipn' {A} (P : A -> Prop) k l : Forall P l -> Forall P (skipn k l).
Proof. intros H. rewrite <- (firstn_skipn k l) in H. now apply Forall_app in H. Qed.

Lemma create_left_branch_ok (cs : list node) k l : Forall node_ok cs -> node_ok l ->
  node_ok (create_left_branch cs k l) /\
  elems (create_left_branch cs k l) = flat_map elems (firstn k cs) ++ elems l.
Proof.
  intros H1 H2. unfold create_left_branch.
  destruct (@opt_branch_ok (firstn k cs ++ (if 0 <? calculate_size l then [l] else [])))
    as [B1 B2].
  { apply Forall_app; split; [now apply Forall_firstn'|now apply opt_child_ok]. }
  split; auto. rewrite B2, flat_map_app. now rewrite opt_child_elems.
Qed.

Lemma create_right_branch_ok (cs : list node) k r : Forall node_ok cs -> node_ok r ->
  node_ok (create_right_branch cs k r) /\
  elems (create_right_branch cs k r) = elems r ++ flat_map elems (skipn (k + 1) cs).
Proof.
  intros H1 H2. unfold create_right_branch.
  destruct (@opt_branch_ok ((if 0 <? calculate_size r then [r] else []) ++ skipn (k + 1) cs))
    as [B1 B2].
  { apply Forall_app; split; [now apply opt_child_ok|now apply Forall_skipn']. }
  split; auto. rewrite B2, flat_map_app. now rewrite opt_child_elems.
Qed.

Lemma splits_ok n i l r : splits n i l r -> node_ok n ->
  node_ok l /\ node_ok r /\ elems l = firstn i (elems n) /\ elems r = skipn i (elems n) /\
  i < esize n.
Proof.
  induction 1 as [es i Hi|cs sz k c j l r Hc Hj Hs IH]; intros Hok.
  - repeat split; try constructor. exact Hi.
  - apply node_ok_branch_inv in Hok as (Hne & Hok & ->).
    destruct (IH (Forall_nth _ Hok Hc)) as (L1 & R1 & L2 & R2 & _).
    destruct (create_left_branch_ok k Hok L1) as [CL1 CL2].
    destruct (create_right_branch_ok k Hok R1) as [CR1 CR2].
    split; auto. split; auto.
    rewrite CL2, CR2, L2, R2. cbn [elems].
    assert (E : flat_map elems cs = flat_map elems (firstn k cs) ++ elems c ++
                 flat_map elems (skipn (k + 1) cs)).
    { rewrite (nth_error_split' _ _ Hc) at 1. rewrite flat_map_app. cbn [flat_map].
      now rewrite Nat.add_1_r. }
    unfold esize in *. cbn [elems]. rewrite E.
    rewrite firstn_app, skipn_app.
    rewrite (firstn_all2 (flat_map elems (firstn k cs))) by lia. rewrite (skipn_all2 (flat_map elems (firstn k cs))) by lia.
    replace (length (flat_map elems (firstn k cs)) + j - length (flat_map elems (firstn k cs)))
      with j by lia.
    rewrite firstn_app, skipn_app.
    replace (j - length (elems c)) with 0 by lia.
    rewrite firstn_O, app_nil_r, skipn_O. cbn. rewrite !app_length.
    repeat split; auto. lia.
Qed.

(** ** Uniform trees and the class produced by back operations *)

Definition neleaf (n : node) : Prop :=
  match n with Leaf es => es <> [] | Branch _ _ => False end.

Fixpoint uni (d : nat) (n : node) : Prop :=
  match n with
  | Leaf es => d = 0 /\ es <> []
  | Branch cs _ =>
      match d with
      | 0 => False
      | S d' => cs <> [] /\ (fix all (cs : list node) : Prop :=
                               match cs with [] => True | c :: cs' => uni d' c /\ all cs' end) cs
      end
  end.

Lemma uni_branch d cs sz :
  uni d (Branch cs sz) <-> exists d', d = S d' /\ cs <> [] /\ Forall (uni d') cs.
Proof.
  destruct d as [|d]; cbn [uni].
  - split; [tauto|]. now intros (d' & ? & _).
  - assert (A : forall cs : list node, ((fix all (cs : list node) : Prop :=
        match cs with [] => True | c :: cs' => uni d c /\ all cs' end) cs) <-> Forall (uni d) cs).
    { induction cs0 as [|c cs0 IH]; [split; auto|]. rewrite IH. split.
      - intros [? ?]; auto.
      - inversion 1; auto. }
    split.
    + intros [H1 H2]. exists d. rewrite <- A. auto.
    + intros (d' & E & H1 & H2). injection E as <-. rewrite A. auto.
Qed.

Lemma uni_leaf d es : uni d (Leaf es) <-> d = 0 /\ es <> [].
Proof. destruct d; reflexivity. Qed.

Lemma neleaf_uni n : neleaf n <-> uni 0 n.
Proof. destruct n as [es|cs sz]; cbn; split; intuition. Qed.

Lemma Forall_neleaf_uni ls : Forall neleaf ls <-> Forall (uni 0) ls.
Proof.
  split; intros H; eapply Forall_impl; try exact H; intros a; apply neleaf_uni.
Qed.

Lemma list_max_const l d : l <> [] -> Forall (fun x => x = d) l -> list_max l = d.
Proof.
  intros Hne H. apply Nat.le_antisymm.
  - apply list_max_le. eapply Forall_impl; [|exact H]. cbn; intros ? ->; lia.
  - destruct l as [|x l]; [easy|]. inversion H; subst. apply list_max_In. now left.
Qed.

Lemma uni_depth d n : uni d n -> depth n = d /\ calculate_height n = d.
Proof.
  revert d; induction n as [es|cs sz IH] using node_ind'; intros d H.
  - apply uni_leaf in H as [-> _]. auto.
  - apply uni_branch in H as (d' & -> & Hne & H).
    assert (HF : Forall (fun n => depth n = d' /\ calculate_height n = d') cs).
    { rewrite Forall_forall in *. intros c Hc. auto. }
    split.
    + cbn. f_equal. apply list_max_const.
      * destruct cs; [easy|discriminate].
      * rewrite Forall_map. eapply Forall_impl; [|exact HF]. now intros ? [? _].
    + destruct cs as [|c cs]; [easy|]. cbn. inversion HF as [|? ? [_ E] _]; subst. lia.
Qed.

Lemma uni_size d n : uni d n -> 0 < esize n.
Proof.
  revert d; induction n as [es|cs sz IH] using node_ind'; intros d H.
  - apply uni_leaf in H as [_ H]. unfold esize; cbn. destruct es; [easy|cbn; lia].
  - apply uni_branch in H as (d' & -> & Hne & H).
    destruct cs as [|c cs]; [easy|]. inversion H; inversion IH; subst.
    unfold esize; cbn. rewrite app_length. fold (esize c).
    specialize (H6 d' H2). lia.
Qed.

(** Shapes reachable by building at once and then pushing, popping and
    splitting at the back. *)
Inductive gshape : node -> Prop :=
| G_leaf es : gshape (Leaf es)
| G_uni d us ls sz :
    us <> [] -> Forall (uni d) us -> Forall neleaf ls -> gshape (Branch (us ++ ls) sz)
| G_one g ls sz :
    gshape g -> Forall neleaf ls -> gshape (Branch (g :: ls) sz).

Lemma list_max_cons_leaves d ls : Forall neleaf ls -> list_max (d :: map depth ls) = d.
Proof.
  intros H. apply Nat.le_antisymm.
  - apply list_max_le. constructor; auto. rewrite Forall_map.
    eapply Forall_impl; [|exact H]. intros [es|cs sz]; cbn; intros; [lia|easy].
  - apply list_max_In. now left.
Qed.

Lemma gshape_depth n : gshape n -> calculate_height n = depth n.
Proof.
  induction 1 as [es|d us ls sz Hne Hu Hl|g ls sz Hg IH Hl].
  - reflexivity.
  - destruct us as [|u us]; [easy|].
    inversion Hu as [|? ? Hu1 Hu2]; subst. destruct (uni_depth _ _ Hu1) as [D1 D2].
    cbn [app calculate_height depth map]. rewrite D1, D2.
    change (1 + d) with (S d). f_equal. symmetry. rewrite map_app.
    apply Nat.le_antisymm.
    + apply list_max_le. constructor; auto. apply Forall_app; split; rewrite Forall_map.
      * eapply Forall_impl; [|exact Hu2]. intros a Ha. destruct (uni_depth _ _ Ha). lia.
      * eapply Forall_impl; [|exact Hl]. intros [es|cs sz']; cbn; intros; [lia|easy].
    + apply list_max_In. now left.
  - cbn [calculate_height depth map]. rewrite (list_max_cons_leaves _ Hl). now rewrite IH.
Qed.

Lemma uni_gshape d n : uni d n -> gshape n.
Proof.
  destruct n as [es|cs sz]; intros H; [constructor|].
  apply uni_branch in H as (d' & -> & Hne & H).
  rewrite <- (app_nil_r cs). now apply G_uni with d'.
Qed.

Lemma uni_G_depth d us ls sz :
  us <> [] -> Forall (uni d) us -> Forall neleaf ls -> depth (Branch (us ++ ls) sz) = S d.
Proof.
  intros Hne Hu Hl.
  assert (G : gshape (Branch (us ++ ls) sz)) by now apply G_uni with d.
  rewrite <- gshape_depth by exact G.
  destruct us as [|u us]; [easy|]. inversion Hu as [|? ? Hu1 _]; subst.
  destruct (uni_depth _ _ Hu1) as [_ D2]. cbn. lia.
Qed.

Lemma nonempty_size (n : node) : node_ok n -> elems n <> [] -> 0 <? calculate_size n = true.
Proof.
  intros H1 H2. rewrite calculate_size_ok by auto. apply Nat.ltb_lt.
  unfold esize. destruct (elems n); [easy|cbn; lia].
Qed.

Lemma empty_size (n : node) : node_ok n -> elems n = [] -> 0 <? calculate_size n = false.
Proof.
  intros H1 H2. rewrite calculate_size_ok by auto. unfold esize. now rewrite H2.
Qed.

Lemma skipn_nonempty {A} i (l : list A) : i < length l -> skipn i l <> [].
Proof.
  intros H E. apply (f_equal (@length _)) in E. rewrite skipn_length in E. cbn in E. lia.
Qed.
Lemma firstn_nonempty {A} i (l : list A) : 0 < i -> i < length l -> firstn i l <> [].
Proof.
  intros H H2 E. apply (f_equal (@length _)) in E. rewrite firstn_length in E. cbn in E. lia.
Qed.

Lemma splits_uni n i l r : splits n i l r -> node_ok n ->
  forall d, uni d n -> (0 < i -> uni d l) /\ uni d r.
Proof.
  induction 1 as [es i Hi|cs sz k c j l r Hc Hj Hs IH]; intros Hok d Hd.
  - apply uni_leaf in Hd as [-> Hne]. split.
    + intros Hp. split; auto. now apply firstn_nonempty.
    + split; auto. now apply skipn_nonempty.
  - apply node_ok_branch_inv in Hok as (Hne & Hok & ->).
    apply uni_branch in Hd as (d' & -> & _ & Hu).
    pose proof (Forall_nth _ Hok Hc) as Hokc.
    destruct (IH Hokc _ (Forall_nth _ Hu Hc)) as [Ul Ur].
    destruct (splits_ok Hs Hokc) as (L1 & R1 & L2 & R2 & Hlt).
    split.
    + intros Hp. unfold create_left_branch.
      destruct (Nat.eq_dec j 0) as [->|Hj0].
      * rewrite empty_size; auto. rewrite app_nil_r.
        destruct (firstn k cs) as [|x xs] eqn:E; [cbn in Hp; lia|].
        apply uni_branch. exists d'. split; auto. split; [discriminate|].
        rewrite <- E. now apply Forall_firstn'.
      * rewrite nonempty_size; auto.
        2:{ rewrite L2. apply firstn_nonempty; [lia|exact Hlt]. }
        destruct (firstn k cs ++ [l]) as [|x xs] eqn:E; [destruct (firstn k cs); discriminate|].
        apply uni_branch. exists d'. split; auto. split; [discriminate|].
        rewrite <- E. apply Forall_app; split; [now apply Forall_firstn'|].
        constructor; auto. apply Ul. lia.
    + unfold create_right_branch. rewrite nonempty_size; auto.
      2:{ rewrite R2. now apply skipn_nonempty. }
      cbn [app]. apply uni_branch. exists d'. split; auto. split; [discriminate|].
      constructor; auto. now apply Forall_skipn'.
Qed.

Lemma leaves_gshape ls : Forall neleaf ls ->
  gshape (match ls with [] => Leaf [] | _ => make_relaxed ls end).
Proof.
  intros H. destruct ls as [|x xs]; [constructor|].
  unfold make_relaxed. apply G_one.
  - inversion H; subst. apply uni_gshape with 0. now apply neleaf_uni.
  - now inversion H.
Qed.

Lemma leaves_depth ls : Forall neleaf ls ->
  depth (match ls with [] => Leaf [] | _ => make_relaxed ls end) <= 1.
Proof.
  intros H. destruct ls as [|x xs]; [cbn; lia|].
  unfold make_relaxed. cbn [depth map]. inversion H; subst.
  rewrite list_max_cons_leaves by auto. destruct x; cbn; [lia|easy].
Qed.

Lemma firstn_app_le {A} k (l1 l2 : list A) : k <= length l1 -> firstn k (l1 ++ l2) = firstn k l1.
Proof.
  intros H. rewrite firstn_app. replace (k - length l1) with 0 by lia. apply app_nil_r.
Qed.
Lemma skipn_app_le {A} k (l1 l2 : list A) : k <= length l1 -> skipn k (l1 ++ l2) = skipn k l1 ++ l2.
Proof. intros H. rewrite skipn_app. now replace (k - length l1) with 0 by lia. Qed.

(** Both halves of a split stay in the class; the left half is at least as
    deep as the right one when it is not empty. *)
Lemma splits_gshape n i l r : splits n i l r -> node_ok n -> gshape n ->
  gshape l /\ gshape r /\ depth r <= depth n /\ (0 < i -> depth r <= depth l).
Proof.
  intros Hs. induction Hs as [es i Hi|cs sz k c j l r Hc Hj Hs IH]; intros Hok Hg.
  - repeat split; try constructor.
  - apply node_ok_branch_inv in Hok as (Hne & Hok & ->).
    pose proof (Forall_nth _ Hok Hc) as Hokc.
    destruct (splits_ok Hs Hokc) as (L1 & R1 & L2 & R2 & Hlt).
    inversion Hg as [|d us ls sz' Hune Hu Hl Heq|g ls sz' Hgg Hl Heq]; subst.
    + (* uniform prefix *)
      destruct (Nat.lt_ge_cases k (length us)) as [Hk|Hk].
      * rewrite nth_error_app1 in Hc by auto.
        destruct (splits_uni Hs Hokc _ (Forall_nth _ Hu Hc)) as [Ul Ur].
        assert (GR : exists us', us' <> [] /\ Forall (uni d) us' /\
                  create_right_branch (us ++ ls) k r = make_relaxed (us' ++ ls)).
        { exists (r :: skipn (k + 1) us). split; [discriminate|]. split.
          - constructor; auto. now apply Forall_skipn'.
          - unfold create_right_branch. rewrite nonempty_size; auto.
            2:{ rewrite R2. now apply skipn_nonempty. }
            cbn [app]. now rewrite skipn_app_le by lia. }
        destruct GR as (us' & G1 & G2 & G3). rewrite G3.
        assert (DR : depth (make_relaxed (us' ++ ls)) = S d) by now apply uni_G_depth.
        rewrite DR.
        assert (DN : forall s, depth (Branch (us ++ ls) s) = S d) by (intros; now apply uni_G_depth).
        rewrite DN.
        assert (GL : gshape (create_left_branch (us ++ ls) k l) /\
            (0 < length (flat_map elems (firstn k (us ++ ls))) + j ->
             S d <= depth (create_left_branch (us ++ ls) k l))).
        { unfold create_left_branch. rewrite firstn_app_le by lia.
          destruct (Nat.eq_dec j 0) as [->|Hj0].
          - rewrite empty_size; auto. rewrite app_nil_r.
            destruct (firstn k us) as [|x xs] eqn:E.
            + split; [constructor|cbn; lia].
            + unfold make_relaxed. rewrite <- E.
              assert (U : uni (S d) (Branch (firstn k us) (Some (map calculate_size (firstn k us))))).
              { apply uni_branch. exists d. split; auto. split; [rewrite E; discriminate|].
                now apply Forall_firstn'. }
              split; [now apply uni_gshape with (S d)|].
              intros _. destruct (uni_depth _ _ U) as [-> _]. lia.
          - rewrite nonempty_size; auto.
            2:{ rewrite L2. apply firstn_nonempty; [lia|exact Hlt]. }
            destruct (firstn k us ++ [l]) as [|x xs] eqn:E; [destruct (firstn k us); discriminate|].
            unfold make_relaxed. rewrite <- E.
            assert (U : uni (S d) (Branch (firstn k us ++ [l])
                                     (Some (map calculate_size (firstn k us ++ [l]))))).
            { apply uni_branch. exists d. split; auto. split; [rewrite E; discriminate|].
              apply Forall_app; split; [now apply Forall_firstn'|].
              constructor; auto. apply Ul; lia. }
            split; [now apply uni_gshape with (S d)|].
            intros _. destruct (uni_depth _ _ U) as [-> _]. lia. }
        destruct GL as [GL1 GL2]. split; auto. split; [now apply G_uni with d|]. split; auto.
      * rewrite nth_error_app2 in Hc by auto.
        pose proof (Forall_nth _ Hl Hc) as Hcl.
        apply neleaf_uni in Hcl.
        destruct (splits_uni Hs Hokc _ Hcl) as [Ul Ur].
        assert (DN : forall s, depth (Branch (us ++ ls) s) = S d) by (intros; now apply uni_G_depth).
        rewrite DN.
        assert (GR : gshape (create_right_branch (us ++ ls) k r) /\
                     depth (create_right_branch (us ++ ls) k r) <= 1).
        { unfold create_right_branch. rewrite skipn_app.
          rewrite (skipn_all2 us) by lia. cbn [app].
          rewrite nonempty_size; auto.
          2:{ rewrite R2. now apply skipn_nonempty. }
          assert (F : Forall neleaf ([r] ++ skipn (k + 1 - length us) ls)).
          { apply Forall_app; split; [|now apply Forall_skipn'].
            constructor; auto. now apply neleaf_uni. }
          split; [now apply leaves_gshape|now apply leaves_depth]. }
        destruct GR as [GR1 GR2].
        assert (GL : gshape (create_left_branch (us ++ ls) k l) /\
                     depth (create_left_branch (us ++ ls) k l) = S d).
        { unfold create_left_branch. rewrite firstn_app.
          rewrite (firstn_all2 us) by lia.
          set (tl := if 0 <? calculate_size l then [l] else []).
          assert (F : Forall neleaf (firstn (k - length us) ls ++ tl)).
          { apply Forall_app; split; [now apply Forall_firstn'|]. unfold tl.
            destruct (Nat.eq_dec j 0) as [->|Hj0].
            - rewrite empty_size; auto.
            - rewrite nonempty_size; auto.
              + constructor; auto. apply neleaf_uni. apply Ul; lia.
              + rewrite L2. apply firstn_nonempty; [lia|exact Hlt]. }
          rewrite <- app_assoc.
          destruct (us ++ firstn (k - length us) ls ++ tl) as [|x xs] eqn:E.
          { destruct us; [easy|discriminate]. }
          rewrite <- E. split; [now apply G_uni with d|]. now apply uni_G_depth. }
        destruct GL as [GL1 GL2]. rewrite GL2. repeat split; auto; lia.
    + (* single subtree followed by leaves *)
      destruct k as [|k].
      * cbn in Hc. injection Hc as ->.
        destruct (IH Hokc Hgg) as (IL & IR & ID & IDL).
        unfold create_left_branch, create_right_branch. cbn [firstn flat_map app length].
        change (skipn (0 + 1) (c :: ls)) with ls.
        rewrite (nonempty_size R1).
        2:{ rewrite R2. now apply skipn_nonempty. }
        cbn [app]. split; [|split; [|split]].
        -- destruct (0 <? calculate_size l); [|constructor].
           apply G_one; auto.
        -- now apply G_one.
        -- unfold make_relaxed. cbn [depth map].
           rewrite !list_max_cons_leaves by auto. lia.
        -- cbn [length]. intros Hp. rewrite nonempty_size; auto.
           2:{ rewrite L2. apply firstn_nonempty; [lia|exact Hlt]. }
           unfold make_relaxed. cbn [depth map].
           rewrite !list_max_cons_leaves by auto. cbn [list_max fold_right].
           specialize (IDL ltac:(lia)). cbn. lia.
      * cbn in Hc.
        pose proof (Forall_nth _ Hl Hc) as Hcl.
        apply neleaf_uni in Hcl.
        destruct (splits_uni Hs Hokc _ Hcl) as [Ul Ur].
        assert (GR : gshape (create_right_branch (g :: ls) (S k) r) /\
                     depth (create_right_branch (g :: ls) (S k) r) <= 1).
        { unfold create_right_branch. cbn [skipn plus].
          rewrite nonempty_size; auto.
          2:{ rewrite R2. now apply skipn_nonempty. }
          assert (F : Forall neleaf ([r] ++ skipn (k + 1) ls)).
          { apply Forall_app; split; [|now apply Forall_skipn'].
            constructor; auto. now apply neleaf_uni. }
          split; [now apply leaves_gshape|now apply leaves_depth]. }
        destruct GR as [GR1 GR2].
        assert (GL : gshape (create_left_branch (g :: ls) (S k) l) /\
                     depth (create_left_branch (g :: ls) (S k) l) = S (depth g)).
        { unfold create_left_branch. cbn [firstn app].
          set (tl := if 0 <? calculate_size l then [l] else []).
          assert (F : Forall neleaf (firstn k ls ++ tl)).
          { apply Forall_app; split; [now apply Forall_firstn'|]. unfold tl.
            destruct (Nat.eq_dec j 0) as [->|Hj0].
            - rewrite empty_size; auto.
            - rewrite nonempty_size; auto.
              + constructor; auto. apply neleaf_uni. apply Ul; lia.
              + rewrite L2. apply firstn_nonempty; [lia|exact Hlt]. }
          split; [now apply G_one|].
          unfold make_relaxed. cbn [depth map]. now rewrite list_max_cons_leaves. }
        destruct GL as [GL1 GL2]. rewrite GL2.
        cbn [depth map]. rewrite list_max_cons_leaves by auto.
        repeat split; auto; lia.
Qed.

End Shape.

(** Popping at either end of a node. *)
From Coq Require Import List Arith Lia Bool.
From Verif Require Import Base ListFacts PvecModel PvecFacts PvecShape.
Import ListNotations.
Open Scope outcome_scope.
Set Implicit Arguments.

Section Ends.
Context {T : Type}.
Notation node := (node T).
Notation tree := (tree T).
Notation pvec := (pvec T).

Definition drop_back (cs' : list node) (c' : node) : node :=
  if esize c' =? 0
  then match cs' with [] => Leaf [] | _ => Branch cs' (Some (map esize cs')) end
  else Branch (cs' ++ [c']) (Some (map esize (cs' ++ [c']))).

Definition drop_front (c' : node) (cs' : list node) : node :=
  if esize c' =? 0
  then match cs' with [] => Leaf [] | _ => Branch cs' (Some (map esize cs')) end
  else Branch (c' :: cs') (Some (map esize (c' :: cs'))).

Lemma node_pop_back_branch cs' c c' x :
  node_ok c' -> node_pop_back c = Ret (Some (c', x)) ->
  node_pop_back (Branch (cs' ++ [c]) (Some (map esize (cs' ++ [c])))) =
  Ret (Some (drop_back cs' c', x)).
Proof.
  intros Hok Hp. cbn [node_pop_back].
  assert (Hl : length (cs' ++ [c]) - 1 = length cs') by (rewrite app_length; cbn; lia).
  rewrite Hl.
  assert (Hn : nth_error (cs' ++ [c]) (length cs') = Some c).
  { rewrite nth_error_app2, Nat.sub_diag by lia. reflexivity. }
  rewrite (nth_error_map_some _ _ _ Hn). rewrite Hp. cbn [obind].
  rewrite calculate_size_ok by auto. unfold drop_back.
  destruct (esize c' =? 0).
  - rewrite removelast_snoc. unfold sizes_after_removal.
    destruct cs' as [|a cs']; [reflexivity|].
    cbn [length Nat.eqb]. rewrite map_app. cbn [map]. rewrite removelast_snoc. reflexivity.
  - cbn [sizes_after_update]. rewrite (list_set_split _ _ _ Hn).
    rewrite firstn_all_app by reflexivity.
    rewrite skipn_all2 by (rewrite app_length; cbn; lia).
    do 4 f_equal. rewrite (@list_set_split _ (map esize (cs' ++ [c])) (length cs') (esize c) (esize c')).
    2:{ apply map_nth_error. exact Hn. }
    rewrite map_app, firstn_all_app by now rewrite map_length.
    rewrite skipn_all2 by (rewrite app_length, map_length; cbn; lia).
    now rewrite map_app.
Qed.

Lemma node_pop_front_branch cs' c c' x :
  node_ok c' -> node_pop_front c = Ret (Some (c', x)) ->
  node_pop_front (Branch (c :: cs') (Some (map esize (c :: cs')))) =
  Ret (Some (drop_front c' cs', x)).
Proof.
  intros Hok Hp. cbn [node_pop_front]. rewrite Hp. cbn [obind].
  rewrite calculate_size_ok by auto. unfold drop_front.
  destruct (esize c' =? 0); [|reflexivity].
  destruct cs'; reflexivity.
Qed.

Lemma esize0 (n : node) : esize n = 0 -> elems n = [].
Proof. unfold esize. destruct (elems n); [auto|discriminate]. Qed.

Lemma drop_back_ok (cs' : list node) c' : Forall node_ok cs' -> node_ok c' ->
  node_ok (drop_back cs' c') /\ elems (drop_back cs' c') = flat_map elems cs' ++ elems c'.
Proof.
  intros H1 H2. unfold drop_back. destruct (Nat.eqb_spec (esize c') 0) as [E|E].
  - rewrite (esize0 _ E), app_nil_r.
    destruct cs'; [split; [constructor|reflexivity]|].
    split; [now constructor|reflexivity].
  - split.
    + constructor; [destruct cs'; discriminate|]. apply Forall_app; auto.
    + cbn. rewrite flat_map_app. cbn. now rewrite app_nil_r.
Qed.

Lemma drop_front_ok (cs' : list node) c' : Forall node_ok cs' -> node_ok c' ->
  node_ok (drop_front c' cs') /\ elems (drop_front c' cs') = elems c' ++ flat_map elems cs'.
Proof.
  intros H1 H2. unfold drop_front. destruct (Nat.eqb_spec (esize c') 0) as [E|E].
  - rewrite (esize0 _ E). destruct cs'; [split; [constructor|reflexivity]|].
    split; [now constructor|reflexivity].
  - split; [|reflexivity]. constructor; [discriminate|auto].
Qed.

(** ** Any well-formed node: pops never panic and preserve well-formedness *)

Lemma node_pop_back_safe (n : node) : node_ok n ->
  node_pop_back n = Ret None \/
  exists n' x, node_pop_back n = Ret (Some (n', x)) /\ node_ok n' /\ elems n = elems n' ++ [x].
Proof.
  induction n as [es|cs sz IH] using node_ind'; intros Hok.
  - cbn. destruct (list_last_case es) as [->|(es' & x & ->)].
    + left. reflexivity.
    + right. rewrite pop_last_app. exists (Leaf es'), x. repeat split; constructor.
  - apply node_ok_branch_inv in Hok as (Hne & Hok & ->).
    destruct (list_last_case cs) as [->|(cs' & c & ->)]; [easy|].
    apply Forall_app in IH as [_ IH]. inversion IH as [|? ? IHc _]; subst.
    apply Forall_app in Hok as [Hok1 Hok2]. inversion Hok2 as [|? ? Hokc _]; subst.
    destruct (IHc Hokc) as [E|(c' & x & E & Hc' & He)].
    + left. cbn [node_pop_back].
      assert (Hn : nth_error (cs' ++ [c]) (length (cs' ++ [c]) - 1) = Some c).
      { rewrite app_length, nth_error_app2 by (cbn; lia). cbn [length].
        replace (length cs' + 1 - 1 - length cs') with 0 by lia. reflexivity. }
      rewrite (nth_error_map_some _ _ _ Hn), E. reflexivity.
    + right. exists (drop_back cs' c'), x.
      rewrite (node_pop_back_branch _ _ Hc' E).
      destruct (drop_back_ok Hok1 Hc') as [D1 D2]. split; auto. split; auto.
      rewrite D2. cbn [elems]. rewrite flat_map_app. cbn.
      now rewrite app_nil_r, He, app_assoc.
Qed.

Lemma node_pop_front_safe (n : node) : node_ok n ->
  node_pop_front n = Ret None \/
  exists n' x, node_pop_front n = Ret (Some (n', x)) /\ node_ok n' /\ elems n = x :: elems n'.
Proof.
  induction n as [es|cs sz IH] using node_ind'; intros Hok.
  - destruct es as [|x es']; [left; reflexivity|].
    right. exists (Leaf es'), x. repeat split; constructor.
  - apply node_ok_branch_inv in Hok as (Hne & Hok & ->).
    destruct cs as [|c cs']; [easy|].
    inversion IH as [|? ? IHc _]; subst. inversion Hok as [|? ? Hokc Hok1]; subst.
    destruct (IHc Hokc) as [E|(c' & x & E & Hc' & He)].
    + left. cbn [node_pop_front]. rewrite E. reflexivity.
    + right. exists (drop_front c' cs'), x.
      rewrite (node_pop_front_branch _ _ Hc' E).
      destruct (drop_front_ok Hok1 Hc') as [D1 D2]. split; auto. split; auto.
      rewrite D2. cbn [elems flat_map]. now rewrite He.
Qed.

(** ** Nodes whose non-last (non-first) children are never empty *)

Inductive front_full : node -> Prop :=
| ff_leaf es : front_full (Leaf es)
| ff_branch cs c sz :
    Forall (fun n => 0 < esize n) cs -> Forall front_full (cs ++ [c]) ->
    front_full (Branch (cs ++ [c]) sz).

Inductive back_full : node -> Prop :=
| bf_leaf es : back_full (Leaf es)
| bf_branch c cs sz :
    Forall (fun n => 0 < esize n) cs -> Forall back_full (c :: cs) ->
    back_full (Branch (c :: cs) sz).

Lemma front_full_cons (c : node) cs sz :
  front_full (Branch (c :: cs) sz) <->
  front_full c /\ match cs with [] => True | _ => 0 < esize c /\ front_full (Branch cs sz) end.
Proof.
  split.
  - inversion 1 as [|cs1 c1 sz1 H1 H2 E]; subst. destruct cs1 as [|a cs1]; cbn in E.
    + injection E as -> <-. inversion H2; subst. auto.
    + injection E as -> <-. inversion H1; inversion H2; subst. split; auto.
      destruct (cs1 ++ [c1]) eqn:E2; [destruct cs1; discriminate|].
      split; auto. rewrite <- E2. constructor; auto. now rewrite E2.
  - intros [H1 H2]. destruct cs as [|a cs].
    + change [c] with ([] ++ [c]). constructor; cbn; auto.
    + destruct H2 as [H2 H3]. inversion H3 as [|cs1 c1 sz1 F1 F2 E]; subst.
      change (c :: cs1 ++ [c1]) with ((c :: cs1) ++ [c1]). constructor; auto.
      cbn. auto.
Qed.

Lemma front_full_sz (cs : list node) sz sz' : front_full (Branch cs sz) -> front_full (Branch cs sz').
Proof. inversion 1; subst. now constructor. Qed.

Lemma node_pop_front_full (n : node) : node_ok n -> front_full n -> 0 < esize n ->
  exists n' x, node_pop_front n = Ret (Some (n', x)) /\ node_ok n' /\ elems n = x :: elems n'
               /\ front_full n'.
Proof.
  induction n as [es|cs sz IH] using node_ind'; intros Hok Hf Hs.
  - destruct es as [|x es']; [unfold esize in Hs; cbn in Hs; lia|].
    exists (Leaf es'), x. repeat split; constructor.
  - apply node_ok_branch_inv in Hok as (Hne & Hok & ->).
    destruct cs as [|c cs']; [easy|].
    inversion IH as [|? ? IHc _]; subst. inversion Hok as [|? ? Hokc Hok1]; subst.
    apply front_full_cons in Hf as [Hfc Hf].
    assert (Hsc : 0 < esize c).
    { destruct cs'; [|tauto]. unfold esize in *. cbn in Hs. now rewrite app_nil_r in Hs. }
    destruct (IHc Hokc Hfc Hsc) as (c' & x & E & Hc' & He & Hf').
    exists (drop_front c' cs'), x.
    rewrite (node_pop_front_branch _ _ Hc' E).
    destruct (drop_front_ok Hok1 Hc') as [D1 D2]. split; auto. split; auto.
    split. { rewrite D2. cbn [elems flat_map]. now rewrite He. }
    unfold drop_front. destruct (Nat.eqb_spec (esize c') 0) as [E0|E0].
    + destruct cs' as [|a cs']; [constructor|]. eapply front_full_sz. apply Hf.
    + apply front_full_cons. split; auto. destruct cs' as [|a cs']; auto.
      split; [lia|]. eapply front_full_sz. apply Hf.
Qed.

Lemma back_full_snoc (c : node) cs sz :
  back_full (Branch (cs ++ [c]) sz) <->
  back_full c /\ match cs with [] => True | _ => 0 < esize c /\ back_full (Branch cs sz) end.
Proof.
  destruct cs as [|a cs]; cbn [app].
  - split.
    + inversion 1 as [|? ? ? ? F]; subst. inversion F; auto.
    + intros [? _]. constructor; auto.
  - split.
    + inversion 1 as [|? ? ? F1 F2]; subst.
      apply Forall_app in F1 as [F1 F3]. inversion F3; subst.
      change (a :: cs ++ [c]) with ((a :: cs) ++ [c]) in F2.
      apply Forall_app in F2 as [F2 F4]. inversion F4; subst.
      split; auto. split; auto. now constructor.
    + intros (H1 & H2 & H3). inversion H3 as [|? ? ? F1 F2]; subst. constructor.
      * apply Forall_app; auto.
      * change (a :: cs ++ [c]) with ((a :: cs) ++ [c]). apply Forall_app; auto.
Qed.

Lemma back_full_sz (cs : list node) sz sz' : back_full (Branch cs sz) -> back_full (Branch cs sz').
Proof. inversion 1; subst. now constructor. Qed.

Lemma node_pop_back_full (n : node) : node_ok n -> back_full n -> 0 < esize n ->
  exists n' x, node_pop_back n = Ret (Some (n', x)) /\ node_ok n' /\ elems n = elems n' ++ [x]
               /\ back_full n'.
Proof.
  induction n as [es|cs sz IH] using node_ind'; intros Hok Hf Hs.
  - destruct (list_last_case es) as [->|(es' & x & ->)].
    { unfold esize in Hs; cbn in Hs; lia. }
    exists (Leaf es'), x. cbn. rewrite pop_last_app. repeat split; constructor.
  - apply node_ok_branch_inv in Hok as (Hne & Hok & ->).
    destruct (list_last_case cs) as [->|(cs' & c & ->)]; [easy|].
    apply Forall_app in IH as [_ IH]. inversion IH as [|? ? IHc _]; subst.
    apply Forall_app in Hok as [Hok1 Hok2]. inversion Hok2 as [|? ? Hokc _]; subst.
    apply back_full_snoc in Hf as [Hfc Hf].
    assert (Hsc : 0 < esize c).
    { destruct cs'; [|tauto]. unfold esize in *. cbn in Hs. now rewrite app_nil_r in Hs. }
    destruct (IHc Hokc Hfc Hsc) as (c' & x & E & Hc' & He & Hf').
    exists (drop_back cs' c'), x.
    rewrite (node_pop_back_branch _ _ Hc' E).
    destruct (drop_back_ok Hok1 Hc') as [D1 D2]. split; auto. split; auto.
    split. { rewrite D2. cbn [elems]. rewrite flat_map_app. cbn.
      now rewrite app_nil_r, He, app_assoc. }
    unfold drop_back. destruct (Nat.eqb_spec (esize c') 0) as [E0|E0].
    + destruct cs' as [|a cs']; [constructor|]. eapply back_full_sz. apply Hf.
    + apply back_full_snoc. split; auto. destruct cs' as [|a cs']; auto.
      split; [lia|]. eapply back_full_sz. apply Hf.
Qed.

(** ** The back class is closed under popping at the back *)

Lemma node_pop_back_uni (n : node) : node_ok n -> forall d, uni d n ->
  exists n' x, node_pop_back n = Ret (Some (n', x)) /\ node_ok n' /\ elems n = elems n' ++ [x]
               /\ (esize n' = 0 \/ uni d n').
Proof.
  induction n as [es|cs sz IH] using node_ind'; intros Hok d Hu.
  - apply uni_leaf in Hu as [-> Hne].
    destruct (list_last_case es) as [->|(es' & x & ->)]; [easy|].
    exists (Leaf es'), x. cbn. rewrite pop_last_app. split; [reflexivity|]. split; [constructor|]. split; [reflexivity|].
    destruct es'; [left; reflexivity|right; split; [reflexivity|discriminate]].
  - apply node_ok_branch_inv in Hok as (Hne & Hok & ->).
    destruct (list_last_case cs) as [->|(cs' & c & ->)]; [easy|].
    apply Forall_app in IH as [_ IH]. inversion IH as [|? ? IHc _]; subst.
    apply Forall_app in Hok as [Hok1 Hok2]. inversion Hok2 as [|? ? Hokc _]; subst.
    apply uni_branch in Hu as (d' & -> & _ & Hu).
    apply Forall_app in Hu as [Hu1 Hu2]. inversion Hu2 as [|? ? Huc _]; subst.
    destruct (IHc Hokc _ Huc) as (c' & x & E & Hc' & He & Hf').
    exists (drop_back cs' c'), x.
    rewrite (node_pop_back_branch _ _ Hc' E).
    destruct (drop_back_ok Hok1 Hc') as [D1 D2]. split; auto. split; auto.
    split. { rewrite D2. cbn [elems]. rewrite flat_map_app. cbn.
      now rewrite app_nil_r, He, app_assoc. }
    unfold drop_back. destruct (Nat.eqb_spec (esize c') 0) as [E0|E0].
    + destruct cs' as [|a cs']; [left; reflexivity|]. right.
      apply uni_branch. exists d'. repeat split; auto. discriminate.
    + right. apply uni_branch. exists d'. repeat split; auto; [destruct cs'; discriminate|].
      apply Forall_app; split; auto. constructor; auto. destruct Hf'; [lia|auto].
Qed.

Lemma gshape_sz (cs : list node) sz sz' : gshape (Branch cs sz) -> gshape (Branch cs sz').
Proof. inversion 1; subst; [eapply G_uni; eauto|now apply G_one]. Qed.

Lemma node_pop_back_gshape (n : node) : node_ok n -> gshape n -> 0 < esize n ->
  exists n' x, node_pop_back n = Ret (Some (n', x)) /\ node_ok n' /\ elems n = elems n' ++ [x]
               /\ gshape n' /\ depth n' <= depth n.
Proof.
  intros Hok Hg. revert Hok. induction Hg as [es|d us ls sz Hne Hu Hl|g ls sz Hg IH Hl];
    intros Hok Hs.
  - destruct (list_last_case es) as [->|(es' & x & ->)].
    { unfold esize in Hs; cbn in Hs; lia. }
    exists (Leaf es'), x. cbn. rewrite pop_last_app. repeat split; try constructor.
  - apply node_ok_branch_inv in Hok as (Hne' & Hok & ->).
    assert (DN : forall s, depth (Branch (us ++ ls) s) = S d) by (intros; now apply uni_G_depth).
    rewrite DN.
    destruct (list_last_case ls) as [->|(ls' & c & ->)].
    + rewrite app_nil_r in *.
      assert (U : uni (S d) (Branch us (Some (map esize us)))).
      { apply uni_branch. exists d; auto. }
      destruct (@node_pop_back_uni (Branch us (Some (map esize us)))) with (d := S d)
        as (n' & x & E & H1 & H2 & H3); auto. { now constructor. }
      exists n', x. repeat split; auto.
      * destruct H3 as [H3|H3]; [|now apply uni_gshape with (S d)].
        apply node_ok_branch_inv in H1 || idtac.
        destruct (list_last_case us) as [->|(us' & u & ->)]; [easy|].
        apply Forall_app in Hu as [Hu1 Hu2]. inversion Hu2 as [|? ? Huc _]; subst.
        apply Forall_app in Hok as [Hok1 Hok2]. inversion Hok2 as [|? ? Hokc _]; subst.
        destruct (node_pop_back_uni Hokc _ Huc) as (c' & y & Ec & Hc' & _ & Hf').
        rewrite (node_pop_back_branch _ _ Hc' Ec) in E. injection E as <- <-.
        unfold drop_back in *. destruct (Nat.eqb_spec (esize c') 0) as [E0|E0].
        -- destruct us' as [|a us']; [constructor|].
           rewrite <- (app_nil_r (a :: us')) at 1. apply G_uni with d; auto. discriminate.
        -- rewrite <- (app_nil_r (us' ++ [c'])) at 1. apply G_uni with d; auto.
           ++ destruct us'; discriminate.
           ++ apply Forall_app; split; auto. constructor; auto. destruct Hf'; [lia|auto].
      * destruct H3 as [H3|H3]; [|destruct (uni_depth _ _ H3); lia].
        destruct (list_last_case us) as [->|(us' & u & ->)]; [easy|].
        apply Forall_app in Hu as [Hu1 Hu2]. inversion Hu2 as [|? ? Huc _]; subst.
        apply Forall_app in Hok as [Hok1 Hok2]. inversion Hok2 as [|? ? Hokc _]; subst.
        destruct (node_pop_back_uni Hokc _ Huc) as (c' & y & Ec & Hc' & _ & Hf').
        rewrite (node_pop_back_branch _ _ Hc' Ec) in E. injection E as <- <-.
        unfold drop_back in *. destruct (Nat.eqb_spec (esize c') 0) as [E0|E0].
        -- destruct us' as [|a us']; [cbn; lia|].
           rewrite <- (app_nil_r (a :: us')) at 1.
           rewrite (@uni_G_depth T d); auto. discriminate.
        -- rewrite <- (app_nil_r (us' ++ [c'])) at 1. rewrite (@uni_G_depth T d); auto.
           ++ destruct us'; discriminate.
           ++ apply Forall_app; split; auto. constructor; auto. destruct Hf'; [lia|auto].
    + rewrite app_assoc in *.
      apply Forall_app in Hok as [Hok1 Hok2]. inversion Hok2 as [|? ? Hokc _]; subst.
      apply Forall_app in Hl as [Hl1 Hl2]. inversion Hl2 as [|? ? Hlc _]; subst.
      apply neleaf_uni in Hlc.
      destruct (node_pop_back_uni Hokc _ Hlc) as (c' & x & E & Hc' & He & Hf').
      exists (drop_back (us ++ ls') c'), x.
      rewrite (node_pop_back_branch _ _ Hc' E).
      destruct (drop_back_ok Hok1 Hc') as [D1 D2]. split; auto. split; auto.
      split. { rewrite D2. cbn [elems]. rewrite (flat_map_app _ (us ++ ls')). cbn.
        now rewrite app_nil_r, He, app_assoc. }
      unfold drop_back. destruct (Nat.eqb_spec (esize c') 0) as [E0|E0].
      * destruct (us ++ ls') as [|a rest] eqn:E2; [destruct us; [easy|discriminate]|].
        rewrite <- E2. split; [now apply G_uni with d|]. now rewrite (@uni_G_depth T d).
      * rewrite <- app_assoc.
        assert (F : Forall neleaf (ls' ++ [c'])).
        { apply Forall_app; split; auto. constructor; auto. apply neleaf_uni.
          destruct Hf'; [lia|auto]. }
        split; [now apply G_uni with d|]. now rewrite (@uni_G_depth T d).
  - apply node_ok_branch_inv in Hok as (Hne' & Hok & ->).
    cbn [depth map]. rewrite (list_max_cons_leaves _ Hl).
    destruct (list_last_case ls) as [->|(ls' & c & ->)].
    + inversion Hok as [|? ? Hokg _]; subst.
      destruct (IH Hokg) as (c' & x & E & Hc' & He & Hf' & Hd).
      { unfold esize in *. cbn in Hs. now rewrite app_nil_r in Hs. }
      exists (drop_back [] c'), x.
      split; [exact (node_pop_back_branch [] _ Hc' E)|].
      destruct (@drop_back_ok [] c' (Forall_nil _) Hc') as [D1 D2]. split; auto.
      split. { rewrite D2. cbn. now rewrite app_nil_r. }
      unfold drop_back. destruct (Nat.eqb_spec (esize c') 0) as [E0|E0].
      * split; [constructor|cbn; lia].
      * cbn [app]. split; [now apply G_one|]. cbn. lia.
    + change (g :: ls' ++ [c]) with ((g :: ls') ++ [c]) in *.
      apply Forall_app in Hok as [Hok1 Hok2]. inversion Hok2 as [|? ? Hokc _]; subst.
      apply Forall_app in Hl as [Hl1 Hl2]. inversion Hl2 as [|? ? Hlc _]; subst.
      apply neleaf_uni in Hlc.
      destruct (node_pop_back_uni Hokc _ Hlc) as (c' & x & E & Hc' & He & Hf').
      exists (drop_back (g :: ls') c'), x.
      split; [exact (node_pop_back_branch (g :: ls') _ Hc' E)|].
      destruct (drop_back_ok Hok1 Hc') as [D1 D2]. split; auto.
      split. { rewrite D2. cbn [elems]. rewrite (flat_map_app _ (g :: ls')). cbn.
        now rewrite app_nil_r, He, <- !app_assoc. }
      unfold drop_back. destruct (Nat.eqb_spec (esize c') 0) as [E0|E0].
      * split; [now apply G_one|]. cbn [depth map]. now rewrite list_max_cons_leaves.
      * cbn [app].
        assert (F : Forall neleaf (ls' ++ [c'])).
        { apply Forall_app; split; auto. constructor; auto. apply neleaf_uni.
          destruct Hf'; [lia|auto]. }
        split; [now apply G_one|]. cbn [depth map]. now rewrite list_max_cons_leaves.
Qed.

Lemma gshape_push_leaf (n : node) es : es <> [] -> gshape n -> gshape (push_leaf n (Leaf es)).
Proof.
  intros Hne Hg. assert (Hnl : neleaf (Leaf es)) by exact Hne.
  assert (P : gshape (Branch [n; Leaf es] (Some [calculate_size n; calculate_size (Leaf es)]))).
  { apply G_one; auto. }
  unfold push_leaf. destruct n as [es'|cs sz]; auto.
  destruct (length cs <? BRANCHING_FACTOR); auto.
  inversion Hg as [|d us ls sz' Hune Hu Hl Heq|g ls sz' Hgg Hl Heq]; subst.
  - rewrite <- app_assoc. apply G_uni with d; auto. apply Forall_app; auto.
  - cbn [app]. apply G_one; auto. apply Forall_app; auto.
Qed.

End Ends.

(** C112: every closure handed to a suspended computation is released exactly once, as soon as nothing built from it is
    held any more; and how deep dropping nests. *)
From Coq Require Import List Arith Bool Lia Permutation.
From Verif Require Import ShareModel ShareSpec.
Import ListNotations.
Set Implicit Arguments.

Notation occ i l := (count_occ Nat.eq_dec l i).
Definition helds (its : list item) : list nat := flat_map (fun it => match it with Held i => [i] | Given _ => [] end) its.
Definition gives (its : list item) : list nat := flat_map (fun it => match it with Given k => [k] | Held _ => [] end) its.
Definition all_of (F : list item -> list nat) (h : heap) : list nat := flat_map (fun c => F (snd c)) h.
Lemma in_helds j its : In j (helds its) <-> In (Held j) its.
Proof.
  unfold helds. rewrite in_flat_map. split.
  - intros ([k|i] & H & Hin); cbn in Hin; [easy|]. destruct Hin as [->|[]]. exact H.
  - intros H. exists (Held j). split; [exact H|now left].
Qed.

(** ** Cells *)
Lemma put_length h : forall i c, length (put h i c) = length h.
Proof. induction h as [|x t IH]; intros [|i] c; cbn; auto. Qed.
Lemma look_put_same h : forall i c, i < length h -> look (put h i c) i = c.
Proof. induction h as [|x t IH]; intros [|i] c H; cbn in *; try lia; auto. apply IH. lia. Qed.
Lemma look_put_other h : forall i j c, j <> i -> look (put h i c) j = look h j.
Proof. unfold look. induction h as [|x t IH]; intros [|i] [|j] c H; cbn; auto; try lia; apply IH; lia. Qed.
Lemma look_out h i : length h <= i -> look h i = (0, []).
Proof. intros H. now apply nth_overflow. Qed.
Lemma look_app_l h t i : i < length h -> look (h ++ t) i = look h i.
Proof. intros H. now apply app_nth1. Qed.
Lemma look_new h c : look (h ++ [c]) (length h) = c.
Proof. unfold look. rewrite app_nth2, Nat.sub_diag by lia. reflexivity. Qed.
Lemma look_live h i : 0 < fst (look h i) -> i < length h.
Proof. intros H. destruct (Nat.lt_ge_cases i (length h)); [auto|]. rewrite look_out in H; cbn in H; lia. Qed.
Lemma all_put F h : forall i c, i < length h ->
  Permutation (all_of F (put h i c) ++ F (snd (look h i))) (all_of F h ++ F (snd c)).
Proof.
  unfold all_of, look. induction h as [|x t IH]; intros [|i] c H; cbn in *; try lia.
  - etransitivity; [apply Permutation_app_comm|]. rewrite <- app_assoc. apply Permutation_app_head, Permutation_app_comm.
  - rewrite <- !app_assoc. apply Permutation_app_head. apply IH. lia.
Qed.
Arguments all_put F h i c _ : clear implicits.
Lemma all_app F h t : all_of F (h ++ t) = all_of F h ++ all_of F t.
Proof. apply flat_map_app. Qed.
Lemma perm_occ (a b : list nat) : Permutation a b -> forall i, occ i a = occ i b.
Proof. intros H i. now apply Permutation_count_occ. Qed.

(** ** Counts are right *)
Record ok (h : heap) (own : list nat) : Prop := mkOk {
  ok_old : forall i j, In j (helds (snd (look h i))) -> j < i;
  ok_count : forall i, fst (look h i) = occ i (own ++ all_of helds h);
  ok_dead : forall i, fst (look h i) = 0 -> snd (look h i) = []
}.
Lemma ok_perm h own own' : Permutation own own' -> ok h own -> ok h own'.
Proof.
  intros P [A B C]. split; auto. intros i. rewrite B, !count_occ_app. now rewrite (perm_occ P).
Qed.
Lemma own_live h own i : ok h own -> In i own -> 0 < fst (look h i).
Proof.
  intros [_ B _] H. rewrite B, count_occ_app. apply (count_occ_In Nat.eq_dec) in H. lia.
Qed.
Lemma held_in h i j : In j (helds (snd (look h i))) -> In j (all_of helds h).
Proof.
  intros H. unfold all_of. apply in_flat_map. exists (look h i). split; [|exact H].
  destruct (Nat.lt_ge_cases i (length h)); [now apply nth_In|]. rewrite look_out in H by auto. easy.
Qed.
Lemma held_live h own i j : ok h own -> In j (helds (snd (look h i))) -> 0 < fst (look h j).
Proof.
  intros [_ B _] H. rewrite B, count_occ_app. apply held_in in H. apply (count_occ_In Nat.eq_dec) in H. lia.
Qed.

Lemma new_ok h own its : ok h (helds its ++ own) -> ok (h ++ [(1, its)]) (length h :: own).
Proof.
  intros H. pose proof H as [A B C].
  assert (Z : occ (length h) (helds its ++ own) = 0 /\ occ (length h) (all_of helds h) = 0).
  { specialize (B (length h)). rewrite look_out, count_occ_app in B by lia. cbn in B. lia. }
  split.
  - intros i j Hj. destruct (Nat.lt_trichotomy i (length h)) as [L|[->|L]].
    + rewrite look_app_l in Hj by auto. eauto.
    + rewrite look_new in Hj. cbn in Hj. apply look_live. eapply own_live; eauto. apply in_or_app. now left.
    + rewrite look_out in Hj by (rewrite app_length; cbn; lia). easy.
  - intros i. rewrite all_app. cbn [all_of flat_map snd]. rewrite app_nil_r.
    assert (E : occ i ((length h :: own) ++ all_of helds h ++ helds its) =
                (if Nat.eq_dec (length h) i then 1 else 0) + occ i ((helds its ++ own) ++ all_of helds h)).
    { cbn. rewrite !count_occ_app. destruct (Nat.eq_dec (length h) i); lia. }
    rewrite E, <- B. destruct (Nat.lt_trichotomy i (length h)) as [L|[->|L]].
    + rewrite look_app_l by auto. destruct (Nat.eq_dec (length h) i); [lia|reflexivity].
    + rewrite look_new, (look_out h) by lia. destruct (Nat.eq_dec (length h) (length h)); [reflexivity|lia].
    + rewrite !look_out by (rewrite ?app_length; cbn; lia). destruct (Nat.eq_dec (length h) i); [lia|reflexivity].
  - intros i Hi. destruct (Nat.lt_trichotomy i (length h)) as [L|[->|L]].
    + rewrite look_app_l in * by auto. auto.
    + rewrite look_new in Hi. easy.
    + now rewrite look_out by (rewrite app_length; cbn; lia).
Qed.
(** Only the count of one live cell changes *)
Lemma recount_ok h own own' i n : ok h own -> 0 < fst (look h i) ->
  (forall j, occ j own' + (if Nat.eq_dec i j then fst (look h i) else 0) =
             occ j own + (if Nat.eq_dec i j then n else 0)) ->
  (n = 0 -> snd (look h i) = []) -> ok (put h i (n, snd (look h i))) own'.
Proof.
  intros [A B C] L Hn Hz. pose proof (look_live _ _ L) as Hi.
  assert (P : forall j, occ j (all_of helds (put h i (n, snd (look h i)))) = occ j (all_of helds h)).
  { intros j. pose proof (perm_occ (all_put helds h i (n, snd (look h i)) Hi) j) as E. rewrite !count_occ_app in E. cbn [snd] in E. lia. }
  split.
  - intros j k Hk. destruct (Nat.eq_dec j i) as [->|N].
    + rewrite look_put_same in Hk by auto. eauto.
    + rewrite look_put_other in Hk by auto. eauto.
  - intros j. specialize (Hn j). rewrite count_occ_app, P. specialize (B j). rewrite count_occ_app in B.
    destruct (Nat.eq_dec i j) as [<-|N].
    + rewrite look_put_same by auto. cbn. lia.
    + rewrite look_put_other by auto. lia.
  - intros j Hj. destruct (Nat.eq_dec j i) as [->|N].
    + rewrite look_put_same in * by auto. auto.
    + rewrite look_put_other in * by auto. auto.
Qed.
Lemma clone_ok h own i : ok h own -> 0 < fst (look h i) -> ok (arc_clone i h) (i :: own).
Proof.
  intros H L. unfold arc_clone. destruct (look h i) as [n its] eqn:E.
  replace its with (snd (look h i)) by now rewrite E.
  apply (@recount_ok h own (i :: own) i (S n)); auto.
  - now rewrite E.
  - intros j. rewrite E. cbn [count_occ fst]. destruct (Nat.eq_dec i j); lia.
  - lia.
Qed.
Lemma free_ok h own i its : look h i = (1, its) -> ok h (i :: own) -> ok (put h i (0, [])) (helds its ++ own).
Proof.
  intros E [A B C]. assert (Hi : i < length h) by (apply look_live; rewrite E; cbn; lia).
  pose proof (all_put helds h i (0, []) Hi) as P. rewrite E in P. cbn [snd] in P. change (helds []) with (@nil nat) in P. rewrite app_nil_r in P.
  assert (Z : forall j, occ j ((helds its ++ own) ++ all_of helds (put h i (0, []))) + (if Nat.eq_dec i j then 1 else 0) =
                        fst (look h j)).
  { intros j. rewrite B. pose proof (perm_occ P j) as Q. rewrite !count_occ_app in *. cbn [count_occ]. destruct (Nat.eq_dec i j); lia. }
  split.
  - intros j k Hk. destruct (Nat.eq_dec j i) as [->|N].
    + rewrite look_put_same in Hk by auto. easy.
    + rewrite look_put_other in Hk by auto. eauto.
  - intros j. specialize (Z j). destruct (Nat.eq_dec i j) as [<-|N].
    + rewrite look_put_same by auto. rewrite E in Z. cbn in *. lia.
    + rewrite look_put_other by auto. lia.
  - intros j Hj. destruct (Nat.eq_dec j i) as [->|N].
    + now rewrite look_put_same by auto.
    + rewrite look_put_other in * by auto. auto.
Qed.

(** ** Dropping *)
Definition kept (h h' : heap) : Prop := forall j, 0 < fst (look h' j) -> 0 < fst (look h j) /\ snd (look h' j) = snd (look h j).
Lemma kept_trans a b c : kept a b -> kept b c -> kept a c.
Proof. intros H G j L. destruct (G j L) as [L1 E1]. destruct (H j L1) as [L2 E2]. split; congruence. Qed.
Lemma kept_put h i n : 0 < fst (look h i) -> kept h (put h i (n, snd (look h i))).
Proof.
  intros L j Hj. pose proof (look_live _ _ L) as Hi. destruct (Nat.eq_dec j i) as [->|N].
  - now rewrite look_put_same by auto.
  - rewrite look_put_other in * by auto. auto.
Qed.
Lemma kept_free h i : kept h (put h i (0, [])).
Proof.
  intros j Hj. destruct (Nat.eq_dec j i) as [->|N].
  - destruct (Nat.lt_ge_cases i (length h)) as [L|L].
    + rewrite look_put_same in Hj by auto. cbn in Hj. lia.
    + rewrite look_out in Hj by (now rewrite put_length). cbn in Hj. lia.
  - rewrite look_put_other in * by auto. auto.
Qed.
Definition dropped (h : heap) (own : list nat) (r : heap * list ev) : Prop :=
  ok (fst r) own /\ length (fst r) = length h /\ kept h (fst r) /\
  Permutation (all_of gives (fst r) ++ flat_map closures (snd r)) (all_of gives h).

Lemma drop_items_ok fuel : (forall i own h, i < fuel -> ok h (i :: own) -> dropped h own (arc_drop fuel i h)) ->
  forall its own h, (forall j, In j (helds its) -> j < fuel) -> ok h (helds its ++ own) ->
  let r := drop_items (arc_drop fuel) its h in
  ok (fst r) own /\ length (fst r) = length h /\ kept h (fst r) /\
  Permutation (all_of gives (fst r) ++ flat_map closures (snd r)) (all_of gives h ++ gives its).
Proof.
  intros IH. induction its as [|[k|j] its IHi]; intros own h Hj H; cbn [drop_items].
  - cbn. rewrite !app_nil_r. split; auto. split; auto. split; [intros j L; auto|auto].
  - specialize (IHi own h Hj H). destruct (drop_items (arc_drop fuel) its h) as [h' es]. cbn in *.
    destruct IHi as (A & B & C & D). split; auto. split; auto. split; auto.
    rewrite <- Permutation_middle, D. rewrite Permutation_middle. reflexivity.
  - destruct (IH j (helds its ++ own) h) as (A & B & C & D).
    { apply Hj. now left. } { exact H. }
    destruct (arc_drop fuel j h) as [h1 e1]. cbn [fst snd] in *.
    specialize (IHi own h1 (fun j' Hj' => Hj j' (or_intror Hj')) A).
    destruct (drop_items (arc_drop fuel) its h1) as [h2 e2]. cbn in *. destruct IHi as (A' & B' & C' & D').
    split; auto. split; [congruence|]. split; [eapply kept_trans; eauto|].
    rewrite flat_map_app. rewrite (Permutation_app_comm (flat_map closures e1)), app_assoc, D'.
    rewrite <- D. rewrite <- !app_assoc. apply Permutation_app_head, Permutation_app_comm.
Qed.
Lemma arc_drop_ok fuel : forall i own h, i < fuel -> ok h (i :: own) -> dropped h own (arc_drop fuel i h).
Proof.
  induction fuel as [|fuel IH]; intros i own h Hi H; [lia|]. cbn [arc_drop].
  assert (L : 0 < fst (look h i)) by (eapply own_live; [exact H|now left]).
  destruct (look h i) as [[|[|n]] its] eqn:E; cbn in L; [lia| |].
  - pose proof (free_ok E H) as F. pose proof (look_live h i ltac:(rewrite E; cbn; lia)) as Hlen.
    destruct (@drop_items_ok fuel IH its own (put h i (0, []))) as (A & B & C & D); [|exact F|].
    { intros j Hj. assert (j < i) by (eapply (ok_old H); rewrite E; exact Hj). lia. }
    destruct (drop_items (arc_drop fuel) its (put h i (0, []))) as [h' es]. cbn [fst snd] in *.
    unfold dropped. cbn [fst snd flat_map closures]. rewrite app_nil_r. split; auto.
    split; [rewrite B; apply put_length|]. split; [eapply kept_trans; [apply kept_free|exact C]|].
    rewrite D. pose proof (all_put gives h i (0, []) Hlen) as P. rewrite E in P. cbn [snd] in P. rewrite P. cbn.
    now rewrite app_nil_r.
  - replace its with (snd (look h i)) by now rewrite E. unfold dropped. cbn [fst snd].
    assert (L' : 0 < fst (look h i)) by (rewrite E; cbn; lia). split; [|split; [apply put_length|split; [now apply kept_put|]]].
    + apply (@recount_ok h (i :: own) own i (S n)); auto; [|lia].
      intros j. rewrite E. cbn [count_occ fst]. destruct (Nat.eq_dec i j); lia.
    + cbn. rewrite app_nil_r. pose proof (all_put gives h i (S n, snd (look h i)) (look_live _ _ L')) as P. cbn [snd] in P.
      now apply Permutation_app_inv_r in P.
Qed.
Lemma drop_handle_ok h own i : ok h (i :: own) -> dropped h own (drop_handle i h).
Proof. intros H. apply arc_drop_ok; auto. Qed.

(** ** What a cell was built from never changes while it lives *)
Definition built (B : nat -> list nat) (h : heap) : Prop :=
  forall i, 0 < fst (look h i) -> forall k,
    In k (B i) <-> In k (gives (snd (look h i))) \/ exists j, In j (helds (snd (look h i))) /\ In k (B j).
Record linv (h : heap) (own : list nat) (B : nat -> list nat) (lg given : list nat) : Prop := mkLinv {
  l_ok : ok h own;
  l_given : Permutation (all_of gives h ++ lg) given;
  l_built : built B h
}.
Lemma kept_built B h h' : kept h h' -> built B h -> built B h'.
Proof. intros K H i L. destruct (K i L) as [L1 ->]. now apply H. Qed.
Lemma linv_perm h own own' B lg given : Permutation own own' -> linv h own B lg given -> linv h own' B lg given.
Proof. intros P [A C D]. split; auto. eapply ok_perm; eauto. Qed.
Lemma linv_clone h own B lg given i : linv h own B lg given -> In i own -> linv (arc_clone i h) (i :: own) B lg given.
Proof.
  intros [A C D] Hi. pose proof (own_live _ A Hi) as L. split.
  - now apply clone_ok.
  - unfold arc_clone. destruct (look h i) as [n its] eqn:E.
    pose proof (all_put gives h i (S n, its) (look_live _ _ ltac:(rewrite E; exact L))) as P. rewrite E in P. cbn [snd] in P.
    apply Permutation_app_inv_r in P. now rewrite P.
  - apply (kept_built (h := h)); [|exact D]. unfold arc_clone. destruct (look h i) as [n its] eqn:E.
    replace its with (snd (look h i)) by now rewrite E. apply kept_put. now rewrite E.
Qed.
Arguments linv_clone {h own B lg given i} _ _.
Lemma clone_length i h : length (arc_clone i h) = length h.
Proof. unfold arc_clone. destruct (look h i). apply put_length. Qed.
Lemma linv_drop h own B lg given i : linv h (i :: own) B lg given ->
  linv (fst (drop_handle i h)) own B (lg ++ flat_map closures (snd (drop_handle i h))) given.
Proof.
  intros [A C D]. destruct (drop_handle_ok A) as (E & _ & K & P). split; auto; [|eapply kept_built; eauto].
  rewrite <- C, <- P, <- !app_assoc. apply Permutation_app_head, Permutation_app_comm.
Qed.
Arguments linv_drop {h own B lg given i} _.
Definition upd (B : nat -> list nat) (i : nat) (b : list nat) : nat -> list nat := fun j => if j =? i then b else B j.
Lemma linv_new h own B lg given its b : linv h (helds its ++ own) B lg given ->
  (forall k, In k b <-> In k (gives its) \/ exists j, In j (helds its) /\ In k (B j)) ->
  linv (h ++ [(1, its)]) (length h :: own) (upd B (length h) b) lg (given ++ gives its).
Proof.
  intros [A C D] Hb. pose proof (new_ok _ _ A) as N. split; auto.
  - rewrite all_app. cbn. rewrite app_nil_r, <- app_assoc, (Permutation_app_comm (gives its)), app_assoc. now rewrite C.
  - intros i L. pose proof (look_live _ _ L) as Hi. rewrite app_length in Hi. cbn in Hi.
    assert (Hj : forall j, In j (helds (snd (look (h ++ [(1, its)]) i))) -> upd B (length h) b j = B j).
    { intros j Hj. assert (j < i) by (eapply (ok_old N); exact Hj). unfold upd. now rewrite (proj2 (Nat.eqb_neq _ _)) by lia. }
    intros k. destruct (Nat.eq_dec i (length h)) as [->|Ne].
    + rewrite look_new in *. cbn [snd] in *. unfold upd at 1. rewrite Nat.eqb_refl, Hb.
      split; (intros [H|(j & H1 & H2)]; [now left|right; exists j; split; auto]); [now rewrite Hj|now rewrite Hj in H2].
    + rewrite look_app_l in * by lia. unfold upd at 1. rewrite (proj2 (Nat.eqb_neq _ _)) by lia. rewrite (D i L).
      split; (intros [H|(j & H1 & H2)]; [now left|right; exists j; split; auto]); [now rewrite Hj|now rewrite Hj in H2].
Qed.

(** A closure is still stored exactly when something held was built from it *)
Lemma stored_iff h own B lg given k : linv h own B lg given ->
  In k (all_of gives h) <-> exists i, In i own /\ In k (B i).
Proof.
  intros [A _ D]. split.
  - intros Hk. unfold all_of in Hk. apply in_flat_map in Hk. destruct Hk as (c & Hc & Hk).
    destruct (In_nth _ _ (0, []) Hc) as (i & Hi & E). change (look h i = c) in E.
    assert (L : 0 < fst (look h i)).
    { destruct (Nat.eq_dec (fst (look h i)) 0) as [Z|Z]; [|lia]. apply (ok_dead A) in Z. rewrite E in Z. now rewrite Z in Hk. }
    assert (Hb : In k (B i)) by (apply (D i L); left; now rewrite E).
    clear c Hc Hk E Hi. revert Hb L. remember (length h - i) as m eqn:Em. revert i Em.
    induction m as [m IH] using lt_wf_ind. intros i Em Hb L. pose proof L as L'. rewrite (ok_count A), count_occ_app in L'.
    destruct (in_dec Nat.eq_dec i own) as [Ho|Ho]; [eauto|].
    apply (count_occ_not_In Nat.eq_dec) in Ho. assert (Hi : In i (all_of helds h)) by (apply (count_occ_In Nat.eq_dec); lia).
    unfold all_of in Hi. apply in_flat_map in Hi. destruct Hi as (c & Hc & Hi).
    destruct (In_nth _ _ (0, []) Hc) as (j & Hj & E). change (look h j = c) in E.
    assert (Hij : i < j) by (eapply (ok_old A); rewrite E; exact Hi).
    assert (Lj : 0 < fst (look h j)).
    { destruct (Nat.eq_dec (fst (look h j)) 0) as [Z|Z]; [|lia]. apply (ok_dead A) in Z. rewrite E in Z. now rewrite Z in Hi. }
    pose proof (look_live _ _ L) as Hli. pose proof (look_live _ _ Lj) as Hlj.
    apply (IH (length h - j) ltac:(lia) j eq_refl); auto. apply (D j Lj). right. exists i. now rewrite E.
  - intros (i & Hi & Hk). pose proof (own_live _ A Hi) as L. clear Hi. revert L Hk.
    induction i as [i IH] using lt_wf_ind. intros L Hk. apply (D i L) in Hk. destruct Hk as [Hk|(j & Hj & Hk)].
    + unfold all_of. apply in_flat_map. exists (look h i). split; auto. apply nth_In. now apply look_live.
    + apply (IH j); auto; [eapply (ok_old A); eauto|eapply held_live; eauto].
Qed.
Arguments stored_iff {h own B lg given} k _.

(** ** Histories *)
Definition stored (held : list (option nat)) : list nat := flat_map (fun x => match x with Some i => [i] | None => [] end) held.
Definition rel (B : nat -> list nat) (x : option nat) (b : option (list nat)) : Prop :=
  match x, b with Some i, Some ks => forall k, In k (B i) <-> In k ks | None, None => True | _, _ => False end.
Definition corr B (held : list (option nat)) (sheld : list (option (list nat))) : Prop := Forall2 (rel B) held sheld.
Definition inv (s : program) (w : wanted) : Prop :=
  exists B, linv (fst (fst s)) (stored (snd (fst s))) B (released s) (fst w) /\ corr B (snd (fst s)) (snd w).

Lemma stored_app a b : stored (a ++ b) = stored a ++ stored b.
Proof. apply flat_map_app. Qed.
Lemma in_stored i held : In i (stored held) <-> In (Some i) held.
Proof.
  unfold stored. rewrite in_flat_map. split.
  - intros ([j|] & H & Hi); [|easy]. destruct Hi as [<-|[]]. exact H.
  - intros H. exists (Some i). split; [exact H|now left].
Qed.
Lemma split_nth {A} (l : list A) : forall p x, nth_error l p = Some x -> l = firstn p l ++ x :: skipn (S p) l.
Proof.
  induction l as [|y l IH]; intros [|p] x H; cbn in *; try discriminate; [now injection H as ->|]. f_equal. now apply IH.
Qed.
Lemma nth_some {A} (l : list (option A)) p x : nth p l None = Some x -> nth_error l p = Some (Some x).
Proof. revert p. induction l as [|y l IH]; intros [|p] H; cbn in *; try discriminate; [now rewrite H|auto]. Qed.
Lemma nth_error_some {A} (l : list (option A)) p x : nth_error l p = Some x -> nth p l None = x.
Proof. revert p. induction l as [|y l IH]; intros [|p] H; cbn in *; try discriminate; [now injection H as ->|auto]. Qed.
Lemma stored_take p x held : nth_error held p = Some (Some x) -> Permutation (stored held) (x :: stored (without p held)).
Proof.
  intros H. unfold without. rewrite (split_nth _ _ H) at 1. rewrite !stored_app. cbn [stored flat_map app].
  fold (stored (skipn (S p) held)). symmetry. apply Permutation_middle.
Qed.
Lemma stored_none p held : nth_error held p = Some None -> stored (without p held) = stored held.
Proof. intros H. unfold without. rewrite (split_nth _ _ H) at 3. now rewrite !stored_app. Qed.
Lemma Forall2_firstn {A B} (R : A -> B -> Prop) n : forall a b, Forall2 R a b -> Forall2 R (firstn n a) (firstn n b).
Proof. induction n; intros a b H; cbn; [constructor|]. destruct H; constructor; auto. Qed.
Arguments Forall2_firstn {A B R} n {a b} _.
Lemma Forall2_skipn {A B} (R : A -> B -> Prop) n : forall a b, Forall2 R a b -> Forall2 R (skipn n a) (skipn n b).
Proof. induction n; intros a b H; cbn; [auto|]. destruct H; auto. Qed.
Lemma corr_without B p held sheld : corr B held sheld -> corr B (without p held) (without p sheld).
Proof. intros H. apply Forall2_app; [now apply Forall2_firstn|now apply Forall2_skipn]. Qed.
Arguments corr_without {B} p {held sheld} _.
Lemma corr_error B held sheld : corr B held sheld -> forall p,
  match nth_error held p, nth_error sheld p with Some x, Some b => rel B x b | None, None => True | _, _ => False end.
Proof. induction 1 as [|x b held sheld H _ IH]; intros [|p]; cbn; auto. apply IH. Qed.
Arguments corr_error {B held sheld} _ p.
Lemma corr_nth B held sheld p : corr B held sheld -> rel B (nth p held None) (nth p sheld None).
Proof.
  intros H. pose proof (corr_error H p) as E. destruct (nth_error held p) as [x|] eqn:E1, (nth_error sheld p) as [b|] eqn:E2;
    try easy.
  - now rewrite (nth_error_some _ _ E1), (nth_error_some _ _ E2).
  - apply nth_error_None in E1. apply nth_error_None in E2. now rewrite !nth_overflow by auto.
Qed.
Arguments corr_nth {B held sheld} p _.
Lemma corr_same B B' held sheld : (forall i, In i (stored held) -> B' i = B i) -> corr B held sheld -> corr B' held sheld.
Proof.
  intros E H. induction H as [|x b held sheld H H' IH]; constructor.
  - destruct x as [i|], b as [b|]; cbn in *; auto. now rewrite E by now left.
  - apply IH. intros i Hi. apply E. cbn [stored flat_map]. apply in_or_app. now right.
Qed.
Lemma corr_upd h own B lg given held sheld b : linv h own B lg given -> (forall i, In i (stored held) -> In i own) ->
  corr B held sheld -> corr (upd B (length h) b) held sheld.
Proof.
  intros [A _ _] Ho H. apply (corr_same (B := B)); [|exact H]. intros i Hi. apply Ho in Hi.
  apply (own_live _ A), look_live in Hi. unfold upd. now rewrite (proj2 (Nat.eqb_neq _ _)) by lia.
Qed.

Lemma alloc_inv h held sheld its B log given b : linv h (helds its ++ stored held) B (flat_map closures log) given ->
  corr B held sheld -> (forall k, In k b <-> In k (gives its) \/ exists j, In j (helds its) /\ In k (B j)) ->
  inv (with_new held log (arc_new its h)) (given ++ gives its, sheld ++ [Some b]).
Proof.
  intros H C Hb. exists (upd B (length h) b). unfold with_new, arc_new, released. cbn [fst snd]. split.
  - apply (@linv_perm _ (length h :: stored held)); [|now apply linv_new].
    rewrite stored_app. cbn. apply Permutation_cons_append.
  - apply Forall2_app.
    + eapply corr_upd; eauto. intros i Hi. apply in_or_app. now right.
    + constructor; [|constructor]. cbn. unfold upd. now rewrite Nat.eqb_refl.
Qed.
Lemma moved h held B lg given p x : linv h (stored held) B lg given -> nth p held None = Some x ->
  linv h (x :: stored (without p held)) B lg given.
Proof. intros H E. eapply linv_perm; [|exact H]. apply stored_take. now apply nth_some. Qed.
Arguments moved {h held B lg given} p {x} _ _.
Lemma held_at held p x : nth p held None = Some x -> In x (stored held).
Proof. intros H. apply in_stored. apply nth_some in H. eapply nth_error_In; eauto. Qed.
Arguments held_at {held} p {x} _.
Lemma corr_at B held sheld p x : corr B held sheld -> nth p held None = Some x ->
  exists b, nth p sheld None = Some b /\ forall k, In k (B x) <-> In k b.
Proof.
  intros H E. pose proof (corr_nth p H) as R. rewrite E in R. destruct (nth p sheld None) as [b|]; [|easy]. eauto.
Qed.
Arguments corr_at {B held sheld} p {x} _ _.
Lemma corr_none B held sheld p : corr B held sheld -> nth p held None = None -> nth p sheld None = None.
Proof. intros H E. pose proof (corr_nth p H) as R. rewrite E in R. now destruct (nth p sheld None). Qed.
Arguments corr_none {B held sheld} p _ _.

Lemma pair_items x y ks : gives ([Held x; Held y] ++ map Given ks) = ks /\ helds ([Held x; Held y] ++ map Given ks) = [x; y].
Proof.
  assert (E : gives (map Given ks) = ks /\ helds (map Given ks) = []).
  { induction ks as [|z ks [IH1 IH2]]; [auto|]. split; [cbn; unfold gives in IH1; now rewrite IH1|exact IH2]. }
  destruct E as [E1 E2]. split; [exact E1|]. cbn. unfold helds in E2. now rewrite E2.
Qed.
(** One handle captured, and a closure *)
Lemma one_captured (B : nat -> list nat) x (b : list nat) k0 : (forall k, In k (B x) <-> In k b) ->
  forall k, In k (b ++ [k0]) <-> In k (gives [Held x; Given k0]) \/ exists j, In j (helds [Held x; Given k0]) /\ In k (B j).
Proof.
  intros H k. rewrite in_app_iff, <- H. cbn. split.
  - intros [G|G]; [right; eauto|now left].
  - intros [G|(j & [<-|[]] & G)]; auto.
Qed.
Lemma two_captured (B : nat -> list nat) x y (b c : list nat) ks : (forall k, In k (B x) <-> In k b) ->
  (forall k, In k (B y) <-> In k c) ->
  forall k, In k (b ++ c ++ ks) <-> In k (gives ([Held x; Held y] ++ map Given ks)) \/
                                    exists j, In j (helds ([Held x; Held y] ++ map Given ks)) /\ In k (B j).
Proof.
  intros H G k. destruct (pair_items x y ks) as [Eg Eh].
  rewrite Eg, Eh, !in_app_iff, <- H, <- G. cbn. split.
  - intros [K|[K|K]]; eauto 6.
  - intros [K|(j & [<-|[<-|[]]] & K)]; auto.
Qed.
Arguments two_captured B x y {b c} ks _ _.

Lemma inv_moved_map h held log given sheld p x k : inv (h, held, log) (given, sheld) -> nth p held None = Some x ->
  exists b, nth p sheld None = Some b /\
    inv (with_new (without p held) log (arc_new [Held x; Given k] h)) (given ++ [k], without p sheld ++ [Some (b ++ [k])]).
Proof.
  intros (B & L & C) E. cbn [fst snd] in *. destruct (corr_at p C E) as (b & Eb & Hb). exists b. split; [exact Eb|].
  apply (@alloc_inv h (without p held) (without p sheld) [Held x; Given k] B log given).
  - exact (moved p L E).
  - now apply corr_without.
  - now apply one_captured.
Qed.
Arguments inv_moved_map {h held log given sheld} p {x} k _ _.
Lemma inv_moved_cont h held log given sheld p x k : inv (h, held, log) (given, sheld) -> nth p held None = Some x ->
  exists b, nth p sheld None = Some b /\
    inv (with_new (without p held) log (sh_cont_fmap x k h)) (given ++ [k], without p sheld ++ [Some (b ++ [k])]).
Proof.
  intros (B & L & C) E. cbn [fst snd] in *. destruct (corr_at p C E) as (b & Eb & Hb). exists b. split; [exact Eb|].
  pose proof (moved p L E) as L1.
  assert (L2 : linv (h ++ [(1, [Given k])]) (length h :: x :: stored (without p held)) (upd B (length h) [k])
                 (flat_map closures log) (given ++ [k])).
  { apply (@linv_new h (x :: stored (without p held)) B _ given [Given k]); [exact L1|].
    intros k'. cbn. split; [now left|]. intros [H|(j & [] & _)]; exact H. }
  unfold sh_cont_fmap, arc_new at 1. rewrite <- (app_nil_r (given ++ [k])).
  apply (@alloc_inv _ (without p held) (without p sheld) [Held x; Held (length h)] (upd B (length h) [k]) log (given ++ [k])).
  - eapply linv_perm; [|exact L2]. apply perm_swap.
  - eapply corr_upd; [exact L1|intros i Hi; now right|now apply corr_without].
  - assert (Hx : upd B (length h) [k] x = B x).
    { unfold upd. rewrite (proj2 (Nat.eqb_neq _ _)); [reflexivity|].
      pose proof (look_live _ _ (own_live _ (l_ok L1) (or_introl eq_refl))). lia. }
    intros k'. rewrite in_app_iff, <- Hb. cbn. split.
    + intros [H|[<-|[]]]; right; [exists x; rewrite Hx; auto|].
      exists (length h). split; [auto|]. unfold upd. rewrite Nat.eqb_refl. now left.
    + intros [[]|(j & [<-|[<-|[]]] & H)]; [rewrite Hx in H; auto|]. unfold upd in H. rewrite Nat.eqb_refl in H. auto.
Qed.
Arguments inv_moved_cont {h held log given sheld} p {x} k _ _.
Lemma inv_shared_map h held log given sheld p x k : inv (h, held, log) (given, sheld) -> nth p held None = Some x ->
  exists b, nth p sheld None = Some b /\
    inv (with_new held log (arc_new [Held x; Given k] (arc_clone x h))) (given ++ [k], sheld ++ [Some (b ++ [k])]).
Proof.
  intros (B & L & C) E. cbn [fst snd] in *. destruct (corr_at p C E) as (b & Eb & Hb). exists b. split; [exact Eb|].
  apply (@alloc_inv _ held sheld [Held x; Given k] B log given).
  - exact (linv_clone L (held_at p E)).
  - exact C.
  - now apply one_captured.
Qed.
Arguments inv_shared_map {h held log given sheld} p {x} k _ _.
Lemma inv_shared_two h held log given sheld p q x y ks : inv (h, held, log) (given, sheld) ->
  nth p held None = Some x -> nth q held None = Some y ->
  exists b c, nth p sheld None = Some b /\ nth q sheld None = Some c /\
    inv (with_new held log (arc_new ([Held x; Held y] ++ map Given ks) (arc_clone y (arc_clone x h))))
        (given ++ ks, sheld ++ [Some (b ++ c ++ ks)]).
Proof.
  intros (B & L & C) E F. cbn [fst snd] in *. destruct (corr_at p C E) as (b & Eb & Hb). destruct (corr_at q C F) as (c & Ec & Hc).
  exists b, c. split; [exact Eb|]. split; [exact Ec|].
  destruct (pair_items x y ks) as [Eg Eh].
  rewrite <- Eg at 2. apply (@alloc_inv _ held sheld _ B log given).
  - rewrite Eh. eapply linv_perm; [apply perm_swap|]. apply linv_clone; [|right; now apply (held_at q)].
    apply linv_clone; [exact L|now apply (held_at p)].
  - exact C.
  - now apply two_captured.
Qed.
Arguments inv_shared_two {h held log given sheld} p q {x y} ks _ _ _.
Lemma sequence_items l : helds (flat_map (fun x => match x with Some i => [Held i] | None => [] end) l) = stored l /\
  gives (flat_map (fun x : option nat => match x with Some i => [Held i] | None => [] end) l) = [].
Proof. induction l as [|[i|] l [IH1 IH2]]; cbn; auto. unfold helds in IH1. now rewrite IH1. Qed.
Lemma corr_flat B held sheld : corr B held sheld -> forall k,
  In k (flat_map (fun x => match x with Some b => b | None => [] end) sheld) <-> exists j, In j (stored held) /\ In k (B j).
Proof.
  induction 1 as [|x b held sheld H _ IH]; intros k; cbn.
  - split; [easy|]. now intros (j & [] & _).
  - rewrite in_app_iff, IH. destruct x as [i|], b as [b|]; cbn in *; try easy.
    + rewrite <- H. split.
      * intros [G|(j & G1 & G2)]; eauto.
      * intros (j & [<-|G1] & G2); eauto.
    + split; [intros [[]|G]; exact G|auto].
Qed.
Arguments corr_flat {B held sheld} _ k.

Lemma act_inv a s w : inv s w -> inv (act_run a s) (act_want a w).
Proof.
  destruct s as [[h held] log], w as [given sheld]. intros I. pose proof I as (B & L & C). cbn [fst snd] in L, C.
  assert (Hm : forall p k, inv (match nth p held None with Some x => with_new (without p held) log (arc_new [Held x; Given k] h)
                                | None => (h, held, log) end)
             (match nth p sheld None with Some b => (given ++ [k], without p sheld ++ [Some (b ++ [k])])
              | None => (given, sheld) end)).
  { intros p k. destruct (nth p held None) as [x|] eqn:E.
    - destruct (inv_moved_map p k I E) as (b & -> & H). exact H.
    - now rewrite (corr_none p C E). }
  assert (Hc : forall p k, inv (match nth p held None with Some x => with_new (without p held) log (sh_cont_fmap x k h)
                                | None => (h, held, log) end)
             (match nth p sheld None with Some b => (given ++ [k], without p sheld ++ [Some (b ++ [k])])
              | None => (given, sheld) end)).
  { intros p k. destruct (nth p held None) as [x|] eqn:E.
    - destruct (inv_moved_cont p k I E) as (b & -> & H). exact H.
    - now rewrite (corr_none p C E). }
  assert (Hs : forall p k, inv (match nth p held None with Some x => with_new held log (arc_new [Held x; Given k] (arc_clone x h))
                                | None => (h, held, log) end)
             (match nth p sheld None with Some b => (given ++ [k], sheld ++ [Some (b ++ [k])])
              | None => (given, sheld) end)).
  { intros p k. destruct (nth p held None) as [x|] eqn:E.
    - destruct (inv_shared_map p k I E) as (b & -> & H). exact H.
    - now rewrite (corr_none p C E). }
  assert (H2 : forall p q ks, inv (match nth p held None, nth q held None with
                | Some x, Some y => with_new held log (arc_new ([Held x; Held y] ++ map Given ks) (arc_clone y (arc_clone x h)))
                | _, _ => (h, held, log) end)
             (match nth p sheld None, nth q sheld None with
              | Some b, Some c => (given ++ ks, sheld ++ [Some (b ++ c ++ ks)])
              | _, _ => (given, sheld) end)).
  { intros p q ks. destruct (nth p held None) as [x|] eqn:E; [|now rewrite (corr_none p C E)].
    destruct (nth q held None) as [y|] eqn:F.
    - destruct (inv_shared_two p q ks I E F) as (b & c & -> & -> & H). exact H.
    - destruct (corr_at p C E) as (b & -> & _). now rewrite (corr_none q C F). }
  destruct a as [k|p k|p k|p q|p k|p k|p k|p k|p k|p q k|p q|p|p q| |p k|p k|n|p|p]; cbn [act_run act_want].
  - apply (@alloc_inv h held sheld [Given k] B log given); [exact L|exact C|].
    intros k'. cbn. split; [now left|]. now intros [H|(j & [] & _)].
  - apply Hm.
  - apply Hm.
  - destruct (nth p held None) as [x|] eqn:E; [|now rewrite (corr_none p C E)].
    destruct (corr_at p C E) as (b & -> & Hb). pose proof (corr_without p C) as C1. pose proof (moved p L E) as L1.
    destruct (nth q (without p held) None) as [y|] eqn:F; [|now rewrite (corr_none q C1 F)].
    destruct (corr_at q C1 F) as (c & -> & Hc'). rewrite <- (app_nil_r given).
    apply (@alloc_inv h _ _ [Held x; Held y] B log given).
    + cbn. eapply linv_perm; [|exact L1]. apply perm_skip. apply stored_take. now apply nth_some.
    + now apply corr_without.
    + pose proof (two_captured B x y [] Hb Hc') as T. cbn [map] in T. rewrite !app_nil_r in T. exact T.
  - apply Hc.
  - apply Hc.
  - apply Hs.
  - apply Hs.
  - apply Hs.
  - apply (H2 p q [k]).
  - pose proof (H2 p q []) as T. cbn [map] in T. rewrite !app_nil_r in T.
    destruct (nth p held None), (nth q held None), (nth p sheld None), (nth q sheld None);
      rewrite ?app_nil_r in T; exact T.
  - destruct (nth p held None) as [x|] eqn:E; [|now rewrite (corr_none p C E)].
    destruct (corr_at p C E) as (b & -> & Hb). rewrite <- (app_nil_r given).
    apply (@alloc_inv _ held sheld [Held x] B log given); [exact (linv_clone L (held_at p E))|exact C|].
    intros k. rewrite <- Hb. cbn. split; [intros G; right; eauto|]. intros [[]|(j & [<-|[]] & G)]. exact G.
  - unfold sh_compose. destruct (nth p held None) as [x|] eqn:E; [|now rewrite (corr_none p C E)].
    destruct (corr_at p C E) as (b & -> & Hb).
    destruct (nth q held None) as [y|] eqn:F; [|now rewrite (corr_none q C F)].
    destruct (corr_at q C F) as (c & -> & Hc').
    rewrite <- (app_nil_r given). apply (@alloc_inv _ held sheld [Held y; Held x] B log given).
    + cbn. eapply linv_perm; [apply perm_swap|]. apply linv_clone; [|right; now apply (held_at p)].
      apply linv_clone; [exact L|now apply (held_at q)].
    + exact C.
    + intros k. rewrite in_app_iff, <- Hb, <- Hc'. cbn. split; [intros [G|G]; right; eauto|].
      intros [[]|(j & [<-|[<-|[]]] & G)]; auto.
  - exists B. unfold released. cbn [fst snd]. rewrite stored_app. cbn. rewrite app_nil_r. split; [exact L|].
    apply Forall2_app; [exact C|]. constructor; [exact Logic.I|constructor].
  - pose proof (corr_error C p) as R. destruct (nth_error held p) as [[x|]|] eqn:E, (nth_error sheld p) as [[b|]|] eqn:F; try easy.
    + unfold sh_io_fmap, arc_new. rewrite app_nil_r.
      destruct (inv_shared_map p k I (nth_error_some _ _ E)) as (b' & Eb & H). rewrite (nth_error_some _ _ F) in Eb.
      injection Eb as <-. exact H.
    + cbn [sh_io_fmap]. exists B. unfold released. cbn [fst snd]. rewrite stored_app, flat_map_app. cbn. rewrite app_nil_r. split.
      * destruct L as [A P D]. split; auto. rewrite app_assoc. now rewrite P.
      * apply Forall2_app; [exact C|]. constructor; [exact Logic.I|constructor].
  - apply Hs.
  - destruct (sequence_items (firstn n held)) as [Eh Eg]. rewrite <- (app_nil_r given), <- Eg.
    apply (@alloc_inv h (skipn n held) (skipn n sheld) _ B log given).
    + rewrite Eh, <- stored_app, firstn_skipn. exact L.
    + now apply Forall2_skipn.
    + rewrite Eh, Eg. intros k. rewrite (corr_flat (Forall2_firstn n C)). split; [now right|]. now intros [[]|H].
  - pose proof (corr_error C p) as R. destruct (nth_error held p) as [[x|]|] eqn:E, (nth_error sheld p) as [[b|]|] eqn:F; try easy;
      exists B; unfold released; cbn [fst snd]; rewrite stored_app; cbn [stored flat_map app].
    + split; [|apply Forall2_app; [exact C|constructor; [exact R|constructor]]].
      eapply linv_perm; [apply Permutation_cons_append|]. apply linv_clone; [exact L|].
      apply (held_at p). now apply nth_error_some.
    + rewrite app_nil_r. split; [exact L|]. apply Forall2_app; [exact C|constructor; [exact Logic.I|constructor]].
  - pose proof (corr_error C p) as R. destruct (nth_error held p) as [[x|]|] eqn:E, (nth_error sheld p) as [[b|]|] eqn:F; try easy.
    + pose proof (linv_drop (moved p L (nth_error_some _ _ E))) as L1. destruct (drop_handle x h) as [h' es].
      exists B. unfold released. cbn [fst snd]. rewrite flat_map_app. split; [exact L1|now apply corr_without].
    + exists B. unfold released. cbn [fst snd]. rewrite (stored_none _ _ E). split; [exact L|now apply corr_without].
Qed.
Lemma acts_inv acts : inv (acts_run acts) (acts_want acts).
Proof.
  unfold acts_run, acts_want.
  assert (H : inv ([], [], []) ([], [])).
  { exists (fun _ => []). split; [|constructor]. split; [|constructor|].
    - split; [intros [|i] j H; destruct H|intros [|i]; reflexivity|intros [|i] _; reflexivity].
    - intros [|i] L; cbn in L; lia. }
  revert H. generalize (@nil cell, @nil (option nat), @nil ev). generalize (@nil nat, @nil (option (list nat))).
  induction acts as [|a acts IH]; intros w s H; cbn [fold_left]; [exact H|]. apply IH. now apply act_inv.
Qed.

Theorem C112_released_exactly : forall acts, NoDup (fst (acts_want acts)) ->
  NoDup (released (acts_run acts)) /\
  forall k, In k (released (acts_run acts)) <-> In k (fst (acts_want acts)) /\ ~ in_use k (acts_want acts).
Proof.
  intros acts N. destruct (acts_inv acts) as (B & L & C). set (s := acts_run acts) in *. set (w := acts_want acts) in *.
  assert (U : forall k, in_use k w <-> In k (all_of gives (fst (fst s)))).
  { intros k. rewrite (stored_iff k L). unfold in_use. clear - C. induction C as [|x b held sheld H _ IH].
    - split; [intros (b & [] & _)|intros (i & [] & _)].
    - destruct IH as [IH1 IH2]. split.
      + intros (c & [->|Hc] & Hk).
        * destruct x as [i|]; [|easy]. exists i. split; [now left|now apply H].
        * destruct (IH1 (ex_intro _ c (conj Hc Hk))) as (i & Hi & Hk'). exists i. split; [|exact Hk'].
          cbn [stored flat_map]. apply in_or_app. now right.
      + intros (i & Hi & Hk). cbn [stored flat_map] in Hi. apply in_app_or in Hi. destruct Hi as [Hi|Hi].
        * destruct x as [j|]; [|easy]. destruct Hi as [->|[]]. destruct b as [c|]; [|easy]. exists c. split; [now left|now apply H].
        * destruct (IH2 (ex_intro _ i (conj Hi Hk))) as (c & Hc & Hk'). exists c. split; [now right|exact Hk']. }
  pose proof (l_given L) as P. pose proof (Permutation_NoDup (Permutation_sym P) N) as N'. split.
  - clear - N'. induction (all_of gives (fst (fst s))) as [|z l IH]; [exact N'|]. inversion N'. auto.
  - intros k. rewrite U. split.
    + intros Hk. split.
      * apply (Permutation_in _ P). apply in_or_app. now right.
      * intros Hg. apply in_split in Hg. destruct Hg as (l1 & l2 & E). rewrite E, <- app_assoc in N'.
        apply NoDup_remove_2 in N'. apply N'. apply in_or_app. right. apply in_or_app. now right.
    + intros [Hk Hn]. apply (Permutation_in _ (Permutation_sym P)) in Hk. apply in_app_or in Hk. now destruct Hk.
Qed.

(** ** How deep dropping nests *)
Definition acyclic (h : heap) : Prop := forall i j, In j (helds (snd (look h i))) -> j < i.
Lemma acyclic_put h i n : acyclic h -> acyclic (put h i (n, snd (look h i))) /\ acyclic (put h i (0, [])).
Proof.
  intros A. split; intros a j Hj; destruct (Nat.eq_dec a i) as [->|N]; try (rewrite look_put_other in Hj by auto; eauto);
    (destruct (Nat.lt_ge_cases i (length h)) as [L|L];
      [rewrite look_put_same in Hj by auto; cbn in Hj; try easy; eauto|rewrite look_out in Hj by (now rewrite put_length); easy]).
Qed.
Lemma put_app h t : forall i c, i < length h -> put (h ++ t) i c = put h i c ++ t.
Proof. induction h as [|y h IH]; intros [|i] c H; cbn in *; try lia; auto. f_equal. apply IH. lia. Qed.

(** More fuel changes nothing, and neither do cells behind *)
Lemma arc_drop_stable fuel : forall fuel' i h t, acyclic h -> i < length h -> i < fuel -> i < fuel' ->
  let r := arc_drop fuel' i h in
  arc_drop fuel i (h ++ t) = (fst r ++ t, snd r) /\ acyclic (fst r) /\ length (fst r) = length h.
Proof.
  induction fuel as [|fuel IH]; intros [|fuel'] i h t A L H1 H2; try lia. cbn [arc_drop].
  rewrite look_app_l by auto. destruct (look h i) as [[|[|n]] its] eqn:E.
  - auto.
  - rewrite put_app by auto.
    assert (D : forall its h, acyclic h -> (forall j, In j (helds its) -> j < i) -> i < length h ->
      let r := drop_items (arc_drop fuel') its h in
      drop_items (arc_drop fuel) its (h ++ t) = (fst r ++ t, snd r) /\ acyclic (fst r) /\ length (fst r) = length h).
    { clear - IH H1 H2. induction its as [|[k|j] its IHi]; intros h A Hj L; cbn [drop_items].
      - auto.
      - destruct (IHi h A Hj L) as (E & A' & L'). rewrite E. destruct (drop_items (arc_drop fuel') its h). auto.
      - assert (j < i) by (apply Hj; now left).
        destruct (IH fuel' j h t A ltac:(lia) ltac:(lia) ltac:(lia)) as (E & A' & L'). rewrite E.
        destruct (arc_drop fuel' j h) as [h1 e1]. cbn [fst snd] in *.
        destruct (IHi h1 A' (fun j' H' => Hj j' (or_intror H')) ltac:(lia)) as (E2 & A2 & L2). rewrite E2.
        destruct (drop_items (arc_drop fuel') its h1) as [h2 e2]. cbn [fst snd] in *. split; auto. split; auto. congruence. }
    destruct (D its (put h i (0, []))) as (E1 & A1 & L1).
    + now apply (acyclic_put i 0).
    + intros j Hj. apply A. rewrite E. exact Hj.
    + now rewrite put_length.
    + rewrite E1. destruct (drop_items (arc_drop fuel') its (put h i (0, []))) as [h' es]. cbn [fst snd] in *.
      split; auto. split; auto. now rewrite L1, put_length.
  - cbn [fst snd]. rewrite put_app by auto. split; auto. split; [|apply put_length].
    replace its with (snd (look h i)) by now rewrite E. now apply (acyclic_put i (S n)).
Qed.
Lemma drop_new h its : acyclic h -> (forall j, In j (helds its) -> j < length h) ->
  drop_handle (length h) (h ++ [(1, its)]) =
    (let r := drop_items (arc_drop (length h)) its (h ++ [(0, [])]) in (fst r, [Freed (length h) (snd r)])).
Proof.
  intros A H. unfold drop_handle. cbn [arc_drop]. rewrite look_new.
  assert (E : put (h ++ [(1, its)]) (length h) (0, []) = h ++ [(0, [])]).
  { clear. induction h as [|y h IH]; cbn; [reflexivity|]. now rewrite IH. }
  rewrite E. now destruct (drop_items (arc_drop (length h)) its (h ++ [(0, [])])).
Qed.
Lemma depths_app a b : depths (a ++ b) = Nat.max (depths a) (depths b).
Proof. unfold depths. induction a as [|e a IH]; cbn; [reflexivity|]. rewrite IH. lia. Qed.

Lemma depths_one i es : depths [Freed i es] = S (depths es).
Proof. unfold depths. cbn. lia. Qed.
Lemma depths_released k : depths [Released k] = 0.
Proof. reflexivity. Qed.

(** What dropping a handle does in a heap that was built *)
Definition sane (r : heap * nat) : Prop := acyclic (fst r) /\ 0 < fst (look (fst r) (snd r)).
Lemma state_fmap_drop h x k : sane (h, x) ->
  sane (sh_state_fmap x k h) /\
  snd (drop_handle (length h) (fst (sh_state_fmap x k h))) = [Freed (length h) (snd (drop_handle x h) ++ [Released k])].
Proof.
  intros [A L]. cbn [fst snd] in *. pose proof (look_live _ _ L) as Hx. split.
  - unfold sh_state_fmap, arc_new. split; cbn [fst snd].
    + intros i j Hj. destruct (Nat.lt_trichotomy i (length h)) as [Hi|[->|Hi]].
      * rewrite look_app_l in Hj by auto. eauto.
      * rewrite look_new in Hj. cbn in Hj. destruct Hj as [<-|[]]. exact Hx.
      * rewrite look_out in Hj by (rewrite app_length; cbn; lia). easy.
    + rewrite look_new. cbn. lia.
  - unfold sh_state_fmap, arc_new. cbn [fst]. rewrite drop_new; auto.
    2:{ intros j Hj. cbn in Hj. destruct Hj as [<-|[]]. exact Hx. }
    cbn [drop_items]. destruct (@arc_drop_stable (length h) (S x) x h [(0, [])] A Hx Hx ltac:(lia)) as (E & _).
    rewrite E. unfold drop_handle. destruct (arc_drop (S x) x h). reflexivity.
Qed.
Lemma cont_fmap_drop h x k : sane (h, x) ->
  sane (sh_cont_fmap x k h) /\
  snd (drop_handle (S (length h)) (fst (sh_cont_fmap x k h))) =
    [Freed (S (length h)) (snd (drop_handle x h) ++ [Freed (length h) [Released k]])].
Proof.
  intros [A L]. cbn [fst snd] in *. pose proof (look_live _ _ L) as Hx.
  assert (A1 : acyclic (h ++ [(1, [Given k])])).
  { intros i j Hj. destruct (Nat.lt_trichotomy i (length h)) as [Hi|[->|Hi]].
    - rewrite look_app_l in Hj by auto. eauto.
    - rewrite look_new in Hj. easy.
    - rewrite look_out in Hj by (rewrite app_length; cbn; lia). easy. }
  assert (Hl : length (h ++ [(1, [Given k])]) = S (length h)) by (rewrite app_length; cbn; lia).
  split.
  - unfold sh_cont_fmap, arc_new. split; cbn [fst snd].
    + intros i j Hj. destruct (Nat.lt_trichotomy i (S (length h))) as [Hi|[->|Hi]].
      * rewrite look_app_l in Hj by lia. eauto.
      * rewrite <- Hl in Hj at 1. rewrite look_new in Hj. cbn in Hj. destruct Hj as [<-|[<-|[]]]; lia.
      * rewrite look_out in Hj by (rewrite app_length, Hl; cbn; lia). easy.
    + rewrite look_new. cbn. lia.
  - unfold sh_cont_fmap, arc_new. cbn [fst]. rewrite <- Hl at 1. rewrite drop_new; auto.
    2:{ intros j Hj. rewrite Hl. cbn in Hj. destruct Hj as [<-|[<-|[]]]; lia. }
    rewrite Hl. cbn [drop_items]. rewrite <- app_assoc.
    destruct (@arc_drop_stable (S (length h)) (S x) x h ([(1, [Given k])] ++ [(0, [])]) A Hx ltac:(lia) ltac:(lia)) as (E & A' & L').
    unfold heap, cell in *. rewrite E. unfold drop_handle. destruct (arc_drop (S x) x h) as [h' es]. cbn [fst snd] in *.
    rewrite app_assoc. cbn [arc_drop]. rewrite look_app_l by (rewrite app_length; cbn; lia). rewrite <- L', look_new. reflexivity.
Qed.
Lemma acts_sane acts p x : nth p (snd (fst (acts_run acts))) None = Some x -> sane (fst (fst (acts_run acts)), x).
Proof.
  intros H. destruct (acts_inv acts) as (B & L & _). split; cbn [fst snd].
  - exact (ok_old (l_ok L)).
  - exact (own_live _ (l_ok L) (held_at p H)).
Qed.
Lemma chain_sane (step : nat -> nat -> heap -> heap * nat) ks : (forall x k h, sane (h, x) -> sane (step x k h)) ->
  forall r, sane r -> sane (chain step ks r).
Proof.
  intros H. unfold chain. induction ks as [|k ks IH]; intros [h x] S; cbn [fold_left]; [exact S|]. apply IH. now apply H.
Qed.

(** Chains by value *)
Theorem C112_state_chain_depth : forall acts p x ks, nth p (snd (fst (acts_run acts))) None = Some x ->
  let h := fst (fst (acts_run acts)) in
  let r := chain sh_state_fmap ks (h, x) in
  drop_depth (fst r) (snd r) = length ks + drop_depth h x /\ chain sh_state_bind ks (h, x) = r.
Proof.
  intros acts p x ks Hp h r. split; [|reflexivity]. subst r. pose proof (acts_sane acts p Hp) as S. fold h in S.
  clearbody h. clear Hp. revert h x S. induction ks as [|k ks IH] using rev_ind; intros h x S; [reflexivity|].
  unfold chain. rewrite fold_left_app. cbn [fold_left]. fold (chain sh_state_fmap ks (h, x)).
  assert (S' : sane (chain sh_state_fmap ks (h, x))).
  { apply chain_sane; [|exact S]. intros a b c H. now apply state_fmap_drop. }
  specialize (IH h x S). destruct (chain sh_state_fmap ks (h, x)) as [h' x']. cbn [fst snd] in *.
  destruct (state_fmap_drop k S') as [_ E]. unfold drop_depth in *.
  change (snd (sh_state_fmap x' k h')) with (length h'). rewrite E, app_length. cbn [length].
  replace (length ks + 1 + depths (snd (drop_handle x h))) with (1 + depths (snd (drop_handle x' h'))) by (rewrite IH; lia).
  rewrite depths_one, depths_app, depths_released. lia.
Qed.
Theorem C112_cont_chain_depth : forall acts p x k ks, nth p (snd (fst (acts_run acts))) None = Some x ->
  let h := fst (fst (acts_run acts)) in
  let r := chain sh_cont_fmap (k :: ks) (h, x) in
  drop_depth (fst r) (snd r) = S (length ks) + Nat.max 1 (drop_depth h x) /\ chain sh_cont_bind (k :: ks) (h, x) = r.
Proof.
  intros acts p x k ks Hp h r. split; [|reflexivity]. subst r. pose proof (acts_sane acts p Hp) as S. fold h in S.
  clearbody h. clear Hp. revert h x S. induction ks as [|k' ks IH] using rev_ind; intros h x S.
  - cbn [chain fold_left snd fst length]. destruct (cont_fmap_drop k S) as [_ E]. unfold drop_depth.
    replace (snd (sh_cont_fmap x k h)) with (Datatypes.S (length h)) by (cbn; rewrite app_length; cbn; lia).
    rewrite E, depths_one, depths_app, depths_one, depths_released. lia.
  - rewrite app_comm_cons. unfold chain. rewrite fold_left_app. cbn [fold_left].
    change (fold_left _ ks _) with (chain sh_cont_fmap (k :: ks) (h, x)).
    assert (S' : sane (chain sh_cont_fmap (k :: ks) (h, x))).
    { apply chain_sane; [|exact S]. intros a b c H. now apply cont_fmap_drop. }
    specialize (IH h x S). destruct (chain sh_cont_fmap (k :: ks) (h, x)) as [h' x']. cbn [fst snd] in *.
    destruct (cont_fmap_drop k' S') as [_ E]. unfold drop_depth in *.
    replace (snd (sh_cont_fmap x' k' h')) with (Datatypes.S (length h')) by (cbn; rewrite app_length; cbn; lia).
    rewrite E, app_length. cbn [length].
    replace (Datatypes.S (length ks + 1) + Nat.max 1 (depths (snd (drop_handle x h)))) with (1 + depths (snd (drop_handle x' h'))) by (rewrite IH; lia).
    assert (1 <= depths (snd (drop_handle x' h'))) by (rewrite IH; lia).
    rewrite depths_one, depths_app, depths_one, depths_released. lia.
Qed.
(** By reference: dropping the argument afterwards is the same as handing it over *)
Lemma then_drop_sane h x k : sane (h, x) ->
  then_drop sh_reader_fmap x k h = sh_state_fmap x k h /\ snd (drop_handle x (fst (sh_reader_fmap x k h))) = [].
Proof.
  intros [A L]. cbn [fst snd] in A, L. pose proof (look_live _ _ L) as Hx.
  assert (E : drop_handle x (arc_clone x h ++ [(1, [Held x; Given k])]) = (h ++ [(1, [Held x; Given k])], [])).
  { unfold drop_handle. cbn [arc_drop]. unfold arc_clone. destruct (look h x) as [n its] eqn:El.
    rewrite look_app_l by (now rewrite put_length). rewrite look_put_same by auto. cbn [fst] in L. destruct n as [|n]; [lia|].
    rewrite put_app by (now rewrite put_length). f_equal. f_equal.
    clear - El Hx. revert x El Hx. unfold look. induction h as [|c h IH]; intros [|x] El Hx; cbn in *; try lia; [now rewrite El|].
    f_equal. apply IH; [exact El|lia]. }
  unfold then_drop, sh_reader_fmap, sh_state_fmap, arc_new. cbn [fst snd]. rewrite E. cbn [fst snd]. rewrite clone_length. auto.
Qed.
Lemma chain_then_drop ks : forall r, sane r -> chain (then_drop sh_reader_fmap) ks r = chain sh_state_fmap ks r.
Proof.
  unfold chain. induction ks as [|k ks IH]; intros [h x] S; [reflexivity|]. cbn [fold_left fst snd].
  rewrite (proj1 (then_drop_sane k S)). apply IH. now apply state_fmap_drop.
Qed.
Theorem C112_clone_then_drop : forall acts p x k, nth p (snd (fst (acts_run acts))) None = Some x ->
  let h := fst (fst (acts_run acts)) in
  then_drop sh_reader_fmap x k h = sh_state_fmap x k h /\ then_drop sh_reader_bind x k h = sh_state_bind x k h /\
  then_drop sh_reader_local x k h = sh_state_fmap x k h /\ then_drop sh_io_bind x k h = sh_state_bind x k h /\
  sh_io_fmap (Some x) k h = (fst (sh_io_bind x k h), Some (snd (sh_io_bind x k h)), []) /\
  snd (drop_handle x (fst (sh_reader_fmap x k h))) = [].
Proof.
  intros acts p x k Hp h. destruct (then_drop_sane k (acts_sane acts p Hp)) as [E1 E2]. fold h in E1, E2.
  repeat split; assumption.
Qed.
Theorem C112_reader_chain_depth : forall acts p x ks, nth p (snd (fst (acts_run acts))) None = Some x ->
  let h := fst (fst (acts_run acts)) in
  let r := chain (then_drop sh_reader_fmap) ks (h, x) in
  drop_depth (fst r) (snd r) = length ks + drop_depth h x /\
  chain (then_drop sh_reader_bind) ks (h, x) = r /\ chain (then_drop sh_reader_local) ks (h, x) = r /\
  chain (then_drop sh_io_bind) ks (h, x) = r.
Proof.
  intros acts p x ks Hp h r. repeat split. subst r. rewrite chain_then_drop by exact (acts_sane acts p Hp).
  now apply (C112_state_chain_depth acts p).
Qed.
(** ... and dropping the result while the argument is held frees one cell only *)
Theorem C112_kept_argument : forall acts p x k, nth p (snd (fst (acts_run acts))) None = Some x ->
  let h := fst (fst (acts_run acts)) in
  let r := sh_reader_fmap x k h in
  drop_handle (snd r) (fst r) = (h ++ [(0, [])], [Freed (snd r) [Released k]]).
Proof.
  intros acts p x k Hp h r. subst r. destruct (acts_sane acts p Hp) as [A L]. fold h in A, L. cbn [fst snd] in A, L. clearbody h.
  clear Hp. pose proof (look_live _ _ L) as Hx. unfold sh_reader_fmap, arc_new. cbn [fst snd].
  assert (A' : acyclic (arc_clone x h)).
  { unfold arc_clone. destruct (look h x) as [n its] eqn:El. replace its with (snd (look h x)) by now rewrite El.
    now apply acyclic_put. }
  rewrite drop_new; [|exact A'|intros j Hj; cbn in Hj; destruct Hj as [<-|[]]; now rewrite clone_length].
  cbn [drop_items]. rewrite clone_length. destruct (length h) as [|m] eqn:El; [lia|]. cbn [arc_drop].
  unfold arc_clone. destruct (look h x) as [n its] eqn:Elx.
  rewrite look_app_l by (rewrite put_length; lia). rewrite look_put_same by lia. cbn [fst] in L. destruct n as [|n]; [lia|].
  rewrite put_app by (rewrite put_length; lia). cbn [fst snd app]. f_equal. f_equal.
  rewrite <- El in Hx. clear - Elx Hx. revert x Elx Hx. unfold look. induction h as [|c h IH]; intros [|x] Elx Hx; cbn in *; try lia; [now rewrite Elx|].
  f_equal. apply IH; [exact Elx|lia].
Qed.

(** ** When nothing is held any more *)
Theorem C112_all_released : forall acts,
  NoDup (fst (acts_want acts)) -> (forall b, ~ In (Some b) (snd (acts_want acts))) ->
  Permutation (released (acts_run acts)) (fst (acts_want acts)).
Proof.
  intros acts ND H. apply NoDup_Permutation; [now apply C112_released_exactly|exact ND|].
  intros k. destruct (C112_released_exactly acts ND) as [_ E]. rewrite E. split; [now intros [? _]|].
  intros Hk. split; [exact Hk|]. intros (b & Hb & _). now apply (H b).
Qed.

(** ** Cases *)
Definition a_history : list act :=
  [New 1; New 2; ReaderFmap 0 3; IoPure; IoFmap 3 4; CloneIt 1; StateFmap 1 5; PredBinary 0 1; DropIt 0; ContBind 5 6; IoBind 0 7].
Example C112_case_history :
  fst (acts_want a_history) = [1; 2; 3; 4; 5; 6; 7] /\ NoDup (fst (acts_want a_history)) /\
  snd (acts_want a_history) = [Some [1; 3]; None; None; Some [2]; Some [2; 5]; Some [1; 1; 3; 6]; Some [1; 3; 7]] /\
  released (acts_run a_history) = [4].
Proof.
  repeat split; try (vm_compute; reflexivity). replace (fst (acts_want a_history)) with [1; 2; 3; 4; 5; 6; 7] by reflexivity.
  repeat constructor; cbn [In]; intuition lia.
Qed.
Example C112_case_history_dropped :
  released (acts_run (a_history ++ [DropIt 3; DropIt 3])) = [4; 2; 5] /\
  released (acts_run (a_history ++ repeat (DropIt 0) 7)) = [4; 2; 5; 6; 1; 3; 7] /\
  snd (acts_want (a_history ++ repeat (DropIt 0) 7)) = [].
Proof. vm_compute. auto. Qed.
Example C112_case_chain :
  let s := acts_run [New 1; New 2; ReaderFmap 0 3; DropIt 0] in
  nth 1 (snd (fst s)) None = Some 2 /\ drop_depth (fst (fst s)) 2 = 2 /\
  (let r := chain sh_state_fmap [4; 5; 6] (fst (fst s), 2) in drop_depth (fst r) (snd r)) = 5 /\
  (let r := chain sh_cont_fmap [4; 5; 6] (fst (fst s), 2) in drop_depth (fst r) (snd r)) = 5.
Proof. vm_compute. auto. Qed.
Example C112_case_kept :
  let s := acts_run [New 1; ReaderFmap 0 2; ReaderFmap 1 3] in
  nth 2 (snd (fst s)) None = Some 2 /\
  (let r := sh_reader_fmap 2 4 (fst (fst s)) in snd (drop_handle (snd r) (fst r))) = [Freed 3 [Released 4]] /\
  (let r := then_drop sh_reader_fmap 2 4 (fst (fst s)) in drop_depth (fst r) (snd r)) = 2 /\
  drop_depth (fst (fst s)) 2 = 1.
Proof. vm_compute. auto. Qed.

Print Assumptions C112_released_exactly.
Print Assumptions C112_all_released.
Print Assumptions C112_state_chain_depth.
Print Assumptions C112_cont_chain_depth.
Print Assumptions C112_clone_then_drop.
Print Assumptions C112_reader_chain_depth.
Print Assumptions C112_kept_argument.

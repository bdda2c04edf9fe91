(** C15 for every vector whatever its history: which calls panic, and which call brings a vector there. *)
From Coq Require Import List Arith Lia Bool.
From Verif Require Import Base ListFacts PvecModel PvecSpec PvecFacts PvecShape PvecEnds PvecHist PvecFront PvecSafe
  PvecComb PvecProps.
Import ListNotations.
Open Scope outcome_scope.
Set Implicit Arguments.
Unset Strict Implicit.

(** Vectors made by the public operations, without any restriction *)
Inductive arrived {T} : pvec T -> Prop :=
| arr_start v l : starts v l -> arrived v
| arr_step o v v' r : arrived v -> vec_step o v = Ret (v', r) -> arrived v'
| arr_concat a b : arrived a -> arrived b -> arrived (pv_concat a b)
| arr_left v i l r : arrived v -> pv_split_at v i = Ret (l, r) -> arrived l
| arr_right v i l r : arrived v -> pv_split_at v i = Ret (l, r) -> arrived r
| arr_sorted leb v v' : arrived v -> pv_sorted leb v = Ret v' -> arrived v'
| arr_dedup eqb v v' : arrived v -> pv_dedup eqb v = Ret v' -> arrived v'.

(** More elements buffered at the two ends than the recorded length *)
Definition overfull {T} (v : pvec T) : Prop :=
  exists t, inner v = Tree t /\ t_len t < length (t_head t) + length (t_tail t).

Section Panic.
Context {T : Type}.
Notation node := (node T).
Notation tree := (tree T).
Notation pvec := (pvec T).

Definition sound (v : pvec) : Prop :=
  match inner v with
  | Inline es => pv_len v = length es
  | Tree t => node_ok (t_root t)
  end.
Lemma safe_sound (v : pvec) : safe_vec v -> sound v.
Proof. unfold safe_vec, sound. destruct (inner v); [auto|]. now intros [H _]. Qed.
Lemma sound_safe (v : pvec) : sound v -> ~ overfull v -> safe_vec v.
Proof.
  unfold safe_vec, sound, overfull. destruct (inner v) as [es|t]; [auto|]. intros H N. split; [exact H|].
  destruct (Nat.le_gt_cases (length (t_head t) + length (t_tail t)) (t_len t)) as [L|L]; [exact L|].
  exfalso. apply N. eauto.
Qed.
Lemma safe_not_overfull (v : pvec) : safe_vec v -> ~ overfull v.
Proof. unfold safe_vec, overfull. intros H (t & E & L). rewrite E in H. destruct H. lia. Qed.
Lemma overfull_dec (v : pvec) : overfull v \/ ~ overfull v.
Proof.
  unfold overfull. destruct (inner v) as [es|t]; [right; intros (t & [=] & _)|].
  destruct (Nat.le_gt_cases (length (t_head t) + length (t_tail t)) (t_len t)) as [L|L]; [|left; eauto].
  right. intros (t' & [= <-] & L'). lia.
Qed.

(** ** The nodes stay well-formed whatever happens to the buffers *)
Lemma push_tail_sound (t : tree) : node_ok (t_root t) -> node_ok (t_root (push_tail_to_tree t)).
Proof. intros H. unfold push_tail_to_tree. destruct (t_tail t); auto. cbn. apply push_leaf_ok; auto. constructor. Qed.
Lemma push_head_sound (t : tree) : node_ok (t_root t) -> node_ok (t_root (push_head_to_tree t)).
Proof. intros H. unfold push_head_to_tree. destruct (t_head t); auto. cbn. apply push_front_leaf_ok; auto. constructor. Qed.
Lemma tree_push_back_sound (t : tree) x : node_ok (t_root t) -> node_ok (t_root (tree_push_back t x)).
Proof. intros H. unfold tree_push_back. destruct (_ <? _); cbn; auto. now apply push_tail_sound. Qed.
Lemma tree_push_front_sound (t : tree) x : node_ok (t_root t) -> node_ok (t_root (tree_push_front t x)).
Proof. intros H. unfold tree_push_front. destruct (_ <? _); cbn; auto. now apply push_head_sound. Qed.
Lemma concat_same_height_sound (a b : tree) : node_ok (t_root a) -> node_ok (t_root b) ->
  node_ok (t_root (concat_same_height a b)).
Proof.
  intros Ha Hb. pose proof (push_tail_sound Ha) as A1. pose proof (push_head_sound Hb) as B1.
  unfold concat_same_height. cbn. apply concat_nodes_ok; [destruct (t_tail a)|destruct (t_head b)]; auto.
Qed.
Lemma elevate_sound (t : tree) h : node_ok (t_root t) -> node_ok (t_root (elevate_tree t h)).
Proof. intros H. cbn. now apply elevate_iter_ok. Qed.
Lemma tree_concat_sound (a b : tree) : node_ok (t_root a) -> node_ok (t_root b) -> node_ok (t_root (tree_concat a b)).
Proof.
  intros Ha Hb. unfold tree_concat, concat_different_height.
  destruct (t_len a =? 0); auto. destruct (t_len b =? 0); auto.
  destruct (t_height a =? t_height b); [now apply concat_same_height_sound|].
  destruct (t_height a <? t_height b); apply concat_same_height_sound; auto; now apply elevate_sound.
Qed.
Lemma from_elements_sound (l : list T) : node_ok (t_root (from_elements l)).
Proof. apply from_elements_safe. Qed.
Lemma from_iter_sound (l : list T) : sound (pv_from_iter l).
Proof. apply safe_sound. apply from_iter_safe. Qed.
Lemma concat_sound (a b : pvec) : sound a -> sound b -> sound (pv_concat a b).
Proof.
  unfold sound, pv_concat. destruct (inner a) as [l|s], (inner b) as [r|t]; intros Ha Hb.
  - apply from_iter_sound.
  - apply tree_concat_sound; auto. apply from_elements_sound.
  - apply tree_concat_sound; auto. apply from_elements_sound.
  - now apply tree_concat_sound.
Qed.
Lemma push_back_sound (v : pvec) x : sound v -> sound (pv_push_back v x).
Proof.
  intros H. unfold sound, pv_push_back in *. destruct (inner v) as [es|t].
  - destruct (_ <? _); cbn; [rewrite app_length; cbn; lia|]. apply tree_push_back_sound, from_elements_sound.
  - cbn. now apply tree_push_back_sound.
Qed.
Lemma push_front_sound (v : pvec) x : sound v -> sound (pv_push_front v x).
Proof.
  intros H. unfold sound, pv_push_front in *. destruct (inner v) as [es|t].
  - destruct (_ <? _); cbn; [lia|]. apply tree_push_front_sound, from_elements_sound.
  - cbn. now apply tree_push_front_sound.
Qed.
Lemma extend_sound xs (v : pvec) : sound v -> sound (pv_extend v xs).
Proof. unfold pv_extend. revert v; induction xs as [|x xs IH]; intros v H; cbn; auto. apply IH. now apply push_back_sound. Qed.

(** [obind] that answered *)
Lemma obind_ret {A B} (m : outcome A) (k : A -> outcome B) b : obind m k = Ret b -> exists a, m = Ret a /\ k a = Ret b.
Proof. destruct m; [eauto|discriminate]. Qed.
Lemma omap_ret' {A B} (f : A -> B) o b : omap f o = Ret b -> exists a, o = Ret a /\ b = f a.
Proof. destruct o; intros [= <-]; eauto. Qed.

Lemma tree_update_sound (t t' : tree) i x : node_ok (t_root t) -> tree_update t i x = Ret t' -> node_ok (t_root t').
Proof.
  intros H. unfold tree_update. destruct (t_len t <=? i); [now intros [= <-]|].
  destruct (i <? length (t_head t)); [now intros [= <-]|]. intros E.
  apply obind_ret in E as (a & _ & E). apply obind_ret in E as (b & _ & E). apply obind_ret in E as (c & _ & E).
  destruct (a <? c).
  - injection E as <-. cbn. now apply node_update_ok.
  - apply obind_ret in E as (d & _ & E). now injection E as <-.
Qed.
Lemma update_sound (v v' : pvec) i x : sound v -> pv_update v i x = Ret v' -> sound v'.
Proof.
  intros H. unfold pv_update. destruct (pv_len v <=? i); [now intros [= <-]|]. unfold sound in *.
  destruct (inner v) as [es|t].
  - destruct (i <? length es); intros [= <-]. cbn. now rewrite list_set_length.
  - intros E. apply obind_ret in E as (t' & E & E'). injection E' as <-. cbn. eapply tree_update_sound; eauto.
Qed.
Lemma tree_split_sound (t l r : tree) i : node_ok (t_root t) -> tree_split_at t i = Ret (l, r) ->
  node_ok (t_root l) /\ node_ok (t_root r).
Proof.
  intros H. unfold tree_split_at. destruct (i =? 0); [intros [= <- <-]; split; [constructor|auto]|].
  destruct (t_len t <=? i); [intros [= <- <-]; split; [auto|constructor]|].
  destruct (i <=? length (t_head t)); [intros [= <- <-]; split; [constructor|auto]|]. intros E.
  apply obind_ret in E as (a & _ & E). apply obind_ret in E as (b & _ & E).
  destruct (_ <=? i).
  - apply obind_ret in E as (c & _ & E). apply obind_ret in E as (d & _ & E). injection E as <- <-.
    split; [exact H|constructor].
  - apply obind_ret in E as (c & _ & E). unfold split_tree_at in E.
    pose proof (split_along_path_node_ok H (find_path_to_index (t_height t) (t_root t) c) c (t_height t)) as [A B].
    destruct (split_along_path _ _ _ _) as [l' r']. injection E as <- <-. auto.
Qed.
Lemma split_sound (v l r : pvec) i : sound v -> pv_split_at v i = Ret (l, r) -> sound l /\ sound r.
Proof.
  intros H. unfold pv_split_at. destruct (Nat.leb_spec (pv_len v) i) as [L|L]; [intros [= <- <-]; split; [auto|reflexivity]|].
  destruct (i =? 0); [intros [= <- <-]; split; [reflexivity|auto]|]. unfold sound in *.
  destruct (inner v) as [es|t].
  - intros [= <- <-]. cbn. rewrite firstn_length, skipn_length. lia.
  - intros E. apply obind_ret in E as ([l' r'] & E & E'). injection E' as <- <-. cbn. eapply tree_split_sound; eauto.
Qed.
Lemma take_sound (v v' : pvec) n : sound v -> pv_take v n = Ret v' -> sound v'.
Proof.
  intros H. unfold pv_take. destruct (_ <=? _); [now intros [= <-]|]. intros E. apply omap_ret' in E as ([l r] & E & ->).
  now apply (split_sound H) in E.
Qed.
Lemma skip_sound (v v' : pvec) n : sound v -> pv_skip v n = Ret v' -> sound v'.
Proof.
  intros H. unfold pv_skip. destruct (_ <=? _); [now intros [= <-]|]. intros E. apply omap_ret' in E as ([l r] & E & ->).
  now apply (split_sound H) in E.
Qed.
(** [pop_back] answers on every such vector *)
Lemma tree_pop_back_sound (t : tree) : node_ok (t_root t) ->
  exists o, tree_pop_back t = Ret o /\ match o with Some (t', _) => node_ok (t_root t') | None => True end.
Proof.
  intros H. unfold tree_pop_back. destruct (t_len t =? 0); [exists None; auto|].
  destruct (pop_last (t_tail t)) as [[tl x]|] eqn:E; [eexists; split; [reflexivity|]; exact H|].
  unfold pop_from_tree. destruct (t_len t =? 0); [exists None; auto|].
  destruct (list_last_case (t_tail t)) as [Et|(a & b & Et)]; rewrite Et in *; [|rewrite pop_last_app in E; discriminate].
  rewrite usub_ok by (cbn; lia). cbn [obind length]. destruct (t_len t - 0 =? 0); [exists None; auto|].
  destruct (node_get _ _) as [x|]; [|exists None; auto].
  destruct (t_len t - 0 =? 1).
  - cbn [obind]. eexists; split; [reflexivity|]. constructor.
  - destruct (node_pop_back_safe H) as [E1|(n' & y & E1 & Hn & _)]; rewrite E1; cbn [obind].
    + eexists; split; [reflexivity|]. exact H.
    + eexists; split; [reflexivity|]. exact Hn.
Qed.
Lemma pop_back_sound (v : pvec) : sound v ->
  exists o, pv_pop_back v = Ret o /\ match o with Some (v', _) => sound v' | None => True end.
Proof.
  intros H. unfold pv_pop_back. destruct (pv_is_empty v); [exists None; auto|]. unfold sound in *.
  destruct (inner v) as [es|t].
  - destruct (list_last_case es) as [->|(a & b & ->)]; [exists None; auto|]. rewrite pop_last_app.
    eexists; split; [reflexivity|]. cbn. rewrite H, app_length. cbn. lia.
  - destruct (tree_pop_back_sound H) as (o & -> & Ho). cbn [obind]. eexists; split; [reflexivity|].
    destruct o as [[t' x]|]; exact Ho.
Qed.
Lemma tree_pop_front_sound (t t' : tree) x : node_ok (t_root t) -> tree_pop_front t = Ret (Some (t', x)) -> node_ok (t_root t').
Proof.
  intros H. unfold tree_pop_front. destruct (t_len t =? 0); [discriminate|].
  destruct (t_head t) as [|h hs]; [|now intros [= <- _]]. unfold pop_front_from_tree. intros E.
  apply obind_ret in E as (a & _ & E). apply obind_ret in E as (b & _ & E).
  assert (P : pop_front_from_tail t = Some (t', x) -> node_ok (t_root t')).
  { unfold pop_front_from_tail. destruct (pop_last _) as [[? ?]|]; [|discriminate]. intros [= <- _]. constructor. }
  destruct (0 <? b).
  - destruct (node_pop_front_safe H) as [E1|(n' & y & E1 & Hn & _)]; rewrite E1 in E; cbn [obind] in E.
    + injection E. exact P.
    + injection E as <- _. exact Hn.
  - cbn [obind] in E. injection E. exact P.
Qed.
Lemma pop_front_sound (v v' : pvec) x : sound v -> pv_pop_front v = Ret (Some (v', x)) -> sound v'.
Proof.
  intros H. unfold pv_pop_front. destruct (pv_is_empty v); [discriminate|]. unfold sound in *.
  destruct (inner v) as [es|t].
  - destruct es as [|e es]; [discriminate|]. intros [= <- _]. cbn in *. lia.
  - intros E. apply obind_ret in E as (o & E & E'). destruct o as [[t' y]|]; [|discriminate]. injection E' as <- _.
    cbn. eapply tree_pop_front_sound; eauto.
Qed.

Lemma step_sound (o : op T) (v v' : pvec) r : sound v -> vec_step o v = Ret (v', r) -> sound v'.
Proof.
  intros H. destruct o as [x|x| | |i x|xs|f|p|n|n|i|i|i x|i|xs|xs]; cbn [vec_step]; intros E.
  - injection E as <- _. now apply push_back_sound.
  - injection E as <- _. now apply push_front_sound.
  - destruct (pop_back_sound H) as (o & E1 & Ho). rewrite E1 in E. cbn [obind] in E.
    destruct o as [[w y]|]; injection E as <- _; auto.
  - apply obind_ret in E as (o & E1 & E). destruct o as [[w y]|]; injection E as <- _; auto.
    eapply pop_front_sound; eauto.
  - apply obind_ret in E as (w & E1 & E). injection E as <- _. eapply update_sound; eauto.
  - injection E as <- _. now apply extend_sound.
  - apply obind_ret in E as (w & E1 & E). injection E as <- _. apply omap_ret' in E1 as (l & _ & ->). apply from_iter_sound.
  - apply obind_ret in E as (w & E1 & E). injection E as <- _. apply omap_ret' in E1 as (l & _ & ->). apply from_iter_sound.
  - apply obind_ret in E as (w & E1 & E). injection E as <- _. eapply take_sound; eauto.
  - apply obind_ret in E as (w & E1 & E). injection E as <- _. eapply skip_sound; eauto.
  - apply obind_ret in E as ([a b] & E1 & E). injection E as <- _. now apply (split_sound H) in E1.
  - apply obind_ret in E as ([a b] & E1 & E). injection E as <- _. now apply (split_sound H) in E1.
  - apply obind_ret in E as (w & E1 & E). injection E as <- _. unfold pv_insert in E1.
    destruct (_ <=? _); [injection E1 as <-; now apply push_back_sound|].
    destruct (i =? 0); [injection E1 as <-; now apply push_front_sound|].
    apply obind_ret in E1 as ([a b] & E1 & E2). injection E2 as <-. apply (split_sound H) in E1 as [A B].
    apply concat_sound; [now apply push_back_sound|exact B].
  - apply obind_ret in E as (w & E1 & E). unfold pv_remove in E1.
    destruct (_ <=? _); [injection E1 as <-; injection E as <- _; exact H|].
    destruct (_ =? _); [injection E1 as <-; injection E as <- _; reflexivity|].
    apply obind_ret in E1 as ([a b] & E1 & E2). apply obind_ret in E2 as (c & E2 & E3). injection E3 as <-.
    injection E as <- _. apply (split_sound H) in E1 as [A B]. apply concat_sound; [exact A|].
    eapply skip_sound; [exact B|exact E2].
  - injection E as <- _. apply concat_sound; [exact H|apply from_iter_sound].
  - injection E as <- _. apply concat_sound; [apply from_iter_sound|exact H].
Qed.
Lemma starts_sound (v : pvec) l : starts v l -> sound v.
Proof. intros [|x|l']; [reflexivity|reflexivity|apply from_iter_sound]. Qed.
Lemma arrived_sound (v : pvec) : arrived v -> sound v.
Proof.
  induction 1 as [v l H|o v v' r _ IH E|a b _ IHa _ IHb|v i l r _ IH E|v i l r _ IH E|leb v v' _ _ E|eqb v v' _ _ E].
  - eapply starts_sound; eauto.
  - eapply step_sound; eauto.
  - now apply concat_sound.
  - now apply (split_sound IH) in E.
  - now apply (split_sound IH) in E.
  - apply omap_ret' in E as (l & _ & ->). apply from_iter_sound.
  - apply omap_ret' in E as (l & _ & ->). apply from_iter_sound.
Qed.
End Panic.

(** ** Which calls panic *)
Section Exact.
Context {T : Type}.
Implicit Types (v : pvec T) (t : tree T).

Lemma usub_panic a b : usub a b = Panic <-> a < b.
Proof. unfold usub. destruct (Nat.leb_spec b a); split; intros; try discriminate; try lia; auto. Qed.

Lemma tree_get_panic t i : tree_get t i = Panic <->
  length (t_head t) <= i < t_len t /\ t_len t < length (t_head t) + length (t_tail t).
Proof.
  unfold tree_get. destruct (Nat.leb_spec (t_len t) i); [split; [discriminate|lia]|].
  destruct (Nat.ltb_spec i (length (t_head t))); [split; [discriminate|lia]|].
  rewrite (usub_ok (a := i)), (usub_ok (a := t_len t)) by lia. cbn [obind].
  destruct (Nat.le_gt_cases (length (t_head t) + length (t_tail t)) (t_len t)) as [L|L].
  - rewrite usub_ok by lia. cbn [obind]. destruct (Nat.ltb_spec (i - length (t_head t))
      (t_len t - length (t_head t) - length (t_tail t))); [split; [discriminate|lia]|].
    rewrite usub_ok by lia. split; [discriminate|lia].
  - rewrite (proj2 (usub_panic _ _)) by lia. cbn [obind]. split; [lia|reflexivity].
Qed.
Lemma tree_update_panic t i x : tree_update t i x = Panic <->
  length (t_head t) <= i < t_len t /\ t_len t < length (t_head t) + length (t_tail t).
Proof.
  unfold tree_update. destruct (Nat.leb_spec (t_len t) i); [split; [discriminate|lia]|].
  destruct (Nat.ltb_spec i (length (t_head t))); [split; [discriminate|lia]|].
  rewrite (usub_ok (a := i)), (usub_ok (a := t_len t)) by lia. cbn [obind].
  destruct (Nat.le_gt_cases (length (t_head t) + length (t_tail t)) (t_len t)) as [L|L].
  - rewrite usub_ok by lia. cbn [obind]. destruct (Nat.ltb_spec (i - length (t_head t))
      (t_len t - length (t_head t) - length (t_tail t))); [split; [discriminate|lia]|].
    rewrite usub_ok by lia. split; [discriminate|lia].
  - rewrite (proj2 (usub_panic _ _)) by lia. cbn [obind]. split; [lia|reflexivity].
Qed.
Lemma tree_split_panic t i : tree_split_at t i = Panic <->
  length (t_head t) < i < t_len t /\ t_len t < length (t_head t) + length (t_tail t).
Proof.
  unfold tree_split_at. destruct (Nat.eqb_spec i 0); [split; [discriminate|lia]|].
  destruct (Nat.leb_spec (t_len t) i); [split; [discriminate|lia]|].
  destruct (Nat.leb_spec i (length (t_head t))); [split; [discriminate|lia]|].
  rewrite (usub_ok (a := t_len t)) by lia. cbn [obind].
  destruct (Nat.le_gt_cases (length (t_head t) + length (t_tail t)) (t_len t)) as [L|L].
  - rewrite usub_ok by lia. cbn [obind]. rewrite usub_ok by lia. cbn [obind].
    destruct (Nat.leb_spec (length (t_head t) + (t_len t - length (t_head t) - length (t_tail t))) i).
    + rewrite usub_ok by lia. split; [discriminate|lia].
    + destruct (split_tree_at t _). split; [discriminate|lia].
  - rewrite (proj2 (usub_panic _ _)) by lia. cbn [obind]. split; [lia|reflexivity].
Qed.
Lemma tree_pop_front_panic t : node_ok (t_root t) -> (tree_pop_front t = Panic <->
  t_head t = [] /\ 0 < t_len t < length (t_tail t)).
Proof.
  intros H. unfold tree_pop_front. destruct (Nat.eqb_spec (t_len t) 0); [split; [discriminate|lia]|].
  destruct (t_head t) eqn:E; [|split; [discriminate|intros [[=] _]]].
  unfold pop_front_from_tree. rewrite E. rewrite (usub_ok (a := t_len t)) by (cbn; lia). cbn [obind length].
  destruct (Nat.le_gt_cases (length (t_tail t)) (t_len t)) as [L|L].
  - rewrite usub_ok by lia. cbn [obind]. split; [|lia]. destruct (0 <? _); [|discriminate].
    destruct (node_pop_front_safe H) as [E1|(n' & y & E1 & _ & _)]; rewrite E1; cbn [obind]; discriminate.
  - rewrite (proj2 (usub_panic _ _)) by lia. cbn [obind]. split; [split; [reflexivity|lia]|reflexivity].
Qed.
Lemma obind_panic_ret {A B} (m : outcome A) (f : A -> B) : (do a <- m; Ret (f a)) = Panic <-> m = Panic.
Proof. destruct m; cbn; split; auto; discriminate. Qed.

(** Reading: exactly the positions from the end of the front buffer on, in a vector that buffers too much *)
Theorem C15_get_exact v i : pv_get v i = Panic <->
  exists t, inner v = Tree t /\ i < pv_len v /\ length (t_head t) <= i < t_len t /\
    t_len t < length (t_head t) + length (t_tail t).
Proof.
  unfold pv_get. destruct (Nat.leb_spec (pv_len v) i); [split; [discriminate|intros (t & _ & ? & _); lia]|].
  destruct (inner v) as [es|t]; [split; [discriminate|now intros (t & [=] & _)]|].
  rewrite tree_get_panic. split; [eauto|]. intros (t' & [= <-] & _ & A). exact A.
Qed.
Theorem C15_update_exact v i x : arrived v -> (pv_update v i x = Panic <->
  exists t, inner v = Tree t /\ i < pv_len v /\ length (t_head t) <= i < t_len t /\
    t_len t < length (t_head t) + length (t_tail t)).
Proof.
  intros H. apply arrived_sound in H. unfold pv_update, sound in *.
  destruct (Nat.leb_spec (pv_len v) i); [split; [discriminate|intros (t & _ & ? & _); lia]|].
  destruct (inner v) as [es|t].
  - destruct (Nat.ltb_spec i (length es)); [|lia]. split; [discriminate|now intros (t & [=] & _)].
  - rewrite obind_panic_ret, tree_update_panic. split; [eauto|]. intros (t' & [= <-] & _ & A). exact A.
Qed.
Theorem C15_split_exact v i : pv_split_at v i = Panic <->
  exists t, inner v = Tree t /\ i < pv_len v /\ length (t_head t) < i < t_len t /\
    t_len t < length (t_head t) + length (t_tail t).
Proof.
  unfold pv_split_at. destruct (Nat.leb_spec (pv_len v) i); [split; [discriminate|intros (t & _ & ? & _); lia]|].
  destruct (Nat.eqb_spec i 0); [split; [discriminate|intros (t & _ & _ & ? & _); lia]|].
  destruct (inner v) as [es|t]; [split; [discriminate|now intros (t & [=] & _)]|].
  rewrite obind_panic_ret, tree_split_panic. split; [eauto|]. intros (t' & [= <-] & _ & A). exact A.
Qed.
Theorem C15_pop_front_exact v : arrived v -> (pv_pop_front v = Panic <->
  exists t, inner v = Tree t /\ 0 < pv_len v /\ t_head t = [] /\ 0 < t_len t < length (t_tail t)).
Proof.
  intros H. apply arrived_sound in H. unfold pv_pop_front, pv_is_empty, sound in *.
  destruct (Nat.eqb_spec (pv_len v) 0); [split; [discriminate|intros (t & _ & ? & _); lia]|].
  destruct (inner v) as [[|e es]|t]; [split; [discriminate|now intros (t & [=] & _)]..|].
  rewrite obind_panic_ret, tree_pop_front_panic by exact H. split.
  - intros A. exists t. repeat split; try apply A; lia.
  - intros (t' & [= <-] & _ & A). exact A.
Qed.

(** Collecting all elements *)
Lemma iter_collect_panic v fuel : forall p, iter_collect fuel v p = Panic <->
  exists k, k < fuel /\ pv_get v (p + k) = Panic /\ forall j, j < k -> exists x, pv_get v (p + j) = Ret (Some x).
Proof.
  induction fuel as [|fuel IH]; intros p; cbn [iter_collect]; [split; [discriminate|intros (k & ? & _); lia]|].
  unfold iter_next. destruct (Nat.ltb_spec p (pv_len v)) as [L|L].
  - destruct (pv_get v p) as [[x|]|] eqn:E; cbn [obind fst snd].
    + rewrite obind_panic_ret, IH. split.
      * intros (k & Hk & Hp & Hj). exists (S k). rewrite <- plus_n_Sm, <- plus_Sn_m. repeat split; [lia|exact Hp|].
        intros [|j] Hlt; [rewrite Nat.add_0_r; eauto|]. rewrite <- plus_n_Sm, <- plus_Sn_m. apply Hj. lia.
      * intros ([|k] & Hk & Hp & Hj); [rewrite Nat.add_0_r in Hp; congruence|].
        exists k. rewrite <- plus_n_Sm, <- plus_Sn_m in Hp. repeat split; [lia|exact Hp|].
        intros j Hlt. specialize (Hj (S j)). rewrite <- plus_n_Sm, <- plus_Sn_m in Hj. apply Hj. lia.
    + split; [discriminate|]. intros ([|k] & Hk & Hp & Hj); [rewrite Nat.add_0_r in Hp; congruence|].
      destruct (Hj 0) as [x Hx]; [lia|]. rewrite Nat.add_0_r in Hx. congruence.
    + split; [|reflexivity]. intros _. exists 0. rewrite Nat.add_0_r. repeat split; [lia|exact E|lia].
  - cbn [obind fst]. split; [discriminate|]. intros (k & Hk & Hp & _).
    apply C15_get_exact in Hp as (t & _ & ? & _). lia.
Qed.
Theorem C15_to_vec_exact v : pv_to_vec v = Panic <->
  exists t, inner v = Tree t /\ length (t_head t) < pv_len v /\ length (t_head t) < t_len t /\
    t_len t < length (t_head t) + length (t_tail t).
Proof.
  unfold pv_to_vec, pv_iter. rewrite iter_collect_panic. cbn [Nat.add]. split.
  - intros (k & Hk & Hp & Hj). apply C15_get_exact in Hp as (t & E & L & [A B] & C). exists t. repeat split; auto; lia.
  - intros (t & E & A & B & C). exists (length (t_head t)). repeat split; [lia| |].
    + apply C15_get_exact. exists t. repeat split; auto.
    + intros j Hj. unfold pv_get. rewrite E. rewrite (proj2 (Nat.leb_gt _ _)) by lia. unfold tree_get.
      rewrite (proj2 (Nat.leb_gt _ _)) by lia. rewrite (proj2 (Nat.ltb_lt _ _)) by lia.
      destruct (nth_error (t_head t) j) eqn:En; [eauto|]. apply nth_error_None in En. lia.
Qed.

(** ** Which vectors, and how they come about *)

(** [pop_back] itself always returns. *)
Theorem C15_pop_back_returns v : arrived v -> exists o, pv_pop_back v = Ret o.
Proof. intros H. destruct (pop_back_sound (arrived_sound H)) as (o & E & _). eauto. Qed.

(** No operation panics unless more elements are buffered than the vector says it has. *)
Theorem C15_only_overfull v : arrived v -> ~ overfull v ->
  (forall o, exists r, vec_step o v = Ret r) /\ (forall i, exists o, pv_get v i = Ret o) /\
  (forall i, exists p, pv_split_at v i = Ret p) /\ exists l, pv_to_vec v = Ret l.
Proof.
  intros H N. pose proof (sound_safe (arrived_sound H) N) as S. repeat split.
  - intros o. destruct (is_pop_back o) eqn:Eo.
    + destruct o; try discriminate. destruct (C15_pop_back_returns H) as [o' E]. cbn [vec_step]. rewrite E.
      destruct o' as [[? ?]|]; cbn [obind]; eauto.
    + destruct (safe_step Eo S) as (v' & r & E & _). eauto.
  - intros i. now apply pv_get_safe.
  - intros i. destruct (pv_split_at_safe i S) as (l & r & E & _). eauto.
  - now apply pv_iter_safe.
Qed.

(** One call turns a vector that does not into one that does: [pop_back] when the back buffer is empty, the front buffer
    alone holds as many elements as the recorded length, and the nodes still answer for the last position. *)
Theorem C15_becomes_overfull v o v' r : arrived v -> ~ overfull v -> vec_step o v = Ret (v', r) ->
  (overfull v' <-> is_pop_back o = true /\ 0 < pv_len v /\ exists t, inner v = Tree t /\ t_tail t = [] /\
    length (t_head t) = t_len t /\ 0 < t_len t /\ node_get (t_root t) (t_len t - 1) <> None).
Proof.
  intros H N E. pose proof (sound_safe (arrived_sound H) N) as Sf. destruct (is_pop_back o) eqn:Eo.
  - destruct o; try discriminate. cbn [vec_step] in E. split.
    + intros O. split; [reflexivity|]. unfold pv_pop_back, pv_is_empty in E.
      destruct (Nat.eqb_spec (pv_len v) 0); [cbn [obind] in E; injection E as <- _; contradiction|].
      split; [lia|]. unfold safe_vec in Sf. destruct (inner v) as [es|t] eqn:Ei.
      * destruct (pop_last es) as [[es' x]|]; cbn [obind] in E; injection E as <- _; [|contradiction].
        destruct O as (t & [=] & _).
      * exists t. destruct Sf as [Hn Hs]. unfold tree_pop_back in E.
        destruct (Nat.eqb_spec (t_len t) 0); [cbn [obind] in E; injection E as <- _; contradiction|].
        destruct (list_last_case (t_tail t)) as [Et|(a & b & Et)]; rewrite Et in E.
        -- cbn [pop_last] in E. unfold pop_from_tree in E. rewrite (proj2 (Nat.eqb_neq _ _)) in E by assumption.
           rewrite Et in E. rewrite usub_ok in E by (cbn; lia). cbn [obind length] in E. rewrite Nat.sub_0_r in E.
           rewrite (proj2 (Nat.eqb_neq (t_len t) 0)) in E by assumption.
           destruct (node_get (t_root t) (t_len t - 1)) as [x|] eqn:Eg;
             [|cbn [obind] in E; injection E as <- _; contradiction].
           assert (P : exists rt h, inner v' = Tree (mkTree rt [] (t_head t) h (t_len t - 1))).
           { destruct (t_len t =? 1); [cbn [obind fst snd] in E; injection E as <- _; cbn; eauto|].
             destruct (node_pop_back (t_root t)) as [[[rt y]|]|]; cbn [obind fst snd] in E; try discriminate;
               injection E as <- _; cbn; eauto. }
           destruct P as (rt & h & P). destruct O as (t' & Et' & L). rewrite P in Et'. injection Et' as <-.
           cbn in L. rewrite Et in Hs. cbn in Hs. repeat split; auto; try lia. discriminate.
        -- rewrite pop_last_app in E. cbn [obind] in E. injection E as <- _. destruct O as (t' & [= <-] & L).
           cbn in L. rewrite Et, app_length in Hs. cbn in Hs. lia.
    + intros (_ & Hl & t & Ei & Et & Eh & Hp & Eg). unfold pv_pop_back, pv_is_empty in E.
      rewrite (proj2 (Nat.eqb_neq (pv_len v) 0)), Ei in E by lia. unfold tree_pop_back in E.
      rewrite (proj2 (Nat.eqb_neq (t_len t) 0)), Et in E by lia. cbn [pop_last] in E. unfold pop_from_tree in E.
      rewrite (proj2 (Nat.eqb_neq (t_len t) 0)), Et in E by lia. rewrite usub_ok in E by (cbn; lia).
      cbn [obind length] in E. rewrite Nat.sub_0_r in E. rewrite (proj2 (Nat.eqb_neq (t_len t) 0)) in E by lia.
      destruct (node_get (t_root t) (t_len t - 1)) as [x|]; [|congruence].
      assert (P : exists rt h, inner v' = Tree (mkTree rt [] (t_head t) h (t_len t - 1))).
      { destruct (t_len t =? 1); [cbn [obind fst snd] in E; injection E as <- _; cbn; eauto|].
        destruct (node_pop_back (t_root t)) as [[[rt y]|]|]; cbn [obind fst snd] in E; try discriminate;
          injection E as <- _; cbn; eauto. }
      destruct P as (rt & h & P). exists (mkTree rt [] (t_head t) h (t_len t - 1)). split; [exact P|]. cbn. lia.
  - destruct (safe_step Eo Sf) as (w & r' & E' & Sw). rewrite E in E'. injection E' as <- <-.
    split; [intros O; destruct (safe_not_overfull Sw O)|now intros [[=] _]].
Qed.

(** Joining, splitting, sorting and dropping repeats never do. *)
Theorem C15_stays_within v w : arrived v -> arrived w -> ~ overfull v -> ~ overfull w ->
  ~ overfull (pv_concat v w) /\
  (forall i l r, pv_split_at v i = Ret (l, r) -> ~ overfull l /\ ~ overfull r) /\
  (forall leb v', pv_sorted leb v = Ret v' -> ~ overfull v') /\
  (forall eqb v', pv_dedup eqb v = Ret v' -> ~ overfull v').
Proof.
  intros Hv Hw Nv Nw. pose proof (sound_safe (arrived_sound Hv) Nv) as Sv.
  pose proof (sound_safe (arrived_sound Hw) Nw) as Sw. repeat split.
  - apply safe_not_overfull. now apply pv_concat_safe.
  - destruct (pv_split_at_safe i Sv) as (l' & r' & E & A & B). rewrite E in H. injection H as <- <-.
    now apply safe_not_overfull.
  - destruct (pv_split_at_safe i Sv) as (l' & r' & E & A & B). rewrite E in H. injection H as <- <-.
    now apply safe_not_overfull.
  - intros leb v' E. apply omap_ret' in E as (l & _ & ->). apply safe_not_overfull. apply from_iter_safe.
  - intros eqb v' E. apply omap_ret' in E as (l & _ & ->). apply safe_not_overfull. apply from_iter_safe.
Qed.
End Exact.

(** The history of [C15_no_panic_refuted]: the six recorded elements against 5 + 3 buffered ones *)
Lemma arrived_run {T} ops : forall (v v' : pvec T) rs, arrived v -> vec_run ops v = Ret (v', rs) -> arrived v'.
Proof.
  induction ops as [|o ops IH]; intros v v' rs H E; [now injection E as <- _|]. cbn [vec_run] in E.
  destruct (vec_step o v) as [[v1 r]|] eqn:E1; [|discriminate]. cbn [obind fst snd] in E.
  destruct (vec_run ops v1) as [[v2 rs2]|] eqn:E2; [|discriminate]. cbn in E. injection E as <- _.
  eapply IH; [eapply arr_step; eauto|eauto].
Qed.
Definition C15_bad : pvec nat := match vec_run C15_bad_history pv_new with Ret (v, _) => v | Panic => pv_new end.
Lemma C15_bad_arrived : arrived C15_bad.
Proof.
  assert (E : exists rs, vec_run C15_bad_history pv_new = Ret (C15_bad, rs)) by (eexists; vm_compute; reflexivity).
  destruct E as [rs E]. eapply arrived_run; [|exact E]. eapply arr_start. constructor.
Qed.
Example C15_exact_case : arrived C15_bad /\ overfull C15_bad /\
  map (pv_get C15_bad) (seq 0 8) =
    [Ret (Some 2); Ret (Some 2); Ret (Some 2); Ret (Some 2); Ret (Some 2); Panic; Ret None; Ret None] /\
  pv_update C15_bad 4 9 <> Panic /\ pv_update C15_bad 5 9 = Panic /\
  pv_split_at C15_bad 5 <> Panic /\ pv_pop_front C15_bad <> Panic /\ pv_pop_back C15_bad <> Panic.
Proof.
  split; [exact C15_bad_arrived|]. split.
  { vm_compute. eexists. split; [reflexivity|]. cbn. lia. }
  vm_compute. repeat split; discriminate.
Qed.
(** Five [pop_front] calls later the front buffer is empty and the next one panics. *)
Definition panics {A} (o : outcome A) : bool := match o with Panic => true | Ret _ => false end.
Lemma panics_true {A} (o : outcome A) : panics o = true -> o = Panic.
Proof. destruct o; [discriminate|reflexivity]. Qed.
Lemma panics_false {A} (o : outcome A) : panics o = false -> o <> Panic.
Proof. destruct o; discriminate. Qed.
Example C15_pop_front_case : exists v : pvec nat, arrived v /\ pv_len v = 1 /\ pv_pop_front v = Panic /\
  pv_split_at v 1 <> Panic.
Proof.
  assert (E : match vec_run (repeat PopFront 5) C15_bad with
    | Ret (v, _) => (pv_len v, panics (pv_pop_front v), panics (pv_split_at v 1))
    | Panic => (0, false, false) end = (1, true, false)) by (vm_compute; reflexivity).
  destruct (vec_run (repeat PopFront 5) C15_bad) as [[v rs]|] eqn:R; [|discriminate].
  injection E as E1 E2 E3. exists v. split; [eapply arrived_run; [exact C15_bad_arrived|exact R]|].
  split; [exact E1|]. split; [now apply panics_true|now apply panics_false].
Qed.
(** Splitting inside: seven recorded, five and four buffered *)
Example C15_split_case : exists v : pvec nat, arrived v /\ pv_len v = 7 /\ pv_split_at v 6 = Panic /\
  pv_split_at v 5 <> Panic.
Proof.
  assert (E : match vec_run [PushBack 4] C15_bad with
    | Ret (v, _) => (pv_len v, panics (pv_split_at v 6), panics (pv_split_at v 5))
    | Panic => (0, false, false) end = (7, true, false)) by (vm_compute; reflexivity).
  destruct (vec_run [PushBack 4] C15_bad) as [[v rs]|] eqn:R; [|discriminate].
  injection E as E1 E2 E3. exists v. split; [eapply arrived_run; [exact C15_bad_arrived|exact R]|].
  split; [exact E1|]. split; [now apply panics_true|now apply panics_false].
Qed.
(** The call that brings it about: the history up to it leaves a vector within bounds, the next [pop_back] does not. *)
Definition C15_before : pvec nat :=
  match vec_run (firstn (65 + 65 + 65 + 1 + 10 + 5 + 54) C15_bad_history) pv_new with Ret (v, _) => v | Panic => pv_new end.
(** What one run leaves: recorded length, inner recorded length, front buffer, back buffer *)
Definition counts {T} (v : pvec T) : option (nat * nat * nat) :=
  match inner v with Tree t => Some (t_len t, length (t_head t), length (t_tail t)) | Inline _ => None end.
Lemma counts_overfull {T} (v : pvec T) n h b : counts v = Some (n, h, b) -> (overfull v <-> n < h + b).
Proof.
  unfold counts, overfull. destruct (inner v) as [es|t]; [discriminate|]. intros [= <- <- <-].
  split; [|eauto]. now intros (t' & [= <-] & L).
Qed.
Example C15_becomes_case : arrived C15_before /\ ~ overfull C15_before /\
  exists v' r, vec_step PopBack C15_before = Ret (v', r) /\ overfull v'.
Proof.
  split; [|split].
  - assert (E : (match vec_run (firstn (65 + 65 + 65 + 1 + 10 + 5 + 54) C15_bad_history) pv_new with
                 | Ret _ => true | Panic => false end) = true) by (vm_compute; reflexivity).
    unfold C15_before. revert E.
    destruct (vec_run (firstn (65 + 65 + 65 + 1 + 10 + 5 + 54) C15_bad_history) pv_new) as [[v rs]|] eqn:E;
      [intros _|discriminate].
    eapply arrived_run; [|exact E]. eapply arr_start. constructor.
  - assert (E : counts C15_before = Some (5, 5, 0)) by (vm_compute; reflexivity).
    rewrite (counts_overfull E). lia.
  - assert (E : (match vec_step PopBack C15_before with Ret (v, _) => counts v | Panic => None end) = Some (4, 5, 0))
      by (vm_compute; reflexivity).
    destruct (vec_step PopBack C15_before) as [[v r]|]; [|discriminate]. exists v, r. split; [reflexivity|].
    rewrite (counts_overfull E). lia.
Qed.

Print Assumptions C15_get_exact.
Print Assumptions C15_update_exact.
Print Assumptions C15_split_exact.
Print Assumptions C15_pop_front_exact.
Print Assumptions C15_to_vec_exact.
Print Assumptions C15_pop_back_returns.
Print Assumptions C15_only_overfull.
Print Assumptions C15_becomes_overfull.
Print Assumptions C15_stays_within.

(** C112: dropping a computation never frees more cells inside one another than operations lie above one another in it *)
From Coq Require Import List Arith Lia Permutation.
From Verif Require Import ShareModel ShareSpec ShareProps.
Import ListNotations.
Set Implicit Arguments.

(** The longest way down *)
Fixpoint hgt (fuel : nat) (h : heap) (i : nat) : nat :=
  match fuel with
  | 0 => 0
  | S f => S (fold_right (fun j m => Nat.max (hgt f h j) m) 0 (helds (snd (look h i))))
  end.
Lemma fold_max_le (f : nat -> nat) l b : (forall j, In j l -> f j <= b) -> fold_right (fun j m => Nat.max (f j) m) 0 l <= b.
Proof. induction l as [|a l IH]; intros H; cbn; [lia|]. pose proof (H a (or_introl eq_refl)). assert (fold_right (fun j m => Nat.max (f j) m) 0 l <= b) by (apply IH; intros; apply H; now right). lia. Qed.
Lemma fold_max_in (f : nat -> nat) l j : In j l -> f j <= fold_right (fun j m => Nat.max (f j) m) 0 l.
Proof. induction l as [|a l IH]; intros []; cbn; [subst; lia|]. specialize (IH H). lia. Qed.

Definition below (h' h : heap) : Prop :=
  length h' = length h /\ forall i, snd (look h' i) = snd (look h i) \/ snd (look h' i) = [].
Lemma below_refl h : below h h.
Proof. split; auto. Qed.
Lemma below_trans a b c : below a b -> below b c -> below a c.
Proof.
  intros [L1 H1] [L2 H2]. split; [congruence|]. intros i. destruct (H1 i) as [->|E]; [|now right]. apply H2.
Qed.
Lemma below_acyclic h' h : below h' h -> acyclic h -> acyclic h'.
Proof. intros [_ H] A i j Hj. destruct (H i) as [E|E]; rewrite E in Hj; [eauto|easy]. Qed.
Lemma below_put h i n : below (put h i (n, snd (look h i))) h /\ below (put h i (0, [])) h.
Proof.
  split; (split; [apply put_length|]); intros j; destruct (Nat.eq_dec j i) as [->|N]; try (rewrite look_put_other by auto; now left);
    (destruct (Nat.lt_ge_cases i (length h)) as [L|L];
      [rewrite look_put_same by auto; auto|right; now rewrite look_out by (now rewrite put_length)]).
Qed.
Lemma below_clone i h : below (arc_clone i h) h.
Proof. unfold arc_clone. destruct (look h i) as [n its] eqn:E. replace its with (snd (look h i)) by now rewrite E. apply below_put. Qed.
Lemma hgt_below h' h : below h' h -> forall f i, hgt f h' i <= hgt f h i.
Proof.
  intros [_ H]. induction f as [|f IH]; intros i; [reflexivity|]. cbn [hgt]. apply le_n_S.
  destruct (H i) as [E|E]; rewrite E; [|cbn; lia]. apply fold_max_le. intros j Hj.
  transitivity (hgt f h j); [apply IH|]. now apply (fold_max_in (hgt f h)).
Qed.
Lemma hgt_fuel h : acyclic h -> forall f g i, i < g -> hgt f h i <= hgt g h i.
Proof.
  intros A. induction f as [|f IH]; intros [|g] i H; cbn [hgt]; try lia. apply le_n_S. apply fold_max_le. intros j Hj.
  transitivity (hgt g h j); [apply IH; apply A in Hj; lia|]. now apply (fold_max_in (hgt g h)).
Qed.
Lemma fold_max_ext (f g : nat -> nat) l : (forall j, In j l -> f j = g j) ->
  fold_right (fun j m => Nat.max (f j) m) 0 l = fold_right (fun j m => Nat.max (g j) m) 0 l.
Proof. intros H. induction l as [|a l IH]; [reflexivity|]. cbn. rewrite (H a (or_introl eq_refl)), IH; auto. intros. apply H. now right. Qed.
Lemma hgt_app h t : acyclic h -> forall f i, i < length h -> hgt f (h ++ t) i = hgt f h i.
Proof.
  intros A. induction f as [|f IH]; intros i L; [reflexivity|]. cbn [hgt]. rewrite look_app_l by auto. f_equal.
  apply fold_max_ext. intros j Hj. apply IH. apply A in Hj. lia.
Qed.
Definition same (h' h : heap) : Prop := length h' = length h /\ forall i, snd (look h' i) = snd (look h i).
Lemma same_clone i h : same (arc_clone i h) h.
Proof.
  split; [apply clone_length|]. intros j. unfold arc_clone. destruct (look h i) as [n its] eqn:E.
  destruct (Nat.eq_dec j i) as [->|N]; [|now rewrite look_put_other by auto].
  destruct (Nat.lt_ge_cases i (length h)) as [L|L]; [rewrite look_put_same by auto; now rewrite E|].
  now rewrite !look_out by (rewrite ?put_length; auto).
Qed.
Lemma hgt_same h' h : same h' h -> forall f i, hgt f h' i = hgt f h i.
Proof.
  intros [_ H]. induction f as [|f IH]; intros i; [reflexivity|]. cbn [hgt]. rewrite H. f_equal. apply fold_max_ext. auto.
Qed.
Lemma hgt_kept h h' own : ok h' own -> kept h h' -> forall f i, 0 < fst (look h' i) -> hgt f h' i = hgt f h i.
Proof.
  intros O K. induction f as [|f IH]; intros i L; [reflexivity|]. cbn [hgt]. destruct (K i L) as [_ E]. rewrite <- E.
  f_equal. apply fold_max_ext. intros j Hj. apply IH. exact (held_live _ _ O Hj).
Qed.

(** Dropping *)
Lemma drop_high fuel : forall i h, below (fst (arc_drop fuel i h)) h /\ depths (snd (arc_drop fuel i h)) <= hgt fuel h i.
Proof.
  induction fuel as [|f IH]; intros i h; [split; [apply below_refl|cbn; lia]|]. cbn [arc_drop].
  destruct (look h i) as [[|[|n]] its] eqn:E.
  - split; [apply below_refl|cbn; lia].
  - assert (D : forall its h', below h' h -> below (fst (drop_items (arc_drop f) its h')) h /\
      depths (snd (drop_items (arc_drop f) its h')) <= fold_right (fun j m => Nat.max (hgt f h j) m) 0 (helds its)).
    { clear - IH. induction its as [|[k|j] its IHi]; intros h' Bh; cbn [drop_items].
      - split; [exact Bh|cbn; lia].
      - destruct (IHi h' Bh) as [B1 D1]. destruct (drop_items (arc_drop f) its h') as [h2 e2]. split; [exact B1|exact D1].
      - destruct (IH j h') as [B0 D0]. destruct (arc_drop f j h') as [h1 e1]. cbn [fst snd] in *.
        destruct (IHi h1 (below_trans B0 Bh)) as [B1 D1]. destruct (drop_items (arc_drop f) its h1) as [h2 e2]. cbn [fst snd] in *.
        split; [exact B1|]. rewrite depths_app. change (helds (Held j :: its)) with (j :: helds its). cbn [fold_right].
        pose proof (hgt_below Bh f j). lia. }
    destruct (D its (put h i (0, []))) as [B1 D1]; [apply (below_put h i 0)|].
    destruct (drop_items (arc_drop f) its (put h i (0, []))) as [h' es]. cbn [fst snd] in *. split; [exact B1|].
    rewrite depths_one. cbn [hgt]. rewrite E. cbn [snd]. lia.
  - cbn [fst snd]. split; [|cbn; lia]. replace its with (snd (look h i)) by now rewrite E. apply (below_put h i (S n)).
Qed.


(** Counts only go down, and what is not shared is freed *)
Lemma drop_counts fuel : forall i h j, fst (look (fst (arc_drop fuel i h)) j) <= fst (look h j).
Proof.
  induction fuel as [|f IH]; intros i h j; [reflexivity|]. cbn [arc_drop].
  destruct (look h i) as [[|[|n]] its] eqn:E; [reflexivity| |].
  - assert (D : forall its h', fst (look (fst (drop_items (arc_drop f) its h')) j) <= fst (look h' j)).
    { clear - IH. induction its as [|[k|a] its IHi]; intros h'; cbn [drop_items]; [reflexivity| |].
      - specialize (IHi h'). now destruct (drop_items (arc_drop f) its h').
      - specialize (IH a h' j). destruct (arc_drop f a h') as [h1 e1]. specialize (IHi h1).
        destruct (drop_items (arc_drop f) its h1). cbn [fst] in *. lia. }
    specialize (D its (put h i (0, []))). destruct (drop_items (arc_drop f) its (put h i (0, []))) as [h' es]. cbn [fst] in *.
    etransitivity; [exact D|]. destruct (Nat.eq_dec j i) as [->|N]; [|now rewrite look_put_other by auto].
    rewrite look_put_same by (apply look_live; rewrite E; cbn; lia). cbn. lia.
  - cbn [fst]. destruct (Nat.eq_dec j i) as [->|N]; [|now rewrite look_put_other by auto].
    rewrite look_put_same by (apply look_live; rewrite E; cbn; lia). rewrite E. cbn. lia.
Qed.
Lemma drop_exact fuel : forall i own h, i < fuel -> ok h (i :: own) -> (forall j, fst (look h j) <= 1) ->
  depths (snd (arc_drop fuel i h)) = hgt fuel h i.
Proof.
  induction fuel as [|f IH]; intros i own h Hi O C; [lia|]. cbn [arc_drop].
  assert (L : 0 < fst (look h i)) by (eapply own_live; [exact O|now left]). pose proof (C i) as Ci.
  destruct (look h i) as [[|[|n]] its] eqn:E; cbn in L, Ci; try lia. cbn [hgt]. rewrite E. cbn [snd].
  assert (Hits : forall j, In j (helds its) -> j < f).
  { intros j Hj. assert (j < i) by (apply (ok_old O); rewrite E; exact Hj). lia. }
  pose proof (free_ok E O) as O1.
  assert (D : forall its own h', (forall j, In j (helds its) -> j < f) -> ok h' (helds its ++ own) -> kept h h' ->
    (forall j, fst (look h' j) <= 1) ->
    depths (snd (drop_items (arc_drop f) its h')) = fold_right (fun j m => Nat.max (hgt f h j) m) 0 (helds its)).
  { clear - IH. induction its as [|[k|j] its IHi]; intros own h' Hj O K C; cbn [drop_items].
    - reflexivity.
    - specialize (IHi own h' Hj O K C). destruct (drop_items (arc_drop f) its h') as [h2 e2]. exact IHi.
    - change (helds (Held j :: its)) with (j :: helds its) in *. cbn [app] in O.
      assert (Hf : j < f) by (apply Hj; now left).
      pose proof (@IH j (helds its ++ own) h' Hf O C) as D0. pose proof (arc_drop_ok Hf O) as (A & _ & K' & _).
      pose proof (drop_counts f j h') as C'. pose proof (hgt_kept O K f j (own_live _ O (or_introl eq_refl))) as G.
      destruct (arc_drop f j h') as [h1 e1]. cbn [fst snd] in *.
      specialize (IHi own h1 (fun j' H' => Hj j' (or_intror H')) A (kept_trans K K')).
      destruct (drop_items (arc_drop f) its h1) as [h2 e2]. cbn [fst snd fold_right] in *. rewrite depths_app, D0, G, IHi; auto.
      intros a. etransitivity; [apply C'|apply C]. }
  specialize (D its own (put h i (0, [])) Hits O1 (kept_free h i)).
  destruct (drop_items (arc_drop f) its (put h i (0, []))) as [h' es]. cbn [fst snd] in *. rewrite depths_one, D; auto.
  intros j. destruct (Nat.eq_dec j i) as [->|N]; [|now rewrite look_put_other by auto].
  rewrite look_put_same by (apply look_live; rewrite E; cbn; lia). cbn. lia.
Qed.

(** What is held and how high it is *)
Definition high (h : heap) (x n : option nat) : Prop :=
  match x, n with Some i, Some n => i < length h /\ hgt (S i) h i = n | None, None => True | _, _ => False end.
Definition highs (h : heap) := Forall2 (high h).
Lemma high_same h' h x n : same h' h -> high h x n -> high h' x n.
Proof.
  intros Bh. destruct x, n; cbn [high]; auto. intros [L H]. split; [destruct Bh; lia|]. now rewrite (hgt_same Bh).
Qed.
Lemma high_app h t x n : acyclic h -> high h x n -> high (h ++ t) x n.
Proof.
  intros A. destruct x, n; cbn [high]; auto. intros [L H]. split; [rewrite app_length; lia|]. now rewrite hgt_app.
Qed.
Lemma highs_imp h h' held ns : (forall x n, high h x n -> high h' x n) -> highs h held ns -> highs h' held ns.
Proof. intros I H. induction H; constructor; auto. Qed.
(** The highest of what is captured *)
Definition top (h : heap) (js : list nat) (m : nat) : Prop :=
  (forall j, In j js -> exists n, high h (Some j) (Some n) /\ n <= m) /\
  (m = 0 \/ exists j, In j js /\ high h (Some j) (Some m)).
Lemma high_new h its m : acyclic h -> top h (helds its) m -> high (h ++ [(1, its)]) (Some (length h)) (Some (S m)).
Proof.
  intros A [H1 H2]. cbn [high]. split; [rewrite app_length; cbn; lia|]. cbn [hgt]. rewrite look_new. cbn [snd]. f_equal.
  assert (E : forall j n, high h (Some j) (Some n) -> hgt (length h) (h ++ [(1, its)]) j = n).
  { intros j n [L <-]. rewrite hgt_app by auto.
    apply Nat.le_antisymm; apply hgt_fuel; auto; lia. }
  apply Nat.le_antisymm.
  - apply fold_max_le. intros j Hj. destruct (H1 j Hj) as (n & Hn & Hm). now rewrite (E j n).
  - destruct H2 as [->|(j & Hj & Hm)]; [lia|]. rewrite <- (E j m Hm) at 1.
    now apply (fold_max_in (hgt (length h) (h ++ [(1, its)]))).
Qed.
Lemma top_same h' h js m : same h' h -> top h js m -> top h' js m.
Proof.
  intros S [H1 H2]. split.
  - intros j Hj. destruct (H1 j Hj) as (n & Hn & L). exists n. split; [eapply high_same; eauto|exact L].
  - destruct H2 as [->|(j & Hj & Hm)]; [now left|]. right. exists j. split; [exact Hj|eapply high_same; eauto].
Qed.
Lemma highs_new h0 h held ns its m : acyclic h0 -> same h h0 -> highs h0 held ns -> top h0 (helds its) m ->
  highs (fst (arc_new its h)) (held ++ [Some (snd (arc_new its h))]) (ns ++ [Some (S m)]).
Proof.
  intros A Sh H T. unfold arc_new. cbn [fst snd].
  assert (A' : acyclic h) by (intros i j Hj; rewrite (proj2 Sh) in Hj; eauto). apply Forall2_app.
  - eapply highs_imp; [|exact H]. intros x n Hx. apply high_app; [exact A'|]. eapply high_same; eauto.
  - constructor; [|constructor]. apply high_new; [exact A'|]. eapply top_same; eauto.
Qed.
Lemma top_one h x n : high h (Some x) (Some n) -> top h [x] n.
Proof. intros H. split; [intros j [<-|[]]; eauto|]. right. exists x. split; [now left|exact H]. Qed.
Lemma top_two h x y n m : high h (Some x) (Some n) -> high h (Some y) (Some m) -> top h [x; y] (Nat.max n m).
Proof.
  intros H G. split.
  - intros j [<-|[<-|[]]]; [exists n|exists m]; (split; [assumption|lia]).
  - right. destruct (Nat.max_spec n m) as [[_ ->]|[_ ->]]; [exists y|exists x]; (split; [cbn; auto|assumption]).
Qed.
Lemma top_none h : top h [] 0.
Proof. split; [now intros j []|now left]. Qed.
Lemma same_refl h : same h h.
Proof. split; auto. Qed.
Lemma high_nth h held ns p : highs h held ns -> high h (nth p held None) (nth p ns None).
Proof. intros H. revert p. induction H; intros [|p]; cbn; auto. Qed.
Lemma high_error h held ns : highs h held ns -> forall p,
  match nth_error held p, nth_error ns p with Some x, Some n => high h x n | None, None => True | _, _ => False end.
Proof. intros H. induction H; intros [|p]; cbn; auto. apply IHForall2. Qed.
Lemma highs_without h held ns p : highs h held ns -> highs h (without p held) (without p ns).
Proof. intros H. apply Forall2_app; [now apply Forall2_firstn|now apply Forall2_skipn]. Qed.
Lemma high_at h held ns p x : highs h held ns -> nth p held None = Some x ->
  exists n, nth p ns None = Some n /\ high h (Some x) (Some n).
Proof. intros H E. pose proof (high_nth p H) as R. rewrite E in R. destruct (nth p ns None) as [n|]; [eauto|easy]. Qed.
Lemma high_none h held ns p : highs h held ns -> nth p held None = None -> nth p ns None = None.
Proof. intros H E. pose proof (high_nth p H) as R. rewrite E in R. destruct (nth p ns None); easy. Qed.
Lemma sequence_high h held ns : highs h held ns ->
  top h (stored held) (fold_right (fun x m => match x with Some n => Nat.max n m | None => m end) 0 ns).
Proof.
  intros H. induction H as [|x n held ns R _ [IH1 IH2]]; [apply top_none|]. destruct x as [i|], n as [n|]; try easy.
  change (stored (Some i :: held)) with (i :: stored held). cbn [fold_right].
  set (m := fold_right _ 0 ns) in *. split.
  - intros j [<-|Hj]; [exists n; split; [exact R|lia]|]. destruct (IH1 j Hj) as (a & Ha & L). exists a. split; [exact Ha|lia].
  - destruct (Nat.max_spec n m) as [[L ->]|[_ ->]].
    + destruct IH2 as [E|(j & Hj & Hm)]; [lia|]. right. exists j. split; [now right|exact Hm].
    + right. exists i. split; [now left|exact R].
Qed.

Lemma highs_kept h h' own held ns : ok h' own -> kept h h' -> length h' = length h ->
  (forall i, In i (stored held) -> 0 < fst (look h' i)) -> highs h held ns -> highs h' held ns.
Proof.
  intros O K L G H. induction H as [|y n held ns R _ IH]; constructor.
  - destruct y as [i|], n as [n|]; try easy. destruct R as [L1 <-]. cbn [high]. split; [lia|].
    apply (hgt_kept O K). apply G. now left.
  - apply IH. intros i Hi. apply G. apply in_stored. right. now apply in_stored.
Qed.
Lemma act_highs a h held log ns : ok h (stored held) -> highs h held ns ->
  highs (fst (fst (act_run a (h, held, log)))) (snd (fst (act_run a (h, held, log)))) (act_high a ns).
Proof.
  intros O H. pose proof (ok_old O : acyclic h) as A.
  assert (Hm : forall p k, let r := match nth p held None with Some x => with_new (without p held) log (arc_new [Held x; Given k] h)
                                | None => (h, held, log) end in
             highs (fst (fst r)) (snd (fst r)) (match nth p ns None with Some n => without p ns ++ [Some (S n)] | None => ns end)).
  { intros p k. destruct (nth p held None) as [x|] eqn:E.
    - destruct (high_at p H E) as (n & -> & R). apply (@highs_new h h); auto using same_refl, highs_without. now apply (@top_one h x n).
    - now rewrite (high_none p H E). }
  assert (Hc : forall p k, let r := match nth p held None with Some x => with_new (without p held) log (sh_cont_fmap x k h)
                                | None => (h, held, log) end in
             highs (fst (fst r)) (snd (fst r)) (match nth p ns None with Some n => without p ns ++ [Some (S (Nat.max n 1))] | None => ns end)).
  { intros p k. destruct (nth p held None) as [x|] eqn:E; [|now rewrite (high_none p H E)].
    destruct (high_at p H E) as (n & -> & R). unfold sh_cont_fmap, with_new.
    pose proof (@high_new h [Given k] 0 A (top_none h)) as Hf. unfold arc_new at 1.
    assert (A1 : acyclic (h ++ [(1, [Given k])])).
    { intros i j Hj. destruct (Nat.lt_trichotomy i (length h)) as [Hi|[->|Hi]].
      - rewrite look_app_l in Hj by auto. eauto.
      - rewrite look_new in Hj. easy.
      - rewrite look_out in Hj by (rewrite app_length; cbn; lia). easy. }
    cbn [fst snd]. apply (@highs_new (h ++ [(1, [Given k])])); auto using same_refl.
    - eapply highs_imp; [|apply highs_without; exact H]. intros. now apply high_app.
    - apply top_two; [now apply high_app|exact Hf]. }
  assert (Hs : forall p k, let r := match nth p held None with Some x => with_new held log (arc_new [Held x; Given k] (arc_clone x h))
                                | None => (h, held, log) end in
             highs (fst (fst r)) (snd (fst r)) (match nth p ns None with Some n => ns ++ [Some (S n)] | None => ns end)).
  { intros p k. destruct (nth p held None) as [x|] eqn:E.
    - destruct (high_at p H E) as (n & -> & R). apply (@highs_new h); auto using same_clone. now apply (@top_one h x n).
    - now rewrite (high_none p H E). }
  assert (H2 : forall p q its, (forall x y, helds (its x y) = [x; y]) ->
             let r := match nth p held None, nth q held None with
                | Some x, Some y => with_new held log (arc_new (its x y) (arc_clone y (arc_clone x h)))
                | _, _ => (h, held, log) end in
             highs (fst (fst r)) (snd (fst r)) (match nth p ns None, nth q ns None with
              | Some n, Some m => ns ++ [Some (S (Nat.max n m))]
              | _, _ => ns end)).
  { intros p q its Hi. destruct (nth p held None) as [x|] eqn:E; [|now rewrite (high_none p H E)].
    destruct (high_at p H E) as (n & -> & R).
    destruct (nth q held None) as [y|] eqn:F; [|now rewrite (high_none q H F)].
    destruct (high_at q H F) as (m & -> & R'). apply (@highs_new h); auto.
    - destruct (same_clone x h) as [L1 S1]. destruct (same_clone y (arc_clone x h)) as [L2 S2].
      split; [congruence|]. intros i. now rewrite S2.
    - rewrite Hi. now apply top_two. }
  destruct a as [k|p k|p k|p q|p k|p k|p k|p k|p k|p q k|p q|p|p q| |p k|p k|n|p|p]; cbn [act_run act_high].
  - apply (@highs_new h h); auto using same_refl. apply top_none.
  - apply (Hm p k).
  - apply (Hm p k).
  - destruct (nth p held None) as [x|] eqn:E; [|now rewrite (high_none p H E)].
    destruct (high_at p H E) as (n & -> & R). pose proof (highs_without p H) as H1.
    destruct (nth q (without p held) None) as [y|] eqn:F; [|now rewrite (high_none q H1 F)].
    destruct (high_at q H1 F) as (m & -> & R'). apply (@highs_new h h); auto using same_refl, highs_without.
    now apply top_two.
  - apply (Hc p k).
  - apply (Hc p k).
  - apply (Hs p k).
  - apply (Hs p k).
  - apply (Hs p k).
  - now apply (H2 p q (fun x y => [Held x; Held y; Given k])).
  - now apply (H2 p q (fun x y => [Held x; Held y])).
  - destruct (nth p held None) as [x|] eqn:E; [|now rewrite (high_none p H E)].
    destruct (high_at p H E) as (n & -> & R). apply (@highs_new h); auto using same_clone. now apply (@top_one h x n).
  - pose proof (H2 q p (fun x y => [Held x; Held y]) (fun _ _ => eq_refl)) as T. unfold sh_compose. cbv zeta in T.
    destruct (nth p held None) as [x|] eqn:E; [|rewrite (high_none p H E) in *; exact H].
    destruct (high_at p H E) as (n & En & R). rewrite En in *.
    destruct (nth q held None) as [y|] eqn:F; [|rewrite (high_none q H F) in *; exact H].
    destruct (high_at q H F) as (m & Em & R'). rewrite Em in *. rewrite Nat.max_comm. exact T.
  - apply Forall2_app; [exact H|]. constructor; [exact I|constructor].
  - pose proof (high_error H p) as R. destruct (nth_error held p) as [[x|]|] eqn:E, (nth_error ns p) as [[b|]|] eqn:F; try easy.
    + unfold sh_io_fmap. pose proof (Hs p k) as T. cbv zeta in T. rewrite (nth_error_some _ _ E), (nth_error_some _ _ F) in T. exact T.
    + cbn. apply Forall2_app; [exact H|]. constructor; [exact I|constructor].
  - apply (Hs p k).
  - apply (@highs_new h h); auto using same_refl.
    + now apply Forall2_skipn.
    + destruct (sequence_items (firstn n held)) as [-> _]. exact (sequence_high (Forall2_firstn n H)).
  - pose proof (high_error H p) as R. destruct (nth_error held p) as [[x|]|] eqn:E, (nth_error ns p) as [[b|]|] eqn:F; try easy; cbn [fst snd].
    + eapply highs_imp; [intros; eapply high_same; [apply same_clone|eassumption]|].
      apply Forall2_app; [exact H|constructor; [exact R|constructor]].
    + apply Forall2_app; [exact H|constructor; [exact I|constructor]].
  - pose proof (high_error H p) as R. destruct (nth_error held p) as [[x|]|] eqn:E, (nth_error ns p) as [[b|]|] eqn:F; try easy.
    + pose proof (drop_handle_ok (ok_perm (stored_take _ _ E) O)) as (O' & L' & K & _).
      destruct (drop_handle x h) as [h' es]. cbn [fst snd] in *. pose proof (highs_without p H) as H1.
      assert (G : forall i, In i (stored (without p held)) -> 0 < fst (look h' i)) by (intros i Hi; exact (own_live _ O' Hi)).
      exact (highs_kept O' K L' G H1).
    + now apply highs_without.
    + cbn. apply nth_error_None in E, F. unfold without. rewrite firstn_all2, skipn_all2, app_nil_r by lia. exact H.
Qed.
Lemma acts_ok acts : ok (fst (fst (acts_run acts))) (stored (snd (fst (acts_run acts)))).
Proof. destruct (acts_inv acts) as (B & L & _). exact (l_ok L). Qed.
Lemma acts_highs acts : highs (fst (fst (acts_run acts))) (snd (fst (acts_run acts))) (acts_high acts).
Proof.
  induction acts as [|a acts IH] using rev_ind; [constructor|]. unfold acts_run, acts_high. rewrite !fold_left_app. cbn [fold_left].
  fold (acts_run acts). fold (acts_high acts). pose proof (acts_ok acts) as O.
  destruct (acts_run acts) as [[h held] log]. now apply act_highs.
Qed.
Theorem C112_depth_at_most : forall acts p x, nth p (snd (fst (acts_run acts))) None = Some x ->
  exists n, nth p (acts_high acts) None = Some n /\ drop_depth (fst (fst (acts_run acts))) x <= n.
Proof.
  intros acts p x E. destruct (high_at p (acts_highs acts) E) as (n & En & [_ <-]). exists (hgt (S x) (fst (fst (acts_run acts))) x).
  split; [exact En|]. apply drop_high.
Qed.

(** ** Nothing shared *)
Definition single (h : heap) : Prop := forall j, fst (look h j) <= 1.
Lemma single_new h its : single h -> single (h ++ [(1, its)]).
Proof.
  intros H j. destruct (Nat.lt_trichotomy j (length h)) as [L|[->|L]].
  - rewrite look_app_l by auto. apply H.
  - now rewrite look_new.
  - rewrite look_out by (rewrite app_length; cbn; lia). cbn. lia.
Qed.
Lemma act_single a h held log : by_value a = true -> single h -> single (fst (fst (act_run a (h, held, log)))).
Proof.
  intros V H. assert (D : forall x, single (fst (drop_handle x h))) by (intros x j; etransitivity; [apply drop_counts|apply H]).
  destruct a; try easy; cbn [act_run]; unfold with_new, sh_state_apply, sh_cont_fmap, sh_cont_bind, arc_new; cbn [fst snd].
  - now apply single_new.
  - destruct (nth p held None); [now apply single_new|exact H].
  - destruct (nth p held None); [now apply single_new|exact H].
  - destruct (nth p held None), (nth q (without p held) None); try exact H. now apply single_new.
  - destruct (nth p held None); [|exact H]. cbn [fst]. now apply single_new, single_new.
  - destruct (nth p held None); [|exact H]. cbn [fst]. now apply single_new, single_new.
  - now apply single_new.
  - destruct (nth_error held p) as [[x|]|]; try exact H. specialize (D x). now destruct (drop_handle x h).
Qed.
Theorem C112_depth_unshared : forall acts p x, forallb by_value acts = true ->
  nth p (snd (fst (acts_run acts))) None = Some x ->
  nth p (acts_high acts) None = Some (drop_depth (fst (fst (acts_run acts))) x).
Proof.
  intros acts p x V E. destruct (high_at p (acts_highs acts) E) as (n & En & [_ Hn]). rewrite En. f_equal. rewrite <- Hn. symmetry.
  pose proof (acts_ok acts) as O. unfold drop_depth, drop_handle.
  apply (@drop_exact (S x) x (stored (without p (snd (fst (acts_run acts)))))); [lia| |].
  - eapply ok_perm; [|exact O]. apply stored_take. now apply nth_some.
  - clear - V. induction acts as [|a acts IH] using rev_ind; [intros [|j]; cbn; lia|].
    rewrite forallb_app in V. apply andb_prop in V as [V1 V2]. cbn in V2. apply andb_prop in V2 as [V2 _]. specialize (IH V1).
    unfold acts_run. rewrite fold_left_app. cbn [fold_left]. fold (acts_run acts). destruct (acts_run acts) as [[h held] log].
    now apply act_single.
Qed.

(** ** Cases *)
Definition a_plan : list act :=
  [New 1; StateFmap 0 2; New 3; ContBind 1 4; StateApply 0 0; New 5; IoPure; New 6; IoSequence 4; New 7; StateBind 0 8; DropIt 0].
Example C112_case_unshared :
  forallb by_value a_plan = true /\ nth 0 (snd (fst (acts_run a_plan))) None = Some 10 /\
  acts_high a_plan = [Some 5] /\ drop_depth (fst (fst (acts_run a_plan))) 10 = 5.
Proof. vm_compute. auto. Qed.
Example C112_case_shared :
  let acts := [New 1; ReaderFmap 0 2; ReaderFmap 1 3; PredBinary 0 2] in
  acts_high acts = [Some 1; Some 2; Some 3; Some 4] /\ nth 3 (snd (fst (acts_run acts))) None = Some 3 /\
  drop_depth (fst (fst (acts_run acts))) 3 = 1.
Proof. vm_compute. auto. Qed.

Print Assumptions C112_depth_at_most.
Print Assumptions C112_depth_unshared.

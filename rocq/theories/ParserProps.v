(** C107, C108: the parser library and the SQL parser of [examples/advanced_parser.rs]. *)
From Coq Require Import List Arith NArith Bool String Lia.
From Verif Require Import Base ChoiceModel ParserModel ParserSpec.
Import ListNotations.

(** ** Reduction to lists *)

Lemma alt_values : forall T (a b : choice T), ch_alt a b = mkChoice (values a ++ values b).
Proof.
  intros T [a] [b]. unfold ch_alt. destruct a as [|x a]; [reflexivity|]. destruct b as [|y b]; cbn.
  - now rewrite app_nil_r.
  - reflexivity.
Qed.

Lemma of_values : forall T (c : choice T), mkChoice (values c) = c.
Proof. now intros T []. Qed.

Section Combinators.
Context {I : Type}.

Fixpoint gather {O B} (f : O -> parser I B) (n : nat) (rs : list (O * list I)) : option (list (B * list I)) :=
  match rs with
  | [] => Some []
  | (x, r) :: rs' =>
      match f x n r, gather f n rs' with
      | Some c, Some l => Some (values c ++ l)
      | _, _ => None
      end
  end.

Lemma and_then_loop_eq : forall O B (f : O -> parser I B) n rs acc,
  and_then_loop f n (mkChoice acc) rs = option_map (fun l => mkChoice (acc ++ l)) (gather f n rs).
Proof.
  induction rs as [|[x r] rs IH]; intros acc; cbn.
  - now rewrite app_nil_r.
  - unfold p_parse. destruct (f x n r) as [c|]; [|reflexivity].
    rewrite alt_values, IH. cbn. destruct (gather f n rs); cbn; [|reflexivity]. now rewrite app_assoc.
Qed.

Lemma and_then_eq : forall O B (p : parser I O) (f : O -> parser I B) n i,
  p_and_then p f n i = match p n i with None => None | Some c => option_map (@mkChoice _) (gather f n (values c)) end.
Proof.
  intros. unfold p_and_then, p_parse. destruct (p n i) as [c|]; [|reflexivity].
  unfold ch_empty. now rewrite and_then_loop_eq.
Qed.

Lemma or_eq : forall O (p q : parser I O) n i,
  p_or p q n i = match p n i, q n i with
                 | Some a, Some b => Some (mkChoice (values a ++ values b))
                 | _, _ => None
                 end.
Proof.
  intros. unfold p_or, p_parse. destruct (p n i) as [[[|x a]]|]; [| |reflexivity]; cbn [ch_is_empty values].
  - destruct (q n i) as [[b]|]; reflexivity.
  - destruct (q n i) as [b|]; [|reflexivity]. now rewrite alt_values.
Qed.

Lemma map_loop_eq : forall O B (f : O -> B) (rs : list (O * list I)) acc,
  map_loop f (mkChoice acc) rs = mkChoice (acc ++ map (fun xr => (f (fst xr), snd xr)) rs).
Proof.
  induction rs as [|[x r] rs IH]; intros acc; cbn.
  - now rewrite app_nil_r.
  - rewrite alt_values. cbn. rewrite IH, <- app_assoc. reflexivity.
Qed.
Lemma map_eq : forall O B (p : parser I O) (f : O -> B) n i,
  p_map p f n i =
  option_map (fun c => mkChoice (map (fun xr => (f (fst xr), snd xr)) (values c))) (p n i).
Proof.
  intros. unfold p_map, p_parse. destruct (p n i); [|reflexivity]. unfold ch_empty. now rewrite map_loop_eq.
Qed.

Lemma apply_inner_eq : forall O B (g : O -> B) (vs : list (O * list I)) acc,
  apply_inner g (mkChoice acc) vs = mkChoice (acc ++ map (fun xr => (g (fst xr), snd xr)) vs).
Proof.
  induction vs as [|[x r] vs IH]; intros acc; cbn.
  - now rewrite app_nil_r.
  - rewrite alt_values. cbn. rewrite IH, <- app_assoc. reflexivity.
Qed.
Lemma apply_outer_eq : forall O B (q : parser I O) n (fs : list ((O -> B) * list I)) acc,
  apply_outer q n (mkChoice acc) fs =
  option_map (fun l => mkChoice (acc ++ l)) (gather (fun g => p_map q g) n fs).
Proof.
  induction fs as [|[g r] fs IH]; intros acc; cbn [apply_outer gather].
  - cbn. now rewrite app_nil_r.
  - unfold p_parse. rewrite map_eq. destruct (q n r) as [c|]; [|reflexivity]. cbn [option_map values].
    rewrite apply_inner_eq, IH. destruct (gather _ n fs); cbn; [|reflexivity]. now rewrite app_assoc.
Qed.
Lemma apply_eq : forall O B (p : parser I (O -> B)) (q : parser I O) n i,
  p_apply p q n i = p_and_then p (fun g => p_map q g) n i.
Proof.
  intros. rewrite and_then_eq. unfold p_apply, p_parse. destruct (p n i); [|reflexivity].
  unfold ch_empty. now rewrite apply_outer_eq.
Qed.

(** ** Answers *)

Lemma answers_unique : forall O (p : parser I O) i a b, answers p i a -> answers p i b -> a = b.
Proof.
  intros O p i a b [n Hn] [m Hm]. specialize (Hn (n + m) ltac:(lia)). specialize (Hm (n + m) ltac:(lia)). congruence.
Qed.

Lemma answers_new : forall O (f : list I -> choice (O * list I)) i, answers (p_new f) i (values (f i)).
Proof. intros. exists 0. intros m _. unfold p_new. now rewrite of_values. Qed.

Lemma answers_or : forall O (p q : parser I O) i a b,
  answers p i a -> answers q i b -> answers (p_or p q) i (a ++ b).
Proof.
  intros O p q i a b [n Hn] [m Hm]. exists (n + m). intros k Hk. rewrite or_eq, Hn, Hm by lia. reflexivity.
Qed.

Lemma gather_answers : forall O B (f : O -> parser I B) (g : O -> list I -> list (B * list I)) rs,
  (forall x r, In (x, r) rs -> answers (f x) r (g x r)) ->
  exists n, forall m, n <= m -> gather f m rs = Some (flat_map (fun xr => g (fst xr) (snd xr)) rs).
Proof.
  induction rs as [|[x r] rs IH]; intros H.
  - exists 0. reflexivity.
  - destruct (H x r (or_introl eq_refl)) as [n Hn].
    destruct IH as [m Hm]; [intros; apply H; now right|].
    exists (n + m). intros k Hk. cbn. rewrite Hn, Hm by lia. reflexivity.
Qed.

Lemma answers_and_then : forall O B (p : parser I O) (f : O -> parser I B) g i rs,
  answers p i rs -> (forall x r, In (x, r) rs -> answers (f x) r (g x r)) ->
  answers (p_and_then p f) i (flat_map (fun xr => g (fst xr) (snd xr)) rs).
Proof.
  intros O B p f g i rs [n Hn] H. destruct (gather_answers _ _ f g rs H) as [m Hm].
  exists (n + m). intros k Hk. rewrite and_then_eq, Hn by lia. cbn. rewrite Hm by lia. reflexivity.
Qed.

Lemma answers_then : forall O B (p : parser I O) (f : O -> parser I B) i x r rs,
  answers p i [(x, r)] -> answers (f x) r rs -> answers (p_and_then p f) i rs.
Proof.
  intros O B p f i x r rs Hp Hf.
  pose proof (answers_and_then _ _ p f (fun _ _ => rs) i [(x, r)] Hp) as H. cbn in H. rewrite app_nil_r in H.
  apply H. intros y s [[= <- <-]|[]]. exact Hf.
Qed.

Lemma answers_then_none : forall O B (p : parser I O) (f : O -> parser I B) i,
  answers p i [] -> answers (p_and_then p f) i [].
Proof.
  intros O B p f i H. apply (answers_and_then _ _ p f (fun _ _ => []) i [] H). intros x r [].
Qed.

Lemma answers_map : forall O B (p : parser I O) (f : O -> B) i rs,
  answers p i rs -> answers (p_map p f) i (map (fun xr => (f (fst xr), snd xr)) rs).
Proof. intros O B p f i rs [n Hn]. exists n. intros m Hm. rewrite map_eq, Hn by lia. reflexivity. Qed.

Lemma answers_same : forall O (p q : parser I O) i rs,
  (forall n, p n i = q n i) -> answers p i rs -> answers q i rs.
Proof. intros O p q i rs E [n Hn]. exists n. intros m Hm. rewrite <- E. auto. Qed.

Lemma many_loop_more : forall O (p : parser I O) n k acc i xs r,
  many_loop p n k acc i = Some (xs, r) -> forall k', k <= k' -> many_loop p n k' acc i = Some (xs, r).
Proof.
  induction k as [|k IH]; intros acc i xs r H k' Hk; [discriminate|].
  destruct k' as [|k']; [lia|]. cbn in *. unfold p_parse in *. destruct (p n i) as [c|]; [|discriminate].
  destruct (hd_error (values c)) as [[x s]|]; [|exact H]. apply IH; [exact H|lia].
Qed.

Lemma many_loop_chain : forall O (p : parser I O) i xs r, one_after_another p i xs r ->
  exists n, forall m, n <= m -> forall acc, many_loop p m (S (List.length xs)) acc i = Some (acc ++ xs, r).
Proof.
  induction 1 as [i [n Hn]|i x r rs xs r' [n Hn] H [m Hm]].
  - exists n. intros m Hm acc. cbn. unfold p_parse. rewrite Hn by lia. cbn. now rewrite app_nil_r.
  - exists (n + m). intros k Hk acc. cbn [List.length]. remember (S (List.length xs)) as l. cbn. unfold p_parse.
    rewrite Hn by lia. cbn. subst l. rewrite Hm by lia. now rewrite <- app_assoc.
Qed.

Lemma answers_many : forall O (p : parser I O) i xs r,
  one_after_another p i xs r -> answers (p_many p) i [(xs, r)].
Proof.
  intros O p i xs r H. destruct (many_loop_chain _ _ _ _ _ H) as [n Hn].
  exists (n + S (List.length xs)). intros m Hm. unfold p_many.
  rewrite (many_loop_more _ _ _ _ _ _ _ _ (Hn m ltac:(lia) []) m ltac:(lia)). reflexivity.
Qed.

Lemma answers_optional : forall O (p : parser I O) i rs, answers p i rs ->
  answers (p_optional p) i [match rs with [] => (None, i) | (x, r) :: _ => (Some x, r) end].
Proof.
  intros O p i rs [n Hn]. exists n. intros m Hm. unfold p_optional, p_parse. rewrite Hn by lia.
  destruct rs as [|[x r] rs]; reflexivity.
Qed.

(** ** More time changes no answer *)

Lemma gather_steady : forall O B (f : O -> parser I B) n m, (forall x, steady (f x)) -> n <= m ->
  forall rs l, gather f n rs = Some l -> gather f m rs = Some l.
Proof.
  intros O B f n m Hf Hm. induction rs as [|[x r] rs IH]; intros l H; [exact H|]. cbn in *.
  destruct (f x n r) as [c|] eqn:E; [|discriminate]. rewrite (Hf x n m r c Hm E).
  destruct (gather f n rs) as [l'|]; [|discriminate]. rewrite (IH l' eq_refl). exact H.
Qed.

Lemma steady_new : forall O (f : list I -> choice (O * list I)), steady (p_new f).
Proof. intros O f n m i c _ H. exact H. Qed.
Lemma steady_or : forall O (p q : parser I O), steady p -> steady q -> steady (p_or p q).
Proof.
  intros O p q Hp Hq n m i c Hm. rewrite !or_eq. destruct (p n i) as [a|] eqn:E; [|discriminate].
  destruct (q n i) as [b|] eqn:E'; [|discriminate]. now rewrite (Hp n m i a Hm E), (Hq n m i b Hm E').
Qed.
Lemma steady_and_then : forall O B (p : parser I O) (f : O -> parser I B),
  steady p -> (forall x, steady (f x)) -> steady (p_and_then p f).
Proof.
  intros O B p f Hp Hf n m i c Hm. rewrite !and_then_eq. destruct (p n i) as [a|] eqn:E; [|discriminate].
  rewrite (Hp n m i a Hm E). destruct (gather f n (values a)) as [l|] eqn:E'; [|discriminate].
  now rewrite (gather_steady _ _ f n m Hf Hm _ _ E').
Qed.
Lemma steady_map : forall O B (p : parser I O) (f : O -> B), steady p -> steady (p_map p f).
Proof.
  intros O B p f Hp n m i c Hm. rewrite !map_eq. destruct (p n i) as [a|] eqn:E; [|discriminate].
  now rewrite (Hp n m i a Hm E).
Qed.
Lemma steady_apply : forall O B (p : parser I (O -> B)) (q : parser I O), steady p -> steady q -> steady (p_apply p q).
Proof.
  intros O B p q Hp Hq n m i c Hm. rewrite !apply_eq.
  apply steady_and_then; auto. intros g. now apply steady_map.
Qed.
Lemma many_loop_steady : forall O (p : parser I O) n m, steady p -> n <= m -> forall k acc i v,
  many_loop p n k acc i = Some v -> many_loop p m k acc i = Some v.
Proof.
  intros O p n m Hp Hm. induction k as [|k IH]; intros acc i v H; [discriminate|]. cbn in *. unfold p_parse in *.
  destruct (p n i) as [c|] eqn:E; [|discriminate]. rewrite (Hp n m i c Hm E).
  destruct (hd_error (values c)) as [[x s]|]; [now apply IH|exact H].
Qed.
Lemma steady_many : forall O (p : parser I O), steady p -> steady (p_many p).
Proof.
  intros O p Hp n m i c Hm. unfold p_many. destruct (many_loop p n n [] i) as [[xs r]|] eqn:E; [|discriminate].
  pose proof (many_loop_steady _ _ n m Hp Hm _ _ _ _ E) as E'.
  now rewrite (many_loop_more _ _ _ _ _ _ _ _ E' m Hm).
Qed.
Lemma steady_optional : forall O (p : parser I O), steady p -> steady (p_optional p).
Proof.
  intros O p Hp n m i c Hm. unfold p_optional, p_parse. destruct (p n i) as [a|] eqn:E; [|discriminate].
  now rewrite (Hp n m i a Hm E).
Qed.

Lemma answers_at : forall O (p : parser I O) n i c, steady p -> p n i = Some c -> answers p i (values c).
Proof. intros O p n i c Hp H. exists n. intros m Hm. rewrite of_values. now apply (Hp n m). Qed.
Lemma finds_at : forall O (p : parser I O) n i c x r, steady p -> p n i = Some c -> In (x, r) (values c) -> finds p i x r.
Proof. intros O p n i c x r Hp H Hi. exists (values c). split; [now apply (answers_at _ p n)|exact Hi]. Qed.

(** ** What is found comes from the parts *)

Lemma gather_in : forall O B (f : O -> parser I B) n rs l y s, gather f n rs = Some l -> In (y, s) l ->
  exists x r c, In (x, r) rs /\ f x n r = Some c /\ In (y, s) (values c).
Proof.
  induction rs as [|[x r] rs IH]; intros l y s H Hi; cbn in H.
  - injection H as <-. destruct Hi.
  - destruct (f x n r) as [c|] eqn:E; [|discriminate]. destruct (gather f n rs) as [l'|]; [|discriminate].
    injection H as <-. apply in_app_or in Hi. destruct Hi as [Hi|Hi].
    + exists x, r, c. cbn. auto.
    + destruct (IH l' y s eq_refl Hi) as (x' & r' & c' & H1 & H2 & H3). exists x', r', c'. cbn. auto.
Qed.

Lemma finds_or : forall O (p q : parser I O) i x r, steady p -> steady q -> finds (p_or p q) i x r ->
  finds p i x r \/ finds q i x r.
Proof.
  intros O p q i x r Hp Hq (rs & [n Hn] & Hi). specialize (Hn n (le_n n)). rewrite or_eq in Hn.
  destruct (p n i) as [a|] eqn:E; [|discriminate]. destruct (q n i) as [b|] eqn:E'; [|discriminate].
  injection Hn as <-. apply in_app_or in Hi. destruct Hi as [Hi|Hi].
  - left. now apply (finds_at _ p n i a).
  - right. now apply (finds_at _ q n i b).
Qed.
Lemma finds_and_then : forall O B (p : parser I O) (f : O -> parser I B) i y s, steady p -> (forall x, steady (f x)) ->
  finds (p_and_then p f) i y s -> exists x r, finds p i x r /\ finds (f x) r y s.
Proof.
  intros O B p f i y s Hp Hf (rs & [n Hn] & Hi). specialize (Hn n (le_n n)). rewrite and_then_eq in Hn.
  destruct (p n i) as [a|] eqn:E; [|discriminate]. destruct (gather f n (values a)) as [l|] eqn:E'; [|discriminate].
  injection Hn as <-. destruct (gather_in _ _ _ _ _ _ _ _ E' Hi) as (x & r & c & H1 & H2 & H3).
  exists x, r. split; [now apply (finds_at _ p n i a)|now apply (finds_at _ (f x) n r c)].
Qed.
Lemma finds_map : forall O B (p : parser I O) (f : O -> B) i y s, steady p ->
  finds (p_map p f) i y s -> exists x, y = f x /\ finds p i x s.
Proof.
  intros O B p f i y s Hp (rs & [n Hn] & Hi). specialize (Hn n (le_n n)). rewrite map_eq in Hn.
  destruct (p n i) as [a|] eqn:E; [|discriminate]. injection Hn as <-.
  apply in_map_iff in Hi. destruct Hi as ([x r] & [= <- <-] & Hi). exists x. split; [reflexivity|].
  now apply (finds_at _ p n i a).
Qed.
Lemma many_loop_inv : forall O (p : parser I O) n, steady p -> forall k acc i xs r,
  many_loop p n k acc i = Some (xs, r) -> exists ys, xs = acc ++ ys /\ one_after_another p i ys r.
Proof.
  intros O p n Hp. induction k as [|k IH]; intros acc i xs r H; [discriminate|]. cbn in H. unfold p_parse in H.
  destruct (p n i) as [[c]|] eqn:E; [|discriminate]. pose proof (answers_at _ p n i _ Hp E) as Ha.
  destruct c as [|[x s] c]; cbn in *.
  - injection H as <- <-. exists []. rewrite app_nil_r. split; [reflexivity|]. now constructor.
  - destruct (IH _ _ _ _ H) as (ys & -> & Hc). exists (x :: ys). rewrite <- app_assoc. split; [reflexivity|].
    now apply (one_more p i x s c).
Qed.
Lemma finds_many : forall O (p : parser I O) i xs r, steady p -> finds (p_many p) i xs r -> one_after_another p i xs r.
Proof.
  intros O p i xs r Hp (rs & [n Hn] & Hi). specialize (Hn n (le_n n)). unfold p_many in Hn.
  destruct (many_loop p n n [] i) as [[ys s]|] eqn:E; [|discriminate]. injection Hn as <-.
  destruct Hi as [[= -> ->]|[]]. destruct (many_loop_inv _ _ _ Hp _ _ _ _ _ E) as (zs & -> & H). exact H.
Qed.
Lemma finds_optional : forall O (p : parser I O) i o r, steady p -> finds (p_optional p) i o r ->
  match o with Some x => finds p i x r | None => r = i /\ answers p i [] end.
Proof.
  intros O p i o r Hp (rs & [n Hn] & Hi). specialize (Hn n (le_n n)). unfold p_optional, p_parse in Hn.
  destruct (p n i) as [[c]|] eqn:E; [|discriminate]. pose proof (answers_at _ p n i _ Hp E) as Ha.
  destruct c as [|[x s] c]; cbn in *; injection Hn as <-; destruct Hi as [[= <- <-]|[]].
  - auto.
  - exists ((x, s) :: c). cbn. auto.
Qed.
Lemma finds_new : forall O (f : list I -> choice (O * list I)) i x r, finds (p_new f) i x r -> In (x, r) (values (f i)).
Proof.
  intros O f i x r (rs & H & Hi). now rewrite (answers_unique _ _ _ _ _ (answers_new _ f i) H).
Qed.

(** ** Pairs *)

Lemma flat_map_none : forall A B (g : A -> list B) l, (forall a, In a l -> g a = []) -> flat_map g l = [].
Proof.
  induction l as [|a l IH]; intros H; [reflexivity|]. cbn. rewrite H by now left. apply IH. intros; apply H; now right.
Qed.

Lemma answers_choose : forall O B (p : parser I O) (f : O -> parser I B) i rs,
  answers p i rs -> (forall x r, In (x, r) rs -> exists vs, answers (f x) r vs) ->
  exists vss, Forall2 (fun xr vs => answers (f (fst xr)) (snd xr) vs) rs vss /\
    answers (p_and_then p f) i (List.concat vss).
Proof.
  intros O B p f i rs [n Hn] H.
  assert (G : exists vss, Forall2 (fun xr vs => answers (f (fst xr)) (snd xr) vs) rs vss /\
    exists m, forall k, m <= k -> gather f k rs = Some (List.concat vss)).
  { clear Hn. induction rs as [|[x r] rs IH].
    - exists []. split; [constructor|]. exists 0. reflexivity.
    - destruct IH as (vss & Hv & m & Hm); [intros; apply H; now right|].
      destruct (H x r (or_introl eq_refl)) as [vs [k Hk]]. exists (vs :: vss). split; [constructor; [exists k; exact Hk|exact Hv]|].
      exists (m + k). intros j Hj. cbn. rewrite Hk, Hm by lia. reflexivity. }
  destruct G as (vss & Hv & m & Hm). exists vss. split; [exact Hv|].
  exists (n + m). intros k Hk. rewrite and_then_eq, Hn by lia. cbn. rewrite Hm by lia. reflexivity.
Qed.

Lemma forall2_nil : forall O B (f : O -> parser I B) rs vss,
  (forall x r, In (x, r) rs -> answers (f x) r []) ->
  Forall2 (fun xr vs => answers (f (fst xr)) (snd xr) vs) rs vss -> List.concat vss = [].
Proof.
  intros O B f rs vss H F. induction F as [|[x r] vs rs vss Ha F IH]; [reflexivity|]. cbn in *.
  rewrite (answers_unique _ _ _ _ _ Ha (H x r (or_introl eq_refl))). cbn. apply IH. intros; apply H; now right.
Qed.

Lemma pairs_repeat : forall A O (a : parser I A) (b : parser I O) i ps r, pairs a b i ps r ->
  one_after_another (p_and_then a (fun f => p_map b (fun v => (f, v)))) i ps r /\
  one_after_another (p_and_then a (fun _ => b)) i (map snd ps) r.
Proof.
  induction 1 as [i os Ha Hb|i os1 x r os2 y s vs ps r' Ha H1 Hb H2 Hp [IH1 IH2]].
  - split; constructor.
    + pose proof (answers_and_then _ _ a (fun f => p_map b (fun v => (f, v))) (fun _ _ => []) i os Ha) as H.
      rewrite flat_map_none in H by auto. apply H. intros x r Hi. apply (answers_map _ _ b _ r []). eauto.
    + pose proof (answers_and_then _ _ a (fun _ => b) (fun _ _ => []) i os Ha) as H.
      rewrite flat_map_none in H by auto. apply H. eauto.
  - assert (E1 : forall x' s', In (x', s') (os1 ++ (x, r) :: os2) -> exists vs', answers b s' vs').
    { intros x' s' Hi. apply in_app_or in Hi. destruct Hi as [Hi|[[= <- <-]|Hi]]; eauto. }
    split.
    + destruct (answers_choose _ _ a (fun f => p_map b (fun v => (f, v))) i _ Ha) as (vss & Hv & Han).
      { intros x' s' Hi. destruct (E1 x' s' Hi) as [vs' Hvs]. eexists. apply answers_map. exact Hvs. }
      apply Forall2_app_inv_l in Hv. destruct Hv as (v1 & v2 & Hv1 & Hv2 & ->).
      inversion Hv2 as [|? v ? v3 Hx Hv3]; subst. cbn in Hx.
      rewrite concat_app in Han. rewrite (forall2_nil _ _ (fun f => p_map b (fun v => (f, v))) os1 v1) in Han.
      2:{ intros x' s' Hi. apply (answers_map _ _ b _ s' []). eauto. }
      2:{ exact Hv1. }
      rewrite (answers_unique _ _ _ _ _ Hx (answers_map _ _ _ _ _ _ Hb)) in Han. cbn in Han.
      eapply one_more; [exact Han|exact IH1].
    + destruct (answers_choose _ _ a (fun _ => b) i _ Ha E1) as (vss & Hv & Han).
      apply Forall2_app_inv_l in Hv. destruct Hv as (v1 & v2 & Hv1 & Hv2 & ->).
      inversion Hv2 as [|? v ? v3 Hx Hv3]; subst. cbn in Hx.
      rewrite concat_app in Han. rewrite (forall2_nil _ _ (fun _ => b) os1 v1) in Han; [|eauto|exact Hv1].
      rewrite (answers_unique _ _ _ _ _ Hx Hb) in Han. cbn in Han.
      cbn [map snd]. eapply one_more; [exact Han|exact IH2].
Qed.
End Combinators.

(** ** C107: the combinators *)

(** One item, or a run of items. *)
Theorem C107_items : forall I (ieq : I -> I -> bool), (forall a b, ieq a b = true <-> a = b) ->
  (forall (p : I -> bool) i, answers (satisfy p) i
     (match i with x :: r => if p x then [(x, r)] else [] | [] => [] end)) /\
  (forall x i rs, answers (item ieq x) i rs <->
     (exists r, i = x :: r /\ rs = [(x, r)]) \/ ((forall r, i <> x :: r) /\ rs = [])) /\
  (forall xs i rs, answers (sequence ieq xs) i rs <->
     (exists r, i = xs ++ r /\ rs = [(xs, r)]) \/ ((forall r, i <> xs ++ r) /\ rs = [])).
Proof.
  intros I ieq He. split; [|split].
  - intros p i. pose proof (answers_new _ (fun input => match input with
      | first :: rest => if p first then ch_new (first, rest) [] else ch_empty | [] => ch_empty end) i) as H.
    destruct i as [|x r]; cbn in H; [exact H|]. destruct (p x); exact H.
  - intros x i rs. pose proof (answers_new _ (fun input => match input with
      | first :: rest => if ieq first x then ch_new (first, rest) [] else ch_empty | [] => ch_empty end) i) as H.
    fold (item ieq x) in H. destruct i as [|y r]; cbn in H.
    + split; [intros Ha; right|intros [(r & [=] & _)|[_ ->]]; exact H].
      split; [discriminate|]. exact (answers_unique _ _ _ _ _ Ha H).
    + destruct (ieq y x) eqn:E.
      * apply He in E. subst y. split.
        -- intros Ha. left. exists r. split; [reflexivity|]. exact (answers_unique _ _ _ _ _ Ha H).
        -- intros [(r' & [= <-] & ->)|[N _]]; [exact H|now destruct (N r)].
      * split.
        -- intros Ha. right. split; [intros r' [= -> ->]; rewrite (proj2 (He x x) eq_refl) in E; discriminate|].
           exact (answers_unique _ _ _ _ _ Ha H).
        -- intros [(r' & [= -> ->] & _)|[_ ->]]; [rewrite (proj2 (He x x) eq_refl) in E; discriminate|exact H].
  - intros xs i rs.
    assert (Hs : forall a b, slice_eq ieq a b = true <-> a = b).
    { induction a as [|x a IH]; intros [|y b]; cbn; try (split; discriminate || reflexivity).
      - rewrite andb_true_iff, He, IH. split; [now intros [-> ->]|now intros [= -> ->]]. }
    pose proof (answers_new _ (fun input =>
      if (List.length xs <=? List.length input) && slice_eq ieq (firstn (List.length xs) input) xs
      then ch_new (xs, skipn (List.length xs) input) [] else ch_empty) i) as H.
    fold (sequence ieq xs) in H. cbv beta in H.
    destruct ((List.length xs <=? List.length i) && slice_eq ieq (firstn (List.length xs) i) xs) eqn:E.
    + apply andb_true_iff in E. destruct E as [_ E]. apply Hs in E.
      assert (Ei : i = xs ++ skipn (List.length xs) i) by (rewrite <- E at 1; symmetry; apply firstn_skipn).
      cbn in H. split.
      * intros Ha. left. eexists. split; [exact Ei|]. exact (answers_unique _ _ _ _ _ Ha H).
      * intros [(r & -> & ->)|[N _]]; [|now destruct (N _ Ei)].
        rewrite skipn_app, skipn_all, Nat.sub_diag in H. exact H.
    + assert (N : forall r, i <> xs ++ r).
      { intros r ->. apply andb_false_iff in E. destruct E as [E|E].
        - apply Nat.leb_gt in E. rewrite app_length in E. lia.
        - rewrite firstn_app, firstn_all, Nat.sub_diag, app_nil_r in E.
          rewrite (proj2 (Hs xs xs) eq_refl) in E. discriminate. }
      split; [intros Ha; right; split; [exact N|exact (answers_unique _ _ _ _ _ Ha H)]|].
      intros [(r & -> & _)|[_ ->]]; [now destruct (N r)|exact H].
Qed.

(** Alternatives: all parses of the one, then all of the other.  Sequences: the parses of what follows, for every
    parse of what comes first, in order.  Mapping changes the values only. *)
Theorem C107_together : forall I O B,
  (forall (p q : parser I O) i a b, answers p i a -> answers q i b -> answers (p_or p q) i (a ++ b)) /\
  (forall (p : parser I O) (f : O -> parser I B) g i rs, answers p i rs ->
     (forall x r, In (x, r) rs -> answers (f x) r (g x r)) ->
     answers (p_and_then p f) i (flat_map (fun xr => g (fst xr) (snd xr)) rs)) /\
  (forall (p : parser I O) (f : O -> B) i rs, answers p i rs ->
     answers (p_map p f) i (map (fun xr => (f (fst xr), snd xr)) rs)) /\
  (forall (p : parser I (O -> B)) (q : parser I O) g i fs, answers p i fs ->
     (forall f r, In (f, r) fs -> answers q r (g r)) ->
     answers (p_apply p q) i (flat_map (fun fr => map (fun xr => (fst fr (fst xr), snd xr)) (g (snd fr))) fs)) /\
  (forall (p : parser I O) i rs, answers p i rs -> answers (p_skip p) i (map (fun xr => (tt, snd xr)) rs)) /\
  (forall (p : parser I O) s n i, p_label p s n i = p n i).
Proof.
  intros I O B. split; [|split; [|split; [|split; [|split]]]].
  - intros. now apply answers_or.
  - intros. now apply answers_and_then.
  - intros. now apply answers_map.
  - intros p q g i fs Hp Hq. eapply answers_same; [intros n; symmetry; apply apply_eq|].
    apply (answers_and_then _ _ p (fun h => p_map q h) (fun h r => map (fun xr => (h (fst xr), snd xr)) (g r)) i fs Hp).
    intros f r Hi. apply answers_map. eauto.
  - intros p i rs H. apply (answers_map _ _ p (fun _ => tt) i rs H).
  - reflexivity.
Qed.

(** A parser given as a function that finds nothing, or returns a value without reading. *)
Definition nothing {I O} : parser I O := p_new (fun _ => ch_empty).
Definition just {I O} (x : O) : parser I O := p_new (fun input => ch_new (x, input) []).

Lemma gather_app : forall I O B (f : O -> parser I B) n a b,
  gather f n (a ++ b) = match gather f n a, gather f n b with Some x, Some y => Some (x ++ y) | _, _ => None end.
Proof.
  induction a as [|[x r] a IH]; intros b; cbn.
  - now destruct (gather f n b).
  - rewrite IH. destruct (f x n r) as [c|]; [|reflexivity]. destruct (gather f n a) as [u|]; [|reflexivity].
    destruct (gather f n b) as [v|]; [|reflexivity]. now rewrite app_assoc.
Qed.

(** The laws of a monad with alternatives, in every detail: the same parses in the same order, and the same
    inputs on which the parsers do not return. *)
Theorem C107_laws : forall I O B C (p q s : parser I O) (f : O -> parser I B) (g : B -> parser I C) (x : O) n i,
  p_and_then (just x) f n i = f x n i /\
  p_and_then p just n i = p n i /\
  p_and_then (p_and_then p f) g n i = p_and_then p (fun y => p_and_then (f y) g) n i /\
  p_or (p_or p q) s n i = p_or p (p_or q s) n i /\
  p_or nothing p n i = p n i /\ p_or p nothing n i = p n i /\
  p_and_then nothing f n i = nothing n i /\
  p_and_then (p_or p q) f n i = p_or (p_and_then p f) (p_and_then q f) n i.
Proof.
  intros I O B C p q s f g x n i. repeat split.
  - rewrite and_then_eq. cbn. destruct (f x n i) as [[c]|]; [|reflexivity]. cbn. now rewrite app_nil_r.
  - rewrite and_then_eq. destruct (p n i) as [[c]|]; [|reflexivity]. cbn. f_equal.
    assert (E : gather just n c = Some c) by (induction c as [|[y r] c IH]; [reflexivity|]; cbn; now rewrite IH).
    now rewrite E.
  - rewrite !and_then_eq. destruct (p n i) as [[c]|]; [|reflexivity]. cbn [values].
    assert (E : match gather f n c with Some l => gather g n l | None => None end =
      gather (fun y => p_and_then (f y) g) n c \/ (gather f n c = None)).
    { destruct (gather f n c) as [l|] eqn:E; [left|now right]. revert l E.
      induction c as [|[y r] c IH]; intros l E; cbn in E; [injection E as <-; reflexivity|].
      cbn [gather]. rewrite and_then_eq. destruct (f y n r) as [d|]; [|discriminate].
      destruct (gather f n c) as [l'|] eqn:E'; [|discriminate]. injection E as <-.
      rewrite gather_app, (IH l' eq_refl). destruct (gather g n (values d)); reflexivity. }
    assert (E0 : gather f n c = None -> gather (fun y => p_and_then (f y) g) n c = None).
    { clear E. induction c as [|[y r] c IH]; [discriminate|]. cbn. rewrite and_then_eq.
      destruct (f y n r) as [d|]; [|reflexivity]. destruct (gather f n c) as [l'|]; [discriminate|].
      intros _. rewrite IH by reflexivity. now destruct (option_map _ _). }
    destruct E as [E|E].
    + rewrite <- E. destruct (gather f n c); reflexivity.
    + rewrite (E0 E), E. reflexivity.
  - rewrite !or_eq. destruct (p n i), (q n i), (s n i); try reflexivity. cbn. now rewrite app_assoc.
  - rewrite or_eq. cbn. destruct (p n i) as [[c]|]; [|reflexivity]. cbn. now rewrite app_nil_r.
  - rewrite or_eq, !and_then_eq, or_eq. destruct (p n i) as [a|], (q n i) as [b|]; cbn; try reflexivity.
    + rewrite gather_app. destruct (gather f n (values a)), (gather f n (values b)); reflexivity.
    + now destruct (gather f n (values a)).
Qed.

(** Repetition: first parse after first parse until there is none; the other parses are dropped. *)
Theorem C107_repetition : forall I O (p : parser I O) i,
  (forall xs r, one_after_another p i xs r -> answers (p_many p) i [(xs, r)]) /\
  (forall rs xs rest, answers p i rs ->
     (forall x r, In (x, r) rs -> one_after_another p r (xs r) (rest r)) ->
     answers (p_many1 p) i (map (fun xr => (fst xr :: xs (snd xr), rest (snd xr))) rs)) /\
  (forall rs, answers p i rs ->
     answers (p_optional p) i [match rs with [] => (None, i) | (x, r) :: _ => (Some x, r) end]).
Proof.
  intros I O p i. split; [|split].
  - intros xs r. apply answers_many.
  - intros rs xs rest Hp H.
    pose proof (answers_and_then _ _ p (fun first => p_map (p_many p) (fun l => [first] ++ l))
      (fun x r => [(x :: xs r, rest r)]) i rs Hp) as G.
    rewrite flat_map_concat_map, <- (map_map (fun xr => (fst xr :: xs (snd xr), rest (snd xr))) (fun v => [v])) in G.
    assert (E : forall A (l : list A), List.concat (map (fun v => [v]) l) = l)
      by (induction l as [|v l IH]; cbn; [reflexivity|now rewrite IH]).
    rewrite E in G. apply G. intros x r Hi.
    apply (answers_map _ _ (p_many p) (fun l => [x] ++ l) r [(xs r, rest r)]). apply answers_many. eauto.
  - intros rs. apply answers_optional.
Qed.

(** Lists with separators, brackets and chains of operators that group to the left. *)
Theorem C107_lists : forall I O S (p : parser I O) (s : parser I S) i rs ps rest, answers p i rs ->
  (forall x r, In (x, r) rs -> pairs s p r (ps r) (rest r)) ->
  answers (p_sep_by1 p s) i (map (fun xr => (fst xr :: map snd (ps (snd xr)), rest (snd xr))) rs) /\
  answers (p_sep_by p s) i (map (fun xr => (fst xr :: map snd (ps (snd xr)), rest (snd xr))) rs ++ [([], i)]).
Proof.
  intros I O S p s i rs ps rest Hp H.
  assert (E : forall A (l : list A), List.concat (map (fun v => [v]) l) = l)
    by (induction l as [|v l IH]; cbn; [reflexivity|now rewrite IH]).
  assert (G : answers (p_sep_by1 p s) i (map (fun xr => (fst xr :: map snd (ps (snd xr)), rest (snd xr))) rs)).
  { pose proof (answers_and_then _ _ p
      (fun first => p_map (p_many (p_and_then s (fun _ => p))) (fun l => [first] ++ l))
      (fun x r => [(x :: map snd (ps r), rest r)]) i rs Hp) as G.
    rewrite flat_map_concat_map,
      <- (map_map (fun xr => (fst xr :: map snd (ps (snd xr)), rest (snd xr))) (fun v => [v])) in G.
    rewrite E in G. apply G. intros x r Hi.
    apply (answers_map _ _ (p_many (p_and_then s (fun _ => p))) (fun l => [x] ++ l) r [(map snd (ps r), rest r)]).
    apply answers_many. apply pairs_repeat. eauto. }
  split; [exact G|]. apply answers_or; [exact G|]. apply (answers_new _ (fun input => ch_new ([], input) [])).
Qed.

Theorem C107_chains : forall I O (p : parser I O) (op : parser I (O -> O -> O)) i rs ps rest, answers p i rs ->
  (forall x r, In (x, r) rs -> pairs op p r (ps r) (rest r)) ->
  answers (p_chainl1 p op) i
    (map (fun xr => (fold_left (fun acc fv => fst fv acc (snd fv)) (ps (snd xr)) (fst xr), rest (snd xr))) rs).
Proof.
  intros I O p op i rs ps rest Hp H.
  assert (E : forall A (l : list A), List.concat (map (fun v => [v]) l) = l)
    by (induction l as [|v l IH]; cbn; [reflexivity|now rewrite IH]).
  pose proof (answers_and_then _ _ p
    (fun first => p_map (p_many (p_and_then op (fun f => p_map p (fun val => (f, val)))))
      (fun ops => fold_left (fun acc fv => fst fv acc (snd fv)) ops first))
    (fun x r => [(fold_left (fun acc fv => fst fv acc (snd fv)) (ps r) x, rest r)]) i rs Hp) as G.
  rewrite flat_map_concat_map,
    <- (map_map (fun xr => (fold_left (fun acc fv => fst fv acc (snd fv)) (ps (snd xr)) (fst xr), rest (snd xr)))
          (fun v => [v])) in G.
  rewrite E in G. apply G. intros x r Hi.
  apply (answers_map _ _ (p_many (p_and_then op (fun f => p_map p (fun val => (f, val)))))
    (fun ops => fold_left (fun acc fv => fst fv acc (snd fv)) ops x) r [(ps r, rest r)]).
  apply answers_many. apply pairs_repeat. eauto.
Qed.

Theorem C107_brackets : forall I O L R (l : parser I L) (r : parser I R) (p : parser I O) gp gr i ls,
  answers l i ls -> (forall x s, In (x, s) ls -> answers p s (gp s)) ->
  (forall x s y t, In (x, s) ls -> In (y, t) (gp s) -> answers r t (gr t)) ->
  answers (p_between l r p) i
    (flat_map (fun xs => flat_map (fun yt => map (fun zu => (fst yt, snd zu)) (gr (snd yt))) (gp (snd xs))) ls).
Proof.
  intros I O L R l r p gp gr i ls Hl Hp Hr.
  apply (answers_and_then _ _ l _ (fun _ s => flat_map (fun yt => map (fun zu => (fst yt, snd zu)) (gr (snd yt))) (gp s))
           i ls Hl).
  intros x s Hi.
  apply (answers_and_then _ _ p _ (fun y t => map (fun zu => (y, snd zu)) (gr t)) s (gp s)); [eauto|].
  intros y t Hi'. apply (answers_map _ _ r (fun _ => y) t (gr t)). eauto.
Qed.

(** Parsers built from parsers that do so leave ends of the input. *)
Lemma chain_end : forall I O (p : parser I O) i xs r, leaves_ends p -> one_after_another p i xs r ->
  exists used, i = used ++ r.
Proof.
  intros I O p i xs r Hp H. induction H as [i _|i x r rs xs r' Ha H [u Hu]].
  - now exists [].
  - destruct (Hp i x r) as [u' Hu']; [exists ((x, r) :: rs); cbn; auto|]. exists (u' ++ u). now rewrite Hu', Hu, app_assoc.
Qed.

Theorem C107_ends : forall I O B (p q : parser I O) (f : O -> parser I B) (h : O -> B) (ieq : I -> I -> bool)
  (t : I -> bool) x xs,
  (forall a b, ieq a b = true <-> a = b) ->
  steady p -> steady q -> (forall y, steady (f y)) ->
  leaves_ends p -> leaves_ends q -> (forall y, leaves_ends (f y)) ->
  leaves_ends (satisfy t) /\ leaves_ends (item ieq x) /\ leaves_ends (sequence ieq xs) /\
  leaves_ends (p_or p q) /\ leaves_ends (p_and_then p f) /\ leaves_ends (p_map p h) /\
  leaves_ends (p_many p) /\ leaves_ends (p_optional p).
Proof.
  intros I O B p q f h ieq t x xs He Sp Sq Sf Lp Lq Lf.
  destruct (C107_items I ieq He) as (H1 & H2 & H3). repeat split; intros i y r.
  - intros (rs & Ha & Hi). rewrite (answers_unique _ _ _ _ _ Ha (H1 t i)) in Hi.
    destruct i as [|z i]; [destruct Hi|]. destruct (t z); [destruct Hi as [[= <- <-]|[]]; now exists [z]|destruct Hi].
  - intros (rs & Ha & Hi). apply H2 in Ha. destruct Ha as [(r' & -> & ->)|[_ ->]]; [|destruct Hi].
    destruct Hi as [[= <- <-]|[]]. now exists [x].
  - intros (rs & Ha & Hi). apply H3 in Ha. destruct Ha as [(r' & -> & ->)|[_ ->]]; [|destruct Hi].
    destruct Hi as [[= <- <-]|[]]. now exists xs.
  - intros H. apply finds_or in H; auto. destruct H as [H|H]; [apply (Lp _ _ _ H)|apply (Lq _ _ _ H)].
  - intros H. apply finds_and_then in H; auto. destruct H as (z & s & Ha & Hb).
    destruct (Lp _ _ _ Ha) as [u ->]. destruct (Lf _ _ _ _ Hb) as [v ->]. exists (u ++ v). apply app_assoc.
  - intros H. apply finds_map in H; auto. destruct H as (z & _ & H). apply (Lp _ _ _ H).
  - intros H. apply finds_many in H; auto. now apply (chain_end _ _ p i y r).
  - intros H. apply finds_optional in H; auto. destruct y as [z|]; [apply (Lp _ _ _ H)|].
    destruct H as [-> _]. now exists [].
Qed.

(** Every parser of the library answers the same however long one waits. *)
Theorem C107_steady : forall I O B (p q : parser I O) (f : O -> parser I B) (h : O -> B) (k : parser I (O -> B))
  (g : list I -> choice (O * list I)),
  steady p -> steady q -> (forall y, steady (f y)) -> steady k ->
  steady (p_new g) /\ steady (p_or p q) /\ steady (p_and_then p f) /\ steady (p_map p h) /\ steady (p_apply k p) /\
  steady (p_many p) /\ steady (p_optional p).
Proof.
  intros I O B p q f h k g Sp Sq Sf Sk.
  split; [apply steady_new|]. split; [now apply steady_or|]. split; [now apply steady_and_then|].
  split; [now apply steady_map|]. split; [now apply steady_apply|]. split; [now apply steady_many|].
  now apply steady_optional.
Qed.

(** Parsers built from parsers that return do return, except repetitions. *)
Theorem C107_returns : forall I O B (p q : parser I O) (f : O -> parser I B) (h : O -> B) (g : list I -> choice (O * list I)),
  returns p -> returns q -> (forall y, returns (f y)) ->
  returns (p_new g) /\ returns (p_or p q) /\ returns (p_and_then p f) /\ returns (p_map p h) /\ returns (p_optional p).
Proof.
  intros I O B p q f h g Rp Rq Rf. repeat split; intros i.
  - eexists. apply answers_new.
  - destruct (Rp i) as [a Ha]. destruct (Rq i) as [b Hb]. eexists. now apply answers_or; eauto.
  - destruct (Rp i) as [a Ha]. destruct (answers_choose _ _ p f i a Ha) as (vss & _ & H); [intros; apply Rf|]. eauto.
  - destruct (Rp i) as [a Ha]. eexists. apply answers_map. exact Ha.
  - destruct (Rp i) as [a Ha]. eexists. apply answers_optional. exact Ha.
Qed.

(** A repetition returns if every parse uses something; one that can go on for ever does not. *)
Theorem C107_many_returns_partial : forall I O (p : parser I O), returns p -> uses p -> returns (p_many p).
Proof.
  intros I O p Rp Up i.
  assert (H : forall n i, List.length i <= n -> exists xs r, one_after_another p i xs r).
  { induction n as [|n IH]; intros j Hj; destruct (Rp j) as [[|[x r] rs] Ha].
    - exists [], j. now constructor.
    - assert (U : List.length r < List.length j) by (apply (Up j x r); exists ((x, r) :: rs); cbn; auto). lia.
    - exists [], j. now constructor.
    - assert (U : List.length r < List.length j) by (apply (Up j x r); exists ((x, r) :: rs); cbn; auto).
      destruct (IH r ltac:(lia)) as (xs & r' & H). exists (x :: xs), r'. now apply (one_more p j x r rs). }
  destruct (H _ i (le_n _)) as (xs & r & Hc). eexists. apply answers_many. exact Hc.
Qed.

Theorem C107_many_endless : forall I O (p : parser I O) (at_round : nat -> list I), steady p ->
  (forall k, exists x rs, answers p (at_round k) ((x, at_round (S k)) :: rs)) -> forever (p_many p) (at_round 0).
Proof.
  intros I O p cur Sp H n. unfold p_many.
  assert (E : forall k j acc, many_loop p n k acc (cur j) = None).
  { induction k as [|k IH]; intros j acc; [reflexivity|]. cbn. unfold p_parse.
    destruct (p n (cur j)) as [c|] eqn:E; [|reflexivity].
    destruct (H j) as (x & rs & Ha). pose proof (answers_at _ p n _ c Sp E) as Hb.
    rewrite (answers_unique _ _ _ _ _ Hb Ha). cbn. apply IH. }
  now rewrite E.
Qed.

(** White space of any length, repeated: each part returns, the whole never does. *)
Theorem C107_many_returns_refuted : exists p : parser nat (list nat),
  returns p /\ forall i, forever (p_many p) (0 :: i).
Proof.
  exists (p_many (satisfy (Nat.eqb 1))).
  assert (S1 : steady (satisfy (Nat.eqb 1))) by apply steady_new.
  assert (R : returns (p_many (satisfy (Nat.eqb 1)))).
  { apply C107_many_returns_partial.
    - intros i. eexists. apply answers_new.
    - intros i x r H. apply finds_new in H. destruct i as [|y i]; [destruct H|].
      destruct (Nat.eqb 1 y); [|destruct H]. destruct H as [[= <- <-]|[]]. cbn. lia. }
  split; [exact R|]. intros i.
  apply (C107_many_endless _ _ (p_many (satisfy (Nat.eqb 1))) (fun _ => 0 :: i)).
  - now apply steady_many.
  - intros _. exists [], []. apply answers_many. constructor. apply answers_new.
Qed.

(** If a part runs for ever, so does the whole, even when another part has succeeded. *)
Theorem C107_forever : forall I O B (p q : parser I O) (f : O -> parser I B) i,
  (forever p i \/ forever q i -> forever (p_or p q) i) /\
  (forever p i -> forever (p_and_then p f) i /\ forever (p_many p) i /\ forever (p_optional p) i) /\
  (forall rs x r, answers p i rs -> steady p -> In (x, r) rs -> forever (f x) r -> forever (p_and_then p f) i).
Proof.
  intros I O B p q f i. split; [|split].
  - intros H n. rewrite or_eq. destruct H as [H|H]; rewrite H; [reflexivity|now destruct (p n i)].
  - intros H. repeat split; intros n.
    + now rewrite and_then_eq, H.
    + unfold p_many. destruct n; [reflexivity|]. cbn. unfold p_parse. now rewrite H.
    + unfold p_optional, p_parse. now rewrite H.
  - intros rs x r Ha Sp Hi Hf n. rewrite and_then_eq. destruct (p n i) as [c|] eqn:E; [|reflexivity].
    rewrite (answers_unique _ _ _ _ _ (answers_at _ p n i c Sp E) Ha).
    enough (G : gather f n rs = None) by now rewrite G. clear - Hi Hf.
    induction rs as [|[y s] rs IH]; [destruct Hi|]. cbn. destruct Hi as [[= -> ->]|Hi].
    + now rewrite Hf.
    + rewrite (IH Hi). now destruct (f y n s).
Qed.

(** [1-2-3] groups to the left; a separator without an element after it is left. *)
Example C107_case_chain :
  let digit := p_map (satisfy (fun c => (48 <=? c)%N && (c <=? 57)%N)) (fun c => N.to_nat c - 48) in
  let minus := p_map (item N.eqb 45%N) (fun _ => fun a b => 10 * a - b) in
  p_chainl1 digit minus 10 (chars "1-2-3;") = Some (mkChoice [(77, chars ";")]) /\
  p_sep_by digit (item N.eqb 44%N) 10 (chars "1,2,") = Some (mkChoice [([1; 2], chars ","); ([], chars "1,2,")]) /\
  p_between (item N.eqb 40%N) (item N.eqb 41%N) digit 10 (chars "(7)") = Some (mkChoice [(7, [])]).
Proof. repeat split. Qed.
(** Only the first parse counts in a repetition: the text [aab] is a parse of [(a | ab)(a | ab)] but is not found. *)
Example C107_case_first_only :
  let a := item N.eqb 97%N in
  let p := p_or (p_map a (fun _ => 1)) (p_and_then a (fun _ => p_map (item N.eqb 98%N) (fun _ => 2))) in
  p_many p 10 (chars "aab") = Some (mkChoice [([1; 1], chars "b")]) /\
  p_and_then p (fun x => p_map p (fun y => [x; y])) 10 (chars "aab") =
  Some (mkChoice [([1; 1], chars "b"); ([1; 2], [])]).
Proof. repeat split. Qed.

Print Assumptions C107_items.
Print Assumptions C107_together.
Print Assumptions C107_laws.
Print Assumptions C107_repetition.
Print Assumptions C107_lists.
Print Assumptions C107_chains.
Print Assumptions C107_brackets.
Print Assumptions C107_ends.
Print Assumptions C107_steady.
Print Assumptions C107_returns.
Print Assumptions C107_many_returns_partial.
Print Assumptions C107_many_endless.
Print Assumptions C107_many_returns_refuted.
Print Assumptions C107_forever.

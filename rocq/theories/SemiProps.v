(** Theorems about semigroup and monoid helpers, the standard instances and
    [Foldable]: C63-C66. *)
From Coq Require Import List Arith Bool Lia Sorted Permutation String.
From Verif Require Import Base Types LawSpec SumModel ValidatedModel ChoiceModel WrapSpec SemiModel SemiSpec.
Import ListNotations.
Open Scope list_scope.

(** ** Bracketings *)
Lemma combines_ne : forall M (op : M -> M -> M) l x, combines op l x -> l <> [].
Proof.
  induction 1 as [|l r x y Hl IHl Hr IHr]; [discriminate|]. destruct l; [congruence|]. discriminate.
Qed.
Lemma combines_fold : forall M (op : M -> M -> M), associative op -> forall l x, combines op l x ->
  exists h t, l = h :: t /\ x = fold_left op t h.
Proof.
  intros M op A. induction 1 as [x|l r x y Hl IHl Hr IHr]; [exists x, []; auto|].
  destruct IHl as (h & t & -> & ->), IHr as (h' & t' & -> & ->). exists h, (t ++ h' :: t'). split; auto.
  rewrite fold_left_app. cbn. generalize (fold_left op t h). intros a. clear - A. revert a h'.
  induction t' as [|z t' IH]; intros a h'; cbn; auto. now rewrite A, IH.
Qed.
Lemma fold_combines : forall M (op : M -> M -> M) t h, combines op (h :: t) (fold_left op t h).
Proof.
  intros M op t. induction t as [|z t IH] using rev_ind; intros h; [constructor|].
  rewrite fold_left_app. cbn. change (h :: t ++ [z]) with ((h :: t) ++ [z]). constructor; [apply IH|constructor].
Qed.

(** ** C63 *)
(** For an associative operation all bracketings agree, so the following
    theorems determine the results. *)
Theorem C63_combines_unique : forall M (op : M -> M -> M), associative op ->
  forall l x y, combines op l x -> combines op l y -> x = y.
Proof.
  intros M op A l x y H K. apply (combines_fold _ _ A) in H as (h & t & -> & ->).
  apply (combines_fold _ _ A) in K as (h' & t' & E & ->). now injection E as -> ->.
Qed.
Lemma repeat_loop_combines : forall M (op : M -> M -> M) v k n acc, combines op (repeat v n) acc ->
  combines op (repeat v (n + k)) (repeat_loop k (fun acc => op acc v) acc).
Proof.
  intros M op v k. induction k as [|k IH]; intros n acc H; cbn; [now rewrite Nat.add_0_r|].
  replace (n + S k) with (S n + k) by lia. apply IH.
  replace (S n) with (n + 1) by lia. rewrite repeat_app. constructor; auto. constructor.
Qed.
(** [combine_n], [repeat] and [power] combine exactly [n] copies. *)
Theorem C63_copies : forall M (op : M -> M -> M) e x n,
  combines op (repeat x (S n)) (sg_combine_n op x (S n)) /\
  combines op (repeat x (S n)) (mo_repeat op e x (S n)) /\
  combines op (repeat x (S n)) (mo_power op e x (S n)) /\
  mo_repeat op e x 0 = e /\ mo_power op e x 0 = e.
Proof.
  intros. pose proof (repeat_loop_combines M op x n 1 x (combines_one op x)) as H.
  assert (R : combines op (repeat x (S n)) (mo_repeat op e x (S n))).
  { unfold mo_repeat. cbn [Nat.eqb]. destruct n; [constructor|].
    replace (S (S n) - 1) with (S n) by lia. exact H. }
  repeat split; auto.
  - unfold sg_combine_n. cbn [Nat.eqb]. replace (S n - 1) with n by lia. exact H.
  - destruct n; [constructor|]. exact R.
Qed.
(** For 0 copies the semigroup version returns the value itself (one copy). *)
Theorem C63_combine_n_zero : forall M (op : M -> M -> M) x,
  sg_combine_n op x 0 = x /\ sg_combine_n_owned op x 0 = x.
Proof. split; reflexivity. Qed.
(** [combine_n_owned] doubles in each round: [n] gives [2^(n-1)] copies. *)
Theorem C63_combine_n_owned_doubles : forall M (op : M -> M -> M) x n,
  combines op (repeat x (2 ^ n)) (sg_combine_n_owned op x (S n)).
Proof.
  intros M op x n. unfold sg_combine_n_owned. cbn [Nat.eqb]. replace (S n - 1) with n by lia.
  assert (G : forall k m acc, combines op (repeat x m) acc ->
    combines op (repeat x (m * 2 ^ k)) (repeat_loop k (fun acc => op acc acc) acc)).
  { induction k as [|k IH]; intros m acc H; cbn [repeat_loop].
    - now rewrite Nat.mul_1_r.
    - cbn [Nat.pow]. replace (m * (2 * 2 ^ k)) with ((m + m) * 2 ^ k) by lia. apply IH.
      rewrite repeat_app. now constructor. }
  specialize (G n 1 x (combines_one op x)). now rewrite Nat.mul_1_l in G.
Qed.
(** So it disagrees with [combine_n] from three copies on. *)
Theorem C63_combine_n_owned_refuted : exists M (op : M -> M -> M) x n,
  associative op /\ sg_combine_n_owned op x n <> sg_combine_n op x n /\
  ~ combines op (repeat x n) (sg_combine_n_owned op x n).
Proof.
  exists nat, Nat.add, 1, 3. split; [intros x y z; lia|]. split; [discriminate|].
  intros H. destruct (C63_copies nat Nat.add 0 1 2) as (C & _).
  pose proof (C63_combines_unique nat Nat.add (fun x y z => eq_sym (Nat.add_assoc x y z)) _ _ _ H C). discriminate.
Qed.
(** They agree up to two copies. *)
Theorem C63_combine_n_owned_partial : forall M (op : M -> M -> M) x n, n <= 2 ->
  sg_combine_n_owned op x n = sg_combine_n op x n.
Proof. intros M op x n H. destruct n as [|[|[|n]]]; try lia; reflexivity. Qed.
(** The monoid laws extend the count: [repeat] is a homomorphism from [nat]. *)
Theorem C63_repeat_adds : forall M (op : M -> M -> M) e, monoid_laws op e -> forall x m n,
  mo_repeat op e x (m + n) = op (mo_repeat op e x m) (mo_repeat op e x n) /\
  mo_power op e x n = mo_repeat op e x n.
Proof.
  intros M op e (A & L & R) x m n. split; [|destruct n as [|[|n]]; reflexivity].
  destruct (C63_copies M op e x (m + n - 1)) as (_ & C & _).
  destruct m as [|m]; [cbn; now rewrite L|].
  destruct n as [|n]; [rewrite Nat.add_0_r; now rewrite R|].
  eapply C63_combines_unique; [eassumption| |].
  - replace (S m + S n) with (S (S m + S n - 1)) by lia. exact C.
  - replace (S (S m + S n - 1)) with (S m + S n) by lia. rewrite repeat_app.
    constructor; apply (C63_copies M op e x).
Qed.
Example C63_case : associative Nat.add /\ sg_combine_n Nat.add 5 3 = 15 /\ sg_combine_n_owned Nat.add 5 3 = 20 /\
  mo_repeat Nat.add 0 5 3 = 15 /\ mo_power Nat.add 0 5 0 = 0.
Proof. split; [intros x y z; lia|]. repeat split. Qed.

(** ** C64 *)
(** All the folding helpers combine their inputs left to right. *)
Theorem C64_combine : forall M (op : M -> M -> M) e x l,
  combines op (x :: l) (sg_combine_all op x l) /\
  combines op (x :: l) (sg_combine_values op x l) /\
  (exists y, sg_combine_all_owned op (x :: l) = Ret y /\ combines op (x :: l) y) /\
  (exists y, sg_combine_all_values op (x :: l) = Some y /\ combines op (x :: l) y) /\
  combines op (x :: l) (mo_combine_all op e (x :: l)) /\
  combines op (x :: l) (mo_mconcat op e (x :: l)) /\
  sg_combine_all_owned op [] = Panic /\ sg_combine_all_values op [] = None /\
  mo_combine_all op e [] = e /\ mo_mconcat op e [] = e.
Proof.
  intros. pose proof (fold_combines M op l x) as H. repeat split; try exact H; eexists; split; try reflexivity; exact H.
Qed.
Theorem C64_is_empty : forall M (op : M -> M -> M) e (eqb : M -> M -> bool) l,
  (forall a b, eqb a b = true <-> a = b) ->
  (mo_is_empty e eqb (mo_combine_all op e l) = true <-> mo_combine_all op e l = e) /\
  (forall x, mo_is_empty e eqb x = true -> monoid_laws op e -> forall y, op x y = y /\ op y x = y) /\
  mo_is_empty e eqb (mo_combine_all op e []) = true.
Proof.
  intros M op e eqb l H. unfold mo_is_empty. split; [apply H|]. split.
  - intros x Hx (_ & Hl & Hr) y. apply H in Hx. subst. split; auto.
  - now apply H.
Qed.
(** They agree when [combine_owned] agrees with [combine]. *)
Theorem C64_agree : forall M (combine combine_owned : M -> M -> M) e, monoid_laws combine e ->
  (forall a b, combine_owned a b = combine a b) -> forall x l,
  mo_mconcat combine e l = mo_combine_all combine_owned e l /\
  sg_combine_values combine_owned e l = mo_combine_all combine_owned e l /\
  sg_combine_all combine_owned x l = mo_combine_all combine_owned e (x :: l) /\
  sg_combine_all_values combine_owned l = match l with [] => None | _ => Some (mo_combine_all combine_owned e l) end /\
  sg_combine_all_owned combine_owned (x :: l) = Ret (mo_combine_all combine_owned e (x :: l)).
Proof.
  intros M combine combine_owned e (A & L & R) O x l.
  assert (F : forall l a, fold_left (fun acc x => combine_owned acc x) l a = fold_left combine l a).
  { intros l0. induction l0 as [|z l0 IH]; intros a; cbn; auto. rewrite O. apply IH. }
  repeat split; try (destruct l; reflexivity).
  - destruct l as [|y l]; [reflexivity|]. cbn. symmetry. apply F.
  - destruct l as [|y l]; [reflexivity|]. cbn. now rewrite O, L.
Qed.
(** Splitting the input and combining the two results gives the whole. *)
Theorem C64_split : forall M (op : M -> M -> M) e, monoid_laws op e -> forall a b,
  mo_combine_all op e (a ++ b) = op (mo_combine_all op e a) (mo_combine_all op e b) /\
  mo_mconcat op e (a ++ b) = op (mo_mconcat op e a) (mo_mconcat op e b).
Proof.
  intros M op e (A & L & R) a b.
  assert (E : forall l, mo_mconcat op e l = mo_combine_all op e l) by (intros []; reflexivity).
  rewrite (E (a ++ b)), (E a), (E b). assert (G : mo_combine_all op e (a ++ b) = op (mo_combine_all op e a) (mo_combine_all op e b)); [|auto].
  destruct a as [|x a]; [cbn; now rewrite L|].
  destruct b as [|y b]; [rewrite app_nil_r; cbn; now rewrite R|].
  apply (C63_combines_unique M op A ((x :: a) ++ y :: b)).
  - cbn. apply fold_combines.
  - constructor; apply fold_combines.
Qed.
Example C64_case : monoid_laws Nat.add 0 /\ mo_combine_all Nat.add 0 [1; 2; 3] = 6 /\
  sg_combine_all_values Nat.add [4; 5] = Some 9 /\ mo_mconcat Nat.add 0 [] = 0.
Proof. split; [split; [|split]; intro; intros; lia|]. repeat split. Qed.

(** ** C65 *)
Lemma vec_combine_app : forall T (a b : list T), vec_combine a b = a ++ b.
Proof.
  intros T a b. revert a. unfold vec_combine. induction b as [|x b IH]; intros a; cbn; [now rewrite app_nil_r|].
  now rewrite IH, <- app_assoc.
Qed.
Theorem C65_vec : forall T, monoid_laws (@vec_combine T) [] /\ forall a b, @vec_combine T a b = a ++ b.
Proof.
  intros T. split; [|apply vec_combine_app].
  split; [|split]; intro; intros; rewrite ?vec_combine_app, ?app_nil_r, ?app_assoc; auto.
Qed.
Theorem C65_string : monoid_laws string_combine EmptyString /\
  forall a b, list_ascii_of_string (string_combine a b) = list_ascii_of_string a ++ list_ascii_of_string b.
Proof.
  unfold string_combine. split; [split; [|split]|].
  - intros x y z. induction x as [|c x IH]; cbn; [auto | now rewrite IH].
  - intros x. reflexivity.
  - intros x. induction x as [|c x IH]; cbn; [auto | now rewrite IH].
  - intros a b. induction a as [|c a IH]; cbn; [auto | now rewrite IH].
Qed.
Theorem C65_tuples_and_option : forall A B C D ca cb cc cd,
  associative (A := A) ca -> associative (A := B) cb -> associative (A := C) cc -> associative (A := D) cd ->
  associative (pair_combine ca cb) /\ associative (triple_combine ca cb cc) /\
  associative (quad_combine ca cb cc cd) /\ associative (option_combine ca) /\
  left_identity (option_combine ca) None /\ right_identity (option_combine ca) None.
Proof.
  intros A B C D ca cb cc cd Ha Hb Hc Hd. split; [|split; [|split; [|split; [|split]]]].
  - intros [] [] []. unfold pair_combine. cbn. now rewrite Ha, Hb.
  - intros [[] ?] [[] ?] [[] ?]. cbn. now rewrite Ha, Hb, Hc.
  - intros [[[] ?] ?] [[[] ?] ?] [[[] ?] ?]. cbn. now rewrite Ha, Hb, Hc, Hd.
  - intros [x|] [y|] [z|]; cbn; auto. now rewrite Ha.
  - intros [x|]; reflexivity.
  - intros [x|]; reflexivity.
Qed.
(** Each component is combined on its own, in the order given. *)
Theorem C65_componentwise : forall A B C D (ca : A -> A -> A) (cb : B -> B -> B) (cc : C -> C -> C) (cd : D -> D -> D),
  (forall x y, fst (pair_combine ca cb x y) = ca (fst x) (fst y) /\
               snd (pair_combine ca cb x y) = cb (snd x) (snd y)) /\
  (forall x y, fst (triple_combine ca cb cc x y) = pair_combine ca cb (fst x) (fst y) /\
               snd (triple_combine ca cb cc x y) = cc (snd x) (snd y)) /\
  (forall x y, fst (quad_combine ca cb cc cd x y) = triple_combine ca cb cc (fst x) (fst y) /\
               snd (quad_combine ca cb cc cd x y) = cd (snd x) (snd y)) /\
  (forall x y, option_combine ca (Some x) (Some y) = Some (ca x y)).
Proof.
  intros A B C D ca cb cc cd. split; [|split; [|split]].
  - now intros [] [].
  - now intros [[] ?] [[] ?].
  - now intros [[[] ?] ?] [[[] ?] ?].
  - reflexivity.
Qed.

Section Hash.
Context {K V : Type} (keq : K -> K -> bool) (keq_spec : forall a b, keq a b = true <-> a = b).
Lemma keq_refl : forall k, keq k k = true.
Proof. intros. now apply keq_spec. Qed.
Lemma keq_ne : forall a b, a <> b -> keq a b = false.
Proof. intros a b H. destruct (keq a b) eqn:E; auto. apply keq_spec in E. congruence. Qed.
Lemma hm_get_none : forall (m : list (K * V)) k, hm_get keq m k = None <-> ~ In k (map fst m).
Proof.
  induction m as [|[k' v] m IH]; intros k; cbn; [tauto|]. destruct (keq k' k) eqn:E.
  - apply keq_spec in E. subst. split; [discriminate|tauto].
  - rewrite IH. split; [|tauto]. intros H [F|F]; auto. subst. rewrite keq_refl in E. discriminate.
Qed.
Lemma hm_get_app : forall (m m' : list (K * V)) k, hm_get keq (m ++ m') k =
  match hm_get keq m k with Some v => Some v | None => hm_get keq m' k end.
Proof. induction m as [|[k' v] m IH]; intros; cbn; auto. destruct (keq k' k); auto. Qed.
Lemma hm_get_update : forall f (m : list (K * V)) k k', hm_get keq (hm_update keq f m k) k' =
  if keq k k' then option_map f (hm_get keq m k') else hm_get keq m k'.
Proof.
  induction m as [|[k0 v] m IH]; intros k k'; cbn; [now destruct (keq k k')|].
  destruct (keq k0 k) eqn:E; cbn.
  - apply keq_spec in E. subst. destruct (keq k k') eqn:F; cbn; auto.
  - rewrite IH. destruct (keq k0 k') eqn:F; auto. apply keq_spec in F. subst.
    destruct (keq k k') eqn:G; auto. apply keq_spec in G. subst. rewrite keq_refl in E. discriminate.
Qed.
Lemma hm_update_keys : forall f (m : list (K * V)) k, map fst (hm_update keq f m k) = map fst m.
Proof. induction m as [|[k0 v] m IH]; intros; cbn; auto. destruct (keq k0 k); cbn; congruence. Qed.
Lemma hm_entry_get : forall op (m : list (K * V)) k v k', hm_get keq (hm_entry keq op m (k, v)) k' =
  if keq k k' then Some (match hm_get keq m k' with Some e => op e v | None => v end) else hm_get keq m k'.
Proof.
  intros. unfold hm_entry. cbn [fst snd]. destruct (hm_get keq m k) as [e|] eqn:E.
  - rewrite hm_get_update. destruct (keq k k') eqn:F; auto. apply keq_spec in F. subst. now rewrite E.
  - rewrite hm_get_app. cbn. destruct (keq k k') eqn:F.
    + apply keq_spec in F. subst. now rewrite E.
    + now destruct (hm_get keq m k').
Qed.
Lemma hm_entry_keys : forall op (m : list (K * V)) kv, NoDup (map fst m) -> NoDup (map fst (hm_entry keq op m kv)).
Proof.
  intros op m [k v] H. unfold hm_entry. cbn [fst snd]. destruct (hm_get keq m k) eqn:E.
  - now rewrite hm_update_keys.
  - rewrite map_app. cbn. apply hm_get_none in E. apply Permutation_NoDup with (k :: map fst m).
    + apply Permutation_cons_append.
    + constructor; auto.
Qed.
Lemma hm_combine_get : forall op (other self : list (K * V)) k, NoDup (map fst other) ->
  hm_get keq (hm_combine keq op self other) k = merge op (hm_get keq self k) (hm_get keq other k).
Proof.
  intros op. unfold hm_combine. induction other as [|[k0 v0] other IH]; intros self k N; cbn [fold_left map fst].
  - cbn. now destruct (hm_get keq self k).
  - inversion N; subst. rewrite IH by auto. rewrite hm_entry_get. cbn [hm_get].
    destruct (keq k0 k) eqn:E; auto. apply keq_spec in E. subst.
    rewrite (proj2 (hm_get_none other k)) by auto. cbn. now destruct (hm_get keq self k).
Qed.
Lemma hm_combine_keys : forall op (other self : list (K * V)), NoDup (map fst self) ->
  NoDup (map fst (hm_combine keq op self other)).
Proof.
  intros op. unfold hm_combine. induction other as [|kv other IH]; intros self N; cbn; auto.
  apply IH. now apply hm_entry_keys.
Qed.
(** [HashMap]: keys of both sides are kept, values are combined key-wise, whatever
    the iteration order; the result is a map again; [combine_owned] agrees. *)
Theorem C65_hashmap : forall (op : V -> V -> V) self other, NoDup (map fst self) -> NoDup (map fst other) ->
  NoDup (map fst (hm_combine keq op self other)) /\
  (forall k, hm_get keq (hm_combine keq op self other) k = merge op (hm_get keq self k) (hm_get keq other k)) /\
  (forall other', Permutation other other' -> forall k,
     hm_get keq (hm_combine keq op self other') k = hm_get keq (hm_combine keq op self other) k) /\
  hm_combine_owned keq op self other = hm_combine keq op self other.
Proof.
  intros op self other N1 N2. split; [now apply hm_combine_keys|]. split; [intros; now apply hm_combine_get|]. split.
  - intros other' P k. rewrite !hm_combine_get; auto.
    2: { apply Permutation_NoDup with (map fst other); auto. now apply Permutation_map. }
    f_equal. clear - P N2 keq_spec. revert N2. induction P as [|[k0 v0] l l' P IH|[k0 v0] [k1 v1] l|l l' l'' P IH P' IH']; intros N; auto.
    + cbn. inversion N; subst. destruct (keq k0 k); auto.
    + cbn in *. destruct (keq k1 k) eqn:E1, (keq k0 k) eqn:E0; auto.
      apply keq_spec in E1, E0. subst. inversion N; subst. cbn in *. tauto.
    + rewrite IH'; auto. apply Permutation_NoDup with (map fst l); auto. now apply Permutation_map.
  - unfold hm_combine, hm_combine_owned. clear N1 N2. revert self.
    induction other as [|[k v] other IH]; intros self; cbn [fold_left]; auto.
    rewrite IH. f_equal. unfold hm_entry. cbn [fst snd]. destruct (hm_get keq self k) as [e|] eqn:E; auto.
    cbn zeta. clear IH. revert E. induction self as [|[k0 v0] self IHs]; cbn; [discriminate|].
    destruct (keq k0 k); intros E; [now injection E as ->|]. f_equal. auto.
Qed.
Theorem C65_hashmap_associative : forall (op : V -> V -> V), associative op -> forall a b c,
  NoDup (map fst b) -> NoDup (map fst c) -> forall k,
  hm_get keq (hm_combine keq op (hm_combine keq op a b) c) k = hm_get keq (hm_combine keq op a (hm_combine keq op b c)) k /\
  hm_get keq (hm_combine keq op [] b) k = hm_get keq b k /\
  hm_combine keq op a [] = a.
Proof.
  intros op A a b c Nb Nc k. pose proof (hm_combine_keys op c b Nb). rewrite !hm_combine_get by auto.
  split; [|split; auto].
  - destruct (hm_get keq a k), (hm_get keq b k), (hm_get keq c k); cbn; auto. now rewrite A.
Qed.
(** [HashSet]: union. *)
Theorem C65_hashset : forall (self other : list K), NoDup self ->
  NoDup (hs_combine keq self other) /\ (forall k, In k (hs_combine keq self other) <-> In k self \/ In k other).
Proof.
  intros self other. unfold hs_combine. revert self. induction other as [|x other IH]; intros self N; cbn [fold_left].
  - split; auto. cbn. tauto.
  - assert (E : (existsb (fun k' => keq k' x) self = true <-> In x self)).
    { rewrite existsb_exists. split; [intros (y & Y & E); apply keq_spec in E; now subst|].
      intros H. exists x. split; auto. apply keq_refl. }
    destruct (IH (hs_insert keq self x)) as [N' I'].
    + unfold hs_insert. destruct (existsb _ self) eqn:F; auto.
      apply Permutation_NoDup with (x :: self); [apply Permutation_cons_append|]. constructor; auto.
      intros H. apply E in H. congruence.
    + split; auto. intros k. rewrite I'. unfold hs_insert. destruct (existsb _ self) eqn:F.
      * cbn. apply proj1 in E. specialize (E eq_refl). split; [tauto|]. intros [H|[->|H]]; auto.
      * rewrite in_app_iff. cbn. tauto.
Qed.
Theorem C65_hashset_associative : forall (a b c : list K), NoDup a -> NoDup b -> forall k,
  (In k (hs_combine keq (hs_combine keq a b) c) <-> In k (hs_combine keq a (hs_combine keq b c))) /\
  (In k (hs_combine keq [] b) <-> In k b) /\ hs_combine keq a [] = a.
Proof.
  intros a b c Na Nb k. destruct (C65_hashset a b Na) as [Nab Iab]. destruct (C65_hashset _ c Nab) as [_ I1].
  destruct (C65_hashset b c Nb) as [_ Ibc]. destruct (C65_hashset a (hs_combine keq b c) Na) as [_ I2].
  destruct (C65_hashset [] b (NoDup_nil K)) as [_ I3].
  rewrite I1, I2, Iab, Ibc, I3. cbn. split; [tauto|]. split; [tauto|reflexivity].
Qed.
End Hash.

Section BTree.
Context {K V : Type} (cmp : K -> K -> comparison) (O : total_order cmp).
Definition sorted_map (m : list (K * V)) : Prop := StronglySorted (fun a b => cmp (fst a) (fst b) = Lt) m.
Lemma cmp_refl : forall x, cmp x x = Eq.
Proof. apply O. Qed.
Lemma cmp_eq : forall x y, cmp x y = Eq -> x = y.
Proof. apply O. Qed.
Lemma cmp_op : forall x y, cmp y x = CompOpp (cmp x y).
Proof. apply O. Qed.
Lemma cmp_lt_trans : forall x y z, cmp x y = Lt -> cmp y z = Lt -> cmp x z = Lt.
Proof.
  intros x y z H1 H2. destruct O as ((R & S & T) & E).
  assert (H : cmp x z <> Gt) by (apply (T x y z); congruence).
  destruct (cmp x z) eqn:F; auto; [|congruence]. apply E in F. subst. rewrite (S y z), H2 in H1. discriminate.
Qed.
Lemma cmp_gt_lt : forall x y, cmp x y = Gt -> cmp y x = Lt.
Proof. intros. rewrite cmp_op, H. reflexivity. Qed.
Lemma bt_get_below : forall (m : list (K * V)) k, Forall (fun b => cmp k (fst b) = Lt) m -> bt_get cmp m k = None.
Proof. intros m k H. destruct H as [|[k' v] m H]; cbn in *; auto. now rewrite H. Qed.
Lemma bt_insert_all : forall (P : K -> Prop) (m : list (K * V)) k v, Forall (fun b => P (fst b)) m -> P k ->
  Forall (fun b => P (fst b)) (bt_insert cmp m k v).
Proof.
  intros P m k v H Pk. induction H as [|[k' v'] m H Hm IH]; cbn; [auto|].
  destruct (cmp k k'); auto.
Qed.
Lemma bt_insert_sorted : forall (m : list (K * V)) k v, sorted_map m -> sorted_map (bt_insert cmp m k v).
Proof.
  intros m k v. induction 1 as [|[k' v'] m S IH F]; cbn; [repeat constructor|].
  destruct (cmp k k') eqn:E.
  - constructor; auto.
  - constructor; [constructor; auto|]. constructor; [auto|].
    eapply Forall_impl; [|exact F]. cbn. intros [k2 v2] H. cbn in *. eapply cmp_lt_trans; eauto.
  - constructor; auto. apply (bt_insert_all (fun x => cmp k' x = Lt)); auto. now apply cmp_gt_lt.
Qed.
Lemma bt_get_insert : forall (m : list (K * V)) k v k', sorted_map m ->
  bt_get cmp (bt_insert cmp m k v) k' = match cmp k' k with Eq => Some v | _ => bt_get cmp m k' end.
Proof.
  intros m k v k'. induction 1 as [|[k0 v0] m S IH F]; cbn; [now destruct (cmp k' k)|].
  destruct (cmp k k0) eqn:E; cbn.
  - apply cmp_eq in E. subst. now destruct (cmp k' k0).
  - destruct (cmp k' k) eqn:G; auto. now rewrite (cmp_lt_trans k' k k0).
  - rewrite IH. destruct (cmp k' k0) eqn:G; auto; destruct (cmp k' k) eqn:H; auto.
    + apply cmp_eq in G, H. subst. rewrite cmp_refl in E. discriminate.
    + apply cmp_eq in H. subst. congruence.
Qed.
Lemma bt_ext : forall m m' : list (K * V), sorted_map m -> sorted_map m' ->
  (forall k, bt_get cmp m k = bt_get cmp m' k) -> m = m'.
Proof.
  intros m m' H. revert m'. induction H as [|[k v] m S IH F]; intros m' H' E.
  - destruct m' as [|[k' v'] m']; auto. specialize (E k'). cbn in E. rewrite cmp_refl in E. discriminate.
  - destruct H' as [|[k' v'] m' S' F'].
    + specialize (E k). cbn in E. rewrite cmp_refl in E. discriminate.
    + assert (KK : k = k').
      { pose proof (E k) as E1. pose proof (E k') as E2. cbn in E1, E2. rewrite cmp_refl in E1, E2.
        apply cmp_eq. destruct (cmp k k') eqn:C; auto.
        - discriminate.
        - rewrite (cmp_op k k'), C in E2. discriminate. }
      subst k'. assert (v = v') by (specialize (E k); cbn in E; rewrite cmp_refl in E; congruence). subst v'.
      f_equal. apply IH; auto. intros k2. specialize (E k2). cbn in E.
      destruct (cmp k2 k) eqn:C; auto.
      * apply cmp_eq in C. subst. rewrite !bt_get_below; auto.
      * rewrite !bt_get_below; auto.
        -- eapply Forall_impl; [|exact F']. cbn. intros [k3 v3] G. cbn in *. eapply cmp_lt_trans; eauto.
        -- eapply Forall_impl; [|exact F]. cbn. intros [k3 v3] G. cbn in *. eapply cmp_lt_trans; eauto.
Qed.
Lemma bt_combine_facts : forall op (other self : list (K * V)), sorted_map self -> sorted_map other ->
  sorted_map (bt_combine cmp op self other) /\
  forall k, bt_get cmp (bt_combine cmp op self other) k = merge op (bt_get cmp self k) (bt_get cmp other k).
Proof.
  intros op other self S So. revert self S. unfold bt_combine.
  induction So as [|[k0 v0] other So IH F]; intros self S; cbn [fold_left fst snd].
  - split; auto. intros k. cbn. now destruct (bt_get cmp self k).
  - set (self' := match bt_get cmp self k0 with Some e => bt_insert cmp self k0 (op e v0) | None => bt_insert cmp self k0 v0 end).
    assert (S' : sorted_map self') by (unfold self'; destruct (bt_get cmp self k0); now apply bt_insert_sorted).
    destruct (IH self' S') as [I1 I2]. split; auto. intros k. rewrite I2. cbn [bt_get].
    assert (G : bt_get cmp self' k = match cmp k k0 with
      Eq => Some (match bt_get cmp self k0 with Some e => op e v0 | None => v0 end) | _ => bt_get cmp self k end).
    { unfold self'. destruct (bt_get cmp self k0); now rewrite bt_get_insert. }
    rewrite G. destruct (cmp k k0) eqn:C.
    + apply cmp_eq in C. subst. rewrite (bt_get_below other k0) by auto. cbn. now destruct (bt_get cmp self k0).
    + rewrite (bt_get_below other k); auto.
      eapply Forall_impl; [|exact F]. intros [k3 v3] H. cbn in *. eapply cmp_lt_trans; eauto.
    + auto.
Qed.
(** [BTreeMap]: as [HashMap], and because the entries are sorted the laws are equalities. *)
Theorem C65_btreemap : forall (op : V -> V -> V) self other, sorted_map self -> sorted_map other ->
  sorted_map (bt_combine cmp op self other) /\
  (forall k, bt_get cmp (bt_combine cmp op self other) k = merge op (bt_get cmp self k) (bt_get cmp other k)) /\
  bt_combine_owned cmp op self other = bt_combine cmp op self other /\
  bt_combine cmp op [] other = other /\ bt_combine cmp op self [] = self.
Proof.
  intros op self other S1 S2. destruct (bt_combine_facts op other self S1 S2) as [F1 F2].
  repeat split; auto.
  assert (N : sorted_map []) by constructor. destruct (bt_combine_facts op other [] N S2) as [G1 G2].
  apply bt_ext; auto.
Qed.
Theorem C65_btreemap_associative : forall (op : V -> V -> V), associative op -> forall a b c,
  sorted_map a -> sorted_map b -> sorted_map c ->
  bt_combine cmp op (bt_combine cmp op a b) c = bt_combine cmp op a (bt_combine cmp op b c).
Proof.
  intros op A a b c Sa Sb Sc.
  destruct (bt_combine_facts op b a Sa Sb) as [F1 F2]. destruct (bt_combine_facts op c b Sb Sc) as [F3 F4].
  destruct (bt_combine_facts op c _ F1 Sc) as [F5 F6]. destruct (bt_combine_facts op _ a Sa F3) as [F7 F8].
  apply bt_ext; auto. intros k. rewrite F6, F8, F2, F4.
  destruct (bt_get cmp a k), (bt_get cmp b k), (bt_get cmp c k); cbn; auto. now rewrite A.
Qed.
(** [BTreeSet]: sorted union. *)
Definition sorted_set (m : list K) : Prop := StronglySorted (fun a b => cmp a b = Lt) m.
Lemma bs_insert_facts : forall (m : list K) k, sorted_set m ->
  sorted_set (bs_insert cmp m k) /\ forall x, In x (bs_insert cmp m k) <-> In x m \/ x = k.
Proof.
  intros m k. induction 1 as [|k' m S [IH1 IH2] F]; cbn.
  - split; [repeat constructor|]. intros x. split; intros; intuition.
  - destruct (cmp k k') eqn:E.
    + apply cmp_eq in E. subst. split; [constructor; auto|]. cbn. intros x. split; intros; intuition.
    + split.
      * constructor; [constructor; auto|]. constructor; auto.
        eapply Forall_impl; [|exact F]. cbn. intros z H. eapply cmp_lt_trans; eauto.
      * cbn. intros x. split; intros; intuition.
    + split.
      * constructor; auto. apply Forall_forall. intros x Hx. apply IH2 in Hx as [Hx| ->].
        -- rewrite Forall_forall in F. auto.
        -- now apply cmp_gt_lt.
      * cbn. intros x. rewrite IH2. split; intros; intuition.
Qed.
Theorem C65_btreeset : forall self other, sorted_set self ->
  sorted_set (bs_combine cmp self other) /\ forall x, In x (bs_combine cmp self other) <-> In x self \/ In x other.
Proof.
  intros self other. revert self. unfold bs_combine. induction other as [|y other IH]; intros self S; cbn [fold_left].
  - split; auto. cbn. tauto.
  - destruct (bs_insert_facts self y S) as [S' I']. destruct (IH _ S') as [S'' I'']. split; auto.
    intros x. rewrite I'', I'. cbn. split; intros; intuition.
Qed.
Lemma sorted_set_ext : forall m m', sorted_set m -> sorted_set m' -> (forall x, In x m <-> In x m') -> m = m'.
Proof.
  assert (NL : forall x m, Forall (fun b => cmp x b = Lt) m -> ~ In x m).
  { intros x m F I. rewrite Forall_forall in F. apply F in I. rewrite cmp_refl in I. discriminate. }
  intros m m' H. revert m'. induction H as [|k m S IH F]; intros m' H' E.
  - destruct m' as [|k' m']; auto. destruct (proj2 (E k')); now left.
  - destruct H' as [|k' m' S' F']; [destruct (proj1 (E k)); now left|].
    assert (KK : k = k').
    { destruct (proj1 (E k)) as [->|I]; [now left|auto|]. destruct (proj2 (E k')) as [->|I']; [now left|auto|].
      rewrite Forall_forall in F, F'. apply F in I'. apply F' in I. rewrite (cmp_op k k'), I' in I. discriminate. }
    subst k'. f_equal. apply IH; auto. intros x. specialize (E x). cbn in E. pose proof (NL k m F). pose proof (NL k m' F').
    split; intros I.
    + destruct (proj1 E (or_intror I)) as [->|]; tauto.
    + destruct (proj2 E (or_intror I)) as [->|]; tauto.
Qed.
Theorem C65_btreeset_associative : forall a b c, sorted_set a -> sorted_set b -> sorted_set c ->
  bs_combine cmp (bs_combine cmp a b) c = bs_combine cmp a (bs_combine cmp b c) /\
  bs_combine cmp [] b = b /\ bs_combine cmp a [] = a.
Proof.
  intros a b c Sa Sb Sc. destruct (C65_btreeset a b Sa) as [Sab Iab]. destruct (C65_btreeset _ c Sab) as [S1 I1].
  destruct (C65_btreeset b c Sb) as [_ Ibc]. destruct (C65_btreeset a (bs_combine cmp b c) Sa) as [S2 I2].
  destruct (C65_btreeset [] b (SSorted_nil _)) as [S3 I3].
  split; [|split; [|reflexivity]]; apply sorted_set_ext; auto; intros x.
  - rewrite I1, I2, Iab, Ibc. tauto.
  - rewrite I3. cbn. tauto.
Qed.
End BTree.
Example C65_case :
  hm_combine Nat.eqb Nat.add [(1, 10); (2, 20)] [(3, 5); (2, 7)] = [(1, 10); (2, 27); (3, 5)] /\
  bt_combine Nat.compare Nat.add [(1, 10); (4, 20)] [(2, 5); (4, 7)] = [(1, 10); (2, 5); (4, 27)] /\
  sorted_map Nat.compare [(1, 10); (4, 20)] /\
  bs_combine Nat.compare [1; 4] [2; 4] = [1; 2; 4] /\ hs_combine Nat.eqb [4; 1] [2; 4] = [4; 1; 2].
Proof. repeat split. repeat constructor. Qed.

(** ** C66 *)
Section Fold.
Context {A : Type} (fl : forall U, U -> (U -> A -> U) -> U) (l : list A) (H : folds_to fl l).
Theorem C66_lengths : fo_length fl = List.length l /\ (fo_is_empty fl = true <-> l = []) /\ fo_to_vec fl = l.
Proof.
  unfold fo_is_empty, fo_length, fo_to_vec. rewrite !H.
  assert (L : forall n, fold_left (fun acc (_ : A) => acc + 1) l n = n + List.length l).
  { clear H. induction l as [|x l' IH]; intros n; cbn; [lia|]. rewrite IH. lia. }
  rewrite L. cbn. split; auto. split.
  - rewrite Nat.eqb_eq, length_zero_iff_nil. tauto.
  - assert (G : forall acc, fold_left (fun acc x => acc ++ [x]) l acc = acc ++ l).
    { clear H L. induction l as [|x l' IH]; intros acc; cbn; [now rewrite app_nil_r|]. now rewrite IH, <- app_assoc. }
    apply (G []).
Qed.
Theorem C66_queries : forall (p : A -> bool),
  fo_find fl p = find p l /\ fo_all fl p = forallb p l /\ fo_any fl p = existsb p l /\
  (forall eqb a, fo_contains fl eqb a = existsb (fun x => eqb x a) l).
Proof.
  intros p. unfold fo_find, fo_all, fo_any, fo_contains.
  assert (F : forall acc, fold_left (fun acc x => match acc with Some _ => acc | None => if p x then Some x else None end) l acc
     = match acc with Some y => Some y | None => find p l end).
  { clear H. induction l as [|x l' IH]; intros [y|]; cbn; auto; rewrite IH; auto. destruct (p x); auto. }
  assert (Al : forall acc, fold_left (fun acc x => acc && p x) l acc = acc && forallb p l).
  { clear H F. induction l as [|x l' IH]; intros acc; cbn; [now rewrite andb_true_r|]. now rewrite IH, andb_assoc. }
  assert (An : forall (q : A -> bool) acc, fold_left (fun acc x => acc || q x) l acc = acc || existsb q l).
  { clear H F Al. intros q. induction l as [|x l' IH]; intros acc; cbn; [now rewrite orb_false_r|]. now rewrite IH, orb_assoc. }
  rewrite !H. rewrite F, Al, An. split; auto. split; auto. split; auto.
  intros eqb a. unfold fo_any. now rewrite H, An.
Qed.
Theorem C66_folds : forall M (op : M -> M -> M) e (f : A -> M), monoid_laws op e ->
  fo_fold_map fl op e f = fold_right (fun x acc => op (f x) acc) e l /\
  fo_fold_monoid fl op e f = fold_right (fun x acc => op (f x) acc) e l.
Proof.
  intros M op e f (As & L & R). unfold fo_fold_monoid, fo_fold_map. rewrite !H.
  assert (G : forall acc, fold_left (fun acc x => op acc (f x)) l acc = op acc (fold_right (fun x acc => op (f x) acc) e l)).
  { clear H L. induction l as [|x l' IH]; intros acc; cbn; [now rewrite R|]. now rewrite IH, As. }
  rewrite G, L. auto.
Qed.
(** [fold_option] fails as soon as one element fails. *)
Theorem C66_fold_option : forall M (op : M -> M -> M) e (f : A -> option M),
  (fo_fold_option fl op e f = None <-> exists x, In x l /\ f x = None) /\
  (forall g, (forall x, In x l -> f x = Some (g x)) ->
     fo_fold_option fl op e f = Some (fold_left (fun acc x => op acc (g x)) l e)).
Proof.
  intros M op e f. unfold fo_fold_option. setoid_rewrite H. clear H.
  set (st := fun (acc : option M) x => match acc with Some a => match f x with Some b => Some (op a b) | None => None end | None => None end).
  assert (N : fold_left st l None = None) by (induction l; cbn; auto).
  split.
  - assert (G : forall a, fold_left st l (Some a) = None <-> exists x, In x l /\ f x = None); [|apply G].
    clear N. induction l as [|x l' IH]; intros a; cbn.
    + split; [discriminate|]. intros (x & [] & _).
    + destruct (f x) as [b|] eqn:E.
      * rewrite IH. split; intros (y & Y & Z); exists y; split; auto. destruct Y as [->|Y]; auto. congruence.
      * assert (N : fold_left st l' None = None) by (clear; induction l'; cbn; auto).
        rewrite N. split; auto. intros _. exists x. auto.
  - clear N. intros g. generalize e. induction l as [|x l' IH]; intros a G; cbn; auto.
    rewrite G by now left. rewrite IH; auto. intros y Y. apply G. now right.
Qed.
Theorem C66_sums : forall (op : A -> A -> A) (e : A), monoid_laws op e ->
  fo_sum_values fl op e = fold_right op e l /\ fo_product_values fl op e = fold_right op e l /\
  (forall x, combines op l x -> fo_sum_values fl op e = x).
Proof.
  intros op e (As & L & R). unfold fo_sum_values, fo_product_values. setoid_rewrite H.
  assert (G : forall acc, fold_left (fun acc x => op acc x) l acc = op acc (fold_right op e l)).
  { clear H L. induction l as [|x l' IH]; intros acc; cbn; [now rewrite R|]. now rewrite IH, As. }
  split; [|split].
  - rewrite G, L. auto.
  - rewrite G, L. auto.
  - intros x Hx. apply (combines_fold _ _ As) in Hx as (h & t & E & ->). rewrite E. cbn. now rewrite L.
Qed.
Theorem C66_reduce : forall f : A -> A -> A,
  match fo_reduce fl f with
  | None => l = []
  | Some x => exists h t, l = h :: t /\ x = fold_left f t h
  end.
Proof.
  intros f. unfold fo_reduce. rewrite H.
  assert (G : forall t h, fold_left (fun acc x => match acc with None => Some x | Some a => Some (f a x) end) t (Some h)
     = Some (fold_left f t h)) by (clear; induction t as [|x t IH]; intros h; cbn; auto).
  destruct l as [|h t]; cbn; auto. rewrite G. exists h, t. auto.
Qed.
Theorem C66_extrema : forall cmp : A -> A -> comparison, total_preorder cmp ->
  match fo_maximum fl cmp with None => l = [] | Some m => first_max cmp l m end /\
  match fo_minimum fl cmp with None => l = [] | Some m => first_min cmp l m end.
Proof.
  intros cmp (R & S & T). unfold fo_maximum, fo_minimum. rewrite !H.
  assert (LT : forall x y z, cmp x y = Lt -> cmp y z = Lt -> cmp x z = Lt).
  { intros x y z H1 H2. assert (cmp x z <> Gt) by (apply (T x y z); congruence).
    destruct (cmp x z) eqn:E; auto; [|congruence]. exfalso.
    assert (Q : cmp y x <> Gt) by (apply (T y z x); [congruence | rewrite S, E; discriminate]).
    rewrite (S x y), H1 in Q. now apply Q. }
  assert (LE : forall x y z, cmp x y <> Gt -> cmp y z = Lt -> cmp x z = Lt).
  { intros x y z H1 H2. assert (cmp x z <> Gt) by (apply (T x y z); congruence).
    destruct (cmp x z) eqn:E; auto; [|congruence]. exfalso.
    assert (Q : cmp z y <> Gt) by (apply (T z x y); [rewrite S, E; discriminate | auto]).
    rewrite (S y z), H2 in Q. now apply Q. }
  destruct l as [|h t]; [cbn; auto|]. cbn [fold_left]. split.
  - assert (G : forall t done m, first_max cmp done m -> exists m',
      fold_left (fun max x => match max with None => Some x | Some c => Some (match cmp x c with Gt => x | _ => c end) end) t (Some m)
        = Some m' /\ first_max cmp (done ++ t) m').
    { clear - R S T LT LE. induction t as [|x t IH]; intros done m F; cbn.
      - exists m. now rewrite app_nil_r.
      - replace (done ++ x :: t) with ((done ++ [x]) ++ t) by now rewrite <- app_assoc.
        apply IH. destruct F as (l1 & l2 & -> & F1 & F2). destruct (cmp x m) eqn:E.
        + exists l1, (l2 ++ [x]). rewrite <- app_assoc. cbn. split; auto. split; auto.
          apply Forall_app. split; auto. constructor; auto. congruence.
        + exists l1, (l2 ++ [x]). rewrite <- app_assoc. cbn. split; auto. split; auto.
          apply Forall_app. split; auto. constructor; auto. congruence.
        + exists (l1 ++ m :: l2), []. split; auto. split; auto.
          assert (M : cmp m x = Lt) by (rewrite S, E; reflexivity).
          apply Forall_app. split; [|constructor; auto].
          * eapply Forall_impl; [|exact F1]. cbn. intros y Y. eapply LT; eauto.
          * eapply Forall_impl; [|exact F2]. cbn. intros y Y. eapply LE; eauto. }
    destruct (G t [h] h) as (m' & -> & F); [|exact F]. exists [], []. repeat constructor.
  - assert (G : forall t done m, first_min cmp done m -> exists m',
      fold_left (fun max x => match max with None => Some x | Some c => Some (match cmp x c with Lt => x | _ => c end) end) t (Some m)
        = Some m' /\ first_min cmp (done ++ t) m').
    { clear - R S T LT LE. induction t as [|x t IH]; intros done m F; cbn.
      - exists m. now rewrite app_nil_r.
      - replace (done ++ x :: t) with ((done ++ [x]) ++ t) by now rewrite <- app_assoc.
        apply IH. destruct F as (l1 & l2 & -> & F1 & F2). destruct (cmp x m) eqn:E.
        + exists l1, (l2 ++ [x]). rewrite <- app_assoc. cbn. split; auto. split; auto.
          apply Forall_app. split; auto. constructor; auto. congruence.
        + exists (l1 ++ m :: l2), []. split; auto. split; auto.
          apply Forall_app. split; [|constructor].
          * eapply Forall_impl; [|exact F1]. cbn. intros y Y. rewrite S in Y. rewrite S, (LT x m y); auto.
            destruct (cmp m y); auto; discriminate.
          * rewrite S, E. reflexivity.
          * eapply Forall_impl; [|exact F2]. cbn. intros y Y. rewrite S.
            assert (Z : cmp m y <> Gt) by (rewrite S; destruct (cmp y m); cbn in *; congruence).
            assert (W : cmp x y = Lt).
            { assert (cmp x y <> Gt) by (apply (T x m y); congruence). destruct (cmp x y) eqn:Q; auto; [|congruence]. exfalso.
              assert (Q' : cmp m x <> Gt) by (apply (T m y x); [auto | rewrite S, Q; discriminate]).
              rewrite (S x m), E in Q'. now apply Q'. }
            now rewrite W.
        + exists l1, (l2 ++ [x]). rewrite <- app_assoc. cbn. split; auto. split; auto.
          apply Forall_app. split; auto. constructor; auto. congruence. }
    destruct (G t [h] h) as (m' & -> & F); [|exact F]. exists [], []. repeat constructor.
Qed.
Theorem C66_is_sorted : forall cmp : A -> A -> comparison, total_preorder cmp ->
  (fo_is_sorted fl cmp = true <-> StronglySorted (fun x y => cmp x y <> Gt) l).
Proof.
  intros cmp (R & S & T). unfold fo_is_sorted. rewrite H. clear H.
  set (st := fun '(is_sorted, prev) curr => _).
  assert (Fa : forall t p, fst (fold_left st t (false, p)) = false) by (induction t; intros; cbn; auto).
  assert (G : forall t p, fst (fold_left st t (true, Some p)) = true <-> StronglySorted (fun x y => cmp x y <> Gt) (p :: t)).
  { induction t as [|x t IH]; intros p; cbn; [split; auto; repeat constructor|].
    destruct (cmp p x) eqn:E.
    - rewrite IH. split; intros W; inversion W; subst.
      + constructor; auto. constructor; [congruence|]. eapply Forall_impl; [|eassumption]. cbn. intros y Y.
        apply (T p x y); congruence.
      + auto.
    - rewrite IH. split; intros W; inversion W; subst.
      + constructor; auto. constructor; [congruence|]. eapply Forall_impl; [|eassumption]. cbn. intros y Y.
        apply (T p x y); congruence.
      + auto.
    - rewrite Fa. split; [discriminate|]. intros W. inversion W as [|? ? ? F]; subst. inversion F; subst. congruence. }
  destruct l as [|h t]; cbn; [split; auto; constructor|]. apply G.
Qed.
End Fold.
(** The instances hold the elements one expects. *)
Theorem C66_instances : forall A E,
  (forall l : list A, folds_to (vec_fold_left l) l /\ folds_right_to (vec_fold_right l) l) /\
  (forall o : option A, let l := match o with Some a => [a] | None => [] end in
     folds_to (option_fold_left o) l /\ folds_right_to (option_fold_right o) l) /\
  (forall r : result A E, let l := match r with Ok a => [a] | Err _ => [] end in
     folds_to (result_fold_left r) l /\ folds_right_to (result_fold_right r) l) /\
  (forall i : id_ A, folds_to (fun U init f => id_fold_left init f i) [id_value i] /\
     folds_right_to (fun U init f => id_fold_right init f i) [id_value i]) /\
  (forall v : validated E A, let l := match v with Valid a => [a] | Invalid _ => [] end in
     folds_to (fun U init f => va_fold_left init f v) l /\ folds_right_to (fun U init f => va_fold_right init f v) l) /\
  (forall c : choice A, folds_to (fun U init f => ch_fold_left init f c) (values c) /\
     folds_right_to (fun U init f => ch_fold_right init f c) (values c)).
Proof.
  intros A E. split; [|split; [|split; [|split; [|split]]]].
  - intros l. assert (L : forall U B (f : U -> B -> U) t init, vec_loop t init f = fold_left f t init).
    { intros U B f. induction t as [|x t IH]; intros init; cbn; auto. }
    split; intros U init f.
    + apply L.
    + unfold vec_fold_right. rewrite L. now rewrite <- fold_left_rev_right, rev_involutive.
  - intros [a|]; split; intros U init f; reflexivity.
  - intros [a|e]; split; intros U init f; reflexivity.
  - intros i; split; intros U init f; reflexivity.
  - intros [a|e]; split; intros U init f; reflexivity.
  - intros c. split; intros U init f; [reflexivity|]. unfold ch_fold_right.
    now rewrite <- fold_left_rev_right, rev_involutive.
Qed.
Example C66_case : let v := vec_fold_left [3; 1; 3; 2] in
  folds_to v [3; 1; 3; 2] /\ fo_length v = 4 /\ fo_find v Nat.even = Some 2 /\ fo_maximum v Nat.compare = Some 3 /\
  fo_minimum v Nat.compare = Some 1 /\ fo_is_sorted v Nat.compare = false /\ fo_reduce v Nat.sub = Some 0 /\
  fo_fold_option v Nat.add 0 (fun x => if x =? 1 then None else Some x) = None.
Proof. split; [apply (C66_instances nat unit)|]. repeat split. Qed.

Print Assumptions C63_combines_unique.
Print Assumptions C63_copies.
Print Assumptions C63_combine_n_zero.
Print Assumptions C63_combine_n_owned_doubles.
Print Assumptions C63_combine_n_owned_refuted.
Print Assumptions C63_combine_n_owned_partial.
Print Assumptions C63_repeat_adds.
Print Assumptions C64_combine.
Print Assumptions C64_agree.
Print Assumptions C64_split.
Print Assumptions C65_vec.
Print Assumptions C65_string.
Print Assumptions C65_tuples_and_option.
Print Assumptions C65_componentwise.
Print Assumptions C65_hashmap.
Print Assumptions C65_hashmap_associative.
Print Assumptions C65_hashset.
Print Assumptions C65_btreemap.
Print Assumptions C65_btreemap_associative.
Print Assumptions C65_btreeset.
Print Assumptions C66_lengths.
Print Assumptions C66_queries.
Print Assumptions C66_folds.
Print Assumptions C66_fold_option.
Print Assumptions C66_sums.
Print Assumptions C66_reduce.
Print Assumptions C66_extrema.
Print Assumptions C66_is_sorted.
Print Assumptions C66_instances.
Print Assumptions C65_hashset_associative.
Print Assumptions C65_btreeset_associative.
Print Assumptions C64_is_empty.

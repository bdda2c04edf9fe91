(** Lemmas about the [Choice] model. *)
From Coq Require Import List Arith Lia Bool Permutation.
From Verif Require Import Base ListFacts PvecModel ChoiceModel ChoiceSpec.
Import ListNotations.
Open Scope outcome_scope.
Set Implicit Arguments.
Unset Strict Implicit.

Lemma choice_ext {T} (a b : choice T) : values a = values b -> a = b.
Proof. destruct a, b; cbn; congruence. Qed.

Lemma flat_map_nil_all {A B} (l : list A) : flat_map (fun _ => @nil B) l = [].
Proof. induction l; auto. Qed.

Lemma flat_map_single {A B} (g : A -> B) l : flat_map (fun x => [g x]) l = map g l.
Proof. induction l; cbn; congruence. Qed.

Lemma flat_map_map' {A B C} (f : A -> B) (g : B -> list C) l :
  flat_map g (map f l) = flat_map (fun x => g (f x)) l.
Proof. induction l; cbn; congruence. Qed.

Lemma map_flat_map {A B C} (f : B -> C) (g : A -> list B) l :
  map f (flat_map g l) = flat_map (fun x => map f (g x)) l.
Proof. induction l; cbn; auto. now rewrite map_app, IHl. Qed.

Lemma flat_map_flat_map {A B C} (g : A -> list B) (h : B -> list C) l :
  flat_map h (flat_map g l) = flat_map (fun x => flat_map h (g x)) l.
Proof. induction l; cbn; auto. now rewrite flat_map_app, IHl. Qed.

Lemma fold_append {A B} (g : A -> list B) l : forall acc,
  fold_left (fun acc x => acc ++ g x) l acc = acc ++ flat_map g l.
Proof.
  induction l as [|x l IH]; intros acc; cbn; [now rewrite app_nil_r|].
  now rewrite IH, app_assoc.
Qed.

Lemma vec_remove0 {T} (x : T) l : vec_remove (x :: l) 0 = Ret l.
Proof. reflexivity. Qed.

Lemma ch_alternatives_tl {T} (c : choice T) : ch_alternatives c = tl (values c).
Proof. unfold ch_alternatives. destruct (values c) as [|x [|y l]]; reflexivity. Qed.

(** ** bind *)

Definition ch_empty_on_first {T U} (c : choice T) (f : T -> choice U) : Prop :=
  exists x, hd_error (values c) = Some x /\ values (f x) = [].

Lemma ch_bind_values {T U} (c : choice T) (f : T -> choice U) :
  values (ch_bind c f) =
  match values c with
  | [] => []
  | x :: _ => match values (f x) with
              | [] => []
              | _ => flat_map (fun y => values (f y)) (values c)
              end
  end.
Proof.
  unfold ch_bind. destruct (values c) as [|x rest]; [reflexivity|].
  destruct (values (f x)) as [|y ys] eqn:E; [reflexivity|].
  cbn. now rewrite fold_append, E.
Qed.

Lemma ch_bind_owned_eq {T U} (c : choice T) (f : T -> choice U) :
  ch_bind_owned c f = Ret (ch_bind c f).
Proof.
  unfold ch_bind_owned, ch_bind. destruct (values c) as [|x rest]; [reflexivity|].
  cbn [obind]. rewrite vec_remove0. cbn [obind]. now destruct (values (f x)).
Qed.

Lemma ch_join_eq {T U} (into : T -> choice U) (c : choice T) :
  ch_join into c = Ret (ch_bind c into).
Proof.
  unfold ch_join, ch_bind, ch_is_empty, ch_first. rewrite !ch_alternatives_tl.
  destruct (values c) as [|x rest]; [reflexivity|]. cbn [hd_error tl].
  rewrite ch_alternatives_tl. destruct (values (into x)) as [|y ys]; reflexivity.
Qed.

Lemma ch_join_owned_eq {T U} (into : T -> choice U) (c : choice T) :
  ch_join_owned into c = Ret (ch_bind c into).
Proof.
  unfold ch_join_owned, ch_bind, ch_is_empty, ch_first.
  destruct (values c) as [|x rest]; [reflexivity|]. rewrite vec_remove0. cbn [obind].
  rewrite ch_alternatives_tl. destruct (values (into x)) as [|y ys]; reflexivity.
Qed.

(** ** apply and lifts *)

Lemma ch_apply_values {A B} (ff : choice (A -> B)) (fv : choice A) :
  values (ch_apply ff fv) = flat_map (fun v => map (fun f => f v) (values ff)) (values fv).
Proof.
  unfold ch_apply. destruct (values ff) as [|f fs].
  - cbn. now rewrite flat_map_nil_all.
  - destruct (values fv) as [|v vs]; reflexivity.
Qed.

(** the doubly indexed loops skip exactly the pair (0,0) *)
Lemma combine_seq_S {A} (l : list A) k :
  combine (seq (S k) (length l)) l =
  map (fun p => (S (fst p), snd p)) (combine (seq k (length l)) l).
Proof. revert k; induction l as [|x l IH]; intros k; cbn; [auto|]. now rewrite IH. Qed.

Lemma enumerate_cons {A} (x : A) l :
  enumerate (x :: l) = (0, x) :: map (fun p => (S (fst p), snd p)) (enumerate l).
Proof. unfold enumerate. cbn. now rewrite combine_seq_S. Qed.

Lemma flat_map_enumerate {A B} (g : A -> list B) l :
  flat_map (fun p => g (snd p)) (enumerate l) = flat_map g l.
Proof.
  induction l as [|x l IH]; [reflexivity|]. rewrite enumerate_cons. cbn [flat_map snd].
  rewrite flat_map_map'. cbn [snd]. now rewrite IH.
Qed.

Lemma flat_map_ext' {A B} (f g : A -> list B) l : (forall x, f x = g x) -> flat_map f l = flat_map g l.
Proof. intros H. induction l; cbn; congruence. Qed.

Lemma skip_origin2 {A B C} (h : A -> B -> C) a la b lb :
  h a b :: flat_map (fun ia : nat * A =>
     flat_map (fun jb : nat * B =>
       if (fst ia =? 0) && (fst jb =? 0) then [] else [h (snd ia) (snd jb)])
       (enumerate (b :: lb))) (enumerate (a :: la))
  = flat_map (fun x => map (h x) (b :: lb)) (a :: la).
Proof.
  rewrite (enumerate_cons a), (enumerate_cons b). cbn [flat_map fst snd Nat.eqb andb app map].
  f_equal. f_equal.
  - rewrite flat_map_map'. cbn [fst snd Nat.eqb].
    rewrite (flat_map_enumerate (fun y => [h a y])). apply flat_map_single.
  - rewrite flat_map_map'. cbn [fst snd Nat.eqb andb].
    etransitivity; [|apply (flat_map_enumerate (fun x => h x b :: map (h x) lb))].
    apply flat_map_ext'. intros [i x]. cbn [fst snd].
    rewrite flat_map_map'. cbn [fst snd]. rewrite (flat_map_enumerate (fun y => [h x y])).
    cbn [app]. now rewrite flat_map_single.
Qed.

Lemma skip_origin3 {A B C D} (h : A -> B -> C -> D) a la b lb c lc :
  h a b c :: flat_map (fun ia : nat * A =>
     flat_map (fun jb : nat * B =>
       flat_map (fun kc : nat * C =>
         if (fst ia =? 0) && (fst jb =? 0) && (fst kc =? 0) then []
         else [h (snd ia) (snd jb) (snd kc)])
         (enumerate (c :: lc))) (enumerate (b :: lb))) (enumerate (a :: la))
  = flat_map (fun x => flat_map (fun y => map (h x y) (c :: lc)) (b :: lb)) (a :: la).
Proof.
  assert (S3 : forall x y, flat_map (fun p : nat * C => [h x y (snd p)])
                 (map (fun p => (S (fst p), snd p)) (enumerate lc)) = map (h x y) lc).
  { intros x y. rewrite flat_map_map'. cbn [snd].
    rewrite (flat_map_enumerate (fun z => [h x y z])). apply flat_map_single. }
  rewrite (enumerate_cons a), (enumerate_cons b), (enumerate_cons c).
  cbn [flat_map fst snd Nat.eqb andb app map].
  rewrite flat_map_map'. cbn [fst snd Nat.eqb].
  assert (E1 : flat_map (fun x : nat * C => [h a b (snd x)]) (enumerate lc) = map (h a b) lc).
  { rewrite (flat_map_enumerate (fun z => [h a b z])). apply flat_map_single. }
  rewrite E1. rewrite !flat_map_map'. cbn [fst snd Nat.eqb andb].
  f_equal. rewrite <- !app_assoc. f_equal. f_equal.
  - etransitivity; [|apply (flat_map_enumerate (fun y => h a y c :: map (h a y) lc))].
    apply flat_map_ext'. intros [j y]. cbn [fst snd app]. now rewrite S3.
  - etransitivity;
      [|apply (flat_map_enumerate (fun x => (h x b c :: map (h x b) lc) ++
                 flat_map (fun y => h x y c :: map (h x y) lc) lb))].
    apply flat_map_ext'. intros [i x]. cbn [fst snd app].
    rewrite S3. f_equal. f_equal. rewrite flat_map_map'. cbn [fst snd].
    etransitivity; [|apply (flat_map_enumerate (fun y => h x y c :: map (h x y) lc))].
    apply flat_map_ext'. intros [j y]. cbn [fst snd app]. now rewrite S3.
Qed.

Lemma ch_apply_owned_values {A B} (ff : choice (A -> B)) (fv : choice A) :
  values (ch_apply_owned ff fv) = values (ch_apply ff fv).
Proof.
  rewrite ch_apply_values. unfold ch_apply_owned.
  destruct (values ff) as [|f fs]. { cbn. now rewrite flat_map_nil_all. }
  destruct (values fv) as [|v vs]; [reflexivity|].
  unfold generate_apply_alternatives. cbn [values ch_new].
  exact (skip_origin2 (fun (v : A) (f : A -> B) => f v) v vs f fs).
Qed.

Lemma ch_lift2_values {A B C} (f : A -> B -> C) fa fb :
  values (ch_lift2 f fa fb) = flat_map (fun a => map (f a) (values fb)) (values fa).
Proof.
  unfold ch_lift2. destruct (values fa) as [|a la]; [reflexivity|].
  destruct (values fb) as [|b lb]. { cbn. now rewrite flat_map_nil_all. }
  cbn [values ch_new]. apply skip_origin2.
Qed.

Lemma ch_lift3_values {A B C D} (f : A -> B -> C -> D) fa fb fc :
  values (ch_lift3 f fa fb fc) =
  flat_map (fun a => flat_map (fun b => map (f a b) (values fc)) (values fb)) (values fa).
Proof.
  unfold ch_lift3. destruct (values fa) as [|a la]; [reflexivity|].
  destruct (values fb) as [|b lb]. { cbn. now rewrite flat_map_nil_all. }
  destruct (values fc) as [|c lc].
  { cbn [values ch_empty]. symmetry. etransitivity; [|apply (flat_map_nil_all (a :: la))].
    apply flat_map_ext'. intros x. apply (flat_map_nil_all (b :: lb)). }
  cbn [values ch_new]. apply skip_origin3.
Qed.

Lemma flat_map_swap_perm {A B C} (h : A -> B -> C) la lb :
  Permutation (flat_map (fun a => map (h a) lb) la) (flat_map (fun b => map (fun a => h a b) la) lb).
Proof.
  revert lb; induction la as [|a la IH]; intros lb; cbn.
  - now rewrite flat_map_nil_all.
  - transitivity (map (h a) lb ++ flat_map (fun b => map (fun a => h a b) la) lb).
    { now apply Permutation_app_head. }
    clear IH. induction lb as [|b lb IH]; cbn; [auto|]. constructor.
    rewrite <- IH. rewrite !app_assoc. apply Permutation_app_tail, Permutation_app_comm.
Qed.

(** ** combine *)
Lemma ch_combine_values {T} (a b : choice T) : values (ch_combine a b) = values a ++ values b.
Proof.
  unfold ch_combine. destruct (values a) as [|x la] eqn:Ea; [reflexivity|].
  destruct (values b) as [|y lb] eqn:Eb; [now rewrite app_nil_r|]. reflexivity.
Qed.

Lemma ch_combine_owned_eq {T} (a b : choice T) : ch_combine_owned a b = ch_combine a b.
Proof. reflexivity. Qed.

Lemma ch_alt_eq {T} (a b : choice T) : ch_alt a b = ch_combine a b.
Proof. reflexivity. Qed.

Lemma ch_mplus_eq {T} (a b : choice T) : ch_mplus a b = ch_combine a b.
Proof.
  unfold ch_mplus, ch_is_empty, ch_combine.
  destruct (values a) as [|x la] eqn:Ea; [reflexivity|]. destruct (values b) eqn:Eb; auto.
Qed.

Lemma ch_mplus_owned_eq {T} (a b : choice T) : ch_mplus_owned a b = ch_combine a b.
Proof.
  unfold ch_mplus_owned, ch_is_empty, ch_combine_owned, ch_combine.
  destruct (values a) as [|x la] eqn:Ea; [reflexivity|]. destruct (values b) eqn:Eb; auto.
Qed.

Lemma ch_combine_empty_l {T} (a : choice T) : ch_combine ch_empty a = a.
Proof. reflexivity. Qed.
Lemma ch_combine_empty_r {T} (a : choice T) : ch_combine a ch_empty = a.
Proof. apply choice_ext. rewrite ch_combine_values. apply app_nil_r. Qed.

(** ** dedup *)
Lemma existsb_ext' {A} (f g : A -> bool) l : (forall x, f x = g x) -> existsb f l = existsb g l.
Proof. intros H. induction l; cbn; congruence. Qed.

Lemma existsb_keq_trans {T K} (keq : K -> K -> bool) (key : T -> K) (x : T) l :
  equivalence keq ->
  forall y, keq (key x) (key y) = true ->
  existsb (fun z => keq (key y) (key z)) l = existsb (fun z => keq (key x) (key z)) l.
Proof.
  intros (_ & Hs & Ht) y H. apply existsb_ext'. intros z.
  destruct (keq (key y) (key z)) eqn:E1, (keq (key x) (key z)) eqn:E2; auto.
  - now rewrite (Ht _ _ _ H E1) in E2.
  - apply Hs in H. now rewrite (Ht _ _ _ H E2) in E1.
Qed.

Lemma dedup_loop_ok {T K} (keq : K -> K -> bool) (key : T -> K) : equivalence keq ->
  forall l pre seen,
  (forall k, existsb (keq k) seen = existsb (fun y => keq k (key y)) pre) ->
  dedup_loop keq key seen l =
  flat_map (fun i => match nth_error (pre ++ l) i with
    | Some x => if existsb (fun y => keq (key x) (key y)) (firstn i (pre ++ l)) then [] else [x]
    | None => [] end) (seq (length pre) (length l)).
Proof.
  intros Heq. induction l as [|x l IH]; intros pre seen Hseen; [reflexivity|].
  cbn [dedup_loop length seq flat_map].
  rewrite nth_error_app2, Nat.sub_diag by lia. cbn [nth_error].
  rewrite firstn_app, Nat.sub_diag, firstn_all. cbn [firstn]. rewrite app_nil_r.
  rewrite Hseen.
  assert (Hpre : pre ++ x :: l = (pre ++ [x]) ++ l) by now rewrite <- app_assoc.
  assert (Hlen : S (length pre) = length (pre ++ [x])) by (rewrite app_length; cbn; lia).
  destruct (existsb (fun y => keq (key x) (key y)) pre) eqn:E; cbn [app];
    rewrite Hpre, Hlen; [|f_equal]; apply IH; intros k.
  - rewrite Hseen, existsb_app. cbn. rewrite orb_false_r.
    destruct (keq k (key x)) eqn:Ek; [|now rewrite orb_false_r].
    rewrite orb_true_r. apply existsb_exists in E as (z & Hz & Ez).
    apply existsb_exists. exists z. split; auto. destruct Heq as (_ & _ & Ht). eauto.
  - cbn. rewrite Hseen, existsb_app. cbn. rewrite orb_false_r. apply orb_comm.
Qed.

Lemma dedup_first_occurrences {T K} (keq : K -> K -> bool) (key : T -> K) l :
  equivalence keq -> dedup_loop keq key [] l = first_occurrences keq key l.
Proof. intros H. exact (@dedup_loop_ok T K keq key H l [] [] (fun _ => eq_refl)). Qed.

(** ** swap *)
Lemma vec_swap0_ok {T} (l : list T) j : j < length l ->
  exists l', vec_swap0 l j = Ret l' /\ swapped j l l'.
Proof.
  intros H. unfold vec_swap0.
  destruct (nth_error l 0) as [a|] eqn:Ea; [|apply nth_error_None in Ea; lia].
  destruct (nth_error l j) as [b|] eqn:Eb; [|apply nth_error_None in Eb; lia].
  eexists. split; [reflexivity|]. unfold swapped. rewrite !list_set_length. split; auto.
  destruct (Nat.eq_dec j 0) as [->|Hj].
  - rewrite Ea in Eb. injection Eb as ->.
    rewrite nth_error_list_set_eq by (rewrite list_set_length; lia).
    rewrite Ea. split; auto. split; auto.
    intros k H1 H2. now rewrite !nth_error_list_set_ne by auto.
  - rewrite nth_error_list_set_ne by auto. rewrite nth_error_list_set_eq by lia.
    rewrite nth_error_list_set_eq by (rewrite list_set_length; lia).
    rewrite Ea, Eb. split; auto. split; auto.
    intros k H1 H2. now rewrite !nth_error_list_set_ne by auto.
Qed.

Lemma list_ext {A} (l1 l2 : list A) : (forall k, nth_error l1 k = nth_error l2 k) -> l1 = l2.
Proof.
  revert l2; induction l1 as [|x l1 IH]; intros [|y l2] H; auto.
  - now specialize (H 0).
  - now specialize (H 0).
  - pose proof (H 0) as H0. injection H0 as ->. f_equal. apply IH. intros k. exact (H (S k)).
Qed.

Lemma swapped_twice {T} j (l l' l'' : list T) : swapped j l l' -> swapped j l' l'' -> l'' = l.
Proof.
  intros (_ & A1 & A2 & A3) (_ & B1 & B2 & B3). apply list_ext. intros k.
  destruct (Nat.eq_dec k 0) as [->|H0]; [congruence|].
  destruct (Nat.eq_dec k j) as [->|Hj]; [congruence|]. rewrite B3, A3; auto.
Qed.

Lemma collect_option_spec {A} (l : list (option A)) :
  (forall r, collect_option l = Some r <-> l = map Some r) /\
  (collect_option l = None <-> In None l).
Proof.
  induction l as [|[x|] l [IH1 IH2]]; cbn.
  - split; [|split; [discriminate|easy]]. intros [|y r]; cbn; split; congruence.
  - destruct (collect_option l) as [r0|] eqn:E; split.
    + intros r. split.
      * intros H. injection H as <-. cbn. f_equal. now apply IH1.
      * destruct r as [|y r]; [discriminate|]. cbn. intros H. injection H as -> H.
        apply IH1 in H. congruence.
    + split; [discriminate|]. intros [H|H]; [discriminate|]. now apply IH2 in H.
    + intros r. split; [discriminate|]. destruct r as [|y r]; [discriminate|].
      intros H. injection H as _ H. apply IH1 in H. discriminate.
    + split; auto. intros _. right. now apply IH2.
  - split; [|split; auto]. intros [|y r]; split; discriminate.
Qed.

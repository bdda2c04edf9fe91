(** C89: what the printed form of a value tells about the value. *)
From Coq Require Import String Ascii List Arith DecimalString DecimalNat Lia.
From Verif Require Import Base Types SumModel IOModel WrapModel ChoiceModel PvecModel ErrModel TextModel TextSpec.
Import ListNotations.
Open Scope string_scope.

(** ** Text *)
Lemma append_inv_l : forall s a b : string, s ++ a = s ++ b -> a = b.
Proof. induction s; simpl; intros x y H; [exact H|]. injection H as H. now apply IHs. Qed.
Lemma length_append : forall a b : string, String.length (a ++ b) = String.length a + String.length b.
Proof. induction a; simpl; intros; congruence. Qed.
Lemma append_inv_r : forall s a b : string, a ++ s = b ++ s -> a = b.
Proof.
  intros s a. induction a as [|c a IH]; intros [|d b] H; auto; simpl in H.
  - apply (f_equal String.length) in H. simpl in H. rewrite length_append in H. lia.
  - apply (f_equal String.length) in H. simpl in H. rewrite length_append in H. lia.
  - injection H as -> H. f_equal. now apply IH.
Qed.
Lemma append_nil : forall a : string, a ++ "" = a.
Proof. induction a; simpl; congruence. Qed.
Lemma append_assoc : forall a b c : string, (a ++ b) ++ c = a ++ (b ++ c).
Proof. induction a; simpl; intros; congruence. Qed.
(** A text is cut in only one way at the first occurrence of a character. *)
Lemma cut_unique c : forall a a' r r',
  free_of c a -> free_of c a' -> a ++ String c r = a' ++ String c r' -> a = a' /\ r = r'.
Proof.
  induction a as [|x a IH]; intros [|x' a'] r r' Ha Ha' H; simpl in *.
  - injection H as ->. auto.
  - injection H as <- _. now destruct Ha' as [[] _].
  - injection H as -> _. now destruct Ha as [[] _].
  - injection H as <- H. destruct (IH a' r r') as [-> ->]; tauto.
Qed.
Lemma cut_never c : forall a a' r, free_of c a -> a = a' ++ String c r -> False.
Proof.
  induction a as [|x a IH]; intros [|x' a'] r Ha H; simpl in *; try discriminate.
  - injection H as -> _. now destruct Ha as [[] _].
  - injection H as -> H. apply (IH a' r); tauto.
Qed.
Lemma free_append c : forall a b, free_of c (a ++ b) <-> free_of c a /\ free_of c b.
Proof. induction a; simpl; intros; [tauto|]. rewrite IHa. tauto. Qed.

Definition digit (c : ascii) : Prop := In c ["0";"1";"2";"3";"4";"5";"6";"7";"8";"9"]%char.
Lemma free_uint c : ~ digit c -> forall u, free_of c (NilEmpty.string_of_uint u).
Proof.
  intros Hc. induction u; simpl; auto; split; auto; intros <-; apply Hc; unfold digit; simpl; tauto.
Qed.
Lemma free_uint_z c : ~ digit c -> forall u, free_of c (NilZero.string_of_uint u).
Proof.
  intros Hc [|u|u|u|u|u|u|u|u|u|u]; unfold NilZero.string_of_uint; try apply (free_uint c Hc).
  simpl. split; auto. intros <-. apply Hc. unfold digit. simpl. tauto.
Qed.
Lemma free_nat c : ~ digit c -> forall n, free_of c (show_nat n).
Proof. intros Hc n. now apply free_uint_z. Qed.
Lemma to_uint_nonnil : forall n, Nat.to_uint n <> Decimal.Nil.
Proof.
  intros n H. pose proof (Unsigned.to_of (Nat.to_uint n)) as K.
  rewrite Unsigned.of_to, H in K. discriminate.
Qed.
Lemma show_nat_inj : forall n m, show_nat n = show_nat m -> n = m.
Proof.
  intros n m H. unfold show_nat in H.
  apply (f_equal NilZero.uint_of_string) in H.
  rewrite !NilZero.usu in H by apply to_uint_nonnil.
  injection H as H. now apply Unsigned.to_uint_inj.
Qed.
Lemma free_space n : free_of " " (show_nat n).
Proof. apply free_nat. unfold digit. simpl. intuition discriminate. Qed.
Lemma free_comma n : free_of "," (show_nat n).
Proof. apply free_nat. unfold digit. simpl. intuition discriminate. Qed.

(** Texts without commas, joined, can be told apart. *)
Lemma join_inj : forall l m : list string,
  Forall (free_of ",") l -> Forall (free_of ",") m ->
  (l = [] <-> m = []) -> join ", " l = join ", " m -> l = m.
Proof.
  assert (K : forall l m a b,
            free_of "," a -> free_of "," b -> Forall (free_of ",") l -> Forall (free_of ",") m ->
            join ", " (a :: l) = join ", " (b :: m) -> a :: l = b :: m).
  { induction l as [|x l IH]; intros [|y m] a b Ha Hb Hl Hm E.
    - simpl in E. now rewrite E.
    - simpl in E. apply cut_never in E; tauto.
    - simpl in E. symmetry in E. apply cut_never in E; tauto.
    - inversion_clear Hl. inversion_clear Hm.
      change (a ++ String "," (String " " (join ", " (x :: l))) =
              b ++ String "," (String " " (join ", " (y :: m)))) in E.
      apply cut_unique in E; [|assumption..]. destruct E as [-> E].
      injection E as E. f_equal. apply IH; assumption. }
  intros [|a l] [|b m] Hl Hm Hnil E; auto.
  - destruct Hnil as [Hnil _]. now discriminate Hnil.
  - destruct Hnil as [_ Hnil]. now discriminate Hnil.
  - inversion_clear Hl. inversion_clear Hm. now apply K.
Qed.
Lemma Forall_map_free {T} (show : T -> string) c l :
  (forall x, free_of c (show x)) -> Forall (free_of c) (map show l).
Proof. intros H. induction l; constructor; auto. Qed.

(** ** C89 *)
(** The errors of the vector and of [IO] can be told apart by their text. *)
Theorem C89_pvec_error : forall e e', pve_display e = pve_display e' -> e = e'.
Proof.
  assert (K : forall s i j k l, show_nat i ++ String " " (s ++ show_nat j) =
                                show_nat k ++ String " " (s ++ show_nat l) -> i = k /\ j = l).
  { intros s i j k l E. apply cut_unique in E; [|apply free_space..].
    destruct E as [E1 E2]. split; [now apply show_nat_inj|].
    apply append_inv_l in E2. now apply show_nat_inj. }
  intros [i n|i n] [j m|j m] E; try discriminate E.
  - apply (append_inv_l "Index ") in E.
    apply (K "out of bounds for vector of length ") in E. destruct E. congruence.
  - apply (append_inv_l "Invalid range: start ") in E.
    apply (K "is greater than end ") in E. destruct E. congruence.
Qed.
Theorem C89_io_error : forall e e', ioe_display e = ioe_display e' -> e = e'.
Proof.
  intros [|s] [|t] E; try discriminate E; auto. apply (append_inv_l "IO Error: ") in E. congruence.
Qed.
(** A custom [MaybeError] can imitate the other one, but not another custom one. *)
Theorem C89_maybe_error : forall s t, mbe_display (Custom s) = mbe_display (Custom t) -> s = t.
Proof. auto. Qed.
Theorem C89_maybe_error_refuted : exists e e', e <> e' /\ mbe_display e = mbe_display e'.
Proof.
  exists ValueNotPresent, (Custom (mbe_display ValueNotPresent)). split; [discriminate|reflexivity].
Qed.
(** The numbers stand in the text in the order of the sentence. *)
Theorem C89_error_texts : forall i n,
  pve_display (IndexOutOfBounds i n) = "Index " ++ show_nat i ++ " out of bounds for vector of length " ++ show_nat n /\
  pve_display (InvalidRange i n) = "Invalid range: start " ++ show_nat i ++ " is greater than end " ++ show_nat n.
Proof. split; reflexivity. Qed.
Example C89_error_case :
  pve_display (IndexOutOfBounds 10 7) = "Index 10 out of bounds for vector of length 7" /\
  pve_display (InvalidRange 12 9) = "Invalid range: start 12 is greater than end 9".
Proof. split; reflexivity. Qed.

(** The wrappers: the text shows the kind of wrapper and the text of the value. *)
Theorem C89_wrappers : forall T (show : T -> string) (a b : T) (o p : option T),
  (sum_text show (mkSum a) = sum_text show (mkSum b) <-> show a = show b) /\
  (product_text show (mkProduct a) = product_text show (mkProduct b) <-> show a = show b) /\
  (min_text show (mkMin a) = min_text show (mkMin b) <-> show a = show b) /\
  (max_text show (mkMax a) = max_text show (mkMax b) <-> show a = show b) /\
  (first_text show (mkFirst o) = first_text show (mkFirst p) <-> option_map show o = option_map show p) /\
  (last_text show (mkLast o) = last_text show (mkLast p) <-> option_map show o = option_map show p).
Proof.
  assert (K : forall pre post s t, pre ++ s ++ post = pre ++ t ++ post <-> s = t).
  { intros pre post s t. split; [|now intros ->]. intros E.
    apply append_inv_l, append_inv_r in E. exact E. }
  intros T show a b o p.
  do 4 (split; [apply (K _ ")")|]). split.
  - unfold first_text. destruct o as [x|], p as [y|]; cbn [first_val option_map].
    + rewrite (K "First(Some(" "))"). split; [now intros ->|now intros [= ->]].
    + split; discriminate.
    + split; discriminate.
    + tauto.
  - unfold last_text. destruct o as [x|], p as [y|]; cbn [last_val option_map].
    + rewrite (K "Last(Some(" "))"). split; [now intros ->|now intros [= ->]].
    + split; discriminate.
    + split; discriminate.
    + tauto.
Qed.
Theorem C89_wrapper_kinds : forall T (show : T -> string) a b c d e f,
  NoDup [sum_text show a; product_text show b; min_text show c; max_text show d; first_text show e;
         last_text show f].
Proof.
  intros T show a b c d [[e|]] [[f|]];
  repeat constructor; simpl; intuition discriminate.
Qed.

(** A [Choice] printed without commas or bars in the elements can be read back. *)
Theorem C89_choice_partial : forall T (show : T -> string), plain show ->
  forall c d : choice T, ch_display show c = ch_display show d <-> map show (values c) = map show (values d).
Proof.
  intros T show Hp.
  assert (Hc : forall x, free_of "," (show x)) by (intros x; apply Hp).
  assert (Hb : forall x, free_of "|" (show x ++ " ")).
  { intros x. apply free_append. split; [apply Hp|]. simpl. split; [discriminate|auto]. }
  assert (K : forall x l, ch_display show (mkChoice (x :: l)) =
                match l with [] => show x | _ => (show x ++ " ") ++ String "|" (String " " (join ", " (map show l))) end).
  { intros x [|y l]; unfold ch_display, ch_alternatives; cbn.
    - apply append_nil.
    - now rewrite append_assoc. }
  intros [c] [d]. cbn [values]. split.
  - destruct c as [|x c], d as [|y d]; intros E; auto.
    + rewrite K in E. destruct d; cbn in E; [destruct (proj2 (proj2 (Hp y))); auto|].
      destruct (show y); discriminate.
    + rewrite K in E. destruct c; cbn in E; [destruct (proj2 (proj2 (Hp x))); auto|].
      destruct (show x); discriminate.
    + rewrite !K in E. destruct c as [|x' c], d as [|y' d].
      * simpl. congruence.
      * apply cut_never in E; [tauto|apply Hp].
      * symmetry in E. apply cut_never in E; [tauto|apply Hp].
      * apply cut_unique in E; [|apply Hb..]. destruct E as [E1 E2]. apply (append_inv_l " " (join ", " (map show (x' :: c)))) in E2.
        apply append_inv_r in E1.
        apply join_inj in E2; [|now apply Forall_map_free..|split; discriminate].
        change (show x :: map show (x' :: c) = show y :: map show (y' :: d)). congruence.
  - destruct c as [|x c], d as [|y d]; intros E; try discriminate E; auto.
    rewrite !K. injection E as E1 E2. destruct c, d; try discriminate E2; [exact E1|].
    now rewrite E1, E2.
Qed.
(** Without that condition it cannot. *)
Theorem C89_choice_refuted : exists c d : choice string,
  values c <> values d /\ ch_display (fun s => s) c = ch_display (fun s => s) d.
Proof.
  exists (ch_new "a" ["b, c"]), (ch_new "a" ["b"; "c"]). split; [discriminate|reflexivity].
Qed.
Example C89_choice_case :
  plain (fun n => show_nat n) /\
  ch_display show_nat (ch_new 1 [20; 3]) = "1 | 20, 3" /\
  ch_display show_nat (ch_new 1 []) = "1".
Proof.
  split; [|split; reflexivity]. intros n. split; [apply free_comma|split].
  - apply free_nat. unfold digit. simpl. intuition discriminate.
  - unfold show_nat. intros E.
    destruct (Nat.to_uint n); try discriminate E.
Qed.

(** A small vector prints its contents and nothing else: the text does not
    depend on how the vector came about, and shows every element. *)
Theorem C89_small_vector_debug_partial : forall T (show : T -> string), (forall x, free_of "," (show x)) ->
  forall (l m : list T) g h,
  pv_debug show (mkPvec (Inline l) (List.length l) g) = pv_debug show (mkPvec (Inline m) (List.length m) h) <->
  map show l = map show m.
Proof.
  intros T show Hs l m g h. unfold pv_debug, slice_debug. cbn [inner pv_len]. split.
  - intros E. apply (append_inv_l "PersistentVector(Inline, len=") in E.
    change (show_nat (List.length l) ++ String "," (" elements=[" ++ (join ", " (map show l) ++ "]") ++ ")") =
            show_nat (List.length m) ++ String "," (" elements=[" ++ (join ", " (map show m) ++ "]") ++ ")")) in E.
    apply cut_unique in E; [|apply free_comma..]. destruct E as [E1 E2].
    apply show_nat_inj in E1. apply (append_inv_l " elements=[") in E2.
    apply append_inv_r, append_inv_r in E2. apply join_inj in E2; auto using Forall_map_free.
    destruct l, m; try discriminate E1; split; auto; discriminate.
  - intros E. pose proof (f_equal (@List.length _) E) as L. rewrite !map_length in L. now rewrite E, L.
Qed.
(** Beyond 64 elements the contents are not printed, but the version counter
    is: vectors with different contents print alike, equal contents differently. *)
Theorem C89_vector_debug_refuted :
  (exists l m : list nat, l <> m /\ pv_debug show_nat (pv_from_iter l) = pv_debug show_nat (pv_from_iter m)) /\
  (exists (v w : pvec nat), pv_to_vec v = pv_to_vec w /\ pv_to_vec v <> Panic /\
                            pv_debug show_nat v <> pv_debug show_nat w).
Proof.
  split.
  - exists (repeat 0 65), (repeat 1 65). split; [discriminate|reflexivity].
  - exists (pv_from_iter (repeat 0 65)), (pv_push_back (pv_from_iter (repeat 0 64)) 0).
    vm_compute. repeat split; discriminate.
Qed.
Example C89_vector_case :
  pv_debug show_nat (pv_from_iter [1; 20]) = "PersistentVector(Inline, len=2, elements=[1, 20])" /\
  pv_debug show_nat (pv_from_iter (repeat 0 65)) = "PersistentVector(Tree, len=65, generation=0)".
Proof. split; reflexivity. Qed.

(** An application error prints its message and, if it has one, its context; both can be read back when no message's text
    contains an opening parenthesis. *)
Theorem C89_app_error_partial : forall M C (show : M -> string) (show_context : C -> string),
  (forall m, free_of "(" (show m)) -> forall d e : apperr M C,
  app_display show show_context d = app_display show show_context e <->
  show (ae_message d) = show (ae_message e) /\
  option_map show_context (ae_context d) = option_map show_context (ae_context e).
Proof.
  intros M C show sc Hf [m [c|]] [m' [c'|]]; unfold app_display; cbn [ae_message ae_context option_map].
  - split; [|now intros [-> [= ->]]].
    change (show m ++ " (Context: " ++ sc c ++ ")") with (show m ++ " " ++ String "(" ("Context: " ++ sc c ++ ")")).
    change (show m' ++ " (Context: " ++ sc c' ++ ")") with (show m' ++ " " ++ String "(" ("Context: " ++ sc c' ++ ")")).
    rewrite <- !append_assoc. intros E.
    apply cut_unique in E; [|apply free_append; split; [apply Hf|simpl; intuition discriminate]..].
    destruct E as [E1 E2]. apply append_inv_r in E1. rewrite !append_assoc in E2.
    apply (append_inv_l "Context: ") in E2. apply append_inv_r in E2. split; congruence.
  - split; [|now intros [_ [=]]]. intros E. exfalso. symmetry in E.
    apply (cut_never "(" (show m') (show m ++ " ") ("Context: " ++ sc c ++ ")")); [apply Hf|]. now rewrite append_assoc.
  - split; [|now intros [_ [=]]]. intros E. exfalso.
    apply (cut_never "(" (show m) (show m' ++ " ") ("Context: " ++ sc c' ++ ")")); [apply Hf|]. now rewrite append_assoc.
  - tauto.
Qed.
(** Without that condition they cannot: a message type whose [Debug] writes its text as it is. *)
Theorem C89_app_error_refuted : exists d e : apperr string string,
  ae_context d <> ae_context e /\ app_display (fun s => s) (fun s => s) d = app_display (fun s => s) (fun s => s) e.
Proof.
  exists (ae_with_context "disk" "full"), (ae_new "disk (Context: full)"). split; [discriminate|reflexivity].
Qed.
Example C89_app_error_case :
  app_display (fun s => s) show_nat (ae_with_context "not found" 7) = "not found (Context: 7)" /\
  app_display (fun s => s) show_nat (ae_new "not found") = "not found" /\ free_of "(" "not found".
Proof. split; [reflexivity|]. split; [reflexivity|]. simpl. intuition discriminate. Qed.

Print Assumptions C89_app_error_partial.
Print Assumptions C89_app_error_refuted.
Print Assumptions C89_pvec_error.
Print Assumptions C89_error_texts.
Print Assumptions C89_io_error.
Print Assumptions C89_maybe_error.
Print Assumptions C89_maybe_error_refuted.
Print Assumptions C89_wrappers.
Print Assumptions C89_wrapper_kinds.
Print Assumptions C89_choice_partial.
Print Assumptions C89_choice_refuted.
Print Assumptions C89_small_vector_debug_partial.
Print Assumptions C89_vector_debug_refuted.

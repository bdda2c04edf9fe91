(** C108: the SQL parser of [examples/advanced_parser.rs]. *)
From Coq Require Import List Arith NArith Bool String Lia.
From Verif Require Import Base ChoiceModel ParserModel ParserSpec ParserProps.
Import ListNotations.

Section Sql.
Variables ab wb : N -> bool.
Hypothesis apart : forall c, (128 <= c)%N -> ab c = true -> wb c = true -> False.

Notation wc := (word_char ab).
Notation sp := (space wb).
Notation whitespace := (whitespace wb).
Notation word := (word ab).
Notation condition_parser := (condition_parser ab wb).
Notation where_parser := (where_parser ab wb).

Definition head_not (P : N -> Prop) (i : list N) : Prop := match i with [] => True | c :: _ => ~ P c end.

Lemma space_ok : forall c, is_whitespace wb c = true <-> sp c.
Proof.
  intros c. unfold is_whitespace, space, between_chars. destruct (N.ltb_spec c 128).
  - rewrite orb_true_iff, andb_true_iff, !N.leb_le, N.eqb_eq. split; [lia|]. intros [?|[?|[? _]]]; lia.
  - split; [intros Hw; auto|]. intros [?|[?|[_ Hw]]]; [lia|lia|exact Hw].
Qed.
Lemma word_ok : forall c, is_alphanumeric ab c || N.eqb c 95 = true <-> wc c.
Proof.
  intros c. unfold is_alphanumeric, word_char, between_chars. destruct (N.ltb_spec c 128).
  - rewrite !orb_true_iff, !andb_true_iff, !N.leb_le, N.eqb_eq. split; [lia|].
    intros [?|[?|[?|[?|[? _]]]]]; lia.
  - rewrite orb_true_iff, N.eqb_eq. split; [intros [Hw|Hw]; auto 6; lia|].
    intros [?|[?|[?|[?|[_ Hw]]]]]; try lia. auto.
Qed.
Lemma apart_ok : forall c, wc c -> sp c -> False.
Proof.
  intros c [H|[H|[H|[H|[H1 H2]]]]] [H'|[H'|[H3 H4]]]; try lia. exact (apart c H1 H2 H4).
Qed.

(** ** Repeating one character *)

Lemma chars_read : forall (t : N -> bool) (P : N -> Prop), (forall c, t c = true <-> P c) -> forall xs r,
  Forall P xs -> head_not P r -> one_after_another (satisfy t) (xs ++ r) xs r.
Proof.
  intros t P HP xs r H Hr. induction H as [|x xs Hx H IH]; cbn.
  - constructor. pose proof (answers_new _ (fun input => match input with
      | first :: rest => if t first then ch_new (first, rest) [] else ch_empty | [] => ch_empty end) r) as A.
    destruct r as [|c r]; [exact A|]. cbn in *. destruct (t c) eqn:E; [apply HP in E; contradiction|exact A].
  - apply (one_more _ _ x (xs ++ r) []); [|exact IH].
    pose proof (answers_new _ (fun input => match input with
      | first :: rest => if t first then ch_new (first, rest) [] else ch_empty | [] => ch_empty end) (x :: xs ++ r)) as A.
    cbn in A. rewrite (proj2 (HP x) Hx) in A. exact A.
Qed.
Lemma chars_read_inv : forall (t : N -> bool) (P : N -> Prop), (forall c, t c = true <-> P c) -> forall i xs r,
  one_after_another (satisfy t) i xs r -> i = xs ++ r /\ Forall P xs /\ head_not P r.
Proof.
  intros t P HP i xs r H. induction H as [i H|i x r rs xs r' H H' (-> & F & Hr)].
  - split; [reflexivity|]. split; [constructor|]. destruct i as [|c i]; [exact I|]. cbn. intros Hc.
    pose proof (answers_new _ (fun input => match input with
      | first :: rest => if t first then ch_new (first, rest) [] else ch_empty | [] => ch_empty end) (c :: i)) as A.
    cbn in A. rewrite (proj2 (HP c) Hc) in A. discriminate (answers_unique _ _ _ _ _ A H).
  - pose proof (answers_new _ (fun input => match input with
      | first :: rest => if t first then ch_new (first, rest) [] else ch_empty | [] => ch_empty end) i) as A.
    destruct i as [|c i]; cbn in A; [discriminate (answers_unique _ _ _ _ _ A H)|].
    destruct (t c) eqn:E; pose proof (answers_unique _ _ _ _ _ A H) as Q; [|discriminate Q].
    injection Q as -> -> <-. split; [reflexivity|]. split; [constructor; [now apply HP|exact F]|exact Hr].
Qed.

Lemma steady_satisfy : forall t : N -> bool, steady (satisfy t).
Proof. intros t. apply steady_new. Qed.
Hint Resolve steady_satisfy steady_new : core.

Ltac steadies :=
  repeat first [ apply steady_or | apply steady_and_then; [|intros ?] | apply steady_map | apply steady_many
               | apply steady_optional | apply steady_new | progress unfold p_many1, p_sep_by | assumption ].

(** ** White space, words, keywords *)

Lemma whitespace_reads : forall s r, spaces wb s -> head_not sp r -> answers whitespace (s ++ r) [(s, r)].
Proof. intros s r Hs Hr. apply answers_many. now apply (chars_read _ sp space_ok). Qed.
Lemma whitespace_none : forall r, head_not sp r -> answers whitespace r [([], r)].
Proof. intros r H. apply (whitespace_reads [] r); [constructor|exact H]. Qed.
Lemma steady_whitespace : steady whitespace.
Proof. unfold ParserModel.whitespace. steadies. Qed.
Lemma whitespace_inv : forall i s r, finds whitespace i s r -> i = s ++ r /\ spaces wb s /\ head_not sp r.
Proof.
  intros i s r H. apply finds_many in H; [|apply steady_satisfy]. now apply (chars_read_inv _ sp space_ok).
Qed.

Lemma steady_word : steady word.
Proof. unfold ParserModel.word. steadies. Qed.
Lemma word_reads : forall w r, a_word ab w -> head_not wc r -> answers word (w ++ r) [(w, r)].
Proof.
  intros w r [Hw F] Hr. destruct w as [|c w]; [congruence|]. inversion F as [|? ? Hc F']; subst.
  pose proof (chars_read _ wc word_ok (c :: w) r F Hr) as H.
  assert (A : answers (satisfy (fun c => is_alphanumeric ab c || N.eqb c 95)) (c :: w ++ r) [(c, w ++ r)]).
  { pose proof (answers_new _ (fun input => match input with
      | first :: rest => if is_alphanumeric ab first || N.eqb first 95 then ch_new (first, rest) [] else ch_empty
      | [] => ch_empty end) (c :: w ++ r)) as A.
    cbn [values] in A. rewrite (proj2 (word_ok c) Hc) in A. exact A. }
  apply (answers_map _ _ (p_many1 _) (fun cs => cs) _ [(c :: w, r)]).
  eapply answers_then; [exact A|].
  apply (answers_map _ _ (p_many _) (fun l => [c] ++ l) _ [(w, r)]).
  apply answers_many. now apply (chars_read _ wc word_ok).
Qed.
Lemma word_none : forall r, head_not wc r -> answers word r [].
Proof.
  intros r H. apply (answers_map _ _ (p_many1 _) (fun cs => cs) _ []). apply answers_then_none.
  pose proof (answers_new _ (fun input => match input with
      | first :: rest => if is_alphanumeric ab first || N.eqb first 95 then ch_new (first, rest) [] else ch_empty
      | [] => ch_empty end) r) as A.
  destruct r as [|c r]; [exact A|]. cbn [values] in A. cbn in H.
  destruct (is_alphanumeric ab c || N.eqb c 95) eqn:E; [apply word_ok in E; contradiction|exact A].
Qed.
Lemma word_inv : forall i w r, finds word i w r -> i = w ++ r /\ a_word ab w /\ head_not wc r.
Proof.
  intros i w r H. apply finds_map in H; [|steadies]. destruct H as (x & -> & H).
  apply finds_and_then in H; [|steadies|intros; steadies]. destruct H as (c & s & H1 & H2).
  apply finds_map in H2; [|steadies]. destruct H2 as (xs & -> & H2). apply finds_many in H2; [|steadies].
  apply (chars_read_inv _ wc word_ok) in H2. destruct H2 as (-> & F & Hr).
  apply finds_new in H1. destruct i as [|d i]; [destruct H1|].
  destruct (is_alphanumeric ab d || N.eqb d 95) eqn:E; [|destruct H1]. destruct H1 as [[= -> ->]|[]].
  split; [reflexivity|]. split; [|exact Hr]. split; [discriminate|]. constructor; [now apply word_ok|exact F].
Qed.

Lemma case_ok : forall u c, (65 <= u <= 90)%N ->
  (eq_ignore_ascii_case u c = true <-> c = u \/ (65 <= u <= 90 /\ c = u + 32)%N).
Proof.
  intros u c Hu. unfold eq_ignore_ascii_case, to_ascii_lowercase, between_chars. rewrite N.eqb_eq.
  destruct (N.leb_spec 65 u), (N.leb_spec u 90), (N.leb_spec 65 c), (N.leb_spec c 90); cbn; lia.
Qed.

Definition upper (k : string) : Prop := Forall (fun u => (65 <= u <= 90)%N) (chars k).

Lemma zip_reads : forall us t r, Forall (fun u => (65 <= u <= 90)%N) us ->
  Forall2 (fun u c => c = u \/ (65 <= u <= 90 /\ c = u + 32)%N) us t ->
  zip_all eq_ignore_ascii_case us (t ++ r) = true /\ skipn (List.length us) (t ++ r) = r /\
  (List.length (t ++ r) <? List.length us) = false.
Proof.
  intros us t r Hu F. induction F as [|u c us t Hc F IH]; cbn.
  - auto.
  - inversion Hu; subst. destruct IH as (I1 & I2 & I3); [assumption|]. rewrite I1, I2.
    rewrite (proj2 (case_ok u c H1) Hc). repeat split. exact I3.
Qed.
Lemma zip_inv : forall us i, Forall (fun u => (65 <= u <= 90)%N) us ->
  (List.length i <? List.length us) = false -> zip_all eq_ignore_ascii_case us i = true ->
  exists t, i = t ++ skipn (List.length us) i /\
    Forall2 (fun u c => c = u \/ (65 <= u <= 90 /\ c = u + 32)%N) us t.
Proof.
  intros us i Hu. revert i. induction Hu as [|u us Hu F IH]; intros i Hl Hz.
  - exists []. auto.
  - destruct i as [|c i]; [discriminate Hl|]. cbn in Hz. apply andb_true_iff in Hz. destruct Hz as [Hz1 Hz2].
    destruct (IH i Hl Hz2) as (t & Ht & Ft). exists (c :: t). cbn. split; [now rewrite Ht at 1|].
    constructor; [now apply case_ok|exact Ft].
Qed.

Lemma keyword_reads : forall k t r, upper k -> in_any_case k t ->
  answers (keyword (chars k)) (t ++ r) [(chars k, r)].
Proof.
  intros k t r Hu Hk. destruct (zip_reads _ t r Hu Hk) as (H1 & H2 & H3).
  pose proof (answers_new _ (fun input => if List.length input <? List.length (chars k) then ch_empty
    else let matches := zip_all eq_ignore_ascii_case (chars k) input in
      if matches then ch_new (chars k, skipn (List.length (chars k)) input) [] else ch_empty) (t ++ r)) as A.
  cbv beta zeta in A. rewrite H3, H1, H2 in A. exact A.
Qed.
Lemma keyword_inv : forall k i x r, upper k -> finds (keyword (chars k)) i x r ->
  exists t, i = t ++ r /\ in_any_case k t.
Proof.
  intros k i x r Hu H. apply finds_new in H. destruct (List.length i <? List.length (chars k)) eqn:E; [destruct H|].
  cbv zeta in H. destruct (zip_all eq_ignore_ascii_case (chars k) i) eqn:Ez; [|destruct H].
  destruct H as [[= _ <-]|[]]. exact (zip_inv _ _ Hu E Ez).
Qed.
(** a different first letter *)
Lemma keyword_none : forall k i u us, chars k = u :: us ->
  match i with [] => True | c :: _ => eq_ignore_ascii_case u c = false end -> answers (keyword (chars k)) i [].
Proof.
  intros k i u us Hk H.
  pose proof (answers_new _ (fun input => if List.length input <? List.length (chars k) then ch_empty
    else let matches := zip_all eq_ignore_ascii_case (chars k) input in
      if matches then ch_new (chars k, skipn (List.length (chars k)) input) [] else ch_empty) i) as A.
  cbv beta zeta in A. destruct (List.length i <? List.length (chars k)) eqn:El; [exact A|].
  destruct (zip_all eq_ignore_ascii_case (chars k) i) eqn:E; [|exact A]. exfalso.
  rewrite Hk in *. destruct i as [|c i]; [discriminate El|cbn in E; rewrite H in E; discriminate].
Qed.
Lemma keyword_head : forall k t, in_any_case k t -> forall u us, chars k = u :: us ->
  exists c t', t = c :: t' /\ (c = u \/ (65 <= u <= 90 /\ c = u + 32)%N).
Proof. intros k t H u us E. unfold in_any_case in H. rewrite E in H. inversion H; subst. eauto. Qed.
Lemma case_differs : forall u c, (c = u \/ c = u + 32)%N \/ eq_ignore_ascii_case u c = false \/ ~ (65 <= u <= 90)%N.
Proof.
  intros u c. unfold eq_ignore_ascii_case, to_ascii_lowercase, between_chars.
  destruct (N.leb_spec 65 u), (N.leb_spec u 90), (N.leb_spec 65 c), (N.leb_spec c 90); cbn;
    try (destruct (N.eqb_spec (u + 32) c)); try (destruct (N.eqb_spec (u + 32) (c + 32))); lia.
Qed.
(** no keyword begins where no word can *)
Lemma keyword_none_word : forall k r, upper k -> k <> EmptyString -> head_not wc r -> answers (keyword (chars k)) r [].
Proof.
  intros k r Hu Hk Hr. destruct (chars k) as [|u us] eqn:E; [destruct k; [congruence|discriminate]|]. rewrite <- E.
  apply (keyword_none k r u us E). destruct r as [|c r]; [exact I|]. cbn in Hr.
  unfold upper in Hu. rewrite E in Hu. inversion Hu; subst.
  destruct (case_differs u c) as [H|[H|H]]; [exfalso; apply Hr|exact H|contradiction].
  unfold word_char. lia.
Qed.

(** ** Conditions *)

Lemma head_not_app : forall (P Q : N -> Prop) s r, Forall Q s -> (forall c, Q c -> P c -> False) -> head_not P r ->
  head_not P (s ++ r).
Proof. intros P Q s r F H Hr. destruct F as [|c s Hc F]; [exact Hr|]. cbn. intros Hp. exact (H c Hc Hp). Qed.
Lemma spaces_then : forall s r, spaces wb s -> head_not wc r -> head_not wc (s ++ r).
Proof. intros s r Hs Hr. apply (head_not_app wc sp); auto. intros c H1 H2. exact (apart_ok c H2 H1). Qed.
Lemma some_spaces_then : forall s r, some_spaces wb s -> head_not wc (s ++ r).
Proof.
  intros s r [Hn Hs]. destruct s as [|c s]; [congruence|]. inversion Hs; subst. cbn. intros H. exact (apart_ok c H H1).
Qed.
Lemma word_then : forall w r, a_word ab w -> head_not sp (w ++ r).
Proof.
  intros w r [Hn Hw]. destruct w as [|c w]; [congruence|]. inversion Hw; subst. cbn. intros H. exact (apart_ok c H1 H).
Qed.
Lemma keyword_then : forall k t r, upper k -> k <> EmptyString -> in_any_case k t -> head_not sp (t ++ r).
Proof.
  intros k t r Hu Hk H. destruct (chars k) as [|u us] eqn:E; [destruct k; [congruence|discriminate]|].
  destruct (keyword_head k t H u us E) as (c & t' & -> & Hc). cbn. intros Hs. unfold upper in Hu. rewrite E in Hu.
  inversion Hu; subst. apply (apart_ok c); [|exact Hs]. unfold word_char. lia.
Qed.
Lemma keyword_is_word : forall k t r, upper k -> k <> EmptyString -> in_any_case k t -> head_not wc (t ++ r) -> False.
Proof.
  intros k t r Hu Hk H. destruct (chars k) as [|u us] eqn:E; [destruct k; [congruence|discriminate]|].
  destruct (keyword_head k t H u us E) as (c & t' & -> & Hc). cbn. intros Hs. unfold upper in Hu. rewrite E in Hu.
  inversion Hu; subst. apply Hs. unfold word_char. lia.
Qed.

Definition operators : list (list N) := [chars "!="; chars "="; chars "<"; chars ">"].
Lemma operator_reads : forall op r, In op operators -> answers operator_parser (op ++ r) [(op, r)].
Proof. intros op r [<-|[<-|[<-|[<-|[]]]]]; exists 0; intros m _; destruct r; reflexivity. Qed.
Lemma steady_operator : steady operator_parser.
Proof. unfold operator_parser, sequence, item. steadies. Qed.
Lemma item_inv : forall x i y r, finds (item N.eqb x) i y r -> i = x :: r.
Proof.
  intros x i y r (rs & Ha & Hi). apply (proj1 (proj2 (C107_items N N.eqb N.eqb_eq))) in Ha.
  destruct Ha as [(r' & -> & ->)|[_ ->]]; [|destruct Hi]. destruct Hi as [[= <- <-]|[]]. reflexivity.
Qed.
Lemma operator_inv : forall i op r, finds operator_parser i op r -> In op operators /\ i = op ++ r.
Proof.
  intros i op r H. unfold operator_parser in H.
  apply finds_or in H; [|unfold sequence, item; steadies|unfold item; steadies]. destruct H as [H|H].
  1: apply finds_or in H; [|unfold sequence, item; steadies|unfold item; steadies]; destruct H as [H|H].
  1: apply finds_or in H; [|unfold sequence, item; steadies|unfold item; steadies]; destruct H as [H|H].
  all: apply finds_map in H; [|unfold sequence, item; steadies]; destruct H as (x & -> & H).
  1: { destruct H as (rs & Ha & Hi). apply (proj2 (proj2 (C107_items N N.eqb N.eqb_eq))) in Ha.
       destruct Ha as [(r' & -> & ->)|[_ ->]]; [|destruct Hi]. destruct Hi as [[= <- <-]|[]]. split; [now left|reflexivity]. }
  all: apply item_inv in H; subst i; split; [cbn; auto|reflexivity].
Qed.
Lemma operator_then : forall op r, In op operators -> head_not wc (op ++ r) /\ head_not sp (op ++ r).
Proof.
  intros op r [<-|[<-|[<-|[<-|[]]]]]; split; cbn; unfold word_char, space; lia.
Qed.

Lemma steady_condition : steady condition_parser.
Proof.
  unfold ParserModel.condition_parser. pose proof steady_word. pose proof steady_whitespace. pose proof steady_operator.
  steadies.
Qed.
Lemma condition_reads : forall c t r, condition_text ab wb c t -> head_not wc r -> answers condition_parser (t ++ r) [(c, r)].
Proof.
  intros c t r H Hr. destruct H as [f s1 op s2 v Hf Hs1 Hop Hs2 Hv]. rewrite <- !app_assoc.
  destruct (operator_then op (s2 ++ v ++ r) Hop) as [Ho1 Ho2].
  eapply answers_then; [apply word_reads; [exact Hf|now apply spaces_then]|].
  eapply answers_then.
  { eapply answers_then; [apply whitespace_reads; [exact Hs1|exact Ho2]|]. apply operator_reads. exact Hop. }
  apply (answers_map _ _ _ (fun value => mkCondition f op value) _ [(v, r)]).
  eapply answers_then; [apply whitespace_reads; [exact Hs2|now apply word_then]|]. now apply word_reads.
Qed.
Lemma condition_inv : forall i c r, finds condition_parser i c r ->
  exists t, i = t ++ r /\ condition_text ab wb c t /\ head_not wc r.
Proof.
  intros i c r H. pose proof steady_word. pose proof steady_whitespace. pose proof steady_operator.
  apply finds_and_then in H; [|assumption|intros; steadies]. destruct H as (f & i1 & Hf & H).
  apply finds_and_then in H; [|steadies|intros; steadies]. destruct H as (op & i2 & Hop & H).
  apply finds_and_then in Hop; [|assumption|intros; assumption]. destruct Hop as (s1 & i3 & Hs1 & Hop).
  apply finds_map in H; [|steadies]. destruct H as (v & -> & H).
  apply finds_and_then in H; [|assumption|intros; assumption]. destruct H as (s2 & i4 & Hs2 & Hv).
  apply word_inv in Hf. apply whitespace_inv in Hs1. apply operator_inv in Hop. apply whitespace_inv in Hs2.
  apply word_inv in Hv.
  destruct Hf as (-> & Hf & _). destruct Hs1 as (-> & Hs1 & _). destruct Hop as (Hop & ->).
  destruct Hs2 as (-> & Hs2 & _). destruct Hv as (-> & Hv & Hr).
  exists (f ++ s1 ++ op ++ s2 ++ v). rewrite <- !app_assoc. split; [reflexivity|]. split; [now constructor|exact Hr].
Qed.
Lemma condition_starts : forall c t r, condition_text ab wb c t -> head_not sp (t ++ r).
Proof. intros c t r []. rewrite <- app_assoc. now apply word_then. Qed.
Lemma conditions_start : forall cs t r, conditions_text ab wb cs t -> head_not sp (t ++ r).
Proof.
  intros cs t r []. - eapply condition_starts; eauto. - rewrite <- app_assoc. eapply condition_starts; eauto.
Qed.

(** ** Where *)

Notation and_sep := (p_and_then (p_and_then whitespace (fun _ => keyword (chars "AND"))) (fun _ => whitespace)).
Lemma steady_and : steady and_sep.
Proof. pose proof steady_whitespace. unfold keyword. steadies. Qed.

Definition quiet (r : list N) : Prop := match r with [] => True | c :: _ => ~ wc c /\ ~ sp c end.
Lemma quiet_word : forall r, quiet r -> head_not wc r.
Proof. now intros [|c r] H; [|destruct H]. Qed.
Lemma quiet_space : forall r, quiet r -> head_not sp r.
Proof. now intros [|c r] H; [|destruct H]. Qed.

Lemma upper_words : upper "AND" /\ upper "WHERE" /\ upper "SELECT" /\ upper "FROM" /\ upper "INSERT" /\ upper "INTO" /\
  upper "VALUES" /\ upper "UPDATE" /\ upper "SET".
Proof. unfold upper. repeat split; repeat (constructor; [cbn; lia|]); constructor. Qed.
Ltac uppers := pose proof upper_words as (UAnd & UWhere & USelect & UFrom & UInsert & UInto & UValues & UUpdate & USet).

Lemma conditions_read : forall cs t r, conditions_text ab wb cs t -> quiet r ->
  exists c r1 ps, cs = c :: map snd ps /\ answers condition_parser (t ++ r) [(c, r1)] /\ pairs and_sep condition_parser r1 ps r.
Proof.
  uppers. intros cs t r H Hr. induction H as [c t Hc|c t s1 k s2 cs t' Hc Hs1 Hk Hs2 H IH].
  - exists c, r, []. split; [reflexivity|]. split; [apply condition_reads; [exact Hc|now apply quiet_word]|].
    apply (no_pair _ _ r []); [|intros x r' []]. apply answers_then_none.
    eapply answers_then; [apply whitespace_none; now apply quiet_space|].
    apply keyword_none_word; [exact UAnd|discriminate|now apply quiet_word].
  - destruct IH as (c' & r1 & ps & -> & Ha & Hp). rewrite <- !app_assoc.
    exists c, (s1 ++ k ++ s2 ++ t' ++ r), ((s2, c') :: ps). split; [reflexivity|].
    split; [apply condition_reads; [exact Hc|now apply some_spaces_then]|].
    apply (next_pair _ _ _ [] s2 (t' ++ r) [] c' r1 []); auto; [|intros ? ? []|intros ? ? []].
    eapply answers_then.
    { eapply answers_then; [apply whitespace_reads; [apply Hs1|]|].
      - now apply (keyword_then "AND").
      - apply keyword_reads; [exact UAnd|exact Hk]. }
    apply whitespace_reads; [exact Hs2|]. now apply (conditions_start (c' :: map snd ps)).
Qed.

Lemma steady_where : steady where_parser.
Proof.
  unfold ParserModel.where_parser. pose proof steady_whitespace. pose proof steady_condition. pose proof steady_and.
  unfold p_sep_by. steadies; unfold keyword; steadies.
Qed.

Lemma where_head : forall s1 k s2 i x r rs, spaces wb s1 -> in_any_case "WHERE" k -> spaces wb s2 -> head_not sp i ->
  answers (p_sep_by condition_parser and_sep) i ((x, r) :: rs) ->
  exists rs', answers where_parser (s1 ++ k ++ s2 ++ i) ((mkWhere x, r) :: rs').
Proof.
  uppers. intros s1 k s2 i x r rs H1 Hk H2 Hi H. eexists.
  eapply answers_then.
  { eapply answers_then.
    { eapply answers_then; [apply whitespace_reads; [exact H1|]|].
      - now apply (keyword_then "WHERE").
      - apply keyword_reads; [exact UWhere|exact Hk]. }
    apply whitespace_reads; [exact H2|exact Hi]. }
  apply (answers_map _ _ _ mkWhere _ _ H).
Qed.

Lemma where_reads : forall wh t r, where_text ab wb wh t -> quiet r ->
  answers (p_optional where_parser) (t ++ r) [(wh, r)].
Proof.
  uppers. intros wh t r H Hr. destruct H as [|s1 k s2 cs t Hs1 Hk Hs2 Hc].
  - cbn. apply (answers_optional _ where_parser r []). apply answers_then_none. apply answers_then_none.
    eapply answers_then; [apply whitespace_none; now apply quiet_space|].
    apply keyword_none_word; [exact UWhere|discriminate|now apply quiet_word].
  - rewrite <- !app_assoc. pose proof (conditions_start cs t r Hc) as Hst.
    destruct (conditions_read cs t r Hc Hr) as (c & r1 & ps & -> & Ha & Hp).
    destruct (C107_lists _ _ _ condition_parser and_sep (t ++ r) [(c, r1)] (fun _ => ps) (fun _ => r) Ha) as [_ G].
    { intros x s [[= <- <-]|[]]. exact Hp. }
    cbn in G.
    destruct (where_head s1 k s2 (t ++ r) _ _ _ (proj2 Hs1) Hk Hs2 Hst G) as [rs' Hw].
    exact (answers_optional _ where_parser _ _ Hw).
Qed.

Lemma bare_reads : forall wh t r, bare_where_text wb wh t -> head_not sp r -> answers condition_parser r [] ->
  answers (p_optional where_parser) (t ++ r) [(wh, r)].
Proof.
  intros wh t r H Hr Hc. destruct H as [s1 k s2 Hs1 Hk Hs2]. rewrite <- !app_assoc.
  destruct (C107_lists _ _ _ condition_parser and_sep r [] (fun _ => []) (fun _ => r) Hc) as [_ G]; [intros x s []|].
  cbn in G. destruct (where_head s1 k s2 r _ _ _ (proj2 Hs1) Hk Hs2 Hr G) as [rs' Hw].
  exact (answers_optional _ where_parser _ _ Hw).
Qed.

(** ** What where finds *)

Lemma and_inv : forall i x r, finds and_sep i x r ->
  exists s1 k s2, i = s1 ++ k ++ s2 ++ r /\ spaces wb s1 /\ in_any_case "AND" k /\ spaces wb s2.
Proof.
  uppers. intros i x r H. pose proof steady_whitespace.
  apply finds_and_then in H; [|unfold keyword; steadies|intros; assumption]. destruct H as (k' & i1 & H & H2).
  apply finds_and_then in H; [|assumption|intros; unfold keyword; steadies]. destruct H as (s1 & i2 & H1 & Hk).
  apply whitespace_inv in H1. apply whitespace_inv in H2. apply keyword_inv in Hk; [|exact UAnd].
  destruct H1 as (-> & H1 & _). destruct Hk as (k & -> & Hk). destruct H2 as (-> & H2 & _).
  exists s1, k, x. auto.
Qed.

Lemma more_conditions : forall i cs r, one_after_another (p_and_then and_sep (fun _ => condition_parser)) i cs r ->
  head_not wc i -> forall c t, condition_text ab wb c t ->
  exists t', t ++ i = t' ++ r /\ conditions_text ab wb (c :: cs) t' /\ head_not wc r.
Proof.
  uppers. intros i cs r H. pose proof steady_and as Sa. pose proof steady_condition as Sc.
  induction H as [i Ha|i c' i1 rs cs r Ha H IH]; intros Hi c t Hc.
  - exists t. split; [reflexivity|]. split; [now constructor|exact Hi].
  - assert (Hf : finds (p_and_then and_sep (fun _ => condition_parser)) i c' i1)
      by (exists ((c', i1) :: rs); cbn; auto).
    apply finds_and_then in Hf; [|exact Sa|intros; exact Sc]. destruct Hf as (x & i2 & Hx & Hcd).
    apply and_inv in Hx. destruct Hx as (s1 & k & s2 & -> & H1 & Hk & H2).
    apply condition_inv in Hcd. destruct Hcd as (t2 & -> & Ht2 & Hi1).
    destruct (IH Hi1 c' t2 Ht2) as (t3 & E & Ht3 & Hr).
    exists (t ++ s1 ++ k ++ s2 ++ t3). rewrite <- !app_assoc, E. split; [reflexivity|]. split; [|exact Hr].
    constructor; auto. split; [|exact H1]. intros ->. cbn in Hi.
    now apply (keyword_is_word "AND" k (s2 ++ t2 ++ i1) UAnd ltac:(discriminate) Hk).
Qed.

(** the first parse of a list is empty only if there is no element *)
Lemma sep_by_first : forall I O S (p : parser I O) (s : parser I S) i r rs, steady p ->
  answers (p_sep_by p s) i (([], r) :: rs) -> answers p i [] /\ r = i.
Proof.
  intros I O S p s i r rs Sp [n Hn]. specialize (Hn n (le_n n)). unfold p_sep_by in Hn. rewrite or_eq, and_then_eq in Hn.
  destruct (p n i) as [[c]|] eqn:E; [|discriminate]. cbn [values] in Hn.
  pose proof (answers_at _ p n i _ Sp E) as Ha. cbn [values] in Ha.
  destruct c as [|[x r'] c].
  - cbn in Hn. injection Hn as <- _. auto.
  - exfalso. cbn [gather] in Hn. rewrite map_eq in Hn.
    destruct (p_many (p_and_then s (fun _ => p)) n r') as [d|] eqn:Em; [|discriminate Hn].
    unfold p_many in Em. destruct (many_loop _ n n [] r') as [[xs q]|]; [|discriminate Em]. injection Em as <-.
    cbn [option_map values map ch_new] in Hn.
    destruct (gather _ n c); cbn in Hn; discriminate Hn.
Qed.

(** at most one parse *)
Definition single {O} (p : parser N O) : Prop := forall n i c, p n i = Some c -> List.length (values c) <= 1.
Lemma single_and_then : forall O B (p : parser N O) (f : O -> parser N B), single p -> (forall x, single (f x)) ->
  single (p_and_then p f).
Proof.
  intros O B p f Hp Hf n i c H. rewrite and_then_eq in H. destruct (p n i) as [[a]|] eqn:E; [|discriminate].
  specialize (Hp n i _ E). cbn in *. destruct a as [|[x r] [|y a]]; cbn in *; [|clear Hp|lia].
  - injection H as <-. cbn. lia.
  - destruct (f x n r) as [d|] eqn:Ed; [|discriminate]. injection H as <-. cbn. rewrite app_nil_r. apply (Hf x n r d Ed).
Qed.
Lemma single_many : forall O (p : parser N O), single (p_many p).
Proof.
  intros O p n i c H. unfold p_many in H. destruct (many_loop p n n [] i) as [[xs r]|]; [|discriminate].
  injection H as <-. cbn. lia.
Qed.
Lemma single_keyword : forall k, single (keyword k).
Proof.
  intros k n i c H. unfold keyword, p_new in H. injection H as <-.
  destruct (_ <? _); [cbn; lia|]. destruct (zip_all _ _ _); cbn; lia.
Qed.

Lemma answers_single : forall O B (p : parser N O) (f : O -> parser N B) i y s rs, single p -> steady p ->
  (forall x, steady (f x)) -> answers (p_and_then p f) i ((y, s) :: rs) ->
  exists x r, finds p i x r /\ answers (f x) r ((y, s) :: rs).
Proof.
  intros O B p f i y s rs Hp Sp Sf [n Hn]. specialize (Hn n (le_n n)). rewrite and_then_eq in Hn.
  destruct (p n i) as [[a]|] eqn:E; [|discriminate]. pose proof (Hp n i _ E) as Hl. cbn in *.
  destruct a as [|[x r] [|z a]]; cbn in *; [discriminate| |lia].
  destruct (f x n r) as [d|] eqn:Ed; [|discriminate]. cbn in Hn. rewrite app_nil_r in Hn.
  exists x, r. split; [apply (finds_at _ p n i _ x r Sp E); now left|].
  pose proof (answers_at _ _ n r d (Sf x) Ed) as Ha. injection Hn as Hn. now rewrite Hn in Ha.
Qed.

Lemma where_inv : forall i o r, finds (p_optional where_parser) i o r -> head_not wc i ->
  exists t, i = t ++ r /\
    ((where_text ab wb o t /\ head_not wc r) \/
     (bare_where_text wb o t /\ answers condition_parser r [] /\ head_not sp r)).
Proof.
  uppers. intros i o r (rs & Ho & Hin) Hi.
  pose proof steady_whitespace as Sw. pose proof steady_condition as Sc. pose proof steady_and as Sa.
  assert (Hw : exists rs', answers where_parser i rs' /\
    (o, r) = match rs' with [] => (None, i) | (x, r') :: _ => (Some x, r') end).
  { destruct Ho as [n Hn]. specialize (Hn n (le_n n)). unfold p_optional, p_parse in Hn.
    destruct (where_parser n i) as [c|] eqn:E; [|discriminate]. exists (values c).
    split; [exact (answers_at _ where_parser n i c steady_where E)|].
    destruct (values c) as [|[x r'] vs]; cbn in Hn; injection Hn as <-; destruct Hin as [<-|[]]; reflexivity. }
  destruct Hw as ([|[w r'] rs'] & Hw & [= -> ->]).
  - exists []. split; [reflexivity|]. left. split; [constructor|exact Hi].
  - unfold ParserModel.where_parser in Hw. apply answers_single in Hw.
    2:{ apply single_and_then; [apply single_and_then; [apply single_many|intros; apply single_keyword]|].
        intros; apply single_many. }
    2:{ unfold keyword. steadies. }
    2:{ intros x. unfold p_sep_by. steadies. }
    destruct Hw as (x & i1 & Hx & Hw).
    apply finds_and_then in Hx; [|unfold keyword; steadies|intros; assumption]. destruct Hx as (k' & i2 & Hx & H2).
    apply finds_and_then in Hx; [|assumption|intros; unfold keyword; steadies]. destruct Hx as (s1 & i3 & H1 & Hk).
    apply whitespace_inv in H1. apply whitespace_inv in H2. apply keyword_inv in Hk; [|exact UWhere].
    destruct H1 as (-> & H1 & _). destruct Hk as (k & -> & Hk). destruct H2 as (-> & H2 & Hi1).
    assert (Hs1 : some_spaces wb s1).
    { split; [|exact H1]. intros ->. cbn in Hi.
      now apply (keyword_is_word "WHERE" k (x ++ i1) UWhere ltac:(discriminate) Hk). }
    assert (Hsb : exists cs rs2, w = mkWhere cs /\ answers (p_sep_by condition_parser and_sep) i1 ((cs, r') :: rs2)).
    { destruct Hw as [n Hn]. specialize (Hn n (le_n n)). rewrite map_eq in Hn.
      destruct (p_sep_by condition_parser and_sep n i1) as [c|] eqn:E; [|discriminate].
      cbn in Hn. injection Hn as Hn. destruct (values c) as [|[cs r2] vs] eqn:Ev; cbn in Hn; [discriminate|].
      injection Hn as <- <- _. exists cs, vs. split; [reflexivity|]. rewrite <- Ev.
      apply (answers_at _ _ n i1 c); [|exact E]. unfold p_sep_by. steadies. }
    destruct Hsb as (cs & rs2 & -> & Hsb). destruct cs as [|c cs].
    + apply sep_by_first in Hsb; [|exact Sc]. destruct Hsb as [Hc ->].
      exists (s1 ++ k ++ x). rewrite <- !app_assoc. split; [reflexivity|]. right. split; [now constructor|]. auto.
    + assert (Hf : finds (p_sep_by condition_parser and_sep) i1 (c :: cs) r') by (eexists; split; [exact Hsb|now left]).
      unfold p_sep_by in Hf. apply finds_or in Hf; [|steadies|steadies]. destruct Hf as [Hf|Hf].
      2:{ apply finds_new in Hf. destruct Hf as [[=]|[]]. }
      apply finds_and_then in Hf; [|assumption|intros; steadies]. destruct Hf as (c' & i4 & Hc & Hf).
      apply finds_map in Hf; [|steadies]. destruct Hf as (cs' & [= -> ->] & Hf). apply finds_many in Hf; [|steadies].
      apply condition_inv in Hc. destruct Hc as (t & -> & Ht & Hi4).
      destruct (more_conditions _ _ _ Hf Hi4 c' t Ht) as (t' & E & Ht' & Hr).
      exists (s1 ++ k ++ x ++ t'). rewrite <- !app_assoc, <- E. split; [reflexivity|]. left. split; [now constructor|exact Hr].
Qed.

(** ** Queries *)

Notation select_parser := (select_parser ab wb).
Notation from_parser := (from_parser ab wb).
Notation insert_parser := (insert_parser ab wb).
Notation update_parser := (update_parser ab wb).
Notation sql_query_parser := (sql_query_parser ab wb).
Notation more_columns := (p_and_then (p_and_then (item N.eqb 44%N) (fun _ => whitespace)) (fun _ => word)).

Definition head_is (c : N) (i : list N) : Prop := match i with [] => False | d :: _ => d = c end.
Lemma comma_none : forall i, ~ head_is 44%N i -> answers (item N.eqb 44%N) i [].
Proof.
  intros i H. destruct (proj1 (proj2 (C107_items N N.eqb N.eqb_eq)) 44%N i []) as [_ G]. apply G. right.
  split; [|reflexivity]. intros r ->. now apply H.
Qed.
Lemma comma_reads : forall i, answers (item N.eqb 44%N) (44%N :: i) [(44%N, i)].
Proof. intros i. exists 0. intros m _. reflexivity. Qed.

Lemma columns_start : forall cs t r, columns_text ab wb cs t -> head_not sp (t ++ r).
Proof. intros cs t r []; [|rewrite <- app_assoc]; now apply word_then. Qed.
Lemma columns_read : forall cs t i, columns_text ab wb cs t -> head_not wc i -> ~ head_is 44%N i ->
  exists w ws r1, cs = w :: ws /\ answers word (t ++ i) [(w, r1)] /\ one_after_another more_columns r1 ws i /\
    match ws with [] => r1 = i | _ => head_is 44%N r1 end.
Proof.
  intros cs t i H Hw Hc. induction H as [w H|w s ws t H Hs Ht IH].
  - exists w, [], i. split; [reflexivity|]. split; [now apply word_reads|]. split; [|reflexivity].
    constructor. apply answers_then_none, answers_then_none. now apply comma_none.
  - destruct IH as (w' & ws' & r1 & -> & Ha & Hm & _). rewrite <- !app_assoc.
    exists w, (w' :: ws'), (chars "," ++ s ++ t ++ i). split; [reflexivity|].
    split; [apply word_reads; [exact H|cbn; unfold word_char; lia]|]. split; [|reflexivity].
    apply (one_more _ _ w' r1 []); [|exact Hm].
    eapply answers_then; [|exact Ha]. eapply answers_then; [apply comma_reads|].
    apply whitespace_reads; [exact Hs|]. now apply (columns_start (w' :: ws')).
Qed.

(** the [keyword], then white space, then a [word] *)
Lemma space_keyword_word : forall k s1 t s2 w r, upper k -> k <> EmptyString -> spaces wb s1 -> in_any_case k t ->
  spaces wb s2 -> a_word ab w -> head_not wc r ->
  answers (p_and_then (p_and_then (p_and_then whitespace (fun _ => keyword (chars k))) (fun _ => whitespace)) (fun _ => word))
    (s1 ++ t ++ s2 ++ w ++ r) [(w, r)].
Proof.
  intros k s1 t s2 w r Hu Hk H1 Ht H2 Hw Hr. eapply answers_then; [|apply word_reads; eauto].
  eapply answers_then; [|apply whitespace_reads; [exact H2|now apply word_then]].
  eapply answers_then; [apply whitespace_reads; [exact H1|now apply (keyword_then k)]|]. now apply keyword_reads.
Qed.
Lemma keyword_space : forall k t s r, upper k -> in_any_case k t -> spaces wb s -> head_not sp r ->
  answers (p_and_then (keyword (chars k)) (fun _ => whitespace)) (t ++ s ++ r) [(s, r)].
Proof. intros k t s r Hu Ht Hs Hr. eapply answers_then; [now apply keyword_reads|now apply whitespace_reads]. Qed.

Definition times (q : sql_query) : nat := match q with Select [_] _ _ => 2 | _ => 1 end.

Section Tail.
(** how the where clause is written, and what is left *)
Variables (wt : option where_clause -> list N -> Prop) (r : list N).
Hypothesis tail : forall wh t, wt wh t -> answers (p_optional where_parser) (t ++ r) [(wh, r)].
Hypothesis tail_word : forall wh t, wt wh t -> head_not wc (t ++ r).
Hypothesis rest_word : head_not wc r.

Lemma other_letter : forall k t rest k' u us u' us', in_any_case k t -> chars k = u :: us -> chars k' = u' :: us' ->
  (65 <= u <= 90)%N -> (65 <= u' <= 90)%N -> u <> u' -> answers (keyword (chars k')) (t ++ rest) [].
Proof.
  intros k t rest k' u us u' us' H E E' Hu Hu' Hne. destruct (keyword_head k t H u us E) as (c & t' & -> & Hc).
  apply (keyword_none k' _ u' us' E'). cbn. unfold eq_ignore_ascii_case, to_ascii_lowercase, between_chars.
  apply N.eqb_neq.
  destruct (N.leb_spec 65 u'), (N.leb_spec u' 90), (N.leb_spec 65 c), (N.leb_spec c 90); cbn; lia.
Qed.
Ltac no_keyword k := eapply (other_letter k); [eassumption|reflexivity|reflexivity|cbn; lia|cbn; lia|cbn; lia].

Lemma query_reads : forall q t, query_text ab wb wt q t -> answers sql_query_parser (t ++ r) (repeat (q, r) (times q)).
Proof.
  uppers. intros q t H. unfold ParserModel.sql_query_parser.
  destruct H as [k1 s1 cols tc s2 k2 s3 table wh tw Hk1 H1 Hc H2 Hk2 H3 Ht Hw
                |k1 s1 k2 s2 table s3 k3 s4 v Hk1 H1 Hk2 H2 Ht H3 Hk3 H4 Hv
                |k1 s1 table s2 k2 s3 v wh tw Hk1 H1 Ht H2 Hk2 H3 Hv Hw]; rewrite <- !app_assoc.
  - assert (E : repeat (Select cols table wh, r) (times (Select cols table wh)) =
      (repeat (Select cols table wh, r) (times (Select cols table wh)) ++ []) ++ []) by now rewrite !app_nil_r.
    rewrite E. clear E. apply answers_or; [apply answers_or|].
    + set (i := s2 ++ k2 ++ s3 ++ table ++ tw ++ r).
      assert (Hi : head_not wc i) by now apply some_spaces_then.
      assert (Hi' : ~ head_is 44%N i).
      { destruct H2 as [Hn Hs]. destruct s2 as [|c s2]; [congruence|]. inversion Hs; subst. cbn. intros ->.
        unfold space in *. lia. }
      destruct (columns_read cols tc i Hc Hi Hi') as (w & ws & r1 & -> & Hwd & Hm & Hr1).
      assert (Hsel : answers select_parser (k1 ++ s1 ++ tc ++ i) [(mkSelect (w :: ws), i); (mkSelect [w], r1)]).
      { eapply answers_then; [apply keyword_space; [exact USelect|exact Hk1|exact H1|now apply (columns_start (w :: ws))]|].
        apply (answers_or _ _ _ _ [_] [_]).
        - eapply answers_then; [exact Hwd|].
          apply (answers_map _ _ _ (fun l => mkSelect ([w] ++ l)) _ [(ws, i)]). now apply answers_many.
        - apply (answers_map _ _ _ (fun c => mkSelect [c]) _ [(w, r1)] Hwd). }
      assert (Hfrom : answers from_parser i [(mkFrom table, tw ++ r)]).
      { apply (answers_map _ _ _ mkFrom _ [(table, tw ++ r)]).
        apply (space_keyword_word "FROM"); auto; [discriminate|apply H2|eapply tail_word; eauto]. }
      assert (Hone : forall cs, answers (p_and_then from_parser (fun from_clause =>
           p_map (p_optional where_parser)
             (fun wh => Select (sel_columns (mkSelect cs)) (from_table from_clause) wh))) i [(Select cs table wh, r)]).
      { intros cs. eapply answers_then; [exact Hfrom|].
        apply (answers_map _ _ _ (fun wh => Select cs table wh) _ [(wh, r)]). now apply tail. }
      destruct ws as [|w2 ws].
      * subst r1. refine (answers_and_then _ _ _ _ (fun s _ => [(Select (sel_columns s) table wh, r)]) _ _ Hsel _).
        intros x r' [[= <- <-]|[[= <- <-]|[]]]; apply Hone.
      * refine (answers_and_then _ _ _ _
          (fun s _ => match sel_columns s with [_] => [] | _ => [(Select (sel_columns s) table wh, r)] end) _ _ Hsel _).
        intros x r' [[= <- <-]|[[= <- <-]|[]]]; [apply Hone|]. cbn [sel_columns].
        apply answers_then_none. apply (answers_map _ _ _ mkFrom _ []). apply answers_then_none, answers_then_none.
        destruct r1 as [|c r1]; [destruct Hr1|]. cbn in Hr1. subst c.
        eapply answers_then; [apply whitespace_none; cbn; unfold space; lia|].
        apply keyword_none_word; [exact UFrom|discriminate|cbn; unfold word_char; lia].
    + do 5 apply answers_then_none. no_keyword "SELECT"%string.
    + do 3 apply answers_then_none. no_keyword "SELECT"%string.
  - apply (answers_or _ _ _ _ [_] []); [apply (answers_or _ _ _ _ [] [_])|].
    + do 3 apply answers_then_none. no_keyword "INSERT"%string.
    + eapply answers_then.
      { eapply answers_then; [|apply (word_reads table (s3 ++ k3 ++ s4 ++ v ++ r)); [exact Ht|now apply some_spaces_then]].
        eapply answers_then; [|apply whitespace_reads; [exact H2|now apply word_then]].
        eapply answers_then; [|apply (keyword_reads "INTO" k2 (s2 ++ table ++ s3 ++ k3 ++ s4 ++ v ++ r) UInto Hk2)].
        apply keyword_space; auto. now apply (keyword_then "INTO"). }
      apply (answers_map _ _ _ (fun v => Insert table [v]) _ [(v, r)]).
      apply (space_keyword_word "VALUES"); auto; [discriminate|apply H3].
    + do 3 apply answers_then_none. no_keyword "INSERT"%string.
  - apply (answers_or _ _ _ _ [] [_]); [apply (answers_or _ _ _ _ [] [])|].
    + do 3 apply answers_then_none. no_keyword "UPDATE"%string.
    + do 5 apply answers_then_none. no_keyword "UPDATE"%string.
    + eapply answers_then.
      { eapply answers_then; [|apply (word_reads table (s2 ++ k2 ++ s3 ++ v ++ tw ++ r)); [exact Ht|now apply some_spaces_then]].
        apply keyword_space; auto. now apply word_then. }
      eapply answers_then.
      { apply (space_keyword_word "SET"); auto; [discriminate|apply H2|eapply tail_word; eauto]. }
      apply (answers_map _ _ _ (fun wh => Update table v wh) _ [(wh, r)]). now apply tail.
Qed.
End Tail.

(** ** What a query parser finds *)

Lemma columns_found : forall i ws r, one_after_another more_columns i ws r -> head_not wc i ->
  forall w, a_word ab w -> exists t, w ++ i = t ++ r /\ columns_text ab wb (w :: ws) t /\ head_not wc r.
Proof.
  intros i ws r H. pose proof steady_whitespace as Sw. pose proof steady_word as Swd.
  induction H as [i Ha|i w' i1 rs ws r Ha H' IH]; intros Hi w Hw.
  - exists w. split; [reflexivity|]. split; [now constructor|exact Hi].
  - assert (Hf : finds more_columns i w' i1) by (exists ((w', i1) :: rs); cbn; auto).
    apply finds_and_then in Hf; [|unfold item; steadies|intros; assumption]. destruct Hf as (s & i2 & Hf & Hwd).
    apply finds_and_then in Hf; [|unfold item; steadies|intros; assumption]. destruct Hf as (c & i3 & Hc & Hs).
    apply item_inv in Hc. apply whitespace_inv in Hs. apply word_inv in Hwd.
    destruct Hs as (-> & Hs & _). destruct Hwd as (-> & Hwd & Hi1). subst i.
    destruct (IH Hi1 w' Hwd) as (t & E & Ht & Hr).
    exists (w ++ chars "," ++ s ++ t). rewrite <- !app_assoc, <- E. split; [reflexivity|]. split; [now constructor|exact Hr].
Qed.

Lemma space_keyword_word_inv : forall k i w r, upper k -> k <> EmptyString -> head_not wc i ->
  finds (p_and_then (p_and_then (p_and_then whitespace (fun _ => keyword (chars k))) (fun _ => whitespace)) (fun _ => word))
    i w r ->
  exists s1 t s2, i = s1 ++ t ++ s2 ++ w ++ r /\ some_spaces wb s1 /\ in_any_case k t /\ spaces wb s2 /\ a_word ab w /\
    head_not wc r.
Proof.
  intros k i w r Hu Hk Hi H. pose proof steady_whitespace as Sw. pose proof steady_word as Swd.
  apply finds_and_then in H; [|unfold keyword; steadies|intros; assumption]. destruct H as (x & i1 & H & Hw).
  apply finds_and_then in H; [|unfold keyword; steadies|intros; assumption]. destruct H as (k' & i2 & H & H2).
  apply finds_and_then in H; [|assumption|intros; unfold keyword; steadies]. destruct H as (s1 & i3 & H1 & Ht).
  apply whitespace_inv in H1. apply whitespace_inv in H2. apply keyword_inv in Ht; [|exact Hu]. apply word_inv in Hw.
  destruct H1 as (-> & H1 & _). destruct Ht as (t & -> & Ht). destruct H2 as (-> & H2 & _). destruct Hw as (-> & Hw & Hr).
  exists s1, t, x. split; [reflexivity|]. split; [|auto]. split; [|exact H1].
  intros ->. cbn in Hi. now apply (keyword_is_word k t (x ++ w ++ r) Hu Hk Ht).
Qed.
Lemma keyword_space_inv : forall k i s r, upper k -> finds (p_and_then (keyword (chars k)) (fun _ => whitespace)) i s r ->
  exists t, i = t ++ s ++ r /\ in_any_case k t /\ spaces wb s.
Proof.
  intros k i s r Hu H. pose proof steady_whitespace as Sw.
  apply finds_and_then in H; [|unfold keyword; steadies|intros; assumption]. destruct H as (x & i1 & Hk & Hs).
  apply keyword_inv in Hk; [|exact Hu]. apply whitespace_inv in Hs. destruct Hk as (t & -> & Ht).
  destruct Hs as (-> & Hs & _). exists t. auto.
Qed.

Lemma steady_keyword : forall k, steady (keyword k).
Proof. intros k. unfold keyword. steadies. Qed.
Lemma steady_select : steady select_parser.
Proof.
  pose proof steady_whitespace. pose proof steady_word. unfold ParserModel.select_parser, keyword, item. steadies.
Qed.
Lemma steady_from : steady from_parser.
Proof. pose proof steady_whitespace. pose proof steady_word. unfold ParserModel.from_parser, keyword. steadies. Qed.
Lemma steady_insert : steady insert_parser.
Proof. pose proof steady_whitespace. pose proof steady_word. unfold ParserModel.insert_parser, keyword. steadies. Qed.
Lemma steady_update : steady update_parser.
Proof.
  pose proof steady_whitespace. pose proof steady_word. pose proof steady_where.
  unfold ParserModel.update_parser, keyword. steadies.
Qed.
Lemma steady_sql : steady sql_query_parser.
Proof.
  pose proof steady_select. pose proof steady_from. pose proof steady_where. pose proof steady_insert.
  pose proof steady_update. unfold ParserModel.sql_query_parser. steadies.
Qed.

(** a query read up to [r], and why the reading stops there *)
Definition read_up_to (q : sql_query) (t r : list N) : Prop :=
  (query_text ab wb (where_text ab wb) q t /\ head_not wc r) \/
  (query_text ab wb (bare_where_text wb) q t /\ answers condition_parser r [] /\ head_not sp r).

Lemma query_inv : forall i q r, finds sql_query_parser i q r -> exists t, i = t ++ r /\ read_up_to q t r.
Proof.
  uppers. intros i q r H. pose proof steady_whitespace as Sw. pose proof steady_word as Swd.
  pose proof steady_select as Ss. pose proof steady_from as Sf. pose proof steady_where as Swh.
  pose proof steady_insert as Si. pose proof steady_update as Su.
  unfold ParserModel.sql_query_parser in H. apply finds_or in H; [|steadies|assumption].
  destruct H as [H|H]; [apply finds_or in H; [destruct H as [H|H]|steadies|assumption]|].
  - apply finds_and_then in H; [|assumption|intros; steadies]. destruct H as (sc & i1 & Hs & H).
    apply finds_and_then in H; [|assumption|intros; steadies]. destruct H as (fc & i2 & Hf & H).
    apply finds_map in H; [|steadies]. destruct H as (wh & -> & Hwh).
    assert (Hsel : exists k1 s1 tc, i = k1 ++ s1 ++ tc ++ i1 /\ in_any_case "SELECT" k1 /\ spaces wb s1 /\
      columns_text ab wb (sel_columns sc) tc /\ head_not wc i1).
    { apply finds_and_then in Hs; [|unfold keyword; steadies|intros; unfold item; steadies].
      destruct Hs as (s1 & i3 & Hk & Hs). apply keyword_space_inv in Hk; [|exact USelect].
      destruct Hk as (k1 & -> & Hk & Hs1). apply finds_or in Hs; [|unfold item; steadies|steadies].
      destruct Hs as [Hs|Hs].
      - apply finds_and_then in Hs; [|assumption|intros; unfold item; steadies]. destruct Hs as (w & i4 & Hw & Hs).
        apply finds_map in Hs; [|unfold item; steadies]. destruct Hs as (ws & -> & Hs).
        apply finds_many in Hs; [|unfold item; steadies]. apply word_inv in Hw. destruct Hw as (-> & Hw & Hi4).
        destruct (columns_found _ _ _ Hs Hi4 w Hw) as (t & E & Ht & Hi1). exists k1, s1, t. rewrite E. auto.
      - apply finds_map in Hs; [|steadies]. destruct Hs as (w & -> & Hw). apply word_inv in Hw. destruct Hw as (-> & Hw & Hi1).
        exists k1, s1, w. repeat split; auto. cbn. now constructor. }
    destruct Hsel as (k1 & s1 & tc & -> & Hk1 & Hs1 & Hc & Hi1).
    apply finds_map in Hf; [|unfold keyword; steadies]. destruct Hf as (table & -> & Hf).
    apply (space_keyword_word_inv "FROM") in Hf; auto; [|discriminate].
    destruct Hf as (s2 & k2 & s3 & -> & Hs2 & Hk2 & Hs3 & Ht & Hi2). cbn [from_table].
    destruct (where_inv _ _ _ Hwh Hi2) as (tw & -> & [[Hw Hr]|[Hw Hr]]);
      exists (k1 ++ s1 ++ tc ++ s2 ++ k2 ++ s3 ++ table ++ tw); rewrite <- !app_assoc; (split; [reflexivity|]);
      [left|right]; (split; [now constructor|exact Hr]).
  - apply finds_and_then in H; [|unfold keyword; steadies|intros; unfold keyword; steadies].
    destruct H as (table & i1 & Ht & H). apply finds_map in H; [|unfold keyword; steadies]. destruct H as (v & -> & H).
    apply finds_and_then in Ht; [|unfold keyword; steadies|intros; assumption]. destruct Ht as (s2 & i2 & Ht & Hw).
    apply finds_and_then in Ht; [|unfold keyword; steadies|intros; assumption]. destruct Ht as (k2' & i3 & Ht & H2).
    apply finds_and_then in Ht; [|unfold keyword; steadies|intros; unfold keyword; steadies].
    destruct Ht as (s1 & i4 & Ht & H1).
    apply keyword_space_inv in Ht; [|exact UInsert]. apply keyword_inv in H1; [|exact UInto].
    apply whitespace_inv in H2. apply word_inv in Hw.
    destruct Ht as (k1 & -> & Hk1 & Hs1). destruct H1 as (k2 & -> & Hk2). destruct H2 as (-> & Hs2 & _).
    destruct Hw as (-> & Hw & Hi1). apply (space_keyword_word_inv "VALUES") in H; auto; [|discriminate].
    destruct H as (s3 & k3 & s4 & -> & Hs3 & Hk3 & Hs4 & Hv & Hr).
    exists (k1 ++ s1 ++ k2 ++ s2 ++ table ++ s3 ++ k3 ++ s4 ++ v). rewrite <- !app_assoc. split; [reflexivity|].
    left. split; [now constructor|exact Hr].
  - apply finds_and_then in H; [|unfold keyword; steadies|intros; unfold keyword; steadies].
    destruct H as (table & i1 & Ht & H).
    apply finds_and_then in H; [|unfold keyword; steadies|intros; steadies]. destruct H as (v & i2 & Hv & H).
    apply finds_map in H; [|steadies]. destruct H as (wh & -> & Hwh).
    apply finds_and_then in Ht; [|unfold keyword; steadies|intros; assumption]. destruct Ht as (s1 & i3 & Ht & Hw).
    apply keyword_space_inv in Ht; [|exact UUpdate]. apply word_inv in Hw.
    destruct Ht as (k1 & -> & Hk1 & Hs1). destruct Hw as (-> & Hw & Hi1).
    apply (space_keyword_word_inv "SET") in Hv; auto; [|discriminate].
    destruct Hv as (s2 & k2 & s3 & -> & Hs2 & Hk2 & Hs3 & Hv & Hi2).
    destruct (where_inv _ _ _ Hwh Hi2) as (tw & -> & [[Hwt Hr]|[Hwt Hr]]);
      exists (k1 ++ s1 ++ table ++ s2 ++ k2 ++ s3 ++ v ++ tw); rewrite <- !app_assoc; (split; [reflexivity|]);
      [left|right]; (split; [now constructor|exact Hr]).
Qed.

(** ** It always returns *)

Lemma returns_new : forall O (f : list N -> choice (O * list N)), returns (p_new f).
Proof. intros O f i. eexists. apply answers_new. Qed.
Lemma returns_or : forall O (p q : parser N O), returns p -> returns q -> returns (p_or p q).
Proof. intros O p q Hp Hq i. destruct (Hp i) as [a Ha], (Hq i) as [b Hb]. eexists. apply answers_or; eauto. Qed.
Lemma returns_and_then : forall O B (p : parser N O) (f : O -> parser N B), returns p -> (forall x, returns (f x)) ->
  returns (p_and_then p f).
Proof.
  intros O B p f Hp Hf i. destruct (Hp i) as [a Ha].
  destruct (answers_choose _ _ p f i a Ha) as (vss & _ & H); [intros; apply Hf|]. eauto.
Qed.
Lemma returns_map : forall O B (p : parser N O) (f : O -> B), returns p -> returns (p_map p f).
Proof. intros O B p f Hp i. destruct (Hp i) as [a Ha]. eexists. apply answers_map. exact Ha. Qed.
Lemma returns_optional : forall O (p : parser N O), returns p -> returns (p_optional p).
Proof. intros O p Hp i. destruct (Hp i) as [a Ha]. eexists. apply answers_optional. exact Ha. Qed.

Lemma uses_satisfy : forall t : N -> bool, uses (satisfy t).
Proof.
  intros t i x r H. apply finds_new in H. destruct i as [|c i]; [destruct H|]. destruct (t c); [|destruct H].
  destruct H as [[= <- <-]|[]]. cbn. lia.
Qed.
Lemma returns_whitespace : returns whitespace.
Proof. apply C107_many_returns_partial; [apply returns_new|apply uses_satisfy]. Qed.
Lemma returns_word : returns word.
Proof.
  apply returns_map, returns_and_then; [apply returns_new|]. intros x. apply returns_map, C107_many_returns_partial;
    [apply returns_new|apply uses_satisfy].
Qed.
Ltac returning :=
  repeat first [ assumption | apply returns_or | apply returns_and_then; [|intros ?] | apply returns_map
               | apply returns_optional | apply returns_new ].
Lemma returns_sql : returns sql_query_parser.
Proof.
  uppers. pose proof returns_whitespace as Rw. pose proof returns_word as Rd.
  pose proof steady_whitespace as Sw. pose proof steady_word as Swd.
  assert (Rop : returns operator_parser) by (unfold operator_parser, sequence, item; returning).
  assert (Rc : returns condition_parser) by (unfold ParserModel.condition_parser; returning).
  assert (Rk : forall k, returns (keyword k)) by (intros; unfold keyword; returning).
  assert (Rwh : returns where_parser).
  { unfold ParserModel.where_parser, p_sep_by. returning; auto.
    apply C107_many_returns_partial; [returning; auto|]. intros i y r H.
    apply finds_and_then in H; [|exact steady_and|intros; exact steady_condition]. destruct H as (z & i1 & H & Hc).
    apply and_inv in H. destruct H as (s1 & k & s2 & -> & _). apply condition_inv in Hc.
    destruct Hc as (t & -> & Ht & _). destruct Ht as [f a op b v [Hf _] _ _ _ _]. destruct f; [congruence|].
    rewrite !app_length. cbn. lia. }
  unfold ParserModel.sql_query_parser, ParserModel.select_parser, ParserModel.from_parser, ParserModel.insert_parser,
    ParserModel.update_parser. returning; auto.
  apply C107_many_returns_partial; [unfold item; returning; auto|]. intros i w r H.
  apply finds_and_then in H; [|unfold item; steadies|intros; assumption]. destruct H as (y & i1 & H & Hc).
  apply finds_and_then in H; [|unfold item; steadies|intros; assumption]. destruct H as (z & i2 & H & Hs).
  apply item_inv in H. apply whitespace_inv in Hs. apply word_inv in Hc. destruct Hs as (-> & _). destruct Hc as (-> & _).
  subst i. cbn. rewrite !app_length. lia.
Qed.

Lemma quiet_where : forall r, quiet r -> forall wh t, where_text ab wb wh t -> head_not wc (t ++ r).
Proof. intros r Hr wh t []; [now apply quiet_word|]. rewrite <- !app_assoc. now apply some_spaces_then. Qed.
Lemma bare_where_word : forall r wh t, bare_where_text wb wh t -> head_not wc (t ++ r).
Proof. intros r wh t []. rewrite <- !app_assoc. now apply some_spaces_then. Qed.
End Sql.

(** ** The theorems *)

(** Every query of the grammar is read, in any letter case and with any white space, when the text ends after it or
    goes on with a character that can continue nothing; it is the only parse, found twice when one column is selected. *)
Theorem C108_reads : forall ab wb, (forall c, (128 <= c)%N -> ab c = true -> wb c = true -> False) -> forall q t r,
  query_text ab wb (where_text ab wb) q t -> at_end ab wb r ->
  answers (sql_query_parser ab wb) (t ++ r) (repeat (q, r) (match q with Select [_] _ _ => 2 | _ => 1 end)).
Proof.
  intros ab wb apart q t r H Hr. apply (query_reads ab wb apart (where_text ab wb) r); auto.
  - intros wh t' Hw. now apply where_reads.
  - intros wh t' Hw. now apply (quiet_where ab wb apart r Hr wh).
  - now apply quiet_word in Hr.
Qed.

(** Whatever is found is a query of the grammar that stands at the beginning of the text, or one whose last word is
    WHERE, with no condition after it. *)
Theorem C108_only_queries : forall ab wb i q r,
  finds (sql_query_parser ab wb) i q r ->
  exists t, i = t ++ r /\
    (query_text ab wb (where_text ab wb) q t \/
     (query_text ab wb (bare_where_text wb) q t /\ answers (condition_parser ab wb) r [])).
Proof.
  intros ab wb i q r H. destruct (query_inv ab wb i q r H) as (t & -> & [[Hq _]|[Hq [Hc _]]]); eauto.
Qed.

(** A whole text is a query exactly when the grammar says so, the bare WHERE included. *)
Theorem C108_whole_text_partial : forall ab wb, (forall c, (128 <= c)%N -> ab c = true -> wb c = true -> False) ->
  forall t q, finds (sql_query_parser ab wb) t q [] <->
    query_text ab wb (where_text ab wb) q t \/ query_text ab wb (bare_where_text wb) q t.
Proof.
  intros ab wb apart t q. split.
  - intros H. destruct (C108_only_queries ab wb t q [] H) as (t' & -> & [Hq|[Hq _]]); rewrite app_nil_r; auto.
  - intros H. assert (A : answers (sql_query_parser ab wb) (t ++ []) (repeat (q, []) (times q))).
    { destruct H as [H|H]; [now apply C108_reads|].
      apply (query_reads ab wb apart (bare_where_text wb) []); auto.
      - intros wh t' Hw. apply bare_reads; auto; [exact I|]. apply answers_then_none, word_none. exact I.
      - intros wh t' Hw. now apply (bare_where_word ab wb apart [] wh).
      - exact I. }
    rewrite app_nil_r in A. exists (repeat (q, []) (times q)). split; [exact A|].
    destruct q as [[|? [|]]| |]; now left.
Qed.

(** A text has one reading. *)
Theorem C108_one_reading : forall ab wb, (forall c, (128 <= c)%N -> ab c = true -> wb c = true -> False) ->
  forall t q q', query_text ab wb (where_text ab wb) q t -> query_text ab wb (where_text ab wb) q' t -> q = q'.
Proof.
  intros ab wb apart t q q' H H'.
  pose proof (C108_reads ab wb apart q t [] H I) as A. pose proof (C108_reads ab wb apart q' t [] H' I) as A'.
  pose proof (answers_unique _ _ _ _ _ A A') as E.
  destruct q as [[|? [|]]| |], q' as [[|? [|]]| |]; cbn in E; congruence.
Qed.

(** The parser returns, whatever the text. *)
Theorem C108_returns : forall ab wb, returns (sql_query_parser ab wb).
Proof. exact returns_sql. Qed.

(** A condition that is not understood is dropped: the text is read as an update of every row, and the condition is
    left over. *)
Theorem C108_condition_dropped_refuted : forall ab wb, (forall c, (128 <= c)%N -> ab c = true -> wb c = true -> False) ->
  exists t q r, answers (sql_query_parser ab wb) t [(q, r)] /\
    q = Update (chars "users") (chars "status") (Some (mkWhere [])) /\
    t = chars "UPDATE users SET status WHERE id >= 42" /\ r = chars "id >= 42" /\
    (forall t' wh, t = t' ++ r -> ~ query_text ab wb (where_text ab wb) (Update (chars "users") (chars "status") (Some wh)) t').
Proof.
  intros ab wb apart. exists (chars "UPDATE users SET status WHERE id >= 42").
  exists (Update (chars "users") (chars "status") (Some (mkWhere []))). exists (chars "id >= 42").
  split; [exists 40; intros m Hm|].
  { assert (E : exists c, sql_query_parser ab wb 40 (chars "UPDATE users SET status WHERE id >= 42") = Some c /\
      c = mkChoice [(Update (chars "users") (chars "status") (Some (mkWhere [])), chars "id >= 42")])
      by (eexists; split; [vm_compute; reflexivity|reflexivity]).
    destruct E as (c & E & ->). exact (steady_sql ab wb 40 m _ _ Hm E). }
  split; [reflexivity|]. split; [reflexivity|]. split; [reflexivity|]. intros t' wh E H.
  assert (t' = chars "UPDATE users SET status WHERE ") as ->.
  { apply (app_inv_tail (chars "id >= 42")). now rewrite <- E. }
  pose proof (C108_reads ab wb apart _ _ [] H I) as A. rewrite app_nil_r in A.
  assert (Ec : sql_query_parser ab wb 40 (chars "UPDATE users SET status WHERE ") =
    Some (mkChoice [(Update (chars "users") (chars "status") (Some (mkWhere [])), [])])) by (vm_compute; reflexivity).
  pose proof (answers_at _ _ _ _ _ (steady_sql ab wb) Ec) as B.
  pose proof (answers_unique _ _ _ _ _ A B) as Q. cbn in Q. injection Q as ->.
  inversion H; subst. match goal with Hw : where_text _ _ _ _ |- _ => inversion Hw; subst end.
  match goal with Hc : conditions_text _ _ [] _ |- _ => inversion Hc end.
Qed.

(** ** A case *)

Ltac letters := unfold in_any_case, spaces; cbn;
  repeat (constructor; [first [ now left | right; lia | unfold word_char; lia | unfold space; lia ]|]); constructor.
Ltac a_case := first [ solve [split; [discriminate|letters]] | solve [letters] ].
Definition the_query : list N := chars "select id, Name from users Where age > 30 AND city != x_1".

Example C108_case_text : forall ab wb, query_text ab wb (where_text ab wb)
  (Select [chars "id"; chars "Name"] (chars "users")
     (Some (mkWhere [mkCondition (chars "age") (chars ">") (chars "30"); mkCondition (chars "city") (chars "!=") (chars "x_1")])))
  the_query.
Proof.
  intros ab wb.
  refine (select_text ab wb _ (chars "select") (chars " ") _ (chars "id, Name") (chars " ") (chars "from") (chars " ")
    (chars "users") _ (chars " Where age > 30 AND city != x_1") _ _ _ _ _ _ _ _); try a_case.
  - refine (comma_column ab wb (chars "id") (chars " ") _ (chars "Name") _ _ (last_column _ _ _ _)); a_case.
  - refine (some_where ab wb (chars " ") (chars "Where") (chars " ") _ (chars "age > 30 AND city != x_1") _ _ _ _);
      try a_case.
    refine (and_condition ab wb _ (chars "age > 30") (chars " ") (chars "AND") (chars " ") _ (chars "city != x_1") _ _ _ _
      (last_condition _ _ _ _ _)); try a_case.
    + refine (a_condition ab wb (chars "age") (chars " ") (chars ">") (chars " ") (chars "30") _ _ _ _ _);
        try a_case; cbn; auto.
    + refine (a_condition ab wb (chars "city") (chars " ") (chars "!=") (chars " ") (chars "x_1") _ _ _ _ _);
        try a_case; cbn; auto.
Qed.
Example C108_case_end : forall ab wb, at_end ab wb (chars "; rest").
Proof. intros ab wb. cbn. unfold word_char, space. lia. Qed.

(** One column: found twice. Two columns: once. A text that ends too early: not at all. *)
Example C108_case_times :
  let none := fun _ : N => false in
  sql_query_parser none none 20 (chars "SELECT id FROM t;") =
    Some (mkChoice [(Select [chars "id"] (chars "t") None, chars ";"); (Select [chars "id"] (chars "t") None, chars ";")]) /\
  sql_query_parser none none 20 (chars "SELECT id,n FROM t") = Some (mkChoice [(Select [chars "id"; chars "n"] (chars "t") None, [])]) /\
  sql_query_parser none none 20 (chars "INSERT INTO t VALUES 5") = Some (mkChoice [(Insert (chars "t") [chars "5"], [])]) /\
  sql_query_parser none none 20 (chars "INSERT INTO t") = Some (mkChoice []).
Proof. repeat split; vm_compute; reflexivity. Qed.


Print Assumptions C108_reads.
Print Assumptions C108_only_queries.
Print Assumptions C108_whole_text_partial.
Print Assumptions C108_one_reading.
Print Assumptions C108_returns.
Print Assumptions C108_condition_dropped_refuted.

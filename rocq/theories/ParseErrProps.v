(** C89: what the printed form of a parse error tells about it. *)
From Coq Require Import String Ascii List.
From Verif Require Import TextModel TextSpec TextProps ParseErrModel ParseErrSpec.
Import ListNotations.
Open Scope string_scope.

Lemma free_colon n : free_of ":" (show_nat n).
Proof. apply free_nat. unfold digit. simpl. intuition discriminate. Qed.

(** what follows the message *)
Definition hints_text (o p : option string) : string :=
  match o with Some exp => " (expected: " ++ exp ++ ")" | None => "" end ++
  match p with Some found => " (found: " ++ found ++ ")" | None => "" end.

Lemma found_inj p q : hints_text None p = hints_text None q -> p = q.
Proof.
  destruct p as [s|], q as [t|]; cbn; intros E; try discriminate E; [|reflexivity].
  repeat (injection E as E). apply append_inv_r in E. now subst.
Qed.
Lemma hints_inj o p o' p' :
  (forall s, o = Some s -> free_of "(" s) -> (forall s, o' = Some s -> free_of "(" s) ->
  hints_text o p = hints_text o' p' -> o = o' /\ p = p'.
Proof.
  intros F F'. destruct o as [s|], o' as [t|].
  - specialize (F s eq_refl). specialize (F' t eq_refl). unfold hints_text. rewrite !append_assoc.
    intros E. apply (append_inv_l " (expected: ") in E.
    assert (G : forall u, free_of "(" u -> free_of "(" (u ++ ") ")).
    { intros u Hu. apply free_append. split; [exact Hu|]. simpl. intuition discriminate. }
    assert (G1 : forall u, free_of "(" u -> free_of "(" (u ++ ")")).
    { intros u Hu. apply free_append. split; [exact Hu|]. simpl. intuition discriminate. }
    assert (J : forall u f, u ++ ")" ++ " (found: " ++ f ++ ")" = (u ++ ") ") ++ String "(" ("found: " ++ f ++ ")")).
    { intros u f. rewrite append_assoc. reflexivity. }
    destruct p as [f|], p' as [f'|].
    + rewrite !J in E. apply cut_unique in E; [|now apply G..]. destruct E as [E1 E2].
      apply append_inv_r in E1. apply (append_inv_l "found: ") in E2. apply append_inv_r in E2. now subst.
    + exfalso. rewrite J in E. symmetry in E. change (")" ++ "") with ")" in E. exact (cut_never _ _ _ _ (G1 t F') E).
    + exfalso. rewrite J in E. change (")" ++ "") with ")" in E. exact (cut_never _ _ _ _ (G1 s F) E).
    + apply append_inv_r in E. now subst.
  - destruct p'; intros E; discriminate E.
  - destruct p; intros E; discriminate E.
  - intros E. split; [reflexivity|now apply found_inj].
Qed.
Lemma message_inj m m' o p o' p' : free_of "(" m -> free_of "(" m' ->
  m ++ hints_text o p = m' ++ hints_text o' p' -> m = m' /\ hints_text o p = hints_text o' p'.
Proof.
  intros F F' E.
  assert (H : forall a b, (hints_text a b = "") \/ exists r, hints_text a b = String " " (String "(" r)).
  { intros [a|] [b|]; cbn; eauto. }
  assert (G : forall u, free_of "(" u -> free_of "(" (u ++ " ")).
  { intros u Hu. apply free_append. split; [exact Hu|]. simpl. intuition discriminate. }
  assert (J : forall u r, u ++ String " " (String "(" r) = (u ++ " ") ++ String "(" r).
  { intros u r. now rewrite append_assoc. }
  destruct (H o p) as [Ho|[r Ho]], (H o' p') as [Ho'|[r' Ho']]; rewrite Ho, Ho' in *.
  - rewrite !append_nil in E. auto.
  - exfalso. rewrite append_nil, J in E. exact (cut_never _ _ _ _ F E).
  - exfalso. rewrite append_nil, J in E. symmetry in E. exact (cut_never _ _ _ _ F' E).
  - rewrite !J in E. apply cut_unique in E; [|now apply G..]. destruct E as [E1 ->].
    apply append_inv_r in E1. auto.
Qed.

(** A parse error can be read back from its text when neither its message nor what was expected contains an opening
    parenthesis; what was found may. *)
Theorem C89_parse_error_partial : forall d e,
  free_of "(" (pe_message d) -> free_of "(" (pe_message e) ->
  (forall s, pe_expected d = Some s -> free_of "(" s) -> (forall s, pe_expected e = Some s -> free_of "(" s) ->
  pe_display d = pe_display e -> d = e.
Proof.
  intros [m n o p] [m' n' o' p']. cbn [pe_message pe_expected]. intros F F' G G' E.
  unfold pe_display in E. cbn [pe_message pe_position pe_expected pe_found] in E.
  apply (append_inv_l "Parse error at position ") in E.
  change (show_nat n ++ String ":" (" " ++ m ++ hints_text o p) = show_nat n' ++ String ":" (" " ++ m' ++ hints_text o' p')) in E.
  apply cut_unique in E; [|apply free_colon..]. destruct E as [E1 E2]. apply show_nat_inj in E1. subst n'.
  apply (append_inv_l " ") in E2. destruct (message_inj _ _ _ _ _ _ F F' E2) as [-> E3].
  destruct (hints_inj _ _ _ _ G G' E3) as [-> ->]. reflexivity.
Qed.
(** The position can be read back whatever the texts. *)
Theorem C89_parse_error_position : forall d e, pe_display d = pe_display e -> pe_position d = pe_position e.
Proof.
  intros [m n o p] [m' n' o' p'] E. unfold pe_display in E. cbn [pe_message pe_position pe_expected pe_found] in *.
  apply (append_inv_l "Parse error at position ") in E.
  change (show_nat n ++ String ":" (" " ++ m ++ hints_text o p) = show_nat n' ++ String ":" (" " ++ m' ++ hints_text o' p')) in E.
  apply cut_unique in E; [|apply free_colon..]. now apply show_nat_inj.
Qed.
(** With parentheses in the message or in what was expected, different errors can print the same. *)
Theorem C89_parse_error_refuted :
  (exists d e, pe_message d <> pe_message e /\ pe_display d = pe_display e) /\
  (exists d e, pe_message d = pe_message e /\ free_of "(" (pe_message d) /\ pe_expected d <> pe_expected e /\
               pe_display d = pe_display e).
Proof.
  split.
  - exists (pe_new "unexpected end (found: nothing)" 4), (pe_with_found (pe_new "unexpected end" 4) "nothing").
    split; [discriminate|reflexivity].
  - exists (pe_with_found (pe_with_expected (pe_new "bad" 0) "a") "b"),
           (pe_with_expected (pe_new "bad" 0) "a) (found: b").
    split; [reflexivity|]. split; [simpl; intuition discriminate|]. split; [discriminate|reflexivity].
Qed.

(** Whatever calls add to an error: the message and the position stay, and the last text of each kind counts. *)
Lemma build_snoc m n hs h : build m n (hs ++ [h]) = add_hint (build m n hs) h.
Proof. unfold build. now rewrite fold_left_app. Qed.
Lemma snoc_eq {A} (b a hs : list A) x h : (hs ++ [h] = b ++ x :: a)%list ->
  (a = [] /\ x = h /\ b = hs) \/ exists a', (a = a' ++ [h] /\ hs = b ++ x :: a')%list.
Proof.
  intros E. destruct (exists_last (l := x :: a)) as (a0 & y & Ea); [discriminate|].
  rewrite Ea, app_assoc in E. apply app_inj_tail in E. destruct E as [-> <-].
  destruct a0 as [|z a0]; cbn in Ea; injection Ea as -> ->.
  - left. rewrite app_nil_r. auto.
  - right. now exists a0.
Qed.
Lemma last_expected_snoc hs h s : last_expected (hs ++ [h]) s <->
  match h with Expected t => s = t | Found _ => last_expected hs s end.
Proof.
  unfold last_expected. split.
  - intros (b & a & E & H). destruct (snoc_eq _ _ _ _ _ E) as [(-> & <- & ->)|(a' & -> & ->)]; [reflexivity|].
    destruct h as [t|t].
    + contradiction (H t). apply in_or_app. right. now left.
    + exists b, a'. split; [reflexivity|]. intros u Hu. apply (H u). apply in_or_app. now left.
  - destruct h as [t|t].
    + intros ->. exists hs, []. split; [reflexivity|auto].
    + intros (b & a & -> & H). exists b, (a ++ [Found t])%list. rewrite <- app_assoc. split; [reflexivity|].
      intros u Hu. apply in_app_or in Hu. destruct Hu as [Hu|[Hu|[]]]; [exact (H u Hu)|discriminate Hu].
Qed.
Lemma last_found_snoc hs h s : last_found (hs ++ [h]) s <->
  match h with Found t => s = t | Expected _ => last_found hs s end.
Proof.
  unfold last_found. split.
  - intros (b & a & E & H). destruct (snoc_eq _ _ _ _ _ E) as [(-> & <- & ->)|(a' & -> & ->)]; [reflexivity|].
    destruct h as [t|t].
    + exists b, a'. split; [reflexivity|]. intros u Hu. apply (H u). apply in_or_app. now left.
    + contradiction (H t). apply in_or_app. right. now left.
  - destruct h as [t|t].
    + intros (b & a & -> & H). exists b, (a ++ [Expected t])%list. rewrite <- app_assoc. split; [reflexivity|].
      intros u Hu. apply in_app_or in Hu. destruct Hu as [Hu|[Hu|[]]]; [exact (H u Hu)|discriminate Hu].
    + intros ->. exists hs, []. split; [reflexivity|auto].
Qed.
Theorem C89_parse_error_built : forall m n hints,
  pe_message (build m n hints) = m /\ pe_position (build m n hints) = n /\
  (forall s, pe_expected (build m n hints) = Some s <-> last_expected hints s) /\
  (forall s, pe_found (build m n hints) = Some s <-> last_found hints s).
Proof.
  intros m n hints. induction hints as [|h hs IH] using rev_ind.
  - cbn. repeat split; try discriminate; intros (b & a & E & _); destruct b; discriminate E.
  - rewrite build_snoc. destruct IH as (I1 & I2 & I3 & I4).
    split; [destruct h; exact I1|]. split; [destruct h; exact I2|].
    split; intros s; [rewrite last_expected_snoc|rewrite last_found_snoc]; destruct h as [t|t]; cbn;
      try apply I3; try apply I4; split; congruence.
Qed.
Example C89_parse_error_case :
  pe_display (build "unexpected token" 12 [Found "x"; Expected "FROM"; Found "y(z"])
    = "Parse error at position 12: unexpected token (expected: FROM) (found: y(z)" /\
  pe_display (build "unexpected token" 12 []) = "Parse error at position 12: unexpected token" /\
  last_found [Found "x"; Expected "FROM"; Found "y(z"] "y(z" /\
  free_of "(" (pe_message (build "unexpected token" 12 [Expected "FROM"])).
Proof.
  split; [reflexivity|]. split; [reflexivity|]. split.
  - exists [Found "x"; Expected "FROM"], []. split; [reflexivity|auto].
  - simpl. intuition discriminate.
Qed.

Print Assumptions C89_parse_error_partial.
Print Assumptions C89_parse_error_position.
Print Assumptions C89_parse_error_refuted.
Print Assumptions C89_parse_error_built.

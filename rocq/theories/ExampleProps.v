(** Property C110: examples/error.rs. *)
From Coq Require Import String Ascii ZArith List Bool Lia.
From Verif Require Import Base Types ErrModel AliasModel ErrProps ExampleModel.
Import ListNotations.
Open Scope string_scope.
Open Scope Z_scope.

(** The character ending a line: number 10. *)
Definition line_end : string := String "010" EmptyString.
(** ** Specification: what a text denotes *)
(** The ten digits: the characters 48 to 57. *)
Inductive to_nat_digit : ascii -> nat -> Prop :=
| digit_of : forall d, (d < 10)%nat -> to_nat_digit (ascii_of_nat (48 + d)) d.
(** The value of a row of decimal digits, by position. *)
Inductive numeral : string -> Z -> Prop :=
| num_none : numeral "" 0
| num_digit : forall c d s v, to_nat_digit c d -> numeral s v ->
    numeral (String c s) (Z.of_nat d * 10 ^ Z.of_nat (String.length s) + v).
(** A text denotes a number: digits, at least one, after an optional sign, of a value that an [i32] can hold. *)
Definition denotes (s : string) (z : Z) : Prop :=
  - 2 ^ 31 <= z < 2 ^ 31 /\
  exists digits v, digits <> "" /\ numeral digits v /\
    (s = digits /\ z = v \/ s = String "+" digits /\ z = v \/ s = String "-" digits /\ z = - v).

(** ** Auxiliary facts *)
Lemma to_digit_spec c : forall d, to_nat_digit c d <-> to_digit c = Some (Z.of_nat d).
Proof.
  intros d. unfold to_digit. split.
  - intros H. inversion H as [d' Hd E1 E2]; subst. rewrite nat_ascii_embedding by lia.
    destruct (Z.leb_spec 48 (Z.of_nat (48 + d))); [|lia]. destruct (Z.leb_spec (Z.of_nat (48 + d)) 57); [|lia].
    cbn [andb]. f_equal. lia.
  - destruct (Z.leb_spec 48 (Z.of_nat (nat_of_ascii c))); [|discriminate].
    destruct (Z.leb_spec (Z.of_nat (nat_of_ascii c)) 57); [|discriminate]. cbn [andb]. intros E. injection E as E.
    assert (Hn : nat_of_ascii c = (48 + d)%nat) by lia.
    rewrite <- (ascii_nat_embedding c), Hn. constructor. lia.
Qed.
Lemma to_digit_range c x : to_digit c = Some x -> 0 <= x <= 9.
Proof.
  unfold to_digit. destruct (Z.leb_spec 48 (Z.of_nat (nat_of_ascii c))); [|discriminate].
  destruct (Z.leb_spec (Z.of_nat (nat_of_ascii c)) 57); [|discriminate]. cbn [andb]. intros E. injection E as <-. lia.
Qed.
Lemma numeral_nonneg s v : numeral s v -> 0 <= v.
Proof.
  induction 1 as [|c d s v Hd Hs IH]; [lia|].
  assert (0 <= 10 ^ Z.of_nat (String.length s)) by (apply Z.pow_nonneg; lia). nia.
Qed.
Lemma numeral_fun s : forall v w, numeral s v -> numeral s w -> v = w.
Proof.
  induction s as [|c s IH]; intros v w Hv Hw; inversion Hv; inversion Hw; subst; [reflexivity|].
  match goal with H1 : to_nat_digit c ?a, H2 : to_nat_digit c ?b |- _ =>
    apply to_digit_spec in H1; apply to_digit_spec in H2; assert (a = b) as -> by (rewrite H1 in H2; injection H2; lia) end.
  f_equal. auto.
Qed.
Lemma checked_some z r : i32_checked z = Some r <-> r = z /\ - 2 ^ 31 <= z < 2 ^ 31.
Proof.
  unfold i32_checked. destruct (Z.leb_spec (- 2 ^ 31) z), (Z.ltb_spec z (2 ^ 31)); cbn [andb]; split;
    intros E; try discriminate; try lia.
  - injection E as <-. lia.
  - now destruct E as [-> _].
Qed.
Lemma parse_digits_spec (negative : bool) (s : string) : forall acc z,
  (if negative then acc <= 0 else 0 <= acc) -> - 2 ^ 31 <= acc < 2 ^ 31 ->
  (parse_digits negative acc s = Some z <->
   (- 2 ^ 31 <= z < 2 ^ 31 /\ exists v, numeral s v /\
    z = acc * 10 ^ Z.of_nat (String.length s) + (if negative then - v else v))).
Proof.
  induction s as [|c s IH]; intros acc z Hsign Hr.
  - cbn [parse_digits]. split.
    + intros E. injection E as <-. split; [exact Hr|]. exists 0. split; [constructor|]. cbn. destruct negative; lia.
    + intros (_ & v & Hv & ->). inversion Hv; subst. f_equal. cbn. destruct negative; lia.
  - cbn [parse_digits].
    set (P := 10 ^ Z.of_nat (String.length s)).
    assert (HP : 1 <= P) by (unfold P; assert (0 < 10 ^ Z.of_nat (String.length s)) by (apply Z.pow_pos_nonneg; lia); lia).
    assert (HP10 : 10 ^ Z.of_nat (String.length (String c s)) = 10 * P).
    { cbn [String.length]. rewrite Nat2Z.inj_succ, Z.pow_succ_r by lia. reflexivity. }
    split.
    + destruct (i32_checked (acc * 10)) as [m|] eqn:Em; [|discriminate]. apply checked_some in Em. destruct Em as [-> Hm].
      destruct (to_digit c) as [x|] eqn:Ex; [|discriminate].
      destruct (i32_checked (if negative then acc * 10 - x else acc * 10 + x)) as [r|] eqn:Er; [|discriminate].
      apply checked_some in Er. destruct Er as [-> Hrr]. pose proof (to_digit_range _ _ Ex) as Hx.
      intros H. apply IH in H; [|destruct negative; lia|exact Hrr].
      destruct H as (Hz & v & Hv & ->). split; [exact Hz|].
      exists (x * P + v). split.
      * replace x with (Z.of_nat (Z.to_nat x)) in * by lia. constructor; [|exact Hv]. now apply to_digit_spec.
      * rewrite HP10. fold P. destruct negative; nia.
    + intros (Hz & w & Hw & ->). inversion Hw as [|c' d s' v Hd Hv E1 E2]; subst. fold P in Hz |- *. fold P in Hw.
      rewrite HP10 in *. pose proof (numeral_nonneg _ _ Hv) as Hv0.
      apply to_digit_spec in Hd. rewrite Hd. pose proof (to_digit_range _ _ Hd) as Hx.
      assert (Hm : - 2 ^ 31 <= acc * 10 < 2 ^ 31) by (destruct negative; nia).
      assert (Hrr : - 2 ^ 31 <= (if negative then acc * 10 - Z.of_nat d else acc * 10 + Z.of_nat d) < 2 ^ 31)
        by (destruct negative; nia).
      rewrite (proj2 (checked_some (acc * 10) _) (conj eq_refl Hm)).
      rewrite (proj2 (checked_some _ _) (conj eq_refl Hrr)).
      apply IH; [destruct negative; nia|exact Hrr|]. split; [exact Hz|]. exists v. split; [exact Hv|].
      fold P. destruct negative; nia.
Qed.
Lemma numeral_no_sign c s v : (c = "-" \/ c = "+")%char -> ~ numeral (String c s) v.
Proof.
  intros H Hn. inversion Hn as [|c' d s' v' Hd Hs E1 E2]; subst. apply to_digit_spec in Hd.
  destruct H as [-> | ->]; discriminate.
Qed.

(** ** C110 *)
(** A configuration text is read exactly when it denotes an [i32], and as that number; it denotes at most
    one. *)
Theorem C110_parse : forall (s : string) (z : Z),
  (parse_config s = Ok z <-> denotes s z) /\
  (parse_config s = Err "Invalid number format" <-> forall n, ~ denotes s n) /\
  (forall n m, denotes s n -> denotes s m -> n = m).
Proof.
  assert (G : forall s z, parse_i32 s = Some z <-> denotes s z).
  { intros s z. unfold denotes. destruct s as [|c rest]; cbn [parse_i32].
    - split; [discriminate|]. intros (_ & ds & v & Hne & _ & [[E _]|[[E _]|[E _]]]); congruence.
    - destruct ((c =? "-")%char || (c =? "+")%char) eqn:Ec.
      + assert (Hc : (c = "-" \/ c = "+")%char) by (apply orb_true_iff in Ec; rewrite !Ascii.eqb_eq in Ec; exact Ec).
        destruct rest as [|c2 r2].
        * split; [discriminate|]. intros (_ & ds & v & Hne & Hn & H). exfalso.
          destruct H as [[E _]|[[E _]|[E _]]].
          -- subst ds. eapply numeral_no_sign; eassumption.
          -- injection E as _ <-. congruence.
          -- injection E as _ <-. congruence.
        * rewrite parse_digits_spec by (try destruct (c =? "-")%char; lia). split.
          -- intros (Hz & v & Hv & E). split; [exact Hz|]. exists (String c2 r2), v.
             split; [discriminate|]. split; [exact Hv|]. right.
             destruct Hc as [-> | ->]; [right|left]; (split; [reflexivity|]); cbn in E; lia.
          -- intros (Hz & ds & v & Hne & Hv & H). split; [exact Hz|]. exists v.
             destruct H as [[E _]|[[E ->]|[E ->]]].
             ++ subst ds. exfalso. eapply numeral_no_sign; eassumption.
             ++ injection E as -> <-. split; [exact Hv|]. cbn. lia.
             ++ injection E as -> <-. split; [exact Hv|]. cbn. lia.
      + rewrite parse_digits_spec by lia. apply orb_false_iff in Ec. rewrite !Ascii.eqb_neq in Ec. destruct Ec as [E1 E2].
        split.
        * intros (Hz & v & Hv & E). split; [exact Hz|]. exists (String c rest), v.
          split; [discriminate|]. split; [exact Hv|]. left. split; [reflexivity|]. lia.
        * intros (Hz & ds & v & Hne & Hv & H). split; [exact Hz|]. exists v.
          destruct H as [[E ->]|[[E _]|[E _]]]; [|congruence|congruence]. subst ds. split; [exact Hv|]. lia. }
  assert (F : forall s n m, denotes s n -> denotes s m -> n = m)
    by (intros s n m Hn Hm; apply G in Hn; apply G in Hm; congruence).
  intros s z. unfold parse_config. split; [|split; [|apply F]].
  - rewrite <- G. destruct (parse_i32 s); split; congruence.
  - split.
    + intros H n Hn. apply G in Hn. rewrite Hn in H. discriminate.
    + intros H. destruct (parse_i32 s) as [n|] eqn:E; [|reflexivity]. apply G in E. now apply H in E.
Qed.
(** What the first pipeline prints, for every text: every step's own contexts, the latest first, except
    that the context of the pipeline stands before those of the error it was put on. *)
Theorem C110_prints : forall (show : Z -> string) (s : string),
  (forall n, denotes s n -> 100 <= n -> Z.even n = true ->
     print1 (pipeline1 show s) =
       "Success: Processed " ++ show n ++ " rows via db_connection_handle" ++ line_end) /\
  (forall n, denotes s n -> 100 <= n -> Z.even n = false ->
     print1 (pipeline1 show s) =
       "Error occurred:" ++ line_end ++
       "Recovery attempt initiated -> Failed to complete data processing pipeline -> Error during data processing -> Value must be even number"
       ++ line_end ++ line_end) /\
  (forall n, denotes s n -> n < 100 ->
     print1 (pipeline1 show s) =
       "Error occurred:" ++ line_end ++
       "Recovery attempt initiated -> Error occurred during DB connection -> DB connection attempt failed -> Connection timeout too short"
       ++ line_end ++ line_end) /\
  ((forall n, ~ denotes s n) ->
     print1 (pipeline1 show s) =
       "Error occurred:" ++ line_end ++
       "Failed to parse configuration file -> Recovery attempt initiated -> Invalid number format"
       ++ line_end ++ line_end).
Proof.
  assert (R : forall n, Z.rem n 2 =? 0 = Z.even n).
  { intros n. destruct (Z.even n) eqn:E.
    - apply Z.even_spec in E. destruct E as [k ->]. rewrite Z.mul_comm, Z.rem_mul by lia. reflexivity.
    - apply Z.eqb_neq. intros H. apply Z.rem_divide in H; [|lia]. destruct H as [k ->].
      rewrite Z.even_mul, orb_true_r in E. discriminate. }
  assert (C : forall n, step_connect n = if n <? 100
     then Err (mkCerr "Connection timeout too short" ["DB connection attempt failed"; "Error occurred during DB connection"] None)
     else Ok ("db_connection_handle", n)).
  { intros n. unfold step_connect, connect_db. now destruct (n <? 100). }
  assert (D : forall show c n, step_process show (c, n) = if Z.even n
     then Ok ("Processed " ++ show n ++ " rows via " ++ c)
     else Err (mkCerr "Value must be even number"
                 ["Error during data processing"; "Failed to complete data processing pipeline"] None)).
  { intros show c n. unfold step_process, process_data. cbn [fst snd]. rewrite R. now destruct (Z.even n). }
  intros show s. unfold pipeline1, pipeline_steps.
  split; [|split; [|split]].
  - intros n Hn Hge He. apply (proj1 (C110_parse s n)) in Hn. rewrite Hn.
    unfold ep_finish, ep_recover, ep_and_then, ep_with_context, ep_new, wrap_in_composable_result, map_err.
    cbn [ep_result ep_pending]. rewrite C. destruct (Z.ltb_spec n 100); [lia|]. rewrite D, He. cbn [print1].
    cbn [String.append]. now rewrite !append_assoc.
  - intros n Hn Hge He. apply (proj1 (C110_parse s n)) in Hn. rewrite Hn.
    unfold ep_finish, ep_recover, ep_and_then, ep_with_context, ep_new, wrap_in_composable_result, map_err.
    cbn [ep_result ep_pending]. rewrite C. destruct (Z.ltb_spec n 100); [lia|]. rewrite D, He. reflexivity.
  - intros n Hn Hlt. apply (proj1 (C110_parse s n)) in Hn. rewrite Hn.
    unfold ep_finish, ep_recover, ep_and_then, ep_with_context, ep_new, wrap_in_composable_result, map_err.
    cbn [ep_result ep_pending]. rewrite C. destruct (Z.ltb_spec n 100); [|lia]. reflexivity.
  - intros H. apply (proj1 (proj2 (C110_parse s 0))) in H. rewrite H. reflexivity.
Qed.
(** The second pipeline: the same without the recovery's context, and an empty line after a success. *)
Theorem C110_prints_second : forall (show : Z -> string) (s : string),
  (forall n, denotes s n -> 100 <= n -> Z.even n = true ->
     print2 (pipeline2 show s) =
       "Success: Processed " ++ show n ++ " rows via db_connection_handle" ++ line_end ++ line_end) /\
  (forall n, denotes s n -> 100 <= n -> Z.even n = false ->
     print2 (pipeline2 show s) =
       "Error occurred:" ++ line_end ++
       "Failed to complete data processing pipeline -> Error during data processing -> Value must be even number"
       ++ line_end ++ line_end) /\
  (forall n, denotes s n -> n < 100 ->
     print2 (pipeline2 show s) =
       "Error occurred:" ++ line_end ++
       "Error occurred during DB connection -> DB connection attempt failed -> Connection timeout too short"
       ++ line_end ++ line_end) /\
  ((forall n, ~ denotes s n) ->
     print2 (pipeline2 show s) =
       "Error occurred:" ++ line_end ++
       "Failed to parse configuration file -> Invalid number format"
       ++ line_end ++ line_end).
Proof.
  assert (R : forall n, Z.rem n 2 =? 0 = Z.even n).
  { intros n. destruct (Z.even n) eqn:E.
    - apply Z.even_spec in E. destruct E as [k ->]. rewrite Z.mul_comm, Z.rem_mul by lia. reflexivity.
    - apply Z.eqb_neq. intros H. apply Z.rem_divide in H; [|lia]. destruct H as [k ->].
      rewrite Z.even_mul, orb_true_r in E. discriminate. }
  assert (C : forall n, step_connect n = if n <? 100
     then Err (mkCerr "Connection timeout too short" ["DB connection attempt failed"; "Error occurred during DB connection"] None)
     else Ok ("db_connection_handle", n)).
  { intros n. unfold step_connect, connect_db. now destruct (n <? 100). }
  assert (D : forall show c n, step_process show (c, n) = if Z.even n
     then Ok ("Processed " ++ show n ++ " rows via " ++ c)
     else Err (mkCerr "Value must be even number"
                 ["Error during data processing"; "Failed to complete data processing pipeline"] None)).
  { intros show c n. unfold step_process, process_data. cbn [fst snd]. rewrite R. now destruct (Z.even n). }
  intros show s. unfold pipeline2, pipeline_steps.
  split; [|split; [|split]].
  - intros n Hn Hge He. apply (proj1 (C110_parse s n)) in Hn. rewrite Hn.
    unfold ep_finish, ep_and_then, ep_with_context, ep_new, wrap_in_composable_result, map_err.
    cbn [ep_result ep_pending]. rewrite C. destruct (Z.ltb_spec n 100); [lia|]. rewrite D, He. cbn [print2].
    cbn [String.append]. now rewrite !append_assoc.
  - intros n Hn Hge He. apply (proj1 (C110_parse s n)) in Hn. rewrite Hn.
    unfold ep_finish, ep_and_then, ep_with_context, ep_new, wrap_in_composable_result, map_err.
    cbn [ep_result ep_pending]. rewrite C. destruct (Z.ltb_spec n 100); [lia|]. rewrite D, He. reflexivity.
  - intros n Hn Hlt. apply (proj1 (C110_parse s n)) in Hn. rewrite Hn.
    unfold ep_finish, ep_and_then, ep_with_context, ep_new, wrap_in_composable_result, map_err.
    cbn [ep_result ep_pending]. rewrite C. destruct (Z.ltb_spec n 100); [|lia]. reflexivity.
  - intros H. apply (proj1 (proj2 (C110_parse s 0))) in H. rewrite H. reflexivity.
Qed.
(** The second pipeline, without the recovery: the same texts succeed with the same message (and one more
    empty line), the errors are the same without the recovery's context. *)
Theorem C110_recovery : forall (show : Z -> string) (s : string),
  (forall m, pipeline1 show s = Ok m <-> pipeline2 show s = Ok m) /\
  ((exists m, pipeline1 show s = Ok m) <-> exists n, denotes s n /\ 100 <= n /\ Z.even n = true) /\
  (forall e, pipeline2 show s = Err e ->
     pipeline1 show s = Err (mkCerr (ce_with_context (ce_core e) "Recovery attempt initiated") (ce_ctx e) (ce_code e))).
Proof.
  intros show s.
  assert (A : (exists m, pipeline1 show s = Ok m /\ pipeline2 show s = Ok m) \/
              (exists e, pipeline2 show s = Err e /\
                 pipeline1 show s = Err (mkCerr (ce_with_context (ce_core e) "Recovery attempt initiated") (ce_ctx e) (ce_code e)))).
  { unfold pipeline1, pipeline2. destruct (ep_result (pipeline_steps show s)) as [m|e] eqn:E.
    - left. exists m. unfold ep_finish, ep_recover. cbn [ep_result]. rewrite E. split; reflexivity.
    - right. unfold ep_finish, ep_recover. cbn [ep_result ep_pending]. rewrite E. eexists. split; reflexivity. }
  split; [|split].
  - intros m. destruct A as [(m' & -> & ->)|(e & -> & ->)]; [tauto|]. split; discriminate.
  - destruct (C110_prints show s) as (P1 & P2 & P3 & P4). split.
    + intros [m Hm]. rewrite Hm in P2, P3, P4. cbn in P2, P3, P4.
      destruct (parse_config s) as [n|x] eqn:En.
      * apply (proj1 (C110_parse s n)) in En. exists n. split; [exact En|].
        destruct (Z.lt_ge_cases n 100) as [Hlt|Hge]; [specialize (P3 n En Hlt); discriminate|].
        split; [exact Hge|]. destruct (Z.even n) eqn:Ev; [reflexivity|]. specialize (P2 n En Hge Ev). discriminate.
      * assert (Hd : forall n, ~ denotes s n).
        { intros n Hn. apply (proj1 (C110_parse s n)) in Hn. congruence. }
        specialize (P4 Hd). discriminate.
    + intros (n & Hn & Hge & Ev). specialize (P1 n Hn Hge Ev).
      destruct A as [(m & -> & _)|(e & _ & E)]; [eauto|]. rewrite E in P1. discriminate.
  - intros e He. destruct A as [(m & _ & E)|(e' & E & E1)]; rewrite He in E; [discriminate|]. injection E as <-.
    exact E1.
Qed.
(** The contexts of a pipeline stand before all contexts of the composable error it carries, whenever they
    were added; in the example the recovery's context, added last, is printed second. *)
Theorem C110_latest_first_refuted : exists s, forall show,
  (forall n, ~ denotes s n) /\
  print1 (pipeline1 show s) =
    "Error occurred:" ++ line_end ++
    "Failed to parse configuration file -> Recovery attempt initiated -> Invalid number format" ++ line_end ++ line_end /\
  forall rest, print1 (pipeline1 show s) <> "Error occurred:" ++ line_end ++ "Recovery attempt initiated" ++ rest.
Proof.
  exists "not_a_number". intros show.
  assert (H : forall n, ~ denotes "not_a_number" n) by (apply (C110_parse "not_a_number" 0); reflexivity).
  split; [exact H|]. split; [now apply C110_prints|].
  intros rest. rewrite (proj2 (proj2 (proj2 (C110_prints show "not_a_number"))) H). discriminate.
Qed.
(** Bulk contexts: the last one first, then the error. *)
Theorem C110_bulk : forall (error : string) (contexts : list string),
  bulk error contexts =
    "Bulk accumulated error analysis:" ++ line_end ++ String.concat " -> " (rev contexts ++ [error]) ++ line_end.
Proof.
  intros error contexts. unfold bulk. do 2 f_equal. f_equal. unfold cx_format_error_chain, ce_error_chain, cx_accumulate.
  cbn [ce_with_contexts ce_new ce_ctx ce_core ce_code app].
  assert (G : forall l acc i, (0 < i)%nat ->
     chain_loop i l acc ++ " -> " ++ error = acc ++ " -> " ++ String.concat " -> " (l ++ [error])).
  { induction l as [|x l IH]; intros acc i Hi; [reflexivity|]. cbn [chain_loop].
    destruct (Nat.ltb_spec 0 i); [|lia]. rewrite IH by lia.
    rewrite !append_assoc. cbn [app]. destruct (l ++ [error])%list eqn:E; [destruct l; discriminate|]. reflexivity. }
  destruct contexts as [|c cs] using rev_ind; [reflexivity|].
  rewrite rev_app_distr. cbn [rev app chain_loop Nat.ltb Nat.leb].
  destruct (cs ++ [c])%list eqn:E; [destruct cs; discriminate|]. rewrite append_assoc.
  rewrite G by lia. destruct (rev cs ++ [error])%list eqn:E2; [destruct (rev cs); discriminate|]. reflexivity.
Qed.

Lemma denotes_dec s n : parse_config s = Ok n -> denotes s n.
Proof. apply C110_parse. Qed.
Example C110_case_texts :
  denotes "200" 200 /\ denotes "+00200" 200 /\ denotes "-2147483648" (- 2147483648) /\ denotes "2147483647" 2147483647 /\
  (forall n, ~ denotes "2147483648" n) /\ (forall n, ~ denotes "-" n) /\ (forall n, ~ denotes "" n) /\
  (forall n, ~ denotes " 200" n) /\ (forall n, ~ denotes "+-1" n).
Proof.
  repeat match goal with |- _ /\ _ => split end;
    try (apply denotes_dec; vm_compute; reflexivity);
    (eapply (proj1 (proj2 (C110_parse _ 0))); vm_compute; reflexivity).
Qed.
Example C110_case_prints : forall show,
  print1 (pipeline1 show "99") = "Error occurred:" ++ line_end ++
    "Recovery attempt initiated -> Error occurred during DB connection -> DB connection attempt failed -> Connection timeout too short"
    ++ line_end ++ line_end /\
  print2 (pipeline2 show "200") =
    "Success: Processed " ++ show 200 ++ " rows via db_connection_handle" ++ line_end ++ line_end.
Proof.
  intros show. split; [reflexivity|]. apply C110_prints_second; [|lia|reflexivity].
  apply denotes_dec. vm_compute. reflexivity.
Qed.
Example C110_case_bulk :
  bulk "Transaction failed: insufficient permissions"
    ["Loading user preferences"; "Validating authentication token"; "Establishing secure connection"; "Executing transaction"] =
  "Bulk accumulated error analysis:" ++ line_end ++
  "Executing transaction -> Establishing secure connection -> Validating authentication token -> Loading user preferences -> Transaction failed: insufficient permissions"
  ++ line_end.
Proof. reflexivity. Qed.

Print Assumptions C110_parse.
Print Assumptions C110_prints.
Print Assumptions C110_prints_second.
Print Assumptions C110_recovery.
Print Assumptions C110_latest_first_refuted.
Print Assumptions C110_bulk.

(** Theorems for C101 (all ways of making, reading and combining a value agree)
    and C75 for vectors. *)
From Coq Require Import List Arith Lia String.
From Verif Require Import Base Types SumModel ChoiceModel WrapModel EffModel ErrModel PvecModel PvecSpec PvecFacts
  PvecSafe PvecComb PvecProps AliasModel AliasSpec.
Import ListNotations.
Open Scope outcome_scope.

Ltac readers := unfold one_reading; repeat split; intros; cbn in *; intuition (subst; auto; discriminate).

(** Whichever constructor made it, every accessor returns what was put in. *)
Theorem C101_single : forall (A W : Type) (x : A) (log : W),
  (forall i, In i [id_new x; id_from_ref x; id_from x; id_pure x; id_default x] ->
     one_reading [x] (map Ret [id_into_inner i; id_unwrap i; id_as_ref i; id_identity_value i; id_into_value i;
                               id_extract i]) [] [] [id_unwrap_or i]) /\
  one_reading [x] (map Ret [min_unwrap (min_from x); min_as_ref (min_from x); min_value (min_from x);
                            min_into_value (min_from x)]) [] [] [min_unwrap_or (min_from x)] /\
  one_reading [x] (map Ret [max_unwrap (max_from x); max_as_ref (max_from x); max_value (max_from x);
                            max_into_value (max_from x)]) [] [] [max_unwrap_or (max_from x)] /\
  one_reading [x] (map Ret [sum_unwrap (sum_from x); sum_as_ref (sum_from x); sum_value (sum_from x);
                            sum_into_value (sum_from x)]) [] [] [sum_unwrap_or (sum_from x)] /\
  one_reading [x] (map Ret [product_unwrap (product_from x); product_as_ref (product_from x);
                            product_value (product_from x); product_into_value (product_from x)]) [] []
                  [product_unwrap_or (product_from x)] /\
  one_reading [x] (map Ret [wr_unwrap (wr_new log x); wr_value (wr_new log x); wr_into_value (wr_new log x);
                            snd (wr_run (wr_new log x))]) [] [wr_into_iter (wr_new log x)] [] /\
  fst (wr_run (wr_new log x)) = log.
Proof.
  intros A W x log. split; [|readers].
  intros i Hi. cbn in Hi. intuition (subst; readers).
Qed.

(** Containers that may be empty: every accessor agrees with the content. *)
Theorem C101_optional : forall (A L E : Type) (x : A) (y : L) (err : E),
  (forall c m, In (c, m) [([x], mb_some x); ([x], mb_pure x); ([], mb_none); ([], mb_default); ([], mb_mzero);
                          ([], mb_empty_alt)] ->
     one_reading c [mb_value m; mb_into_value m; mb_unwrap m] [mb_as_ref m; mb_as_option m; mb_to_option m]
       [mb_iter m; mb_into_iter m; mb_to_vec m] [mb_unwrap_or m] /\
     mb_ext_to_result m err = match c with v :: _ => Ok v | [] => Err err end /\
     mb_to_result m err = mb_ext_to_result m err) /\
  (forall c e, In (c, e) [([x], ei_right x); ([], ei_left y)] ->
     one_reading c [ei_unwrap e; ei_right_ref e] [ei_right_option e] [ei_iter e; ei_iter_ref e]
       [ei_unwrap_or e; ei_right_or e]) /\
  (forall c e, In (c, e) [([y], ei_left y); ([], ei_right x)] ->
     one_reading c [ei_unwrap_left e] [ei_left_option e] [ei_left_iter e; ei_left_iter_ref e] [ei_left_or e]) /\
  (forall c f, In (c, f) [([x], first_from x); ([], first_empty)] ->
     one_reading c [first_unwrap f; first_as_ref f; first_value f; first_into_value f] [] [] [first_unwrap_or f]) /\
  (forall c l, In (c, l) [([x], last_from x); ([], last_empty)] ->
     one_reading c [last_unwrap l; last_as_ref l; last_value l; last_into_value l] [] [] [last_unwrap_or l]).
Proof.
  intros A L E x y err. repeat split; try (intros ? ? H; cbn in H; intuition congruence).
  all: repeat match goal with
    | |- forall _, _ => intro
    | H : In (_, _) _ |- _ => cbn in H; repeat (destruct H as [H|H]; [injection H as <- <-|]); try destruct H
    end; cbn in *; intuition (subst; auto; discriminate).
Qed.

(** [Choice]: the iterators give all its values, [value] the first of them. *)
Theorem C101_choice : forall (A : Type) (l : list A),
  one_reading l [ch_value (mkChoice l)] [ch_first (mkChoice l)] [ch_into_iter (mkChoice l)] [].
Proof. intros A [|a l]; unfold one_reading, ch_value; cbn; intuition (subst; auto). Qed.

(** The consuming forms give what the borrowing forms give, and one failed
    argument is enough to get its failure, the first one winning. *)
Theorem C101_owned : forall (A B C D L : Type) (f2 : A -> B -> C) (f3 : A -> B -> C -> D),
  (forall (mf : maybe (A -> B)) a b c,
     mb_apply_owned mf a = mb_apply mf a /\ mb_lift2_owned f2 a b = mb_lift2 f2 a b /\
     mb_lift3_owned f3 a b c = mb_lift3 f3 a b c) /\
  (forall (ef : either L (A -> B)) a b c,
     ei_apply_owned ef a = ei_apply ef a /\ ei_lift2_owned f2 a b = ei_lift2 f2 a b /\
     ei_lift3_owned f3 a b c = ei_lift3 f3 a b c) /\
  (forall (jf : id_ (A -> B)) a b c,
     id_apply_owned jf a = id_apply jf a /\ id_lift2_owned f2 a b = id_lift2 f2 a b /\
     id_lift3_owned f3 a b c = id_lift3 f3 a b c) /\
  (forall a b c, ei_lift3_owned f3 (Right a) (Right b) (@Right L _ c) = Right (f3 a b c)) /\
  (forall l b c, ei_lift3_owned f3 (@Left L _ l) b c = Left l) /\
  (forall a l c, ei_lift3_owned f3 (Right a) (@Left L _ l) c = Left l) /\
  (forall a b l, ei_lift3_owned f3 (Right a) (Right b) (@Left L _ l) = Left l) /\
  (forall a b c d, mb_lift3_owned f3 a b c = Just d <->
     exists x y z, a = Just x /\ b = Just y /\ c = Just z /\ d = f3 x y z).
Proof.
  intros A B C D L f2 f3. split; [|split; [|split; [|repeat split]]].
  - intros mf a b c. destruct mf, a, b, c; repeat split.
  - intros ef a b c. destruct ef, a, b, c; repeat split.
  - repeat split.
  - intros H. destruct a, b, c; try discriminate. injection H as <-. eauto 10.
  - intros (x & y & z & -> & -> & -> & ->). reflexivity.
Qed.

(** Printing an error prints its chain; a context prints its message. *)
Theorem C101_text : forall (E : Type) (display : E -> string) (show : nat -> string) (e : cerr E) (s : string),
  ce_display display show e = cx_format_error_chain display show e /\
  ec_message (ec_new s) = s /\ ec_display (ec_new s) = s.
Proof. repeat split. Qed.

(** Vectors: the cache policy has no influence, [length] counts the elements. *)
Theorem C101_vector : forall (T P Q : Type) (p : P) (q : Q) (l : list T),
  represents (pv_with_cache_policy (T := T) p) [] /\ represents (@pv_default T) [] /\
  represents (pv_from_slice_with_cache_policy l p) l /\
  pv_from_slice_with_cache_policy l p = pv_from_slice_with_cache_policy l q /\
  (forall v : pvec T, represents v l -> pv_length v = List.length l).
Proof.
  intros T P Q p q l. split; [apply (from_iter_represents [])|]. split; [apply (from_iter_represents [])|].
  split; [apply from_iter_represents|]. split; [reflexivity|]. intros v H. apply (represents_len H).
Qed.

(** ** C75 for vectors: the trying forms never panic and are [None] exactly on the empty vector. *)
Theorem C75_vector : forall (T : Type) (v : pvec T) (l : list T), represents v l ->
  pv_try_value v = Ret (nth_error l 0) /\ pv_try_into_value v = Ret (nth_error l 0) /\
  pv_value v = match l with x :: _ => Ret x | [] => Panic end /\
  pv_into_value v = match l with x :: _ => Ret x | [] => Panic end.
Proof.
  intros T v l H. unfold pv_try_value, pv_value, pv_try_into_value, pv_into_value, iter_next, pv_first.
  rewrite (represents_len H), !(represents_get 0 H). destruct l; repeat split.
Qed.

(** Every vector, also one whose length and content do not agree: all four are told by reading position 0. *)
Theorem C75_vector_any : forall (T : Type) (v : pvec T),
  (forall o, pv_get v 0 = Ret o ->
     pv_try_value v = Ret o /\ pv_try_into_value v = Ret o /\
     pv_value v = match o with Some x => Ret x | None => Panic end /\
     pv_into_value v = match o with Some x => Ret x | None => Panic end) /\
  (pv_get v 0 = Panic -> pv_try_value v = Panic /\ pv_try_into_value v = Panic /\
     pv_value v = Panic /\ pv_into_value v = Panic).
Proof.
  intros T v. unfold pv_try_value, pv_value, pv_try_into_value, pv_into_value, pv_first, iter_next.
  destruct (Nat.ltb_spec 0 (pv_len v)) as [L|L].
  - split; [intros o ->|intros ->]; repeat split; destruct o; reflexivity.
  - assert (E : pv_get v 0 = Ret None) by (unfold pv_get; now rewrite (proj2 (Nat.leb_le _ _) L)).
    rewrite E. split; [intros o [= <-]; repeat split|discriminate].
Qed.

Example C75_vector_case :
  let v := pv_from_iter (seq 5 40) in
  represents v (seq 5 40) /\ pv_value v = Ret 5 /\ pv_try_into_value (pv_new (T := nat)) = Ret None.
Proof. split; [apply from_iter_represents|]. split; vm_compute; reflexivity. Qed.
Example C101_case :
  mb_lift3_owned (fun a b c => a + b * c) (Just 1) (Just 2) (Just 3) = Just 7 /\
  ei_lift2_owned Nat.add (@Left nat nat 4) (Left 5) = Left 4 /\
  In ([], @mb_none nat) [([3], mb_some 3); ([], mb_none)] /\ first_value (@first_empty nat) = Panic.
Proof. cbn. intuition. Qed.

Print Assumptions C101_single.
Print Assumptions C101_optional.
Print Assumptions C101_choice.
Print Assumptions C101_owned.
Print Assumptions C101_text.
Print Assumptions C101_vector.
Print Assumptions C75_vector.
Print Assumptions C75_vector_any.

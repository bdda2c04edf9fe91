(** Model of the derived [PartialEq], [PartialOrd], [Ord] and [Hash] of the other
    data types: [Maybe] (maybe.rs 233-240), [Either] (either.rs 262-269),
    [Validated] (validated/core.rs 137-145), [Writer] (writer.rs 196-203), [Choice]
    (choice.rs 196-199), [Id] (id.rs 246-252), [Min] (min.rs 145-148), [Max]
    (max.rs 149-152), [Sum] (sum.rs 191-194), [Product] (product.rs 129-132), [First]
    (first.rs 173-176), [Last] (last.rs 174-177), [ErrorContext] (error/types.rs
    381-385) and the hand-written [PartialEq] of [AppError] (error_utils.rs 561-565).
    A derived comparison goes through the variants in the order of their
    declaration and then through the fields; a derived hash feeds the hasher the
    variant and then the fields.  Definitions only.

    Simplification: what is fed to the hasher is a list of numbers; the message of
    an [ErrorContext] is one element. *)
From Coq Require Import List Arith.
From Verif Require Import Base Types SumModel ValidatedModel ChoiceModel EffModel ErrModel WrapModel OrdModel.
Import ListNotations.

(** ** [PartialEq] *)
Section Eq.
Context {A B : Type} (ea : A -> A -> bool) (eb : B -> B -> bool).
(** std: [PartialEq for [T]], [PartialEq for Option] *)
Fixpoint seq_eqb (l m : list A) : bool :=
  match l, m with
  | [], [] => true
  | x :: l', y :: m' => ea x y && seq_eqb l' m'
  | _, _ => false
  end.
Definition opt_eqb (o p : option A) : bool :=
  match o, p with Some x, Some y => ea x y | None, None => true | _, _ => false end.
Definition maybe_eqb (m n : maybe A) : bool :=
  match m, n with Just x, Just y => ea x y | Nothing, Nothing => true | _, _ => false end.
Definition either_eqb (m n : either A B) : bool :=
  match m, n with Left x, Left y => ea x y | Right x, Right y => eb x y | _, _ => false end.
(** the errors are the first parameter, [Valid] the first variant *)
Definition validated_eqb (m n : validated A B) : bool :=
  match m, n with Valid x, Valid y => eb x y | Invalid x, Invalid y => seq_eqb x y | _, _ => false end.
Definition writer_eqb (m n : writer A B) : bool :=
  ea (w_log m) (w_log n) && eb (w_value m) (w_value n).
Definition choice_eqb (m n : choice A) : bool := seq_eqb (values m) (values n).
Definition id_eqb (m n : id_ A) : bool := ea (id_value m) (id_value n).
Definition min_eqb (m n : min A) : bool := ea (min_val m) (min_val n).
Definition max_eqb (m n : max A) : bool := ea (max_val m) (max_val n).
Definition sum_eqb (m n : sum A) : bool := ea (sum_val m) (sum_val n).
Definition product_eqb (m n : product A) : bool := ea (product_val m) (product_val n).
Definition first_eqb (m n : first A) : bool := opt_eqb (first_val m) (first_val n).
Definition last_eqb (m n : last A) : bool := opt_eqb (last_val m) (last_val n).
End Eq.
Definition apperr_eqb {M C} (em : M -> M -> bool) (ec : C -> C -> bool) (a b : apperr M C) : bool :=
  em (ae_message a) (ae_message b) && opt_eqb ec (ae_context a) (ae_context b).

(** ** [Ord] *)
Section Cmp.
Context {A B : Type} (ca : A -> A -> comparison) (cb : B -> B -> comparison).
Definition maybe_cmp (m n : maybe A) : comparison :=
  match m, n with
  | Just x, Just y => ca x y
  | Just _, Nothing => Lt
  | Nothing, Just _ => Gt
  | Nothing, Nothing => Eq
  end.
Definition either_cmp (m n : either A B) : comparison :=
  match m, n with
  | Left x, Left y => ca x y
  | Left _, Right _ => Lt
  | Right _, Left _ => Gt
  | Right x, Right y => cb x y
  end.
Definition validated_cmp (m n : validated A B) : comparison :=
  match m, n with
  | Valid x, Valid y => cb x y
  | Valid _, Invalid _ => Lt
  | Invalid _, Valid _ => Gt
  | Invalid x, Invalid y => list_cmp ca x y
  end.
Definition writer_cmp (m n : writer A B) : comparison :=
  then_cmp (ca (w_log m) (w_log n)) (cb (w_value m) (w_value n)).
Definition choice_cmp (m n : choice A) : comparison := list_cmp ca (values m) (values n).
Definition id_cmp (m n : id_ A) : comparison := ca (id_value m) (id_value n).
Definition min_cmp (m n : min A) : comparison := ca (min_val m) (min_val n).
Definition max_cmp (m n : max A) : comparison := ca (max_val m) (max_val n).
Definition sum_cmp (m n : sum A) : comparison := ca (sum_val m) (sum_val n).
Definition product_cmp (m n : product A) : comparison := ca (product_val m) (product_val n).
Definition first_cmp (m n : first A) : comparison := option_cmp ca (first_val m) (first_val n).
Definition last_cmp (m n : last A) : comparison := option_cmp ca (last_val m) (last_val n).
(** std: [Ord for Result] ([Ok] is declared first), [Ord for (A, B)] *)
Definition result_cmp (m n : result A B) : comparison :=
  match m, n with
  | Ok x, Ok y => ca x y
  | Ok _, Err _ => Lt
  | Err _, Ok _ => Gt
  | Err x, Err y => cb x y
  end.
Definition pair_cmp (m n : A * B) : comparison := then_cmp (ca (fst m) (fst n)) (cb (snd m) (snd n)).
End Cmp.

(** ** [PartialOrd]: the elements may be incomparable, as floats are *)
Section PCmp.
Context {A B : Type} (pa : A -> A -> option comparison) (pb : B -> B -> option comparison).
Definition pthen (a b : option comparison) : option comparison :=
  match a with Some Eq => b | _ => a end.
(** std: [PartialOrd for [T]], [PartialOrd for Option] *)
Fixpoint list_pcmp (l m : list A) : option comparison :=
  match l, m with
  | [], [] => Some Eq
  | [], _ :: _ => Some Lt
  | _ :: _, [] => Some Gt
  | x :: l', y :: m' => pthen (pa x y) (list_pcmp l' m')
  end.
Definition option_pcmp (o p : option A) : option comparison :=
  match o, p with
  | None, None => Some Eq
  | None, Some _ => Some Lt
  | Some _, None => Some Gt
  | Some x, Some y => pa x y
  end.
Definition maybe_pcmp (m n : maybe A) : option comparison :=
  match m, n with
  | Just x, Just y => pa x y
  | Just _, Nothing => Some Lt
  | Nothing, Just _ => Some Gt
  | Nothing, Nothing => Some Eq
  end.
Definition either_pcmp (m n : either A B) : option comparison :=
  match m, n with
  | Left x, Left y => pa x y
  | Left _, Right _ => Some Lt
  | Right _, Left _ => Some Gt
  | Right x, Right y => pb x y
  end.
Definition validated_pcmp (m n : validated A B) : option comparison :=
  match m, n with
  | Valid x, Valid y => pb x y
  | Valid _, Invalid _ => Some Lt
  | Invalid _, Valid _ => Some Gt
  | Invalid x, Invalid y => list_pcmp x y
  end.
Definition writer_pcmp (m n : writer A B) : option comparison :=
  pthen (pa (w_log m) (w_log n)) (pb (w_value m) (w_value n)).
Definition choice_pcmp (m n : choice A) : option comparison := list_pcmp (values m) (values n).
Definition id_pcmp (m n : id_ A) : option comparison := pa (id_value m) (id_value n).
Definition min_pcmp (m n : min A) : option comparison := pa (min_val m) (min_val n).
Definition max_pcmp (m n : max A) : option comparison := pa (max_val m) (max_val n).
Definition sum_pcmp (m n : sum A) : option comparison := pa (sum_val m) (sum_val n).
Definition product_pcmp (m n : product A) : option comparison := pa (product_val m) (product_val n).
Definition first_pcmp (m n : first A) : option comparison := option_pcmp (first_val m) (first_val n).
Definition last_pcmp (m n : last A) : option comparison := option_pcmp (last_val m) (last_val n).
End PCmp.

(** ** [Hash] *)
Section Hash.
Context {A B : Type} (ha : A -> list nat) (hb : B -> list nat).
Definition maybe_hash (m : maybe A) : list nat := match m with Just x => 0 :: ha x | Nothing => [1] end.
Definition either_hash (m : either A B) : list nat :=
  match m with Left x => 0 :: ha x | Right x => 1 :: hb x end.
Definition validated_hash (m : validated A B) : list nat :=
  match m with Valid x => 0 :: hb x | Invalid es => 1 :: list_hash ha es end.
Definition writer_hash (m : writer A B) : list nat := ha (w_log m) ++ hb (w_value m).
Definition choice_hash (m : choice A) : list nat := list_hash ha (values m).
Definition id_hash (m : id_ A) : list nat := ha (id_value m).
Definition min_hash (m : min A) : list nat := ha (min_val m).
Definition max_hash (m : max A) : list nat := ha (max_val m).
Definition sum_hash (m : sum A) : list nat := ha (sum_val m).
Definition product_hash (m : product A) : list nat := ha (product_val m).
Definition first_hash (m : first A) : list nat := option_hash ha (first_val m).
Definition last_hash (m : last A) : list nat := option_hash ha (last_val m).
End Hash.

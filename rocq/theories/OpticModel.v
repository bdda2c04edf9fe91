(** Model of [Lens], [Prism], [IsoLens], [IsoPrism]
    ([/repo/src/datatypes/{lens,prism,iso_lens,iso_prism}.rs]) and of the [Iso]
    trait ([/repo/src/traits/iso.rs]).  Definitions only.  Closures are Gallina
    functions, cloning is the identity, borrowed and owned arguments are not
    distinguished; [PartialEq] is an arbitrary boolean function [eqb]. *)
From Coq Require Import List Bool.
From Verif Require Import Base Types SumModel ValidatedModel.
Import ListNotations.

(** ** Lens *)
(** lens.rs 272-280, 334-340 *)
Record lens (S A : Type) := mkLens { ln_get_fn : S -> A; ln_set_fn : S -> A -> S }.
Arguments mkLens {S A} _ _.
Arguments ln_get_fn {S A} _ _.
Arguments ln_set_fn {S A} _ _ _.
(** lens.rs 383-385 *)
Definition ln_get {S A} (l : lens S A) (source : S) : A := ln_get_fn l source.
(** lens.rs 504-506 *)
Definition ln_set_always {S A} (l : lens S A) (source : S) (value : A) : S := ln_set_fn l source value.
(** lens.rs 443-452 *)
Definition ln_set {S A} (eqb : A -> A -> bool) (l : lens S A) (source : S) (value : A) : S :=
  if eqb (ln_get l source) value then source else ln_set_always l source value.
(** lens.rs 563-571 *)
Definition ln_modify {S A} (eqb : A -> A -> bool) (l : lens S A) (source : S) (f : A -> A) : S :=
  let current := ln_get l source in
  let new_value := f current in
  ln_set eqb l source new_value.
(** lens.rs 634-641 *)
Definition ln_modify_always {S A} (l : lens S A) (source : S) (f : A -> A) : S :=
  let current := ln_get l source in
  let new_value := f current in
  ln_set_always l source new_value.
(** lens.rs 704-712 *)
Definition ln_fmap {S A B} (l : lens S A) (f : A -> B) (g : B -> A) : lens S B :=
  mkLens (fun s => f (ln_get_fn l s)) (fun s b => ln_set_fn l s (g b)).

(** ** Prism *)
(** prism.rs 436-446, 504-510, 674-676 *)
Record prism (S A : Type) := mkPrism { pr_preview_fn : S -> option A; pr_review_fn : A -> S }.
Arguments mkPrism {S A} _ _.
Arguments pr_preview_fn {S A} _ _.
Arguments pr_review_fn {S A} _ _.
(** prism.rs 562-564, 612-614 *)
Definition pr_preview {S A} (p : prism S A) (s : S) : option A := pr_preview_fn p s.
Definition pr_review {S A} (p : prism S A) (a : A) : S := pr_review_fn p a.
(** prism.rs 743-759 *)
Definition pr_modify {S A} (eqb : A -> A -> bool) (p : prism S A) (source : S) (f : A -> A) : S :=
  match pr_preview p source with
  | Some current_value =>
      let new_value := f current_value in
      if eqb new_value current_value then source else pr_review p new_value
  | None => source
  end.
(** prism.rs 817-831 *)
Definition pr_set_if_different {S A} (eqb : A -> A -> bool) (p : prism S A) (source : S) (new_value : A) : S :=
  match pr_preview p source with
  | Some current_value => if eqb new_value current_value then source else pr_review p new_value
  | None => pr_review p new_value
  end.

(** ** Iso *)
(** iso.rs 100-177; [From]/[To] are the type parameters *)
Record iso (A B : Type) := mkIso { is_forward : A -> B; is_backward : B -> A }.
Arguments mkIso {A B} _ _.
Arguments is_forward {A B} _ _.
Arguments is_backward {A B} _ _.
(** iso.rs 224-229, 277-282 *)
Definition is_map_from_target {A B R} (i : iso A B) (f : B -> R) : A -> R := fun from => f (is_forward i from).
Definition is_map_from_source {A B R} (i : iso A B) (f : A -> R) : B -> R := fun to => f (is_backward i to).
(** iso.rs 348-364, 485-517 *)
Definition is_compose {A B C} (first : iso A B) (second : iso B C) : iso A C :=
  mkIso (fun from => let b := is_forward first from in is_forward second b)
        (fun to => let b := is_backward second to in is_backward first b).
(** iso.rs 413-421, 564-590 *)
Definition is_inverse {A B} (original : iso A B) : iso B A :=
  mkIso (fun from => is_backward original from) (fun to => is_forward original to).
(** iso.rs 603-618 *)
Definition is_convert_forward {A B} (i : iso A B) (value : A) : B := is_forward i value.
Definition is_convert_backward {A B} (i : iso A B) (value : B) : A := is_backward i value.
(** iso.rs 635-640 *)
Definition is_modify {A B} (i : iso A B) (from : A) (f : B -> B) : A :=
  is_backward i (f (is_forward i from)).
(** iso.rs 653-662 *)
Definition is_verify_laws {A B} (eqa : A -> A -> bool) (eqb : B -> B -> bool) (i : iso A B) (from : A) (to : B) : bool :=
  let round_trip_from := is_backward i (is_forward i from) in
  let round_trip_to := is_forward i (is_backward i to) in
  eqa round_trip_from from && eqb round_trip_to to.
(** iso.rs 686-699 [ResultEitherIso] *)
Definition result_either_iso (R L : Type) : iso (result R L) (either L R) :=
  mkIso (fun r => ei_from_result r) (fun e => ei_to_result e).

(** ** IsoLens *)
(** iso_lens.rs 545-550, 588-594, 632-640 *)
Definition il_get {S A} (i : iso S A) (s : S) : A := is_forward i s.
Definition il_set {S A} (i : iso S A) (a : A) : S := is_backward i a.
Definition il_modify {S A} (i : iso S A) (s : S) (f : A -> A) : S :=
  let a := il_get i s in il_set i (f a).
(** iso_lens.rs 862-889 [PairIso] *)
Definition pair_iso {A B S} (inner : iso A (B * S)) : iso A (B * S) :=
  mkIso (fun from => is_forward inner from) (fun to => is_backward inner to).
(** iso_lens.rs 692-709 *)
Definition il_compose {S A B} (l : iso S A) (other : iso A (B * S)) : iso S (B * S) :=
  is_compose l (pair_iso other).
(** iso_lens.rs 799-802 *)
Definition il_set_focus {S F} (i : iso S (F * S)) (s : S) (new_focus_value : F) : S :=
  let a_tuple := (new_focus_value, s) in is_backward i a_tuple.
(** iso_lens.rs 851-858 *)
Definition il_modify_focus {S F} (i : iso S (F * S)) (s : S) (f : F -> F) : S :=
  let '(current_focus_value, s_context) := is_forward i s in
  let new_focus_value := f current_focus_value in
  is_backward i (new_focus_value, s_context).

(** ** IsoPrism *)
(** iso_prism.rs 356-361, 399-405 *)
Definition ip_preview {S A} (i : iso S (option A)) (s : S) : option A := is_forward i s.
Definition ip_review {S A} (i : iso S (option A)) (a : A) : S := is_backward i (Some a).
(** iso_prism.rs 481-510 [LiftedPrismIso] *)
Definition lifted_prism_iso {A B} (inner : iso A (option B)) : iso (option A) (option B) :=
  mkIso (fun from => match from with Some a => is_forward inner a | None => None end)
        (fun to => option_map (fun b => is_backward inner (Some b)) to).
(** iso_prism.rs 455-472 *)
Definition ip_compose {S A B} (p : iso S (option A)) (other : iso A (option B)) : iso S (option B) :=
  is_compose p (lifted_prism_iso other).

(** Model of the [Display] and [Debug] implementations written by hand in the
    crate.  Text is a [string] of bytes; the [Display]/[Debug] of an element is
    an argument; [usize] is printed in decimal.  Formatting flags (width,
    alternate [{:#?}]) and errors of the formatter are not modelled.
    Definitions only. *)
From Coq Require Import String List DecimalString.
From Verif Require Import Base Types SumModel IOModel WrapModel ChoiceModel PvecModel ErrModel.
Import ListNotations.
Open Scope string_scope.

(** [usize]'s [Display] *)
Definition show_nat (n : nat) : string := NilZero.string_of_uint (Nat.to_uint n).
(** [<[String]>::join] *)
Fixpoint join (sep : string) (l : list string) : string :=
  match l with
  | [] => ""
  | [s] => s
  | s :: l' => s ++ sep ++ join sep l'
  end.

(** pvec/error.rs 7-26 *)
Inductive pvec_error : Type := IndexOutOfBounds (index len : nat) | InvalidRange (start stop : nat).
(** pvec/error.rs 28-47 *)
Definition pve_display (e : pvec_error) : string :=
  match e with
  | IndexOutOfBounds index len =>
      "Index " ++ show_nat index ++ " out of bounds for vector of length " ++ show_nat len
  | InvalidRange start stop =>
      "Invalid range: start " ++ show_nat start ++ " is greater than end " ++ show_nat stop
  end.
(** maybe.rs 251-258 *)
Definition mbe_display (e : maybe_error) : string :=
  match e with
  | ValueNotPresent => "Attempted to access a value in a Nothing"
  | Custom msg => msg
  end.
(** io.rs 473-480 *)
Definition ioe_display (e : ioerror) : string :=
  match e with ValueNotSet => "Value not set" | OtherError msg => "IO Error: " ++ msg end.
(** error_utils.rs 644-651: [Display] of [AppError], from the [Debug] of the message and of the context *)
Definition app_display {M C} (show : M -> string) (show_context : C -> string) (e : apperr M C) : string :=
  match ae_context e with
  | Some context => show (ae_message e) ++ " (Context: " ++ show_context context ++ ")"
  | None => show (ae_message e)
  end.

Section Show.
Context {T : Type} (show : T -> string).
(** sum.rs 350-360, product.rs 288-298, min.rs 398-408, max.rs 389-399:
    [Debug] and [Display] differ only in the element's text *)
Definition sum_text (x : sum T) : string := "Sum(" ++ show (sum_val x) ++ ")".
Definition product_text (x : product T) : string := "Product(" ++ show (product_val x) ++ ")".
Definition min_text (x : min T) : string := "Min(" ++ show (min_val x) ++ ")".
Definition max_text (x : max T) : string := "Max(" ++ show (max_val x) ++ ")".
(** first.rs 309-316, last.rs 322-329 *)
Definition first_text (x : first T) : string :=
  match first_val x with Some value => "First(Some(" ++ show value ++ "))" | None => "First(None)" end.
Definition last_text (x : last T) : string :=
  match last_val x with Some value => "Last(Some(" ++ show value ++ "))" | None => "Last(None)" end.
(** choice.rs 1997-2015 *)
Definition ch_display (c : choice T) : string :=
  match ch_first c with
  | Some f =>
      show f ++
      match ch_alternatives c with
      | [] => ""
      | alts => " | " ++ join ", " (map show alts)
      end
  | None => ""
  end.
(** [<[T]>::fmt] of the standard library *)
Definition slice_debug (l : list T) : string := "[" ++ join ", " (map show l) ++ "]".
(** pvec/core.rs 1060-1080 *)
Definition pv_debug (v : pvec T) : string :=
  match inner v with
  | Inline elements =>
      "PersistentVector(Inline, len=" ++ show_nat (pv_len v) ++ ", elements=" ++ slice_debug elements ++ ")"
  | Tree _ =>
      "PersistentVector(Tree, len=" ++ show_nat (pv_len v) ++ ", generation=" ++ show_nat (generation v) ++ ")"
  end.
End Show.

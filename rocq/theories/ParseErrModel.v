(** Model of [ParseError] of [/repo/examples/advanced_parser.rs].  Text is a
    [string]; the formatter does not fail.  Definitions only. *)
From Coq Require Import String.
From Verif Require Import TextModel.
Open Scope string_scope.

(** advanced_parser.rs 17-23 *)
Record parse_error := mkParseError
  { pe_message : string; pe_position : nat; pe_expected : option string; pe_found : option string }.

(** advanced_parser.rs 26-39 [fmt] *)
Definition pe_display (e : parse_error) : string :=
  "Parse error at position " ++ show_nat (pe_position e) ++ ": " ++ pe_message e ++
  match pe_expected e with Some exp => " (expected: " ++ exp ++ ")" | None => "" end ++
  match pe_found e with Some found => " (found: " ++ found ++ ")" | None => "" end.

(** advanced_parser.rs 43-50 [new]; 52-55 [with_expected]; 57-60 [with_found] *)
Definition pe_new (message : string) (position : nat) : parse_error :=
  mkParseError message position None None.
Definition pe_with_expected (e : parse_error) (expected : string) : parse_error :=
  mkParseError (pe_message e) (pe_position e) (Some expected) (pe_found e).
Definition pe_with_found (e : parse_error) (found : string) : parse_error :=
  mkParseError (pe_message e) (pe_position e) (pe_expected e) (Some found).

(** Model of examples/error.rs: the configuration pipeline and the bulk contexts, with
    what they print.  Definitions only.

    Simplified: [Box] is transparent; the [i32] is the integer it holds; how an [i32] is printed is
    an argument; a text is its bytes. *)
From Coq Require Import String Ascii ZArith List Bool.
From Verif Require Import Base Types ErrModel AliasModel.
Import ListNotations.
Open Scope string_scope.
Open Scope Z_scope.

(** ** [str::parse::<i32>] of the standard library *)
(** [i32::checked_mul], [checked_add], [checked_sub]: the exact result, if it fits *)
Definition i32_checked (z : Z) : option Z := if (- 2 ^ 31 <=? z) && (z <? 2 ^ 31) then Some z else None.
(** [(byte as char).to_digit(10)] *)
Definition to_digit (c : ascii) : option Z :=
  let n := Z.of_nat (nat_of_ascii c) in
  if (48 <=? n) && (n <=? 57) then Some (n - 48) else None.
(** the loop of [from_str_radix], radix 10, over the digits *)
Fixpoint parse_digits (negative : bool) (result : Z) (digits : string) : option Z :=
  match digits with
  | EmptyString => Some result
  | String c digits' =>
      match i32_checked (result * 10), to_digit c with
      | Some mul, Some x =>
          match i32_checked (if negative then mul - x else mul + x) with
          | Some result' => parse_digits negative result' digits'
          | None => None
          end
      | _, _ => None
      end
  end.
(** no text, or a sign alone, is an error; one sign is allowed *)
Definition parse_i32 (src : string) : option Z :=
  match src with
  | EmptyString => None
  | String c rest =>
      if (c =? "-")%char || (c =? "+")%char then
        match rest with EmptyString => None | _ => parse_digits (c =? "-")%char 0 rest end
      else parse_digits false 0 src
  end.

(** ** The three steps *)
(** error.rs 6-8 *)
Definition parse_config (content : string) : result Z string :=
  match parse_i32 content with Some n => Ok n | None => Err "Invalid number format" end.
(** error.rs 10-16 *)
Definition connect_db (timeout_ms : Z) : result string string :=
  if timeout_ms <? 100 then Err "Connection timeout too short" else Ok "db_connection_handle".
(** error.rs 18-24; [%] keeps the sign of the dividend *)
Definition process_data (show : Z -> string) (connection : string) (value : Z) : result string string :=
  if Z.rem value 2 =? 0 then Ok ("Processed " ++ show value ++ " rows via " ++ connection)
  else Err "Value must be even number".

(** ** The pipeline *)
(** [Result::map] *)
Definition map_ok {T U E} (f : T -> U) (r : result T E) : result U E :=
  match r with Ok t => Ok (f t) | Err e => Err e end.
(** error.rs 33-40, 70-77: the first [and_then] *)
Definition step_connect (cfg : Z) : result (string * Z) (cerr string) :=
  map_ok (fun conn => (conn, cfg))
    (map_err (fun e => ce_with_context e "Error occurred during DB connection")
      (cx_with_context_result (connect_db cfg) "DB connection attempt failed")).
(** error.rs 41-50, 78-87: the second [and_then] *)
Definition step_process (show : Z -> string) (p : string * Z) : result string (cerr string) :=
  map_err (fun e => ce_with_context e "Failed to complete data processing pipeline")
    (cx_with_context_result (process_data show (fst p) (snd p)) "Error during data processing").
(** error.rs 31-50, 68-87 *)
Definition pipeline_steps (show : Z -> string) (config_str : string) : epipe string (cerr string) :=
  ep_and_then
    (ep_and_then
      (ep_with_context (ep_new (wrap_in_composable_result (parse_config config_str)))
        "Failed to parse configuration file")
      step_connect)
    (step_process show).
(** error.rs 51-55: with a recovery that fails again *)
Definition pipeline1 (show : Z -> string) (config_str : string) : result string (cerr (cerr string)) :=
  ep_finish (ep_recover (pipeline_steps show config_str)
    (fun e => Err (ce_with_context e "Recovery attempt initiated"))).
(** error.rs 68-88: without *)
Definition pipeline2 (show : Z -> string) (config_str : string) : result string (cerr (cerr string)) :=
  ep_finish (pipeline_steps show config_str).
Definition newline : string := String (ascii_of_nat 10) EmptyString.
(** no error of the example has a code *)
Definition no_code (n : nat) : string := EmptyString.
(** error.rs 57-62: what is printed; the core of the error is a [ComposableError] and is printed by its
    [Display] *)
Definition print1 (r : result string (cerr (cerr string))) : string :=
  match r with
  | Ok message => "Success: " ++ message ++ newline
  | Err err =>
      "Error occurred:" ++ newline ++
      cx_format_error_chain (ce_display (fun s => s) no_code) no_code err ++ newline ++ newline
  end.
(** error.rs 90-95 *)
Definition print2 (r : result string (cerr (cerr string))) : string :=
  match r with
  | Ok message => "Success: " ++ message ++ newline ++ newline
  | Err err =>
      "Error occurred:" ++ newline ++
      cx_format_error_chain (ce_display (fun s => s) no_code) no_code err ++ newline ++ newline
  end.
(** error.rs 99-114 *)
Definition bulk (error : string) (contexts : list string) : string :=
  "Bulk accumulated error analysis:" ++ newline ++
  cx_format_error_chain (fun s => s) no_code (cx_accumulate error contexts) ++ newline.

(** Model of the parser library and the SQL parser of [/repo/examples/advanced_parser.rs], a client of
    [Choice]: all parser combinators and all grammar functions.  Definitions only.

    A parser is run with a bound on the rounds of each [many] loop; [None] means that the bound was too small, so
    a parser that never returns is one that answers [None] for every bound.  Simplified: closures have no effects
    and do not panic; inputs are lists; [String] is the list of its characters; [clone] is the identity.  Left out:
    the printing of the demonstration (565-679).  [ParseError] (16-64), which no parser uses, is in [ParseErrModel]. *)
From Coq Require Import List Arith NArith Bool String Ascii.
From Verif Require Import Base ChoiceModel.
Import ListNotations.
Set Implicit Arguments.

(** lines 70-76 *)
Definition parser (I O : Type) : Type := nat -> list I -> option (choice (O * list I)).

Section Combinators.
Context {I : Type}.

(** lines 96-103 [new] with a closure that always answers *)
Definition p_new {O} (f : list I -> choice (O * list I)) : parser I O := fun _ input => Some (f input).

(** lines 106-108 [parse] *)
Definition p_parse {O} (p : parser I O) (n : nat) (input : list I) := p n input.

(** lines 111-121 [or] *)
Definition p_or {O} (self other : parser I O) : parser I O := fun n input =>
  match p_parse self n input with
  | None => None
  | Some first_result =>
      if ch_is_empty first_result then p_parse other n input
      else match p_parse other n input with
           | None => None
           | Some second => Some (ch_alt first_result second)
           end
  end.

(** lines 131-135: the loop of [and_then] *)
Fixpoint and_then_loop {O B} (f : O -> parser I B) (n : nat) (combined : choice (B * list I))
  (results : list (O * list I)) : option (choice (B * list I)) :=
  match results with
  | [] => Some combined
  | (result, remaining) :: results' =>
      match p_parse (f result) n remaining with
      | None => None
      | Some next_results => and_then_loop f n (ch_alt combined next_results) results'
      end
  end.
(** lines 124-138 [and_then] *)
Definition p_and_then {O B} (self : parser I O) (f : O -> parser I B) : parser I B := fun n input =>
  match p_parse self n input with
  | None => None
  | Some results => and_then_loop f n ch_empty (values results)
  end.

(** lines 148-150: the inner loop of [apply] *)
Fixpoint apply_inner {O B} (func : O -> B) (combined : choice (B * list I)) (vs : list (O * list I))
  : choice (B * list I) :=
  match vs with
  | [] => combined
  | (value, remaining2) :: vs' =>
      apply_inner func (ch_alt combined (ch_new (func value, remaining2) [])) vs'
  end.
(** lines 147-151: the outer loop *)
Fixpoint apply_outer {O B} (value_parser : parser I O) (n : nat) (combined : choice (B * list I))
  (fs : list ((O -> B) * list I)) : option (choice (B * list I)) :=
  match fs with
  | [] => Some combined
  | (func, remaining1) :: fs' =>
      match p_parse value_parser n remaining1 with
      | None => None
      | Some vs => apply_outer value_parser n (apply_inner func combined (values vs)) fs'
      end
  end.
(** lines 141-155 [apply] *)
Definition p_apply {O B} (func_parser : parser I (O -> B)) (value_parser : parser I O) : parser I B :=
  fun n input =>
  match p_parse func_parser n input with
  | None => None
  | Some fs => apply_outer value_parser n ch_empty (values fs)
  end.

(** lines 164-166: the loop of [map] *)
Fixpoint map_loop {O B} (f : O -> B) (combined : choice (B * list I)) (rs : list (O * list I))
  : choice (B * list I) :=
  match rs with
  | [] => combined
  | (result, remaining) :: rs' => map_loop f (ch_alt combined (ch_new (f result, remaining) [])) rs'
  end.
(** lines 158-170 [map] *)
Definition p_map {O B} (self : parser I O) (f : O -> B) : parser I B := fun n input =>
  match p_parse self n input with
  | None => None
  | Some rs => Some (map_loop f ch_empty (values rs))
  end.

(** lines 177-185: the loop of [many]; [rounds] are still allowed *)
Fixpoint many_loop {O} (self : parser I O) (n rounds : nat) (results : list O) (current_input : list I)
  : option (list O * list I) :=
  match rounds with
  | 0 => None
  | S rounds' =>
      match p_parse self n current_input with
      | None => None
      | Some c =>
          match hd_error (values c) with
          | Some (result, remaining) => many_loop self n rounds' (results ++ [result]) remaining
          | None => Some (results, current_input)
          end
      end
  end.
(** lines 173-190 [many] *)
Definition p_many {O} (self : parser I O) : parser I (list O) := fun n input =>
  match many_loop self n n [] input with
  | None => None
  | Some (results, current_input) => Some (ch_new (results, current_input) [])
  end.

(** lines 193-202 [many1] *)
Definition p_many1 {O} (self : parser I O) : parser I (list O) :=
  p_and_then self (fun first => p_map (p_many self) (fun rest => [first] ++ rest)).

(** lines 205-210 [optional] *)
Definition p_optional {O} (self : parser I O) : parser I (option O) := fun n input =>
  match p_parse self n input with
  | None => None
  | Some c =>
      match hd_error (values c) with
      | Some (result, remaining) => Some (ch_new (Some result, remaining) [])
      | None => Some (ch_new (None, input) [])
      end
  end.

(** lines 234-251 [sep_by1] *)
Definition p_sep_by1 {O S} (self : parser I O) (separator : parser I S) : parser I (list O) :=
  p_and_then self (fun first =>
    p_map (p_many (p_and_then separator (fun _ => self))) (fun rest => [first] ++ rest)).

(** lines 213-231 [sep_by] *)
Definition p_sep_by {O S} (self : parser I O) (separator : parser I S) : parser I (list O) :=
  p_or (p_and_then self (fun first =>
          p_map (p_many (p_and_then separator (fun _ => self))) (fun rest => [first] ++ rest)))
       (p_new (fun input => ch_new ([], input) [])).

(** lines 254-266 [between] *)
Definition p_between {O LO RO} (left : parser I LO) (right : parser I RO) (p : parser I O) : parser I O :=
  p_and_then left (fun _ => p_and_then p (fun result => p_map right (fun _ => result))).

(** lines 269-285 [chainl1] *)
Definition p_chainl1 {O} (self : parser I O) (op : parser I (O -> O -> O)) : parser I O :=
  p_and_then self (fun first =>
    p_map (p_many (p_and_then op (fun f => p_map self (fun val => (f, val)))))
      (fun ops => fold_left (fun acc fv => fst fv acc (snd fv)) ops first)).

(** lines 288-290 [skip], 293-296 [label] *)
Definition p_skip {O} (self : parser I O) : parser I unit := p_map self (fun _ => tt).
Definition p_label {O} (self : parser I O) (_label : string) : parser I O := self.

(** lines 320-336 [satisfy] *)
Definition satisfy (predicate : I -> bool) : parser I I :=
  p_new (fun input =>
    match input with
    | first :: rest => if predicate first then ch_new (first, rest) [] else ch_empty
    | [] => ch_empty
    end).

(** [PartialEq] of the items *)
Variable ieq : I -> I -> bool.

(** lines 302-317 [item] *)
Definition item (expected : I) : parser I I :=
  p_new (fun input =>
    match input with
    | first :: rest => if ieq first expected then ch_new (first, rest) [] else ch_empty
    | [] => ch_empty
    end).

(** [==] of slices *)
Fixpoint slice_eq (a b : list I) : bool :=
  match a, b with
  | [], [] => true
  | x :: a', y :: b' => ieq x y && slice_eq a' b'
  | _, _ => false
  end.
(** lines 339-350 [sequence] *)
Definition sequence (expected : list I) : parser I (list I) :=
  p_new (fun input =>
    if (List.length expected <=? List.length input) && slice_eq (firstn (List.length expected) input) expected
    then ch_new (expected, skipn (List.length expected) input) []
    else ch_empty).
End Combinators.

(** ** The SQL parser *)

(** A [char] is its code point. *)
Definition chars (s : string) : list N := map N_of_ascii (list_ascii_of_string s).

(** lines 355-370 [SqlQuery], 373-375 [WhereClause], 378-382 [Condition], 385-387 [SelectClause], 390-392 [FromClause] *)
Record condition := mkCondition { field : list N; operator : list N; value : list N }.
Record where_clause := mkWhere { conditions : list condition }.
Inductive sql_query :=
| Select (columns : list (list N)) (table : list N) (wh : option where_clause)
| Insert (table : list N) (vals : list (list N))
| Update (table : list N) (set_clause : list N) (wh : option where_clause).
Record select_clause := mkSelect { sel_columns : list (list N) }.
Record from_clause := mkFrom { from_table : list N }.

Section Sql.
(** [char::is_alphanumeric] and [char::is_whitespace] beyond ASCII, by the Unicode tables *)
Variables alnum_beyond white_beyond : N -> bool.

Open Scope N_scope.
(** [char::is_whitespace], [char::is_alphanumeric], [char::to_ascii_lowercase], [char::eq_ignore_ascii_case] *)
Definition between_chars (a b c : N) : bool := (a <=? c) && (c <=? b).
Definition is_whitespace (c : N) : bool :=
  if c <? 128 then between_chars 9 13 c || (c =? 32) else white_beyond c.
Definition is_alphanumeric (c : N) : bool :=
  if c <? 128 then between_chars 48 57 c || between_chars 65 90 c || between_chars 97 122 c
  else alnum_beyond c.
Definition to_ascii_lowercase (c : N) : N := if between_chars 65 90 c then c + 32 else c.
Definition eq_ignore_ascii_case (a b : N) : bool := to_ascii_lowercase a =? to_ascii_lowercase b.
Close Scope N_scope.

(** lines 395-397 *)
Definition whitespace : parser N (list N) := p_many (satisfy is_whitespace).
(** lines 400-404 *)
Definition word : parser N (list N) :=
  p_map (p_many1 (satisfy (fun c => is_alphanumeric c || N.eqb c 95))) (fun cs => cs).

(** [zip] and [all] *)
Fixpoint zip_all (f : N -> N -> bool) (a b : list N) : bool :=
  match a, b with
  | x :: a', y :: b' => f x y && zip_all f a' b'
  | _, _ => true
  end.
(** lines 407-424; the keywords are ASCII, so [kw.len()] is the number of characters *)
Definition keyword (kw : list N) : parser N (list N) :=
  p_new (fun input =>
    if List.length input <? List.length kw then ch_empty
    else
      let matches := zip_all eq_ignore_ascii_case kw input in
      if matches then ch_new (kw, skipn (List.length kw) input) [] else ch_empty).

(** lines 427-443 *)
Definition select_parser : parser N select_clause :=
  p_and_then (p_and_then (keyword (chars "SELECT")) (fun _ => whitespace)) (fun _ =>
    p_or
      (p_and_then word (fun first_col =>
         p_map
           (p_many (p_and_then (p_and_then (item N.eqb 44%N) (fun _ => whitespace)) (fun _ => word)))
           (fun rest_cols => mkSelect ([first_col] ++ rest_cols))))
      (p_map word (fun col => mkSelect [col]))).

(** lines 446-452 *)
Definition from_parser : parser N from_clause :=
  p_map
    (p_and_then (p_and_then (p_and_then whitespace (fun _ => keyword (chars "FROM")))
                   (fun _ => whitespace)) (fun _ => word))
    mkFrom.

(** lines 455-461 *)
Definition operator_parser : parser N (list N) :=
  p_or
    (p_or
      (p_or (p_map (sequence N.eqb (chars "!=")) (fun _ => chars "!="))
            (p_map (item N.eqb 61%N) (fun _ => chars "=")))
      (p_map (item N.eqb 60%N) (fun _ => chars "<")))
    (p_map (item N.eqb 62%N) (fun _ => chars ">")).

(** lines 464-481 *)
Definition condition_parser : parser N condition :=
  p_and_then word (fun field =>
    p_and_then (p_and_then whitespace (fun _ => operator_parser)) (fun operator =>
      p_map (p_and_then whitespace (fun _ => word)) (fun value => mkCondition field operator value))).

(** lines 484-497 *)
Definition where_parser : parser N where_clause :=
  p_and_then (p_and_then (p_and_then whitespace (fun _ => keyword (chars "WHERE"))) (fun _ => whitespace))
    (fun _ =>
      p_map
        (p_sep_by condition_parser
           (p_and_then (p_and_then whitespace (fun _ => keyword (chars "AND"))) (fun _ => whitespace)))
        mkWhere).

(** lines 500-516 *)
Definition insert_parser : parser N sql_query :=
  p_and_then
    (p_and_then
      (p_and_then
        (p_and_then (p_and_then (keyword (chars "INSERT")) (fun _ => whitespace))
           (fun _ => keyword (chars "INTO")))
        (fun _ => whitespace))
      (fun _ => word))
    (fun table =>
      p_map
        (p_and_then
          (p_and_then (p_and_then whitespace (fun _ => keyword (chars "VALUES"))) (fun _ => whitespace))
          (fun _ => word))
        (fun v => Insert table [v])).

(** lines 519-541 *)
Definition update_parser : parser N sql_query :=
  p_and_then (p_and_then (p_and_then (keyword (chars "UPDATE")) (fun _ => whitespace)) (fun _ => word))
    (fun table =>
      p_and_then
        (p_and_then
          (p_and_then (p_and_then whitespace (fun _ => keyword (chars "SET"))) (fun _ => whitespace))
          (fun _ => word))
        (fun set_clause =>
          p_map (p_optional where_parser) (fun wh => Update table set_clause wh))).

(** lines 544-562 *)
Definition sql_query_parser : parser N sql_query :=
  p_or
    (p_or
      (p_and_then select_parser (fun select_clause =>
         p_and_then from_parser (fun from_clause =>
           p_map (p_optional where_parser)
             (fun wh => Select (sel_columns select_clause) (from_table from_clause) wh))))
      insert_parser)
    update_parser.
End Sql.

(** What the parsers of [examples/advanced_parser.rs] should do, in terms of their answers only, and the grammar of
    the SQL queries. *)
From Coq Require Import List Arith NArith Bool String.
From Verif Require Import Base ChoiceModel ParserModel.
Import ListNotations.

Section Answers.
Context {I : Type}.

(** the parser returns these parses, in this order *)
Definition answers {O} (p : parser I O) (i : list I) (rs : list (O * list I)) : Prop :=
  exists n, forall m, n <= m -> p m i = Some (mkChoice rs).
(** it returns, whatever the input *)
Definition returns {O} (p : parser I O) : Prop := forall i, exists rs, answers p i rs.
(** it runs for ever *)
Definition forever {O} (p : parser I O) (i : list I) : Prop := forall n, p n i = None.
(** a value and a rest are among its parses *)
Definition finds {O} (p : parser I O) (i : list I) (x : O) (r : list I) : Prop :=
  exists rs, answers p i rs /\ In (x, r) rs.
(** more time does not change an answer: true of every parser of the library *)
Definition steady {O} (p : parser I O) : Prop :=
  forall n m i c, n <= m -> p n i = Some c -> p m i = Some c.

(** what is left is an end of the input *)
Definition leaves_ends {O} (p : parser I O) : Prop :=
  forall i x r, finds p i x r -> exists used, i = used ++ r.
(** something is always used *)
Definition uses {O} (p : parser I O) : Prop :=
  forall i x r, finds p i x r -> List.length r < List.length i.

(** first parse after first parse until there is none *)
Inductive one_after_another {O} (p : parser I O) : list I -> list O -> list I -> Prop :=
| no_more : forall i, answers p i [] -> one_after_another p i [] i
| one_more : forall i x r rs xs r', answers p i ((x, r) :: rs) -> one_after_another p r xs r' ->
    one_after_another p i (x :: xs) r'.

(** the first [a] that is followed by a [b], and so on until no [a] is followed by a [b]; the later parses of [a]
    are tried as well, so [b] must return after them *)
Inductive pairs {A O} (a : parser I A) (b : parser I O) : list I -> list (A * O) -> list I -> Prop :=
| no_pair : forall i os, answers a i os -> (forall x r, In (x, r) os -> answers b r []) -> pairs a b i [] i
| next_pair : forall i os1 x r os2 y s vs ps r', answers a i (os1 ++ (x, r) :: os2) ->
    (forall x' r', In (x', r') os1 -> answers b r' []) -> answers b r ((y, s) :: vs) ->
    (forall x' r', In (x', r') os2 -> exists vs', answers b r' vs') ->
    pairs a b s ps r' -> pairs a b i ((x, y) :: ps) r'.
End Answers.

(** ** SQL *)

(** letter for letter, upper case or lower case *)
Definition in_any_case (k : string) (t : list N) : Prop :=
  Forall2 (fun u c => c = u \/ (65 <= u <= 90 /\ c = u + 32))%N (chars k) t.

Section Text.
(** which characters beyond ASCII belong to words, and which are white space *)
Variables alnum_beyond white_beyond : N -> bool.

Definition word_char (c : N) : Prop :=
  (48 <= c <= 57 \/ 65 <= c <= 90 \/ 97 <= c <= 122 \/ c = 95 \/ (128 <= c /\ alnum_beyond c = true))%N.
Definition space (c : N) : Prop := (9 <= c <= 13 \/ c = 32 \/ (128 <= c /\ white_beyond c = true))%N.

Definition a_word (w : list N) : Prop := w <> [] /\ Forall word_char w.
Definition spaces (s : list N) : Prop := Forall space s.
Definition some_spaces (s : list N) : Prop := s <> [] /\ spaces s.

(** [field = value]; the operators *)
Inductive condition_text : condition -> list N -> Prop :=
| a_condition : forall f s1 op s2 v, a_word f -> spaces s1 ->
    In op [chars "!="; chars "="; chars "<"; chars ">"] -> spaces s2 -> a_word v ->
    condition_text (mkCondition f op v) (f ++ s1 ++ op ++ s2 ++ v).
(** [c AND c AND c] *)
Inductive conditions_text : list condition -> list N -> Prop :=
| last_condition : forall c t, condition_text c t -> conditions_text [c] t
| and_condition : forall c t s1 k s2 cs t', condition_text c t -> some_spaces s1 -> in_any_case "AND" k ->
    spaces s2 -> conditions_text cs t' -> conditions_text (c :: cs) (t ++ s1 ++ k ++ s2 ++ t').
(** [ WHERE conditions], or nothing *)
Inductive where_text : option where_clause -> list N -> Prop :=
| no_where : where_text None []
| some_where : forall s1 k s2 cs t, some_spaces s1 -> in_any_case "WHERE" k -> spaces s2 ->
    conditions_text cs t -> where_text (Some (mkWhere cs)) (s1 ++ k ++ s2 ++ t).
(** the word alone, without a condition *)
Inductive bare_where_text : option where_clause -> list N -> Prop :=
| bare_where : forall s1 k s2, some_spaces s1 -> in_any_case "WHERE" k -> spaces s2 ->
    bare_where_text (Some (mkWhere [])) (s1 ++ k ++ s2).

(** [column, column] *)
Inductive columns_text : list (list N) -> list N -> Prop :=
| last_column : forall w, a_word w -> columns_text [w] w
| comma_column : forall w s ws t, a_word w -> spaces s -> columns_text ws t ->
    columns_text (w :: ws) (w ++ chars "," ++ s ++ t).

(** the three kinds of queries; [wt] says how a where clause is written *)
Inductive query_text (wt : option where_clause -> list N -> Prop) : sql_query -> list N -> Prop :=
| select_text : forall k1 s1 cols tc s2 k2 s3 table wh tw,
    in_any_case "SELECT" k1 -> spaces s1 -> columns_text cols tc -> some_spaces s2 -> in_any_case "FROM" k2 ->
    spaces s3 -> a_word table -> wt wh tw ->
    query_text wt (Select cols table wh) (k1 ++ s1 ++ tc ++ s2 ++ k2 ++ s3 ++ table ++ tw)
| insert_text : forall k1 s1 k2 s2 table s3 k3 s4 v,
    in_any_case "INSERT" k1 -> spaces s1 -> in_any_case "INTO" k2 -> spaces s2 -> a_word table -> some_spaces s3 ->
    in_any_case "VALUES" k3 -> spaces s4 -> a_word v ->
    query_text wt (Insert table [v]) (k1 ++ s1 ++ k2 ++ s2 ++ table ++ s3 ++ k3 ++ s4 ++ v)
| update_text : forall k1 s1 table s2 k2 s3 v wh tw,
    in_any_case "UPDATE" k1 -> spaces s1 -> a_word table -> some_spaces s2 -> in_any_case "SET" k2 ->
    spaces s3 -> a_word v -> wt wh tw ->
    query_text wt (Update table v wh) (k1 ++ s1 ++ table ++ s2 ++ k2 ++ s3 ++ v ++ tw).

(** a query ends where the text does, or at a character that continues nothing, such as a semicolon *)
Definition at_end (t : list N) : Prop :=
  match t with [] => True | c :: _ => ~ word_char c /\ ~ space c end.
End Text.

(** What the derived [serde::Serialize] and [serde::Deserialize] of the data types
    do (feature "serde"), with JSON values as [serde_json::Value] holds them
    ([to_value], [from_value]).

    serde and serde_json are not part of the project.  Their rules used here:
    a struct is an object of its fields, read from an object (other keys ignored)
    or from an array of the fields in order; a struct with one unnamed field is
    written as that field; an enum variant without data is its name, one with
    data an object of one entry; [None] is null; a key missing from an object is
    read as [None] when the field is an [Option]; a float that is not finite is
    null, and an integer may be read as a float.  Integers are unbounded; of the
    floats only [f64]; the text form of JSON is left out. *)
From Coq Require Import String List ZArith Bool SpecFloat.
From Verif Require Import Base Types SumModel WrapModel ChoiceModel EffModel.
Import ListNotations.
Open Scope string_scope.

Inductive json :=
| JNull
| JBool (b : bool)
| JNum (n : Z)
| JFloat (x : spec_float)
| JStr (s : string)
| JArr (l : list json)
| JObj (fields : list (string * json)).

(** [ser] = [to_value]; [de] = [from_value], [None] being an error; [missing] is
    what a field of this type becomes when its key is absent *)
Record codec (A : Type) := mkCodec
  { ser : A -> json; de : json -> option A; missing : option A }.
Arguments mkCodec {A} _ _ _.
Arguments ser {A} _ _.
Arguments de {A} _ _.
Arguments missing {A} _.

Definition obind_opt {A B} (x : option A) (f : A -> option B) : option B :=
  match x with Some a => f a | None => None end.

(** the types serde itself provides *)
Definition int_codec : codec Z :=
  mkCodec JNum (fun j => match j with JNum n => Some n | _ => None end) None.
(** [f64::is_finite]; [n as f64] *)
Definition is_finite (x : spec_float) : bool :=
  match x with S754_zero _ | S754_finite _ _ _ => true | S754_infinity _ | S754_nan => false end.
Definition int_as_float (n : Z) : spec_float := binary_normalize 53 1024 n 0 false.
Definition float_codec : codec spec_float :=
  mkCodec (fun x => if is_finite x then JFloat x else JNull)
          (fun j => match j with
                    | JFloat x => if is_finite x then Some x else None
                    | JNum n => Some (int_as_float n)
                    | _ => None
                    end)
          None.
Definition bool_codec : codec bool :=
  mkCodec JBool (fun j => match j with JBool b => Some b | _ => None end) None.
Definition string_codec : codec string :=
  mkCodec JStr (fun j => match j with JStr s => Some s | _ => None end) None.
Definition unit_codec : codec unit :=
  mkCodec (fun _ => JNull) (fun j => match j with JNull => Some tt | _ => None end) None.
Definition option_codec {A} (c : codec A) : codec (option A) :=
  mkCodec (fun x => match x with Some a => ser c a | None => JNull end)
          (fun j => match j with JNull => Some None | _ => option_map Some (de c j) end)
          (Some None).
(** [Vec] and [SmallVec] *)
Fixpoint read_all {A} (c : codec A) (l : list json) : option (list A) :=
  match l with
  | [] => Some []
  | j :: l' => obind_opt (de c j) (fun a => option_map (cons a) (read_all c l'))
  end.
Definition list_codec {A} (c : codec A) : codec (list A) :=
  mkCodec (fun l => JArr (map (ser c) l))
          (fun j => match j with JArr l => read_all c l | _ => None end)
          None.

(** derive rules *)
Definition newtype_codec {A B} (wrap : A -> B) (inner : B -> A) (c : codec A) : codec B :=
  mkCodec (fun b => ser c (inner b)) (fun j => option_map wrap (de c j)) None.
Fixpoint lookup (key : string) (fields : list (string * json)) : option json :=
  match fields with
  | [] => None
  | (k, j) :: rest => if String.eqb k key then Some j else lookup key rest
  end.
Definition read_field {A} (c : codec A) (key : string) (fields : list (string * json)) : option A :=
  match lookup key fields with
  | Some j => de c j
  | None => missing c
  end.
Definition struct1_codec {A B} (key : string) (wrap : A -> B) (inner : B -> A) (c : codec A)
  : codec B :=
  mkCodec (fun b => JObj [(key, ser c (inner b))])
          (fun j => match j with
                    | JObj fields => option_map wrap (read_field c key fields)
                    | JArr [j1] => option_map wrap (de c j1)
                    | _ => None
                    end)
          None.
Definition struct2_codec {A1 A2 B} (key1 key2 : string) (wrap : A1 -> A2 -> B)
  (get1 : B -> A1) (get2 : B -> A2) (c1 : codec A1) (c2 : codec A2) : codec B :=
  mkCodec (fun b => JObj [(key1, ser c1 (get1 b)); (key2, ser c2 (get2 b))])
          (fun j => match j with
                    | JObj fields =>
                        obind_opt (read_field c1 key1 fields) (fun a1 =>
                        obind_opt (read_field c2 key2 fields) (fun a2 => Some (wrap a1 a2)))
                    | JArr [j1; j2] =>
                        obind_opt (de c1 j1) (fun a1 =>
                        obind_opt (de c2 j2) (fun a2 => Some (wrap a1 a2)))
                    | _ => None
                    end)
          None.
(** the variant and its data, from a bare name or an object of one entry *)
Definition read_variant (j : json) : option (string * option json) :=
  match j with
  | JStr name => Some (name, None)
  | JObj [(name, data)] => Some (name, Some data)
  | _ => None
  end.
Definition newtype_variant {A} (c : codec A) (data : option json) : option A :=
  obind_opt data (de c).
Definition unit_variant (data : option json) : option unit :=
  match data with
  | None => Some tt
  | Some j => de unit_codec j
  end.

(** id.rs 248-252 *)
Definition id_codec {A} (c : codec A) : codec (id_ A) := struct1_codec "value" (@mkId A) (@id_value A) c.
(** wrapper/min.rs 147-148, max.rs 151-152, sum.rs 192-194, product.rs 131-132 *)
Definition min_codec {A} (c : codec A) : codec (min A) := newtype_codec (@mkMin A) (@min_val A) c.
Definition max_codec {A} (c : codec A) : codec (max A) := newtype_codec (@mkMax A) (@max_val A) c.
Definition sum_codec {A} (c : codec A) : codec (sum A) := newtype_codec (@mkSum A) (@sum_val A) c.
Definition product_codec {A} (c : codec A) : codec (product A) :=
  newtype_codec (@mkProduct A) (@product_val A) c.
(** wrapper/first.rs 174-176, last.rs 176-177 *)
Definition first_codec {A} (c : codec A) : codec (first A) :=
  newtype_codec (@mkFirst A) (@first_val A) (option_codec c).
Definition last_codec {A} (c : codec A) : codec (last A) :=
  newtype_codec (@mkLast A) (@last_val A) (option_codec c).
(** maybe.rs 234-240 *)
Definition maybe_codec {A} (c : codec A) : codec (maybe A) :=
  mkCodec (fun m => match m with Just a => JObj [("Just", ser c a)] | Nothing => JStr "Nothing" end)
          (fun j => obind_opt (read_variant j) (fun '(name, data) =>
             if String.eqb name "Just" then option_map Just (newtype_variant c data)
             else if String.eqb name "Nothing" then option_map (fun _ => Nothing) (unit_variant data)
             else None))
          None.
(** either.rs 263-269 *)
Definition either_codec {L R} (cl : codec L) (cr : codec R) : codec (either L R) :=
  mkCodec (fun e => match e with
                    | Left l => JObj [("Left", ser cl l)]
                    | Right r => JObj [("Right", ser cr r)]
                    end)
          (fun j => obind_opt (read_variant j) (fun '(name, data) =>
             if String.eqb name "Left" then option_map Left (newtype_variant cl data)
             else if String.eqb name "Right" then option_map Right (newtype_variant cr data)
             else None))
          None.
(** validated/core.rs 138-145 *)
Definition validated_codec {E A} (ce : codec E) (ca : codec A) : codec (validated E A) :=
  mkCodec (fun v => match v with
                    | Valid a => JObj [("Valid", ser ca a)]
                    | Invalid es => JObj [("Invalid", ser (list_codec ce) es)]
                    end)
          (fun j => obind_opt (read_variant j) (fun '(name, data) =>
             if String.eqb name "Valid" then option_map Valid (newtype_variant ca data)
             else if String.eqb name "Invalid" then
               option_map Invalid (newtype_variant (list_codec ce) data)
             else None))
          None.
(** writer.rs 197-203 *)
Definition writer_codec {W A} (cw : codec W) (ca : codec A) : codec (writer W A) :=
  struct2_codec "log" "value" (@mkWriter W A) (@w_log W A) (@w_value W A) cw ca.
(** choice.rs 195-199 *)
Definition choice_codec {A} (c : codec A) : codec (choice A) :=
  struct1_codec "values" (@mkChoice A) (@values A) (list_codec c).

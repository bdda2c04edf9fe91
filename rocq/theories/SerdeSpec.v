(** Specification for C99: the types that can be written and read, and which of
    them can hold "nothing" in a way that JSON writes as null. *)
From Coq Require Import String List ZArith Bool SpecFloat.
From Verif Require Import Types SumModel WrapModel ChoiceModel EffModel SerdeModel.
Import ListNotations.
Open Scope string_scope.

(** reading back what was written *)
Definition round_trips {A} (c : codec A) (a : A) : Prop := de c (ser c a) = Some a.

(** types built from the standard ones and the project's *)
Inductive ty :=
| TInt | TFloat | TBool | TStr | TUnit
| TOption (t : ty) | TVec (t : ty)
| TId (t : ty) | TMin (t : ty) | TMax (t : ty) | TSum (t : ty) | TProduct (t : ty)
| TFirst (t : ty) | TLast (t : ty)
| TMaybe (t : ty) | TChoice (t : ty)
| TEither (l r : ty) | TValidated (e a : ty) | TWriter (w a : ty).

Fixpoint sem (t : ty) : Type :=
  match t with
  | TInt => Z | TFloat => spec_float | TBool => bool | TStr => string | TUnit => unit
  | TOption t => option (sem t) | TVec t => list (sem t)
  | TId t => id_ (sem t) | TMin t => min (sem t) | TMax t => max (sem t)
  | TSum t => sum (sem t) | TProduct t => product (sem t)
  | TFirst t => first (sem t) | TLast t => last (sem t)
  | TMaybe t => maybe (sem t) | TChoice t => choice (sem t)
  | TEither l r => either (sem l) (sem r)
  | TValidated e a => validated (sem e) (sem a)
  | TWriter w a => writer (sem w) (sem a)
  end.

Fixpoint codec_of (t : ty) : codec (sem t) :=
  match t with
  | TInt => int_codec | TFloat => float_codec | TBool => bool_codec | TStr => string_codec | TUnit => unit_codec
  | TOption t => option_codec (codec_of t) | TVec t => list_codec (codec_of t)
  | TId t => id_codec (codec_of t) | TMin t => min_codec (codec_of t)
  | TMax t => max_codec (codec_of t) | TSum t => sum_codec (codec_of t)
  | TProduct t => product_codec (codec_of t)
  | TFirst t => first_codec (codec_of t) | TLast t => last_codec (codec_of t)
  | TMaybe t => maybe_codec (codec_of t) | TChoice t => choice_codec (codec_of t)
  | TEither l r => either_codec (codec_of l) (codec_of r)
  | TValidated e a => validated_codec (codec_of e) (codec_of a)
  | TWriter w a => writer_codec (codec_of w) (codec_of a)
  end.

(** types with a value written as null *)
Fixpoint nullable (t : ty) : bool :=
  match t with
  | TFloat | TUnit | TOption _ | TFirst _ | TLast _ => true
  | TMin t | TMax t | TSum t | TProduct t => nullable t
  | _ => false
  end.
(** no floats, and nowhere an optional value directly around such a type *)
Fixpoint unambiguous (t : ty) : bool :=
  match t with
  | TFloat => false
  | TInt | TBool | TStr | TUnit => true
  | TOption t | TFirst t | TLast t => negb (nullable t) && unambiguous t
  | TVec t | TId t | TMin t | TMax t | TSum t | TProduct t | TMaybe t | TChoice t => unambiguous t
  | TEither a b | TValidated a b | TWriter a b => unambiguous a && unambiguous b
  end.

(** ** Single values *)

(** an infinity or not a number *)
Definition not_finite (x : spec_float) : Prop := x = S754_nan \/ exists s, x = S754_infinity s.

(** values written as null *)
Fixpoint null_value (t : ty) : sem t -> Prop :=
  match t with
  | TFloat => fun x => not_finite x
  | TUnit => fun _ => True
  | TOption t => fun o => match o with Some a => null_value t a | None => True end
  | TMin t => fun a => null_value t (min_val a)
  | TMax t => fun a => null_value t (max_val a)
  | TSum t => fun a => null_value t (sum_val a)
  | TProduct t => fun a => null_value t (product_val a)
  | TFirst t => fun a => match first_val a with Some a => null_value t a | None => True end
  | TLast t => fun a => match last_val a with Some a => null_value t a | None => True end
  | _ => fun _ => False
  end.

(** Nowhere inside is a float that is not finite, or a present value that is written as null. *)
Fixpoint survives (t : ty) : sem t -> Prop :=
  match t with
  | TFloat => fun x => ~ not_finite x
  | TInt | TBool | TStr | TUnit => fun _ => True
  | TOption t => fun o => forall a, o = Some a -> ~ null_value t a /\ survives t a
  | TFirst t => fun o => forall a, first_val o = Some a -> ~ null_value t a /\ survives t a
  | TLast t => fun o => forall a, last_val o = Some a -> ~ null_value t a /\ survives t a
  | TVec t => fun l => forall a, In a l -> survives t a
  | TChoice t => fun c => forall a, In a (values c) -> survives t a
  | TId t => fun a => survives t (id_value a)
  | TMin t => fun a => survives t (min_val a)
  | TMax t => fun a => survives t (max_val a)
  | TSum t => fun a => survives t (sum_val a)
  | TProduct t => fun a => survives t (product_val a)
  | TMaybe t => fun m => forall a, m = Just a -> survives t a
  | TEither l r => fun e => (forall a, e = Left a -> survives l a) /\ (forall b, e = Right b -> survives r b)
  | TValidated e a => fun v =>
      (forall x, v = Valid x -> survives a x) /\ (forall es x, v = Invalid es -> In x es -> survives e x)
  | TWriter w a => fun x => survives w (w_log x) /\ survives a (w_value x)
  end.

(** ** What may be read as a value of each type *)

(** the value of a field: the first entry with that name, or what [absent] allows *)
Definition field {A} (P : json -> A -> Prop) (absent : A -> Prop) (key : string)
  (fields : list (string * json)) (a : A) : Prop :=
  (exists before j after,
     fields = before ++ (key, j) :: after /\ ~ In key (map fst before) /\ P j a)%list \/
  (~ In key (map fst fields) /\ absent a).

(** only an optional field may be left out *)
Definition absent (t : ty) : sem t -> Prop :=
  match t with
  | TOption _ => fun a => a = None
  | _ => fun _ => False
  end.

Definition reads_option {A} (P : json -> A -> Prop) (j : json) (a : option A) : Prop :=
  match a with
  | None => j = JNull
  | Some b => j <> JNull /\ P j b
  end.

Definition reads_struct1 {A} (P : json -> A -> Prop) (absent : A -> Prop) (key : string)
  (j : json) (a : A) : Prop :=
  (exists fields, j = JObj fields /\ field P absent key fields a) \/
  (exists j1, j = JArr [j1] /\ P j1 a).

Definition reads_vec {A} (P : json -> A -> Prop) (j : json) (a : list A) : Prop :=
  exists l, j = JArr l /\ Forall2 P l a.

Fixpoint reads (t : ty) : json -> sem t -> Prop :=
  match t with
  | TInt => fun j n => j = JNum n
  | TFloat => fun j x =>
      (j = JFloat x /\ ~ not_finite x) \/ (exists n, j = JNum n /\ x = binary_normalize 53 1024 n 0 false)
  | TBool => fun j b => j = JBool b
  | TStr => fun j s => j = JStr s
  | TUnit => fun j _ => j = JNull
  | TOption t => reads_option (reads t)
  | TVec t => reads_vec (reads t)
  | TId t => fun j a => reads_struct1 (reads t) (absent t) "value" j (id_value a)
  | TMin t => fun j a => reads t j (min_val a)
  | TMax t => fun j a => reads t j (max_val a)
  | TSum t => fun j a => reads t j (sum_val a)
  | TProduct t => fun j a => reads t j (product_val a)
  | TFirst t => fun j a => reads_option (reads t) j (first_val a)
  | TLast t => fun j a => reads_option (reads t) j (last_val a)
  | TMaybe t => fun j m =>
      match m with
      | Just a => exists d, j = JObj [("Just", d)] /\ reads t d a
      | Nothing => j = JStr "Nothing" \/ j = JObj [("Nothing", JNull)]
      end
  | TChoice t => fun j a =>
      reads_struct1 (reads_vec (reads t)) (fun _ => False) "values" j (values a)
  | TEither l r => fun j e =>
      match e with
      | Left a => exists d, j = JObj [("Left", d)] /\ reads l d a
      | Right b => exists d, j = JObj [("Right", d)] /\ reads r d b
      end
  | TValidated e a => fun j v =>
      match v with
      | Valid x => exists d, j = JObj [("Valid", d)] /\ reads a d x
      | Invalid es => exists d, j = JObj [("Invalid", d)] /\ reads_vec (reads e) d es
      end
  | TWriter w a => fun j x =>
      (exists fields, j = JObj fields /\
         field (reads w) (absent w) "log" fields (w_log x) /\
         field (reads a) (absent a) "value" fields (w_value x)) \/
      (exists j1 j2, j = JArr [j1; j2] /\ reads w j1 (w_log x) /\ reads a j2 (w_value x))
  end.

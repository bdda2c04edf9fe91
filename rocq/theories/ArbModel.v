(** Model of the [quickcheck::Arbitrary] instances, which draw random test values
    of the data types.  Definitions only.  The generator state [Gen] is an
    arbitrary type [G]; drawing a value changes it.  How elements, booleans and
    vectors are drawn (quickcheck's own instances) is a parameter.  [shrink] is
    the trait's default (nothing) except for [Maybe] (MiscModel.v). *)
From Coq Require Import List.
From Verif Require Import Base Types SumModel ChoiceModel ValidatedModel EffModel IOModel.
Import ListNotations.

Section Arb.
Context {G : Type}.
(** [fn arbitrary(g: &mut Gen) -> Self] *)
Definition gen (A : Type) := G -> A * G.
Definition draw {A B} (m : gen A) (k : A -> gen B) : gen B := fun g => let '(a, g1) := m g in k a g1.
Definition give {A} (a : A) : gen A := fun g => (a, g).

(** id.rs 830-834 *)
Definition id_arbitrary {T} (t : gen T) : gen (id_ T) := draw t (fun x => give (mkId x)).
(** maybe.rs 1491-1497: the element is drawn only when it is needed *)
Definition mb_arbitrary {T} (bool_ : gen bool) (t : gen T) : gen (maybe T) :=
  draw bool_ (fun b : bool => if b then give Nothing else draw t (fun x => give (Just x))).
(** either.rs 1357-1365: both sides are drawn, one is kept *)
Definition ei_arbitrary {L R} (bool_ : gen bool) (l : gen L) (r : gen R) : gen (either L R) :=
  draw l (fun left => draw r (fun right => draw bool_ (fun b : bool =>
    give (if b then Left left else Right right)))).
(** validated/traits.rs 970-978 *)
Definition va_arbitrary {E A} (bool_ : gen bool) (a : gen A) (e : gen E) : gen (validated E A) :=
  draw a (fun x => draw e (fun y => draw bool_ (fun b : bool =>
    give (if b then va_valid x else va_invalid y)))).
(** writer.rs 1226-1230: the value is drawn before the log *)
Definition wr_arbitrary {W A} (w : gen W) (a : gen A) : gen (writer W A) :=
  draw a (fun x => draw w (fun y => give (mkWriter y x))).
(** choice.rs 2106-2109 *)
Definition ch_arbitrary {T} (vec : gen (list T)) : gen (choice T) := draw vec (fun items => give (ch_of_many items)).
(** state.rs 1281-1284 *)
Definition st_arbitrary {S A} (a : gen A) : gen (state S A) :=
  draw a (fun value => give (st_new (fun s => Ret (value, s)))).
(** reader.rs 624-627 *)
Definition rd_arbitrary {E A} (a : gen A) : gen (reader E A) := draw a (fun value => give (rd_new (fun _ => value))).
(** cont.rs 739-742 *)
Definition co_arbitrary {R A} (a : gen A) : gen (cont R A) := draw a (fun value => give (co_pure value)).
(** io.rs 1501-1504; async_monad.rs 1254-1257 is the same with [AsyncM::pure] *)
Definition io_arbitrary {W A} (a : gen A) : gen (io W A) := draw a (fun value => give (io_pure value)).
End Arb.
Arguments gen : clear implicits.

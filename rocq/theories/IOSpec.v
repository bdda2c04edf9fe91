(** Specification vocabulary for [IO], in terms of what running code does to the world. *)
From Coq Require Import String List.
From Verif Require Import Types IOModel.
Import ListNotations.

(** [m] takes the world from [w] to [w'] and ends with [r]. *)
Definition goes {W A} (m : comp W A) (w w' : W) (r : res A) : Prop := m w = (w', r).
(** Two pieces of code are indistinguishable. *)
Definition ceq {W A} (m n : comp W A) : Prop := forall w, m w = n w.
(** Two [IO] values are indistinguishable when run. *)
Definition ioeq {W A} (x y : io W A) : Prop := ceq (io_run x) (io_run y).
(** Two ways of building an [IO] are indistinguishable: the building does the
    same to the world, fails alike, and the built values are indistinguishable. *)
Definition beq {W A} (b c : comp W (io W A)) : Prop :=
  forall w, match b w, c w with
            | (w1, Done x), (w2, Done y) => w1 = w2 /\ ioeq x y
            | (w1, Panicked p), (w2, Panicked q) => w1 = w2 /\ p = q
            | _, _ => False
            end.
(** Code that does nothing to any world. *)
Definition silent {W A} (m : comp W A) (r : res A) : Prop := forall w, m w = (w, r).

(** Running some pieces of code in order, each once, until one panics. *)
Inductive in_order {W A} : list (comp W A) -> W -> W -> res (list A) -> Prop :=
| io_nil w : in_order [] w w (Done [])
| io_stop m ms w w' p : goes m w w' (Panicked p) -> in_order (m :: ms) w w' (Panicked p)
| io_go m ms w w1 a w2 l : goes m w w1 (Done a) -> in_order ms w1 w2 (Done l) -> in_order (m :: ms) w w2 (Done (a :: l))
| io_go_stop m ms w w1 a w2 p :
    goes m w w1 (Done a) -> in_order ms w1 w2 (Panicked p) -> in_order (m :: ms) w w2 (Panicked p).
(** Running all of them in order, each once, whatever happens. *)
Inductive all_run {W A} : list (comp W A) -> W -> W -> list (res A) -> Prop :=
| ar_nil w : all_run [] w w []
| ar_cons m ms w w1 r w2 rs : goes m w w1 r -> all_run ms w1 w2 rs -> all_run (m :: ms) w w2 (r :: rs).
(** The payloads of the panics among some outcomes. *)
Definition panics {A} (rs : list (res A)) : list payload :=
  flat_map (fun r => match r with Done _ => [] | Panicked p => [p] end) rs.
(** Doing something [n] times, ignoring its results. *)
Fixpoint times {W A} (n : nat) (m : comp W A) (w : W) : W :=
  match n with O => w | S n' => times n' m (fst (m w)) end.

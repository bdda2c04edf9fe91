(** What a loop over the elements [l] of a container sees and leaves behind,
    stated without iterators. *)
From Coq Require Import List.
Import ListNotations.

(** [n] requests answered from [l]: its elements in order, then nothing. *)
Definition answers {A} (n : nat) (l : list A) : list (option A) :=
  map (nth_error l) (seq 0 n).
(** [l] with its first [n] elements replaced by their image under [f]. *)
Definition touched {A} (f : A -> A) (n : nat) (l : list A) : list A :=
  map f (firstn n l) ++ skipn n l.

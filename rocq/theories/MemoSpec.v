(** Specification vocabulary for [Memoizer], on traces (newest event first). *)
From Coq Require Import List.
From Verif Require Import Base ConcModel.
Import ListNotations.

Section Spec.
Context {K V : Type} (eqb : K -> K -> bool).
(** The value computed for [k] since the last [clear], if any. *)
Fixpoint current (tr : list (mevent K V)) (k : K) : option V :=
  match tr with
  | [] => None
  | EvCompute k' v :: older => if eqb k' k then Some v else current older k
  | EvClear _ :: _ => None
  | _ :: older => current older k
  end.
(** The key of a call; [None] for [clear]. *)
Definition key_of (c : mcall K V) : option K := match c with CGet k _ => Some k | CClear => None end.
(** The calls of thread [i] that have ended, newest first. *)
Fixpoint answers (i : nat) (tr : list (mevent K V)) : list (option K) :=
  match tr with
  | [] => []
  | EvReturn j k _ :: older => if Nat.eqb j i then Some k :: answers i older else answers i older
  | EvClear j :: older => if Nat.eqb j i then None :: answers i older else answers i older
  | EvFail j k :: older => if Nat.eqb j i then k :: answers i older else answers i older
  | _ :: older => answers i older
  end.
(** The programs make the call [get_or_compute(k, f)]. *)
Definition called (progs : list (list (mcall K V))) (k : K) (f : K -> outcome V) : Prop :=
  exists p, In p progs /\ In (CGet k f) p.
(** Every thread has finished its program. *)
Definition finished (s : mstate K V) : Prop := forall i th, nth_error (m_threads s) i = Some th -> th = (MIdle, []).
Definition is_fail (e : mevent K V) : Prop := exists i k, e = EvFail i k.
End Spec.

(** The generation counter of [PersistentVector] as it is: a [u32]
    ([/repo/src/pvec/core.rs] 15, 47), raised with [+ 1] by every call that makes a
    new vector (520, 553, 614-730, 774-904).  [PvecModel] keeps it as an unbounded
    number; here every call of a history is followed by what the machine does when
    the number no longer fits.  With overflow checks (debug builds, or
    [overflow-checks = true]) the addition panics, without them it wraps. *)
From Coq Require Import List Arith NArith.
From Verif Require Import Base PvecModel PvecSpec.
Import ListNotations.
Open Scope outcome_scope.

Section Gen.
Context {T : Type}.
(** The number of values of the counter type: 2^32 for [u32] *)
Context (bound : N).
Context (checked : bool).
Definition set_generation (v : pvec T) (g : nat) : pvec T := mkPvec (inner v) (pv_len v) g.
(** The result of [self.generation + 1], for a vector built with it *)
Definition count (v : pvec T) : outcome (pvec T) :=
  if (N.of_nat (generation v) <? bound)%N then Ret v
  else if checked then Panic
  else Ret (set_generation v (N.to_nat (N.of_nat (generation v) mod bound))).
(** One call.  [insert] (949-959) and [remove] (961-973) make several vectors on the
    way; in all other calls the counter of the result is the largest one made. *)
Definition machine_step (o : op T) (v : pvec T) : outcome (pvec T * option T) :=
  match o with
  | Insert i x =>
      if pv_len v <=? i then do v' <- count (pv_push_back v x); Ret (v', None)
      else if i =? 0 then do v' <- count (pv_push_front v x); Ret (v', None)
      else
        do lr <- pv_split_at v i;
        do lft <- count (fst lr);
        do rgt <- count (snd lr);
        do lft' <- count (pv_push_back lft x);
        do v' <- count (pv_concat lft' rgt);
        Ret (v', None)
  | Remove i =>
      if pv_len v <=? i then Ret (v, None)
      else if pv_len v =? 1 then Ret (pv_new, None)
      else
        do lr <- pv_split_at v i;
        do lft <- count (fst lr);
        do rgt <- count (snd lr);
        do rest <- pv_skip rgt 1;
        do rest' <- count rest;
        do v' <- count (pv_concat lft rest');
        Ret (v', None)
  | _ =>
      do vr <- vec_step o v;
      do v' <- count (fst vr);
      Ret (v', snd vr)
  end.
Fixpoint machine_run (ops : list (op T)) (v : pvec T) : outcome (pvec T * list (option T)) :=
  match ops with
  | [] => Ret (v, [])
  | o :: ops' =>
      do vr <- machine_step o v;
      do vs <- machine_run ops' (fst vr);
      Ret (fst vs, snd vr :: snd vs)
  end.
End Gen.
Definition u32 : N := 4294967296.

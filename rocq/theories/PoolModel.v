(** Many [IO]s made from futures, run at the same time through
    [IO::run_async] (src/datatypes/io.rs 689-699).  Each run is a job on the
    runtime's pool of blocking threads (696); inside it the closure of
    [new_async] hands a second job to the same pool and waits for it (785-789).

    tokio's pool: at most [cap] jobs run at once, the others wait in a queue and
    are started in the order they came ([max_blocking_threads], 512 unless
    configured otherwise).  Futures are taken to finish; values are left out
    (ConcModel.v and CtxModel.v treat them). *)
From Coq Require Import List Arith Bool.
From Verif Require Import Base.
Import ListNotations.

(** How far one call of [run_async] has come *)
Inductive phase :=
| PNew        (* before [spawn_blocking], 694-696 *)
| POuterQ     (* its job waits in the queue *)
| POuter      (* its job runs; before the inner [spawn_blocking], 785 *)
| PInnerQ     (* its job runs and waits for the inner job, which is queued *)
| PInner      (* its job runs and waits for the inner job, which runs, 786-788 *)
| PInnerDone  (* the inner job has ended; before 790-791 *)
| PReturned.
(** pool threads taken by a call *)
Definition threads_of (p : phase) : nat :=
  match p with
  | PNew | POuterQ | PReturned => 0
  | POuter | PInnerQ | PInnerDone => 1
  | PInner => 2
  end.
(** The queue holds the numbers of the calls whose job waits *)
Record pool := mkPool { p_queue : list nat; p_calls : list phase }.
Definition threads_used (calls : list phase) : nat := sum_list (map threads_of calls).
Inductive pstep (cap : nat) : pool -> pool -> Prop :=
(** io.rs 694-696: the outer job is queued *)
| ps_spawn q calls i :
    nth_error calls i = Some PNew ->
    pstep cap (mkPool q calls) (mkPool (q ++ [i]) (list_set calls i POuterQ))
(** a free thread takes the oldest job *)
| ps_take_outer q calls i :
    nth_error calls i = Some POuterQ -> threads_used calls < cap ->
    pstep cap (mkPool (i :: q) calls) (mkPool q (list_set calls i POuter))
| ps_take_inner q calls i :
    nth_error calls i = Some PInnerQ -> threads_used calls < cap ->
    pstep cap (mkPool (i :: q) calls) (mkPool q (list_set calls i PInner))
(** io.rs 785-786: the inner job is queued *)
| ps_nest q calls i :
    nth_error calls i = Some POuter ->
    pstep cap (mkPool q calls) (mkPool (q ++ [i]) (list_set calls i PInnerQ))
(** io.rs 787-788: the future has been awaited *)
| ps_inner_end q calls i :
    nth_error calls i = Some PInner ->
    pstep cap (mkPool q calls) (mkPool q (list_set calls i PInnerDone))
(** io.rs 789-791: the outer job ends *)
| ps_outer_end q calls i :
    nth_error calls i = Some PInnerDone ->
    pstep cap (mkPool q calls) (mkPool q (list_set calls i PReturned)).
(** [n] calls are about to be made *)
Definition pool_start (n : nat) : pool := mkPool [] (repeat PNew n).
(** [k] steps *)
Inductive psteps (cap : nat) : nat -> pool -> pool -> Prop :=
| psteps_0 s : psteps cap 0 s s
| psteps_S k s s1 s2 : psteps cap k s s1 -> pstep cap s1 s2 -> psteps cap (S k) s s2.

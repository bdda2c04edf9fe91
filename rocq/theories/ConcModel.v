(** Models of the two pieces of shared mutable state in the crate, as transition
    systems whose steps are the atomic actions of the Rust code: the [IO] built
    by [IO::new_async] (src/datatypes/io.rs 769-796) and [Memoizer]
    (src/datatypes/wrapper/memoizer.rs).

    Any number of threads take steps in any order.  Memory is sequentially
    consistent: [Mutex], [RwLock] and [OnceLock] synchronise every access.  An
    [RwLock] is modelled without any fairness: a waiting thread is simply not
    able to step.  The tokio runtime is not modelled: awaiting the future is one
    step that yields its result, or panics when the future panics. *)
From Coq Require Import List Arith.
From Verif Require Import Base.
Import ListNotations.

(** ** IO::new_async *)
(** Where a call of the stored closure stands (io.rs 778-795).  Every call of
    [run] on the shared [IO], by whichever thread, is a runner. *)
Inductive apc (V : Type) :=
| AStart            (* before [result_cache.get()], 779 *)
| ATake             (* cache was empty; before [future_once.lock().unwrap().take()], 783 *)
| ARun              (* holds the future; before [block_on], 785-789 *)
| ASet (v : V)      (* before [result_cache.set], 790 *)
| AMiss             (* the future was gone; before [result_cache.get().unwrap()], 793 *)
| AReturned (v : V)
| APanicked.
Arguments AStart {V}.
Arguments ATake {V}.
Arguments ARun {V}.
Arguments ASet {V} _.
Arguments AMiss {V}.
Arguments AReturned {V} _.
Arguments APanicked {V}.
(** io.rs 775-776: the two shared cells, and how often the future was awaited *)
Record astate (V : Type) := mkA
  { a_future : bool; a_cache : option V; a_awaited : nat; a_runners : list (apc V) }.
Arguments mkA {V} _ _ _ _.
Arguments a_future {V} _.
Arguments a_cache {V} _.
Arguments a_awaited {V} _.
Arguments a_runners {V} _.
(** One atomic action of a runner; [fut] is what awaiting the future yields *)
Definition arun_step {V} (fut : outcome V) (future : bool) (cache : option V) (awaited : nat) (pc : apc V)
  : option (bool * option V * nat * apc V) :=
  match pc with
  | AStart => Some (future, cache, awaited, match cache with Some v => AReturned v | None => ATake end)
  | ATake => Some (false, cache, awaited, if future then ARun else AMiss)
  | ARun => Some (future, cache, S awaited, match fut with Ret v => ASet v | Panic => APanicked end)
  | ASet v => Some (future, match cache with Some _ => cache | None => Some v end, awaited, AReturned v)
  | AMiss => Some (future, cache, awaited, match cache with Some v => AReturned v | None => APanicked end)
  | AReturned _ | APanicked => None
  end.
Inductive astep {V} (fut : outcome V) (i : nat) : astate V -> astate V -> Prop :=
| astep_intro future cache awaited rs pc future' cache' awaited' pc' :
    nth_error rs i = Some pc ->
    arun_step fut future cache awaited pc = Some (future', cache', awaited', pc') ->
    astep fut i (mkA future cache awaited rs) (mkA future' cache' awaited' (list_set rs i pc')).
Definition ainit {V} (n : nat) : astate V := mkA true None 0 (repeat AStart n).
Inductive areach {V} (fut : outcome V) (n : nat) : astate V -> Prop :=
| areach_init : areach fut n (ainit n)
| areach_step s i s' : areach fut n s -> astep fut i s s' -> areach fut n s'.

(** ** Memoizer *)
(** The calls a thread may make: [get_or_compute(key, f)] (197-217), [clear()] (254-257) *)
Inductive mcall (K V : Type) := CGet (k : K) (f : K -> outcome V) | CClear.
Arguments CGet {K V} _ _.
Arguments CClear {K V}.
(** Where a thread stands inside a call *)
Inductive mpc (K V : Type) :=
| MIdle                                     (* between calls *)
| MReading (k : K) (f : K -> outcome V)     (* holds the read lock, 203 *)
| MWant (k : K) (f : K -> outcome V)        (* read lock released, before [write()], 209 *)
| MWriting (k : K) (f : K -> outcome V)     (* holds the write lock, before the second look-up, 211 *)
| MCompute (k : K) (f : K -> outcome V)     (* before [f(&key)], 214 *)
| MInsert (k : K) (v : V)                   (* before [insert], 215 *)
| MClearing.                                (* holds the write lock, before [clear], 256 *)
Arguments MIdle {K V}.
Arguments MReading {K V} _ _.
Arguments MWant {K V} _ _.
Arguments MWriting {K V} _ _.
Arguments MCompute {K V} _ _.
Arguments MInsert {K V} _ _.
Arguments MClearing {K V}.
(** What can be observed: computations, and how each call of each thread ended.
    A returning call is recorded when it releases the lock. *)
Inductive mevent (K V : Type) :=
| EvCompute (k : K) (v : V)
| EvComputePanic (k : K)
| EvReturn (i : nat) (k : K) (v : V)
| EvClear (i : nat)
| EvFail (i : nat) (k : option K).
Arguments EvCompute {K V} _ _.
Arguments EvComputePanic {K V} _.
Arguments EvReturn {K V} _ _ _.
Arguments EvClear {K V} _.
Arguments EvFail {K V} _ _.
(** memoizer.rs 105-107: the map and its lock; the trace is newest first *)
Record mstate (K V : Type) := mkM
  { m_cache : K -> option V; m_readers : nat; m_writer : bool; m_poisoned : bool;
    m_threads : list (mpc K V * list (mcall K V)); m_trace : list (mevent K V) }.
Arguments mkM {K V} _ _ _ _ _ _.
Arguments m_cache {K V} _.
Arguments m_readers {K V} _.
Arguments m_writer {K V} _.
Arguments m_poisoned {K V} _.
Arguments m_threads {K V} _.
Arguments m_trace {K V} _.

Section Memoizer.
Context {K V : Type} (eqb : K -> K -> bool).
Definition m_insert (cache : K -> option V) (k : K) (v : V) : K -> option V :=
  fun k' => if eqb k k' then Some v else cache k'.
(** One atomic action of thread [i]; [None] when it has to wait or has finished *)
Definition mthread_step (i : nat) (s : mstate K V) (pc : mpc K V) (prog : list (mcall K V))
  : option (mpc K V * list (mcall K V) * mstate K V) :=
  let '(mkM cache readers writer poisoned threads trace) := s in
  match pc with
  | MIdle =>
      match prog with
      | [] => None
      | CGet k f :: prog' =>
          (* 203: [read()] waits for a writer; [unwrap] panics when poisoned *)
          if writer then None
          else if poisoned then Some (MIdle, prog', mkM cache readers writer poisoned threads (EvFail i (Some k) :: trace))
          else Some (MReading k f, prog', mkM cache (S readers) writer poisoned threads trace)
      | CClear :: prog' =>
          (* 255 *)
          if orb writer (0 <? readers) then None
          else if poisoned then Some (MIdle, prog', mkM cache readers writer poisoned threads (EvFail i None :: trace))
          else Some (MClearing, prog', mkM cache readers true poisoned threads trace)
      end
  | MReading k f =>
      (* 204-207: look up, release the read lock *)
      match cache k with
      | Some v => Some (MIdle, prog, mkM cache (readers - 1) writer poisoned threads (EvReturn i k v :: trace))
      | None => Some (MWant k f, prog, mkM cache (readers - 1) writer poisoned threads trace)
      end
  | MWant k f =>
      (* 209: [write()] waits for readers and writers; [unwrap] panics when poisoned *)
      if orb writer (0 <? readers) then None
      else if poisoned then Some (MIdle, prog, mkM cache readers writer poisoned threads (EvFail i (Some k) :: trace))
      else Some (MWriting k f, prog, mkM cache readers true poisoned threads trace)
  | MWriting k f =>
      (* 211-213 *)
      match cache k with
      | Some v => Some (MIdle, prog, mkM cache readers false poisoned threads (EvReturn i k v :: trace))
      | None => Some (MCompute k f, prog, mkM cache readers writer poisoned threads trace)
      end
  | MCompute k f =>
      (* 214: a panic unwinds through the write guard, which poisons the lock *)
      match f k with
      | Ret v => Some (MInsert k v, prog, mkM cache readers writer poisoned threads (EvCompute k v :: trace))
      | Panic =>
          Some (MIdle, prog,
                mkM cache readers false true threads (EvFail i (Some k) :: EvComputePanic k :: trace))
      end
  | MInsert k v =>
      (* 215-217 *)
      Some (MIdle, prog, mkM (m_insert cache k v) readers false poisoned threads (EvReturn i k v :: trace))
  | MClearing =>
      (* 256-257 *)
      Some (MIdle, prog, mkM (fun _ => None) readers false poisoned threads (EvClear i :: trace))
  end.
Inductive mstep (s : mstate K V) : mstate K V -> Prop :=
| mstep_intro i pc prog pc' prog' s' :
    nth_error (m_threads s) i = Some (pc, prog) ->
    mthread_step i s pc prog = Some (pc', prog', s') ->
    mstep s (mkM (m_cache s') (m_readers s') (m_writer s') (m_poisoned s')
                 (list_set (m_threads s) i (pc', prog')) (m_trace s')).
(** memoizer.rs 144-148 [new], used by threads that run the given programs *)
Definition minit (progs : list (list (mcall K V))) : mstate K V :=
  mkM (fun _ => None) 0 false false (map (fun p => (MIdle, p)) progs) [].
Inductive mreach (progs : list (list (mcall K V))) : mstate K V -> Prop :=
| mreach_init : mreach progs (minit progs)
| mreach_step s s' : mreach progs s -> mstep s s' -> mreach progs s'.
End Memoizer.

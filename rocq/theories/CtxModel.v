(** Where an [IO] may be run: [IO::run_async] (src/datatypes/io.rs 689-699),
    [IO::new_async] (769-796) and [IO::delay] (1352-1360), used by one caller at
    a time from an ordinary thread, from an asynchronous task or from a thread of
    the runtime's blocking pool.  (Several callers at once: ConcModel.v.)

    tokio is not part of the project; the four rules used of it are stated in
    [spawn_blocking], [block_on] and [handle_current] below and are those of its
    documentation.  A job handed to [spawn_blocking] is taken to have finished
    before the caller's next step. *)
From Coq Require Import String List.
From Verif Require Import Base Types IOModel.
Import ListNotations.

(** the kinds of thread code can run on *)
Inductive place := OrdinaryThread | AsyncTask | BlockingThread.

Section Ctx.
Context {W : Type}.

Definition panic_with {A} (message : string) : comp W A := fun w => (w, Panicked (PString message)).

(** tokio [Handle::current]: panics outside a runtime *)
Definition handle_current (p : place) : comp W unit :=
  match p with
  | OrdinaryThread => panic_with "there is no reactor running, must be called from the context of a Tokio 1.x runtime"
  | AsyncTask | BlockingThread => cret tt
  end.
(** tokio [spawn_blocking]: panics outside a runtime; otherwise the job runs on a
    blocking thread, and a panic in it is kept for whoever joins *)
Definition spawn_blocking {A} (p : place) (job : place -> comp W A) : comp W (result A payload) :=
  cbind (handle_current p) (fun _ => catch_unwind (job BlockingThread)).
(** tokio [Runtime::block_on]: panics inside an asynchronous task *)
Definition block_on {A} (p : place) (m : comp W A) : comp W A :=
  match p with
  | AsyncTask => panic_with "Cannot start a runtime from within a runtime"
  | OrdinaryThread | BlockingThread => m
  end.

(** The code stored in an [IO], whose behaviour may depend on the thread *)
Definition placed (A : Type) : Type := place -> comp W A.
(** io.rs 627-663: [new] with a closure that does not use the runtime, and [run] *)
Definition anywhere {A} (x : io W A) : placed A := fun _ => io_run x.
(** io.rs 689-699 [run_async] *)
Definition run_async {A} (x : placed A) : placed A := fun p =>
  cbind (handle_current p) (fun _ =>
  cbind (spawn_blocking p x) (fun joined =>
    match joined with
    | Ok v => cret v
    | Err _ => panic_with "Failed to run blocking task"
    end)).
End Ctx.
Arguments placed W A : clear implicits.

(** io.rs 775-776: the two cells captured by the closure of [new_async] *)
Record cell (V : Type) := mkCell { c_future : bool; c_cache : option V }.
Arguments mkCell {V} _ _.
Arguments c_future {V} _.
Arguments c_cache {V} _.

Section Async.
Context {W V : Type}.
(** The world together with the cells of the one [IO] looked at *)
Notation world := (W * cell V)%type.

(** awaiting the future, which knows nothing of the cells *)
Definition outside {A} (m : comp W A) : comp world A := fun '(w, c) =>
  let '(w', r) := m w in ((w', c), r).
Definition read_cells : comp world (cell V) := fun '(w, c) => ((w, c), Done c).
Definition write_cells (c : cell V) : comp world unit := fun '(w, _) => ((w, c), Done tt).

(** io.rs 775-776 *)
Definition fresh : cell V := mkCell true None.
(** io.rs 778-795: the closure of [new_async]; [fut] is the future awaited to its end.
    783: [take] empties the cell before anything else happens;
    785-789: the job is spawned before [block_on] is entered. *)
Definition new_async (fut : comp W V) : placed world V := fun p =>
  cbind read_cells (fun c =>
    match c_cache c with
    | Some cached => cret cached
    | None =>
        cbind (write_cells (mkCell false None)) (fun _ =>
          if c_future c then
            cbind (spawn_blocking p (fun q => block_on q (outside fut))) (fun handle =>
            cbind (block_on p (cret handle)) (fun joined =>
              match joined with
              | Ok v => cbind (write_cells (mkCell false (Some v))) (fun _ => cret v)
              | Err _ => panic_with "called `Result::unwrap()` on an `Err` value"
              end))
          else panic_with "called `Option::unwrap()` on a `None` value")
    end).
(** io.rs 1352-1360 [delay]; [sleep] is the effect of [tokio::time::sleep] *)
Definition delay (sleep : comp W unit) (a : V) : placed world V :=
  new_async (cbind sleep (fun _ => cret a)).

(** One use of the [IO] *)
Inductive use := URun (p : place) | URunAsync (p : place).
Definition perform (x : placed world V) (u : use) : comp world V :=
  match u with
  | URun p => x p
  | URunAsync p => run_async x p
  end.
(** Uses one after the other, a panic of one being caught before the next *)
Fixpoint perform_all (x : placed world V) (us : list use) (s : world)
  : world * list (res V) :=
  match us with
  | [] => (s, [])
  | u :: us' =>
      let '(s1, r) := perform x u s in
      let '(s2, rs) := perform_all x us' s1 in
      (s2, r :: rs)
  end.
End Async.

(** C96: running an [IO] from different kinds of threads. *)
From Coq Require Import String List.
From Verif Require Import Base Types IOModel CtxModel.
Import ListNotations.

Definition panicked {A} (r : res A) : Prop :=
  match r with Done _ => False | Panicked _ => True end.
(** a use that may be the first one of an [IO] made from a future *)
Definition may_start (u : use) : Prop :=
  match u with
  | URun BlockingThread | URunAsync AsyncTask | URunAsync BlockingThread => True
  | _ => False
  end.
(** [run_async] is a future and is awaited inside a runtime *)
Definition has_runtime (u : use) : Prop :=
  match u with URunAsync OrdinaryThread => False | _ => True end.

Section Sync.
Context {W A : Type}.

(** For an [IO] that does not itself use the runtime, [run_async] inside a
    runtime does what [run] does: same effects, same value, and it panics in the
    same cases. *)
Theorem C96_run_async_partial : forall (x : io W A) p w,
  p <> OrdinaryThread ->
  (forall w' v, run_async (anywhere x) p w = (w', Done v) <-> io_run x w = (w', Done v)) /\
  (forall w', (exists q, run_async (anywhere x) p w = (w', Panicked q)) <->
              (exists q, io_run x w = (w', Panicked q))).
Proof.
  intros x p w Hp.
  assert (E : run_async (anywhere x) p w =
    match io_run x w with
    | (w', Done v) => (w', Done v)
    | (w', Panicked _) => (w', Panicked (PString "Failed to run blocking task"))
    end).
  { destruct p; [congruence| |];
    unfold run_async, anywhere, spawn_blocking, handle_current, cbind, cret, catch_unwind, panic_with;
    destruct (io_run x w) as [w1 [v|q]]; reflexivity. }
  rewrite E. destruct (io_run x w) as [w1 [v1|q1]].
  - split; [intros; reflexivity|]. intros w'. split; intros [q H]; discriminate H.
  - split; [intros w' v; split; intros H; discriminate H|].
    intros w'. split; intros [q H]; injection H as <- _; eauto.
Qed.
End Sync.

Section Async.
Context {W V : Type}.
Notation cell := (cell V).

Lemma cached_use (fut : comp W V) u w v :
  has_runtime u ->
  perform (new_async fut) u (w, mkCell false (Some v)) = ((w, mkCell false (Some v)), Done v).
Proof. destruct u as [[]|[]]; intros H; try easy; reflexivity. Qed.

Lemma lost_use (fut : comp W V) u w :
  exists q, perform (new_async fut) u (w, mkCell false None) = ((w, mkCell false None), Panicked q).
Proof. destruct u as [[]|[]]; eexists; reflexivity. Qed.

Lemma lost_uses (fut : comp W V) us w :
  exists rs, perform_all (new_async fut) us (w, mkCell false None) = ((w, mkCell false None), rs) /\
    length rs = length us /\ Forall panicked rs.
Proof.
  induction us as [|u us (rs & E & Hl & Hf)]; cbn [perform_all].
  - exists []. split; [reflexivity|]. split; [reflexivity|constructor].
  - destruct (lost_use fut u w) as [q ->]. rewrite E.
    exists (Panicked q :: rs). split; [reflexivity|]. split; [cbn; now rewrite Hl|].
    constructor; [exact I|exact Hf].
Qed.

Lemma cached_uses (fut : comp W V) us w v :
  Forall has_runtime us ->
  perform_all (new_async fut) us (w, mkCell false (Some v)) =
    ((w, mkCell false (Some v)), repeat (Done v) (length us)).
Proof.
  induction 1 as [|u us Hu _ IH]; [reflexivity|].
  cbn [perform_all]. rewrite cached_use, IH by exact Hu. reflexivity.
Qed.

(** When the first use comes from the blocking pool or through [run_async], an
    [IO] made from a future runs the future once, and every use of it, from
    whichever thread, gives the future's value. *)
Theorem C96_future_partial : forall (fut : comp W V) u us w w' v,
  fut w = (w', Done v) ->
  may_start u -> Forall has_runtime us ->
  let '(s, rs) := perform_all (new_async fut) (u :: us) (w, fresh) in
  fst s = w' /\ rs = repeat (Done v) (S (length us)).
Proof.
  intros fut u us w w' v Hf Hu Hus. cbn [perform_all].
  assert (E : perform (new_async fut) u (w, fresh) = ((w', mkCell false (Some v)), Done v)).
  { destruct u as [[]|[]]; try easy; cbn [perform];
    unfold run_async, new_async, spawn_blocking, handle_current, block_on, cbind, cret, catch_unwind,
      read_cells, write_cells, outside, fresh; cbn [c_cache c_future];
    rewrite Hf; reflexivity. }
  rewrite E, cached_uses by exact Hus. split; reflexivity.
Qed.

(** [run] on an ordinary thread always panics, without running the future, and
    the future is lost: no later use of any kind can produce its value. *)
Theorem C96_ordinary_thread : forall (fut : comp W V) us w,
  let '(s, rs) := perform_all (new_async fut) (URun OrdinaryThread :: us) (w, fresh) in
  fst s = w /\ length rs = S (length us) /\ Forall panicked rs.
Proof.
  intros fut us w. cbn [perform_all].
  change (perform (new_async fut) (URun OrdinaryThread) (w, fresh)) with
    ((w, mkCell (V := V) false None),
     Panicked (A := V) (PString "there is no reactor running, must be called from the context of a Tokio 1.x runtime")).
  destruct (lost_uses fut us w) as (rs & -> & Hl & Hf).
  cbn [fst length]. rewrite Hl. repeat split. constructor; [exact I|exact Hf].
Qed.

(** [run] inside an asynchronous task runs the future and still panics; its
    value is lost for every later use. *)
Theorem C96_inside_task : forall (fut : comp W V) us w,
  let '(s, rs) := perform_all (new_async fut) (URun AsyncTask :: us) (w, fresh) in
  fst s = fst (fut w) /\ length rs = S (length us) /\ Forall panicked rs.
Proof.
  intros fut us w. cbn [perform_all].
  assert (E : exists q, perform (new_async fut) (URun AsyncTask) (w, fresh) =
                        ((fst (fut w), mkCell false None), Panicked q)).
  { cbn [perform].
    unfold new_async, spawn_blocking, handle_current, block_on, cbind, cret, catch_unwind,
      read_cells, write_cells, outside, fresh, panic_with; cbn [c_cache c_future].
    destruct (fut w) as [w1 [v|q]]; eexists; reflexivity. }
  destruct E as [q ->]. destruct (lost_uses fut us (fst (fut w))) as (rs & -> & Hl & Hf).
  cbn [fst length]. rewrite Hl. repeat split. constructor; [exact I|exact Hf].
Qed.

(** A future that panics makes every use panic; it is run at most once. *)
Theorem C96_panicking_future : forall (fut : comp W V) us w w' q,
  fut w = (w', Panicked q) ->
  let '(s, rs) := perform_all (new_async fut) us (w, fresh) in
  (fst s = w \/ fst s = w') /\ length rs = length us /\ Forall panicked rs.
Proof.
  intros fut us w w' q Hf.
  induction us as [|u us IH]; cbn [perform_all].
  - split; [now left|]. split; [reflexivity|constructor].
  - assert (E : exists c p, perform (new_async fut) u (w, fresh) = ((c, mkCell false None), Panicked p)
                  /\ (c = w \/ c = w')
              \/ perform (new_async fut) u (w, fresh) = ((w, fresh), Panicked p)).
    { destruct u as [[]|[]]; cbn [perform];
      unfold run_async, new_async, spawn_blocking, handle_current, block_on, cbind, cret, catch_unwind,
        read_cells, write_cells, outside, fresh, panic_with; cbn [c_cache c_future];
      rewrite ?Hf; do 2 eexists;
      first [left; split; [reflexivity|auto; fail] | right; reflexivity]. }
    destruct E as (c & p & [[-> Hc] | ->]).
    + destruct (lost_uses fut us c) as (rs & -> & Hl & Hr).
      cbn [fst length]. rewrite Hl. split; [exact Hc|]. split; [reflexivity|].
      constructor; [exact I|exact Hr].
    + destruct (perform_all (new_async fut) us (w, fresh)) as [s rs].
      destruct IH as (Hc & Hl & Hr). cbn [length]. rewrite Hl.
      split; [exact Hc|]. split; [reflexivity|]. constructor; [exact I|exact Hr].
    Unshelve. all: exact w.
Qed.

(** So a future's value is not always obtained: with [run] on an ordinary thread
    it never is. *)
Theorem C96_run_refuted : forall (w : W) (v : V),
  exists fut : comp W V,
    fut w = (w, Done v) /\
    (exists s, new_async fut BlockingThread (w, fresh) = (s, Done v)) /\
    ~ (exists s, new_async fut OrdinaryThread (w, fresh) = (s, Done v)) /\
    ~ (exists s, new_async fut AsyncTask (w, fresh) = (s, Done v)).
Proof.
  intros w v. exists (cret v). split; [reflexivity|]. split; [eexists; reflexivity|].
  split; intros [s H]; discriminate H.
Qed.

(** [delay] gives the value [delay_sync] gives, after the same sleep, when it is
    started through [run_async]; run on an ordinary thread it does not even
    sleep. *)
Theorem C96_delay_partial : forall (sleep : comp W unit) (a : V) w w',
  sleep w = (w', Done tt) ->
  io_run (io_delay_sync sleep a) w = (w', Done a) /\
  (forall p, p <> OrdinaryThread ->
     let '(s, r) := run_async (delay sleep a) p (w, fresh) in fst s = w' /\ r = Done a) /\
  (let '(s, r) := delay sleep a OrdinaryThread (w, fresh) in fst s = w /\ panicked r).
Proof.
  intros sleep a w w' Hs. split; [|split].
  - cbn. unfold cbind. now rewrite Hs.
  - intros p Hp.
    assert (Hf : cbind sleep (fun _ => cret a) w = (w', Done a)) by (unfold cbind; now rewrite Hs).
    assert (Hm : may_start (URunAsync p)) by (destruct p; [congruence| |]; exact I).
    pose proof (C96_future_partial _ _ [] _ _ _ Hf Hm (Forall_nil _)) as H.
    cbn [perform_all perform] in H. fold (delay sleep a) in H.
    destruct (run_async (delay sleep a) p (w, fresh)) as [s r].
    destruct H as [H1 H2]. injection H2 as ->. now split.
  - split; reflexivity || exact I.
Qed.
End Async.

(** A future that counts how often it is awaited and yields 42. *)
Definition counting : comp nat nat := fun n => (S n, Done 42).
Example C96_future_case :
  perform_all (new_async counting) [URunAsync AsyncTask; URun OrdinaryThread; URun AsyncTask] (0, fresh)
    = ((1, mkCell false (Some 42)), [Done 42; Done 42; Done 42]) /\
  fst (fst (perform_all (new_async counting) [URun OrdinaryThread; URunAsync AsyncTask] (0, fresh))) = 0 /\
  fst (fst (perform_all (new_async counting) [URun AsyncTask; URunAsync AsyncTask] (0, fresh))) = 1 /\
  Forall panicked (snd (perform_all (new_async counting) [URun AsyncTask; URunAsync AsyncTask] (0, fresh))).
Proof. repeat split. repeat constructor. Qed.
Example C96_run_async_case :
  run_async (anywhere (io_new counting)) AsyncTask 3 = (4, Done 42) /\
  run_async (anywhere (io_new (fun n : nat => (S n, Panicked (A := nat) (PStr "x"))))) AsyncTask 3
    = (4, Panicked (PString "Failed to run blocking task")).
Proof. split; reflexivity. Qed.
Example C96_delay_case :
  run_async (delay (fun n => (n + 20, Done tt)) 42) AsyncTask (0, fresh)
    = ((20, mkCell false (Some 42)), Done 42).
Proof. reflexivity. Qed.
Example C96_panicking_future_case :
  Forall panicked (snd (perform_all (new_async (fun n => (S n, Panicked (A := nat) POther)))
    [URunAsync OrdinaryThread; URunAsync AsyncTask; URun BlockingThread] (0, fresh))).
Proof. repeat constructor. Qed.

Print Assumptions C96_run_async_partial.
Print Assumptions C96_future_partial.
Print Assumptions C96_ordinary_thread.
Print Assumptions C96_inside_task.
Print Assumptions C96_panicking_future.
Print Assumptions C96_run_refuted.
Print Assumptions C96_delay_partial.

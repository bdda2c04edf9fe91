(** The project's own tests of [Writer], [Reader], [Cont], [IO], [StateT] and [ReaderT],
    run on the model ([/repo/tests/datatypes/{test_writer,test_reader,test_cont,test_io}.rs],
    [/repo/tests/transformers/{state_t,reader_t}.rs]).  These are checks of the model, not
    proofs of properties. *)
From Coq Require Import List ZArith Bool String.
From Verif Require Import Base Types SumModel EffModel IOModel.
Import ListNotations.
Open Scope outcome_scope.
Open Scope string_scope.
Open Scope Z_scope.
Open Scope list_scope.

(** ** test_writer.rs *)
Notation Log := (list string).
Notation cat := (@app string).
Definition wnew (l : Log) (x : Z) : writer Log Z := mkWriter l x.
Example test_writer_creation_and_run :
  wr_run (wnew ["initial"] 42) = (["initial"], 42) /\ wr_run (wr_pure ([] : Log) 100) = ([], 100).
Proof. repeat split. Qed.
Example test_writer_functor : wr_run (wr_fmap (fun x => x * 2) (wnew ["initial"] 42)) = (["initial"], 84).
Proof. reflexivity. Qed.
Example test_writer_applicative :
  wr_run (wr_apply cat (mkWriter ["function created"] (fun x => x * 2)) (wnew ["value created"] 21)) =
    (["function created"; "value created"], 42) /\
  wr_run (wr_lift2 cat Z.add (wnew ["first value"] 10) (wnew ["second value"] 32)) = (["first value"; "second value"], 42).
Proof. repeat split. Qed.
Example test_writer_monad :
  let b := fun w f => wr_bind cat w f in
  wr_run (b (wnew ["initial"] 21) (fun x => wnew ["doubled"] (x * 2))) = (["initial"; "doubled"], 42) /\
  wr_run (b (b (b (wnew ["start"] 5) (fun x => wnew ["add 10"] (x + 10))) (fun x => wnew ["multiply by 3"] (x * 3)))
            (fun x => wnew ["subtract 3"] (x - 3))) = (["start"; "add 10"; "multiply by 3"; "subtract 3"], 42).
Proof. repeat split. Qed.
Example test_writer_complex_chaining :
  let b := fun w f => wr_bind cat w f in
  wr_run (wr_fmap (fun n => n * 2) (b (b (b (wr_pure [] 5) (fun n => wnew ["starting"] n))
    (fun n => wnew ["processing"] (n * 2))) (fun n => wnew ["adding 10"] (n + 10)))) =
    (["starting"; "processing"; "adding 10"], 40).
Proof. reflexivity. Qed.
Example test_writer_semigroup :
  wr_run (wr_combine cat Z.add (wnew ["log1"] 15) (wnew ["log2"] 27)) = (["log1"; "log2"], 42).
Proof. reflexivity. Qed.

(** ** test_reader.rs *)
Example test_reader :
  rd_run (rd_new (fun e => e + 1)) 10 = 11 /\ rd_run (rd_ask (fun e : string => e)) "env1" = "env1" /\
  rd_run (rd_asks String.length) "hello" = 5%nat /\
  rd_run (rd_fmap (fun x => x - 5) (rd_fmap (fun x => x * 2) (rd_new (fun e => e + 1)))) 10 = 17 /\
  rd_run (rd_bind (rd_bind (rd_new (fun e => e + 1)) (fun x => rd_new (fun e => x * e)))
            (fun x => rd_new (fun _ => x / 2))) 10 = 55 /\
  rd_run (rd_local (rd_new (fun e => e * 2)) (fun e => e + 5)) 10 = 30 /\
  rd_run (rd_combine (rd_new (fun e => e + 10)) (rd_new (fun e => ("value", e))) pair) 5 = (15, ("value", 5)).
Proof. repeat split. Qed.

(** ** test_cont.rs *)
Example test_cont :
  co_run (co_pure 42) (fun x => x * 2) = 84 /\ co_run (co_new (fun k => k 42)) (fun x => x * 2) = 84 /\
  co_run (co_fmap (fun x => x + 1) (co_pure 42)) (fun x => x * 2) = 86 /\
  co_run (co_bind (co_pure 42) (fun x => co_pure (x + 1))) (fun x => x * 2) = 86 /\
  co_run (co_apply (co_pure 42) (co_pure (fun x => x + 1))) (fun x => x * 2) = 86 /\
  co_run (co_fmap (fun x => x - 3) (co_bind (co_fmap (fun x => x * 2) (co_pure 10)) (fun x => co_pure (x + 5))))
    (fun x => x) = 22.
Proof. repeat split. Qed.
Example test_cont_error_handling :
  let div := fun n d => if d =? 0 then co_new (fun _ => "Division by zero") else co_pure (n / d) in
  co_run (div 10 2) (fun x => if x =? 5 then "5" else "?") = "5" /\
  co_run (div 10 0) (fun _ => "Unexpected success") = "Division by zero".
Proof. repeat split. Qed.
Example test_cont_call_cc :
  co_run (co_call_cc (B := Z) (co_pure 1) (fun exit =>
      co_bind (co_pure 1) (fun x => if 0 <? x then exit 100 else co_pure (x + 1)))) (fun x => x) = 100 /\
  co_run (co_call_cc (A := Z) (co_pure 5) (fun _ => co_fmap (fun x => x * 2) (co_pure 5))) (fun x => x) = 10.
Proof. repeat split. Qed.

(** ** test_io.rs; the world is the shared counter *)
Notation C := (comp Z).
Definition yields {A} (x : comp Z A) (w : Z) := x w.
Definition increment : io Z Z := io_new (fun w => (w + 1, Done (w + 1))).
Definition get_count : io Z Z := io_new (fun w => (w, Done w)).
Definition fm (f : Z -> Z) : Z -> comp Z Z := fun x => cret (f x).
Example test_io_creation_and_run :
  io_run (W := Z) (io_pure 42) 0 = (0, Done 42) /\ io_run (io_new (W := Z) (cret 42)) 0 = (0, Done 42) /\
  io_run increment 0 = (1, Done 1) /\ cbind (io_run increment) (fun _ => io_run increment) 0 = (2, Done 2).
Proof. repeat split. Qed.
Example test_io_complex_composition :
  cbind (cbind (cbind (io_fmap (io_pure 10) (fm (fun x => x * 2)))
      (fun s1 => io_bind s1 (fun x => cret (io_pure (x + 5)))))
      (fun s2 => io_fmap s2 (fm (fun x => x - 3)))) (fun s3 => io_run s3) 0 = (0, Done 22).
Proof. reflexivity. Qed.
Example test_io_shared_state :
  cbind (io_run increment) (fun a => cbind (io_run increment) (fun b => cbind (io_run get_count) (fun c =>
    cbind (io_run increment) (fun d => cbind (io_run get_count) (fun e => cret [a; b; c; d; e]))))) 0 =
  (3, Done [1; 2; 2; 3; 3]).
Proof. reflexivity. Qed.
Example test_io_monad_and_apply :
  let double := fun x => cret (io_new (cret (x * 2))) in
  cbind (io_bind (io_new (cret 42)) double) (fun x => io_run x) 0 = (0, Done 84) /\
  cbind (io_bind (io_pure 42) double) (fun x => io_run x) 0 = (0, Done 84) /\
  cbind (io_bind (io_new (cret 42)) (fun x => cret (io_pure x))) (fun x => io_run x) 0 = (0, Done 42) /\
  io_try_get (io_new (cret 42)) 0 = (0, Done (Ok 42)) /\
  cbind (io_apply (io_new (cret 42)) (io_new (cret (fm (fun x => x * 2))))) (fun x => io_run x) 0 = (0, Done 84).
Proof. repeat split. Qed.

(** ** state_t.rs *)
Notation O := (option (Z * Z)).
Example test_state_t_creation_and_running :
  stt_run (stt_new (A := Z) (fun s => Ret (Some (s + 1, s)))) 5 = Ret (Some (6, 5)).
Proof. reflexivity. Qed.
Example test_state_t_composition :
  let add_one : stateT Z O Z := stt_new (fun s => Ret (Some (s + 1, s + 1))) in
  let double : stateT Z O Z := stt_new (fun s => Ret (Some (s * 2, s))) in
  stt_run (stt_bind_with add_one (fun _ => double)
    (fun m f => match m with Some (s, _) => f (s, 0) | None => Ret None end)) 5 = Ret (Some (12, 6)).
Proof. reflexivity. Qed.
Example test_state_t_get_put_modify :
  stt_run (stt_get Some) 10 = Ret (Some (10, 10)) /\ stt_run (stt_put 42 Some) 10 = Ret (Some (42, 10)) /\
  stt_run (stt_modify (fun s => s * 2) Some) 21 = Ret (Some (42, tt)).
Proof. repeat split. Qed.
(** ** reader_t.rs *)
Example test_reader_t :
  rdt_run (mkReaderT (A := Z) (fun e => Some (e * 2))) 21 = Some 42.
Proof. reflexivity. Qed.

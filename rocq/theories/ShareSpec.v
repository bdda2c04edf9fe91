(** Histories of a program that builds, clones and drops suspended computations, and what should be released when: told
    by which closures each computation was built from, without counts or cells. *)
From Coq Require Import List Arith.
From Verif Require Import ShareModel.
Import ListNotations.

(** The program holds a list of computations and names them by position; a new one goes to the end.  Types are not
    tracked, so histories may also mix operations no typed program mixes. *)
Inductive act :=
| New (k : nat)
| StateFmap (p k : nat) | StateBind (p k : nat) | StateApply (p q : nat)   (** [q]: position once [p] is gone *)
| ContFmap (p k : nat) | ContBind (p k : nat)
| ReaderFmap (p k : nat) | ReaderBind (p k : nat) | ReaderLocal (p k : nat) | ReaderCombine (p q k : nat)
| PredBinary (p q : nat) | PredNegate (p : nat) | Compose (p q : nat)
| IoPure | IoFmap (p k : nat) | IoBind (p k : nat) | IoSequence (n : nat)  (** the first [n] computations held *)
| CloneIt (p : nat) | DropIt (p : nat).

Definition without {A} (p : nat) (l : list A) : list A := firstn p l ++ skipn (S p) l.

(** ** In the model *)
Definition program : Type := heap * list (option nat) * list ev.
Definition with_new (held : list (option nat)) (log : list ev) (r : heap * nat) : program :=
  (fst r, held ++ [Some (snd r)], log).
Definition act_run (a : act) (s : program) : program :=
  let '(h, held, log) := s in
  let at_ p := nth p held None in
  match a with
  | New k => with_new held log (sh_new k h)
  | StateFmap p k => match at_ p with Some x => with_new (without p held) log (sh_state_fmap x k h) | None => s end
  | StateBind p k => match at_ p with Some x => with_new (without p held) log (sh_state_bind x k h) | None => s end
  | StateApply p q =>
      match at_ p, nth q (without p held) None with
      | Some x, Some y => with_new (without q (without p held)) log (sh_state_apply x y h)
      | _, _ => s
      end
  | ContFmap p k => match at_ p with Some x => with_new (without p held) log (sh_cont_fmap x k h) | None => s end
  | ContBind p k => match at_ p with Some x => with_new (without p held) log (sh_cont_bind x k h) | None => s end
  | ReaderFmap p k => match at_ p with Some x => with_new held log (sh_reader_fmap x k h) | None => s end
  | ReaderBind p k => match at_ p with Some x => with_new held log (sh_reader_bind x k h) | None => s end
  | ReaderLocal p k => match at_ p with Some x => with_new held log (sh_reader_local x k h) | None => s end
  | ReaderCombine p q k =>
      match at_ p, at_ q with Some x, Some y => with_new held log (sh_reader_combine x y k h) | _, _ => s end
  | PredBinary p q => match at_ p, at_ q with Some x, Some y => with_new held log (sh_pred_binary x y h) | _, _ => s end
  | PredNegate p => match at_ p with Some x => with_new held log (sh_pred_negate x h) | None => s end
  | Compose p q => match at_ p, at_ q with Some x, Some y => with_new held log (sh_compose x y h) | _, _ => s end
  | IoPure => (h, held ++ [None], log)
  | IoFmap p k =>
      match nth_error held p with
      | Some x => let '(h', y, es) := sh_io_fmap x k h in (h', held ++ [y], log ++ es)
      | None => s
      end
  | IoBind p k => match at_ p with Some x => with_new held log (sh_io_bind x k h) | None => s end
  | IoSequence n => with_new (skipn n held) log (sh_io_sequence (firstn n held) h)
  | CloneIt p =>
      match nth_error held p with
      | Some (Some x) => (arc_clone x h, held ++ [Some x], log)
      | Some None => (h, held ++ [None], log)
      | None => s
      end
  | DropIt p =>
      match nth_error held p with
      | Some (Some x) => let '(h', es) := drop_handle x h in (h', without p held, log ++ es)
      | Some None => (h, without p held, log)
      | None => s
      end
  end.
Definition acts_run (acts : list act) : program := fold_left (fun s a => act_run a s) acts ([], [], []).
(** The closures released so far, in order *)
Fixpoint closures (e : ev) : list nat :=
  match e with Released k => [k] | Freed _ inside => flat_map closures inside end.
Definition released (s : program) : list nat := flat_map closures (snd s).

(** ** What is wanted: the closures handed in so far, and for every computation held those it was built from ([None]: a
    plain [IO] value) *)
Definition wanted : Type := list nat * list (option (list nat)).
Definition act_want (a : act) (s : wanted) : wanted :=
  let '(given, held) := s in
  let at_ p := nth p held None in
  match a with
  | New k => (given ++ [k], held ++ [Some [k]])
  | StateFmap p k | StateBind p k | ContFmap p k | ContBind p k =>
      match at_ p with Some b => (given ++ [k], without p held ++ [Some (b ++ [k])]) | None => s end
  | StateApply p q =>
      match at_ p, nth q (without p held) None with
      | Some b, Some c => (given, without q (without p held) ++ [Some (b ++ c)])
      | _, _ => s
      end
  | ReaderFmap p k | ReaderBind p k | ReaderLocal p k | IoBind p k =>
      match at_ p with Some b => (given ++ [k], held ++ [Some (b ++ [k])]) | None => s end
  | ReaderCombine p q k =>
      match at_ p, at_ q with Some b, Some c => (given ++ [k], held ++ [Some (b ++ c ++ [k])]) | _, _ => s end
  | PredBinary p q | Compose p q =>
      match at_ p, at_ q with Some b, Some c => (given, held ++ [Some (b ++ c)]) | _, _ => s end
  | PredNegate p => match at_ p with Some b => (given, held ++ [Some b]) | None => s end
  | IoPure => (given, held ++ [None])
  | IoFmap p k =>
      match nth_error held p with
      | Some (Some b) => (given ++ [k], held ++ [Some (b ++ [k])])
      | Some None => (given ++ [k], held ++ [None])
      | None => s
      end
  | IoSequence n =>
      (given, skipn n held ++ [Some (flat_map (fun x => match x with Some b => b | None => [] end) (firstn n held))])
  | CloneIt p => match nth_error held p with Some x => (given, held ++ [x]) | None => s end
  | DropIt p => match nth_error held p with Some x => (given, without p held) | None => s end
  end.
Definition acts_want (acts : list act) : wanted := fold_left (fun s a => act_want a s) acts ([], []).
(** Some computation still held was built from [k] *)
Definition in_use (k : nat) (s : wanted) : Prop := exists b, In (Some b) (snd s) /\ In k b.

(** ** How many cells are being freed at once *)
Fixpoint depth (e : ev) : nat :=
  match e with Released _ => 0 | Freed _ inside => S (fold_right (fun e m => Nat.max (depth e) m) 0 inside) end.
Definition depths (es : list ev) : nat := fold_right (fun e m => Nat.max (depth e) m) 0 es.
(** A computation dropped after a history *)
Definition drop_depth (h : heap) (x : nat) : nat := depths (snd (drop_handle x h)).
(** A chain of operations, each on the result of the one before *)
Definition chain (step : nat -> nat -> heap -> heap * nat) (ks : list nat) (r : heap * nat) : heap * nat :=
  fold_left (fun r k => step (snd r) k (fst r)) ks r.
(** An operation by reference whose argument is dropped once the result is there *)
Definition then_drop (step : nat -> nat -> heap -> heap * nat) (x k : nat) (h : heap) : heap * nat :=
  let '(h1, i) := step x k h in (fst (drop_handle x h1), i).

(** ** How high each computation held is built, told by the operations alone *)
Definition act_high (a : act) (held : list (option nat)) : list (option nat) :=
  let at_ p := nth p held None in
  match a with
  | New k => held ++ [Some 1]
  | StateFmap p _ | StateBind p _ => match at_ p with Some n => without p held ++ [Some (S n)] | None => held end
  | ContFmap p _ | ContBind p _ => match at_ p with Some n => without p held ++ [Some (S (Nat.max n 1))] | None => held end
  | StateApply p q =>
      match at_ p, nth q (without p held) None with
      | Some n, Some m => without q (without p held) ++ [Some (S (Nat.max n m))]
      | _, _ => held
      end
  | ReaderFmap p _ | ReaderBind p _ | ReaderLocal p _ | IoBind p _ | PredNegate p =>
      match at_ p with Some n => held ++ [Some (S n)] | None => held end
  | ReaderCombine p q _ | PredBinary p q | Compose p q =>
      match at_ p, at_ q with Some n, Some m => held ++ [Some (S (Nat.max n m))] | _, _ => held end
  | IoPure => held ++ [None]
  | IoFmap p _ => match nth_error held p with Some x => held ++ [option_map S x] | None => held end
  | IoSequence n =>
      skipn n held ++ [Some (S (fold_right (fun x m => match x with Some n => Nat.max n m | None => m end) 0 (firstn n held)))]
  | CloneIt p => match nth_error held p with Some x => held ++ [x] | None => held end
  | DropIt p => without p held
  end.
Definition acts_high (acts : list act) : list (option nat) := fold_left (fun s a => act_high a s) acts [].
(** Operations that share nothing *)
Definition by_value (a : act) : bool :=
  match a with
  | New _ | StateFmap _ _ | StateBind _ _ | StateApply _ _ | ContFmap _ _ | ContBind _ _ | IoPure | IoSequence _ | DropIt _ => true
  | _ => false
  end.

(** [/repo/examples/readme.rs], run on the model, every [assert_eq!] in it.  These are checks of the model, not proofs of
    properties.  Simplified: [str::to_uppercase] is given by what it returns here. *)
From Coq Require Import List ZArith Bool String.
From Verif Require Import Base Types SumModel ChoiceModel EffModel IOModel PvecModel.
Import ListNotations.
Open Scope outcome_scope.
Open Scope string_scope.
Open Scope Z_scope.
Open Scope list_scope.

(** readme.rs 1-12 [pvec_example] *)
Example readme_pvec :
  let v1 := pv_from_iter [1; 2; 3; 4; 5] in
  let v2 := pv_push_back v1 6 in
  pv_get v1 0 = Ret (Some 1) /\ pv_get v2 5 = Ret (Some 6) /\
  (do v3 <- pv_update v1 0 10; pv_get v3 0) = Ret (Some 10).
Proof. repeat split; vm_compute; reflexivity. Qed.
(** readme.rs 14-31 [basic_usage] *)
Example readme_basic (to_uppercase : string -> string) : to_uppercase "success" = "SUCCESS" ->
  mb_unwrap (mb_fmap (fun x => x * 2) (Just 42)) = Ret 84 /\
  ei_unwrap (ei_fmap to_uppercase (@Right string _ "success")) = Ret "SUCCESS" /\
  ch_iter (ch_fmap (fun x => x * 2) (ch_new 1 [2; 3])) = [2; 4; 6].
Proof. intros E. cbn. rewrite E. repeat split. Qed.
(** readme.rs 33-44 [state_management] *)
Example readme_state : st_run (st_new (fun count => Ret (count + 1, count))) 0 = Ret (1, 0).
Proof. reflexivity. Qed.
(** readme.rs 46-55 [io_operations] *)
Example readme_io : forall (W : Type) (w : W), io_run (io_new (cret "Hello from IO!")) w = (w, Done "Hello from IO!").
Proof. reflexivity. Qed.

(** Examples from the documentation of [/repo/src/datatypes/choice.rs], run on the model.
    These are checks of the model, not proofs of properties. *)
From Coq Require Import List ZArith Bool String Ascii.
From Verif Require Import Base Types ChoiceModel.
Import ListNotations.
Open Scope Z_scope.
Open Scope list_scope.
Local Notation "a :| l" := (ch_new a l) (at level 60).
Local Notation first := ch_first.
Local Notation alts := ch_alternatives.

(** 12-42 *)
Example doc_module :
  let servers := 1 :| [2; 3] in let conns := ch_bind servers (fun h => ch_fmap (fun p => (h, p)) (443 :| [8443])) in
  first servers = Some 1 /\ List.length (alts servers) = 2%nat /\ first (ch_fmap (fun h => (0, h)) servers) = Some (0, 1) /\
  first conns = Some (1, 443) /\ In (1, 8443) (alts conns).
Proof. repeat split. now left. Qed.
(** 72-100 *)
Example doc_basics :
  let c := 10 :| [20; 30; 40] in
  first c = Some 10 /\ ch_iter c = [10; 20; 30; 40] /\ first (ch_fmap (fun x => x * 2) c) = Some 20 /\
  List.length (alts (ch_add_alternatives c [50; 60])) = 5%nat /\
  first (ch_filter (fun x => x <? 35) c) = Some 10 /\ alts (ch_filter (fun x => x <? 35) c) = [20; 30] /\
  first (ch_filter_values (fun x => 25 <? x) c) = Some 30.
Proof. repeat split. Qed.
(** 110-130 *)
Example doc_bind_chain :
  let user := "user123"%string :| ["user456"%string; "user789"%string] in
  first (ch_bind (ch_bind user (fun n => if (5 <=? String.length n)%nat then n :| [] else ch_empty))
    (fun n => ("verified_" ++ n)%string :| [])) = Some "verified_user123"%string.
Proof. reflexivity. Qed.
(** 206, 223, 277, 311, 359, 392 *)
Example doc_accessors :
  ch_is_empty (@ch_empty Z) = true /\ first (1 :| [2; 3; 4]) = Some 1 /\ alts (1 :| [2; 3; 4]) = [2; 3; 4] /\
  ch_len (1 :| [2; 3; 4]) = 4%nat /\ first (100 :| []) = Some 100 /\ alts (100 :| []) = [] /\ ch_len (100 :| []) = 1%nat /\
  first (@ch_empty Z) = None /\ alts (@ch_empty Z) = [] /\ alts (100 :| [200]) = [200] /\ ch_len (@ch_empty Z) = 0%nat /\
  ch_is_empty (1 :| [2; 3]) = false /\ ch_is_empty (42 :| []) = false.
Proof. repeat split. Qed.
(** 560 *)
Example doc_remove_alternative :
  ch_remove_alternative (10 :| [20; 30; 40]) 1 = Ret (10 :| [20; 40]) /\
  ch_remove_alternative (10 :| [20; 30]) 0 = Ret (10 :| [30]) /\
  ch_remove_alternative (100 :| [200; 300; 400]) 2 = Ret (100 :| [200; 300]).
Proof. repeat split. Qed.
(** 730, 815 *)
Example doc_flatten :
  ch_flatten ([1; 2] :| [[3; 4]; [5]]) = Ret (1 :| [2; 3; 4; 5]) /\
  ch_flatten ([10; 20; 30] :| [[]; [40]]) = Ret (10 :| [20; 30; 40]) /\
  ch_flatten (ch_fmap list_ascii_of_string ("hello" :| ["world"; "rust"])%string) =
    Ret ("h"%char :| list_ascii_of_string "elloworldrust") /\
  ch_flatten (@ch_empty (list Z)) = Ret ch_empty /\
  ch_try_flatten ([1; 2] :| [[3; 4]]) = inl (1 :| [2; 3; 4]) /\ ch_try_flatten ([] :| [[1; 2]]) = inr tt.
Proof. repeat split. Qed.
(** 916 *)
Example doc_of_many :
  ch_of_many [10; 20; 30; 40] = (10 :| [20; 30; 40]) /\ ch_of_many [1; 2; 3] = (1 :| [2; 3]) /\
  ch_of_many [100] = (100 :| []) /\ ch_is_empty (ch_of_many (@nil Z)) = true.
Proof. repeat split. Qed.
(** 994 *)
Example doc_filter_values :
  let c := 1 :| [2; 3; 4; 5; 6] in
  ch_filter_values Z.even c = (2 :| [4; 6]) /\ ch_filter_values (fun x => 3 <? x) c = (4 :| [5; 6]) /\
  ch_filter_values Z.even (10 :| [1; 12; 3; 14]) = (10 :| [12; 14]) /\
  ch_is_empty (ch_filter_values (fun x => 100 <? x) c) = true /\ ch_is_empty (ch_filter_values (fun x => 0 <? x) ch_empty) = true /\
  ch_filter_values (fun _ => true) c = c.
Proof. repeat split. Qed.
(** 1066, 1110, 1187 *)
Example doc_iterators :
  ch_iter (10 :| [20; 30; 40]) = [10; 20; 30; 40] /\ ch_iter (@ch_empty Z) = [] /\
  ch_iter_alternatives (10 :| [20; 30; 40]) = [20; 30; 40] /\ ch_iter_alternatives (100 :| []) = [] /\
  ch_iter_alternatives (@ch_empty Z) = [] /\
  firstn 4 (ch_bind_lazy (1 :| [2; 3]) (fun x => x * 10 :| [x * 20])) = [10; 20; 20; 40].
Proof. repeat split. Qed.
(** 1228 *)
Example doc_try_swap :
  ch_try_swap (10 :| [20; 30; 40]) 1 = Ret (inl (30 :| [20; 10; 40])) /\
  (exists e, ch_try_swap (10 :| []) 0 = Ret (inr e)).
Proof. split; [reflexivity|]. eexists. reflexivity. Qed.
(** 1405-1445, 1645-1690.  The functions of the associativity
    example never give an empty choice, so the law holds there; see C18 for the rest. *)
Example doc_laws :
  let f := fun x => x * 2 :| [x * 3] in
  ch_bind (ch_pure 5) f = f 5 /\ ch_bind (10 :| [20; 30]) ch_pure = (10 :| [20; 30]) /\
  ch_apply (ch_pure (fun x => x)) (5 :| [10; 15]) = (5 :| [10; 15]) /\
  ch_apply (ch_pure (fun x => x * 2)) (ch_pure 7) = ch_pure 14 /\
  (let m := 5 :| [10] in let h := fun x => x + 1 :| [x + 2] in ch_bind (ch_bind m h) f = ch_bind m (fun x => ch_bind (h x) f)) /\
  (let fs := (fun x => x + 1) :| [fun x => x * 2] in ch_apply fs (ch_pure 3) = ch_fmap (fun f => f 3) fs).
Proof. repeat split. Qed.
(** 1962 *)
Example doc_sequence :
  ch_sequence (Some 1 :| [Some 2; Some 3]) = Some (1 :| [2; 3]) /\ ch_sequence (Some 1 :| [None; Some 3]) = None.
Proof. repeat split. Qed.

(** The project's own tests of lenses, prisms and isomorphisms, run on the model
    ([/repo/tests/datatypes/{test_lens,test_prism,test_iso_lens,test_iso_prism}.rs]).
    Whether two [Rc]s are the same pointer is not modelled; in its place the address
    carries a tag that setting through the value lens renews.  These are checks of the
    model, not proofs of properties. *)
From Coq Require Import List ZArith Bool String.
From Verif Require Import Base Types OpticModel.
Import ListNotations.
Open Scope string_scope.
Open Scope Z_scope.

(** ** test_lens.rs *)
Record point := Point { px : Z; py : Z }.
Definition x_lens : lens point Z := mkLens px (fun p x => Point x (py p)).
Example test_lens_point :
  let p := Point 10 20 in
  ln_get x_lens p = 10 /\ ln_set Z.eqb x_lens p 15 = Point 15 20 /\ ln_set Z.eqb x_lens p 10 = p /\
  ln_set_always x_lens p 15 = Point 15 20 /\ ln_set_always x_lens p 10 = Point 10 20 /\
  ln_modify Z.eqb x_lens p (fun x => x + 5) = Point 15 20 /\ ln_modify Z.eqb x_lens p (fun x => x * 1) = p /\
  ln_modify_always x_lens p (fun x => x + 5) = Point 15 20.
Proof. repeat split. Qed.
Record address := Address { street : string; city : string }.
(** the tag stands for the identity of the allocation *)
Record person := Person { pname : string; ptag : nat; paddr : address }.
Definition addr_eqb (a b : address) := String.eqb (street a) (street b) && String.eqb (city a) (city b).
Definition address_val_lens : lens person address := mkLens paddr (fun p a => Person (pname p) (S (ptag p)) a).
Definition street_lens : lens address string := mkLens street (fun a s => Address s (city a)).
Definition alice := Person "Alice" 0 (Address "123 Main St" "Springfield").
Example test_lens_modify_sharing :
  ln_modify addr_eqb address_val_lens alice (fun a => Address "456 Oak Ave" (city a)) =
    Person "Alice" 1 (Address "456 Oak Ave" "Springfield") /\
  ln_modify addr_eqb address_val_lens alice (fun a => a) = alice /\
  ptag (ln_modify_always address_val_lens alice (fun a => a)) = 1%nat.
Proof. repeat split. Qed.
Example test_lens_composition :
  let set s := ln_modify addr_eqb address_val_lens alice (fun a => ln_set String.eqb street_lens a s) in
  ln_get street_lens (ln_get address_val_lens alice) = "123 Main St" /\
  set "456 Oak Ave" = Person "Alice" 1 (Address "456 Oak Ave" "Springfield") /\ set "123 Main St" = alice.
Proof. repeat split. Qed.
(** 250-275, with tens for the text form *)
Example test_lens_fmap :
  let l := ln_fmap x_lens (fun x => (x, x)) fst in let p := Point 10 20 in
  let eqb := fun a b => Z.eqb (fst a) (fst b) && Z.eqb (snd a) (snd b) in
  ln_get l p = (10, 10) /\ ln_set eqb l p (25, 0) = Point 25 20 /\
  ln_modify eqb l p (fun q => (fst q * 10, 0)) = Point 100 20.
Proof. repeat split. Qed.

(** ** test_prism.rs *)
Inductive status := Active (s : string) | Inactive | Error (code : Z) (message : string).
Definition active : prism status string := mkPrism (fun s => match s with Active n => Some n | _ => None end) Active.
Definition inactive : prism status unit :=
  mkPrism (fun s => match s with Inactive => Some tt | _ => None end) (fun _ => Inactive).
Definition error : prism status (Z * string) :=
  mkPrism (fun s => match s with Error c m => Some (c, m) | _ => None end) (fun p => Error (fst p) (snd p)).
Example test_prism :
  let a := Active "running" in let e := Error 500 "Server Down" in
  pr_preview active a = Some "running" /\ pr_preview inactive Inactive = Some tt /\
  pr_preview error e = Some (500, "Server Down") /\ pr_preview active Inactive = None /\ pr_preview active e = None /\
  pr_preview inactive a = None /\ pr_preview inactive e = None /\ pr_preview error a = None /\
  pr_preview error Inactive = None /\ pr_review active "Alice" = Active "Alice" /\ pr_review inactive tt = Inactive /\
  pr_review error (404, "Not Found") = Error 404 "Not Found".
Proof. repeat split. Qed.

(** ** test_iso_lens.rs *)
Definition name_iso : iso person (string * person) :=
  mkIso (fun p => (pname p, p)) (fun t => Person (fst t) (ptag (snd t)) (paddr (snd t))).
Example test_iso_lens :
  let bob := Person "Bob" 0 (Address "123 Main St" "Springfield") in
  il_get name_iso alice = ("Alice", alice) /\ il_set name_iso ("Bob", alice) = bob /\
  il_modify name_iso alice (fun p => ("Bob", snd p)) = bob /\ il_set_focus name_iso alice "Bob" = bob /\
  pname (il_modify_focus name_iso alice (fun n => n ++ "!")%string) = "Alice!" /\
  il_set name_iso (il_get name_iso alice) = alice /\
  il_set_focus name_iso (il_set_focus name_iso alice "Charlie") "Bob" = il_set_focus name_iso alice "Bob" /\
  il_modify_focus name_iso alice (fun n => n) = alice.
Proof. repeat split. Qed.
Record inner := Inner { ivalue : Z }.
Record outer := Outer { oinner : inner }.
Definition inner_iso : iso outer inner := mkIso oinner Outer.
Definition value_pair_iso : iso inner (Z * outer) := mkIso (fun i => (ivalue i, Outer i)) (fun t => Inner (fst t)).
Example test_iso_lens_composition :
  let c := il_compose inner_iso value_pair_iso in
  fst (il_get c (Outer (Inner 42))) = 42 /\ il_set c (100, Outer (Inner 100)) = Outer (Inner 100).
Proof. repeat split. Qed.

(** ** test_iso_prism.rs; the second prism doubles instead of printing *)
Inductive my_enum := Foo (x : Z) | Bar (s : string).
Definition foo_iso : iso my_enum (option Z) :=
  mkIso (fun e => match e with Foo x => Some x | _ => None end)
        (fun o => match o with Some x => Foo x | None => Bar "default" end).
Definition twice_iso : iso Z (option Z) :=
  mkIso (fun x => Some (x * 2)) (fun o => match o with Some y => y / 2 | None => 0 end).
Example test_iso_prism :
  let c := ip_compose foo_iso twice_iso in
  ip_preview foo_iso (Foo 10) = Some 10 /\ ip_preview foo_iso (Bar "hi") = None /\ ip_review foo_iso 20 = Foo 20 /\
  ip_preview foo_iso (ip_review foo_iso 123) = Some 123 /\
  ip_preview c (Foo 10) = Some 20 /\ ip_preview c (Bar "x") = None /\ ip_review c 84 = Foo 42 /\
  ip_preview c (ip_review c 74) = Some 74 /\ ip_review c 628 = Foo 314.
Proof. repeat split. Qed.

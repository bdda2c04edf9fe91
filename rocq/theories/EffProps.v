(** Properties C37-C42, C44, C45: Writer, State, StateT, Reader, ReaderT, Cont, ContT. *)
From Coq Require Import List Arith Lia Bool.
From Verif Require Import Base Types LawSpec SumModel EffModel EffSpec.
Import ListNotations.
Open Scope outcome_scope.

(** ** C37: Writer *)
Theorem C37_laws : forall (W : Type) (combine : W -> W -> W) (empty : W), monoid_laws combine empty ->
  let F := writer W in let eqv := fun A (x y : F A) => x = y in
  functor_laws F eqv (@wr_fmap W) /\
  applicative_laws F eqv (@wr_pure W empty) (@wr_apply W combine) /\
  monad_laws F eqv (@wr_pure W empty) (@wr_bind W combine) /\
  fmap_is_apply F eqv (@wr_fmap W) (@wr_pure W empty) (@wr_apply W combine) /\
  fmap_is_bind F eqv (@wr_fmap W) (@wr_pure W empty) (@wr_bind W combine) /\
  apply_is_bind F eqv (@wr_pure W empty) (@wr_apply W combine) (@wr_bind W combine) /\
  lifts_are_apply F eqv (@wr_pure W empty) (@wr_apply W combine) (@wr_lift2 W combine) (@wr_lift3 W combine).
Proof.
  intros W combine empty (Ha & Hl & Hr) F eqv. unfold associative in Ha. unfold left_identity in Hl.
  unfold right_identity in Hr.
  unfold functor_laws, applicative_laws, monad_laws, fmap_is_apply, fmap_is_bind, apply_is_bind,
    lifts_are_apply, F, eqv, wr_fmap, wr_pure, wr_apply, wr_bind, wr_lift2, wr_lift3.
  repeat split; intros; repeat match goal with x : writer _ _ |- _ => destruct x end; cbn;
    rewrite ?Hl, ?Hr, ?Ha; try reflexivity.
  - now destruct (f x) as [l v].
Qed.
(** Building a program with the API and running it gives exactly the told
    entries, combined left to right, and the value. *)
Section WCompile.
Context {W : Type} (combine : W -> W -> W) (empty : W).
Fixpoint wcompile {A} (p : wprog W A) : writer W A :=
  match p with
  | WRet a => wr_pure empty a
  | WTell w => wr_tell w
  | WMap f p => wr_fmap f (wcompile p)
  | WBind p k => wr_bind combine (wcompile p) (fun a => wcompile (k a))
  | WApply pf pa => wr_apply combine (wcompile pf) (wcompile pa)
  end.
Lemma fold_combine_app : monoid_laws combine empty -> forall l1 l2,
  fold_right combine empty (l1 ++ l2) = combine (fold_right combine empty l1) (fold_right combine empty l2).
Proof.
  intros (Ha & Hl & Hr) l1 l2. induction l1 as [|x l1 IH]; cbn; [now rewrite Hl|]. now rewrite IH, Ha.
Qed.
End WCompile.
Theorem C37_programs : forall (W : Type) (combine : W -> W -> W) (empty : W), monoid_laws combine empty ->
  forall (A : Type) (p : wprog W A),
  wr_run (wcompile combine empty p) = (fold_right combine empty (fst (wmeaning p)), snd (wmeaning p)).
Proof.
  intros W combine empty Hm A p. pose proof (fold_combine_app combine empty Hm) as Happ.
  destruct Hm as (Ha & Hl & Hr).
  unfold wr_run. induction p as [A a|w|A B f p IH|A B p IHp k IHk|A B pf IHf pa IHa]; cbn.
  - reflexivity.
  - now rewrite Hr.
  - injection IH as -> ->. reflexivity.
  - destruct (wmeaning p) as [l1 a] eqn:E1. cbn in IHp. injection IHp as -> ->.
    specialize (IHk a). destruct (wmeaning (k a)) as [l2 b]. cbn in *. injection IHk as -> ->.
    now rewrite Happ.
  - destruct (wmeaning pf) as [l1 f]. destruct (wmeaning pa) as [l2 a]. cbn in *.
    injection IHf as -> ->. injection IHa as -> ->. now rewrite Happ.
Qed.
(** For the list monoid the log is literally the list of entries. *)
Theorem C37_list_log : forall (T A : Type) (p : wprog (list T) A),
  wr_run (wcompile (@app T) [] p) = (concat (fst (wmeaning p)), snd (wmeaning p)).
Proof.
  intros T A p. rewrite C37_programs.
  - reflexivity.
  - repeat split; intros x; intros; rewrite ?app_assoc, ?app_nil_r; reflexivity.
Qed.
Theorem C37_accessors : forall (W A B : Type) (combine : W -> W -> W) (empty w : W) (x : writer W A)
    (into : A -> writer W B),
  wr_run x = (w_log x, wr_unwrap x) /\ wr_run (wr_tell w) = (w, tt) /\
  wr_join combine into x = wr_bind combine x into.
Proof. repeat split; reflexivity. Qed.
Theorem C37_monoid : forall (W A : Type) (cw : W -> W -> W) (ew : W) (ca : A -> A -> A) (ea : A),
  monoid_laws cw ew -> monoid_laws ca ea ->
  monoid_laws (wr_combine cw ca) (wr_empty ew ea) /\
  wr_run (wr_empty ew ea) = (ew, ea) /\
  (forall x y, wr_run (wr_combine cw ca x y) =
     (cw (fst (wr_run x)) (fst (wr_run y)), ca (snd (wr_run x)) (snd (wr_run y)))).
Proof.
  intros W A cw ew ca ea (H1 & H2 & H3) (H4 & H5 & H6). unfold wr_combine, wr_empty.
  split; [|split; reflexivity].
  split; [|split]; intros x; [intros y z|..]; try destruct x; try destruct y; try destruct z; cbn;
    rewrite ?H1, ?H2, ?H3, ?H4, ?H5, ?H6; reflexivity.
Qed.
Example C37_case :
  wr_run (wcompile (@app nat) [] (WBind (WTell [1]) (fun _ => WBind (WTell [2; 3]) (fun _ => WRet true)))) = ([1; 2; 3], true).
Proof. reflexivity. Qed.

(** ** C38: State *)
Section StateLaws.
Context {S : Type}.
Definition st_eqv A (x y : state S A) : Prop := forall s, st_run x s = st_run y s.
Lemma st_run_new {A} (f : S -> outcome (A * S)) s : st_run (st_new f) s = f s.
Proof. unfold st_run, st_new. cbn. destruct (f s); reflexivity. Qed.
End StateLaws.
Theorem C38_laws : forall S : Type,
  functor_laws (state S) st_eqv (@st_fmap S) /\
  applicative_laws (state S) st_eqv (@st_pure S) (@st_apply S) /\
  monad_laws (state S) st_eqv (@st_pure S) (@st_bind S) /\
  fmap_is_apply (state S) st_eqv (@st_fmap S) (@st_pure S) (@st_apply S) /\
  fmap_is_bind (state S) st_eqv (@st_fmap S) (@st_pure S) (@st_bind S) /\
  apply_is_bind (state S) st_eqv (@st_pure S) (@st_apply S) (@st_bind S).
Proof.
  intros S.
  unfold functor_laws, applicative_laws, monad_laws, fmap_is_apply, fmap_is_bind, apply_is_bind, st_eqv,
    st_fmap, st_pure, st_apply, st_bind.
  repeat split; intros; rewrite ?st_run_new; cbn [obind fst snd]; rewrite ?st_run_new; cbn [obind fst snd];
    rewrite ?st_run_new;
    repeat match goal with
    | |- context [st_run ?x ?s] =>
        is_var x; destruct (st_run x s) as [[? ?]|]; cbn [obind fst snd]; rewrite ?st_run_new; cbn [obind fst snd]
    end; try reflexivity.
Qed.
(** Every program built from the API threads its state left to right: it
    computes what the direct state-passing interpreter computes, and never
    panics. *)
Fixpoint scompile {S A} (p : sprog S A) : state S A :=
  match p with
  | SRet a => st_pure a
  | SGet => st_get
  | SPut s => st_put s
  | SModify f => st_modify f
  | SMap f p => st_fmap f (scompile p)
  | SBind p k => st_bind (scompile p) (fun a => scompile (k a))
  | SApply pf pa => st_apply (scompile pf) (scompile pa)
  end.
Theorem C38_programs : forall (S A : Type) (p : sprog S A) (s : S),
  st_run (scompile p) s = Ret (smeaning p s) /\
  st_eval (scompile p) s = Ret (fst (smeaning p s)) /\ st_exec (scompile p) s = Ret (snd (smeaning p s)).
Proof.
  intros S A p s. enough (forall s, st_run (scompile p) s = Ret (smeaning p s)) as H.
  { unfold st_eval, st_exec. rewrite H. repeat split. }
  clear s. induction p as [A a| |s'|f|A B f p IH|A B p IHp k IHk|A B pf IHf pa IHa]; intros s; cbn [scompile smeaning];
    try reflexivity.
  - unfold st_fmap. rewrite st_run_new, IH. cbn [obind]. destruct (smeaning p s). reflexivity.
  - unfold st_bind. rewrite st_run_new, IHp. cbn [obind]. destruct (smeaning p s). apply IHk.
  - unfold st_apply. rewrite st_run_new, IHf. cbn [obind]. destruct (smeaning pf s) as [f s1].
    cbn [fst snd]. rewrite IHa. destruct (smeaning pa s1). reflexivity.
Qed.
Theorem C38_state_laws : forall (S : Type) (a b : S) (f g : S -> S),
  st_eqv _ (st_bind (st_put a) (fun _ => st_put b)) (st_put b) /\
  st_eqv _ (st_bind (st_put a) (fun _ => st_get)) (st_bind (st_put a) (fun _ => st_pure a)) /\
  st_eqv _ (st_bind st_get (@st_put S)) (st_pure tt) /\
  st_eqv _ (st_bind st_get (fun x : S => st_bind st_get (fun y : S => st_pure (x, y)))) (st_bind st_get (fun x => st_pure (x, x))) /\
  st_eqv _ (st_modify f) (st_bind st_get (fun x => st_put (f x))) /\
  st_eqv _ (st_bind (st_modify f) (fun _ => st_modify g)) (st_modify (fun x => g (f x))).
Proof. repeat split; intros s; reflexivity. Qed.
(** A [State] made from a bare [StateT::Pure] panics when run. *)
Theorem C38_from_pure_panics : forall (S A : Type) (a : A) (s : S),
  st_run (st_from_inner (SPure a)) s = Panic.
Proof. reflexivity. Qed.
Example C38_case :
  st_run (scompile (SBind SGet (fun x => SBind (SPut (x + 1)) (fun _ => SBind (SModify (Nat.mul 2)) (fun _ => SRet x))))) 4
  = Ret (4, 10).
Proof. reflexivity. Qed.

(** ** C39: StateT *)
Section StateTLaws.
Variable F : Type -> Type.
Variable pure : forall X, X -> F X.
Variable bindo : forall X Y, F X -> (X -> outcome (F Y)) -> outcome (F Y).
Variable S : Type.
Definition ST A := stateT S (F (S * A)) A.
Definition stt_eqv A (x y : ST A) : Prop := forall s, stt_run x s = stt_run y s.
Definition st_return {A} (a : A) : ST A := stt_pure a (pure (S * A)).
Definition st_then {A B} (x : ST A) (f : A -> ST B) : ST B := stt_bind_with x f (bindo (S * A) (S * B)).
Definition is_bare_pure {A} (x : ST A) : bool := match x with SPure _ => true | _ => false end.
End StateTLaws.
(** The laws hold for everything not built with the bare [Pure] variant. *)
Theorem C39_laws_partial : forall F pure bindo, partial_monad_laws F pure bindo ->
  forall (S A B C : Type) (a : A) (m : ST F S A) (f : A -> ST F S B) (g : B -> ST F S C),
  stt_eqv F S _ (st_then F bindo S (st_return F pure S a) f) (f a) /\
  (is_bare_pure F S m = false ->
     stt_eqv F S _ (st_then F bindo S m (st_return F pure S)) m) /\
  ((forall x, is_bare_pure F S (f x) = false) ->
     stt_eqv F S _ (st_then F bindo S (st_then F bindo S m f) g)
                   (st_then F bindo S m (fun x => st_then F bindo S (f x) g))).
Proof.
  intros F pure bindo (HL & HR & HA & HE) S A B C a m f g. unfold stt_eqv, st_then, st_return, stt_pure.
  split; [|split].
  - intros s. cbn. now rewrite HL.
  - intros Hp s. destruct m as [a'|m|run]; cbn in *; [discriminate|..].
    + rewrite (HE _ _ _ _ (fun x => Ret (pure _ x))); [apply HR|]. now intros [s' b].
    + destruct (run s) as [m|]; cbn; [|reflexivity].
      rewrite (HE _ _ _ _ (fun x => Ret (pure _ x))); [apply HR|]. now intros [s' b].
  - intros Hp s.
    assert (Hk : forall p : S * A,
      (do n <- stt_run (f (snd p)) (fst p); bindo _ _ n (fun q => stt_run (g (snd q)) (fst q))) =
      stt_run (stt_bind_with (f (snd p)) g (bindo (S * B)%type (S * C)%type)) (fst p)).
    { intros [s' x]. cbn. specialize (Hp x). destruct (f x); cbn in *; [discriminate|reflexivity..]. }
    destruct m as [x|m|run]; cbn.
    + reflexivity.
    + rewrite HA. apply HE. exact Hk.
    + destruct (run s) as [m|]; cbn; [|reflexivity]. rewrite HA. apply HE. exact Hk.
Qed.
(** With the bare [Pure] variant right identity and associativity fail. *)
Definition id_bindo X Y (m : id_ X) (k : X -> outcome (id_ Y)) : outcome (id_ Y) := k (id_value m).
Definition option_bindo X Y (m : option X) (k : X -> outcome (option Y)) : outcome (option Y) :=
  match m with Some x => k x | None => Ret None end.
Definition result_bindo E X Y (m : result X E) (k : X -> outcome (result Y E)) : outcome (result Y E) :=
  match m with Ok x => k x | Err e => Ret (Err e) end.
Fixpoint list_bindo X Y (m : list X) (k : X -> outcome (list Y)) : outcome (list Y) :=
  match m with
  | [] => Ret []
  | x :: r => do l <- k x; do l' <- list_bindo X Y r k; Ret (l ++ l')
  end.
Lemma id_base : partial_monad_laws id_ (@mkId) id_bindo.
Proof. repeat split; intros; try (destruct m); cbn; auto. unfold id_bindo. auto. Qed.
Lemma option_base : partial_monad_laws option (@Some) option_bindo.
Proof. repeat split; intros; try (destruct m); cbn; auto. Qed.
Lemma result_base E : partial_monad_laws (fun X => result X E) (fun X => @Ok X E) (result_bindo E).
Proof. repeat split; intros; try (destruct m); cbn; auto. Qed.
Lemma list_bindo_app X Y l1 l2 (k : X -> outcome (list Y)) :
  list_bindo X Y (l1 ++ l2) k = do a <- list_bindo X Y l1 k; do b <- list_bindo X Y l2 k; Ret (a ++ b).
Proof.
  induction l1 as [|x l1 IH]; cbn.
  - destruct (list_bindo X Y l2 k); reflexivity.
  - rewrite IH. destruct (k x); cbn; [|reflexivity]. destruct (list_bindo X Y l1 k); cbn; [|reflexivity].
    destruct (list_bindo X Y l2 k); cbn; [|reflexivity]. now rewrite app_assoc.
Qed.
Lemma list_base : partial_monad_laws list (fun X x => [x]) list_bindo.
Proof.
  repeat split.
  - intros X Y x k. cbn. destruct (k x); cbn; [now rewrite app_nil_r|reflexivity].
  - intros X m. induction m as [|x m IH]; cbn; [reflexivity|]. now rewrite IH.
  - intros X Y Z m k h. induction m as [|x m IH]; cbn; [reflexivity|]. rewrite <- IH.
    destruct (k x) as [l|]; cbn; [|reflexivity].
    destruct (list_bindo X Y m k) as [l'|]; cbn.
    + now rewrite list_bindo_app.
    + destruct (list_bindo Y Z l h); reflexivity.
  - intros X Y m k k' H. induction m as [|x m IH]; cbn; [reflexivity|]. now rewrite H, IH.
Qed.
Theorem C39_bare_pure_refuted :
  (exists m : ST id_ nat nat, ~ stt_eqv id_ nat _ (st_then id_ id_bindo nat m (st_return id_ (@mkId) nat)) m) /\
  (exists (m : ST id_ nat nat) (f g : nat -> ST id_ nat nat),
     ~ stt_eqv id_ nat _ (st_then id_ id_bindo nat (st_then id_ id_bindo nat m f) g)
                         (st_then id_ id_bindo nat m (fun x => st_then id_ id_bindo nat (f x) g))).
Proof.
  split.
  - exists (SPure 1). intros H. specialize (H 0). vm_compute in H. discriminate.
  - exists (st_return id_ (@mkId) nat 1), (fun x => SPure x), (st_return id_ (@mkId) nat).
    intros H. specialize (H 0). vm_compute in H. discriminate.
Qed.
(** Four base monads meet the hypothesis. *)
Theorem C39_bases : forall E : Type,
  partial_monad_laws id_ (@mkId) id_bindo /\ partial_monad_laws option (@Some) option_bindo /\
  partial_monad_laws (fun X => result X E) (fun X => @Ok X E) (result_bindo E) /\
  partial_monad_laws list (fun X x => [x]) list_bindo.
Proof. intros E. exact (conj id_base (conj option_base (conj (result_base E) list_base))). Qed.
(** Threading: every program computes what the direct interpreter computes. *)
Section TCompile.
Variables (S : Type) (F : Type -> Type).
Variable pure : forall X, X -> F X.
Variable bindo : forall X Y, F X -> (X -> outcome (F Y)) -> outcome (F Y).
Fixpoint tcompile {A} (p : tprog S F A) : ST F S A :=
  match p with
  | TRet a => st_return F pure S a
  | TGet => stt_get (pure _)
  | TPut s => stt_put s (pure _)
  | TModify f => stt_modify f (pure _)
  | TEffect f => stt_new (fun s => Ret (f s))
  | TBind p k => st_then F bindo S (tcompile p) (fun a => tcompile (k a))
  end.
End TCompile.
Theorem C39_programs : forall F pure bindo bind, partial_monad_laws F pure bindo ->
  (forall X Y (m : F X) (k : X -> F Y), bindo X Y m (fun x => Ret (k x)) = Ret (bind X Y m k)) ->
  forall (S A : Type) (p : tprog S F A) (s : S),
  stt_run (tcompile S F pure bindo p) s = Ret (tmeaning S F pure bind p s).
Proof.
  intros F pure bindo bind (HL & HR & HA & HE) Hb S A p.
  induction p as [A a| |s'|f|A f|A B p IHp k IHk]; intros s; cbn [tcompile tmeaning]; try reflexivity.
  assert (Hp : is_bare_pure F S (tcompile S F pure bindo p) = false).
  { clear. induction p as [| | | | |A B p IHp k IHk]; try reflexivity. cbn [tcompile]. unfold st_then.
    destruct (tcompile S F pure bindo p); cbn in *; [discriminate|reflexivity..]. }
  unfold st_then.
  rewrite <- Hb. rewrite (HE _ _ _ _ (fun q => stt_run (tcompile S F pure bindo (k (snd q))) (fst q)))
    by (intros q; now rewrite IHk).
  specialize (IHp s). destruct (tcompile S F pure bindo p) as [x|m|run]; cbn in *; [discriminate|..].
  - injection IHp as ->. reflexivity.
  - rewrite IHp. reflexivity.
Qed.
Theorem C39_round_trip : forall (S A : Type) (x : stateT S (id_ (S * A)) A) (m : state S A),
  (forall s, stt_run (stt_from_state (stt_to_state x)) s = stt_run x s) /\
  (forall s, st_run (stt_to_state (stt_from_state m)) s = st_run m s).
Proof.
  intros S A x m. split; intros s; unfold stt_to_state, stt_from_state.
  - cbn [stt_run stt_new]. rewrite st_run_new. destruct (stt_run x s) as [[[s' a]]|]; reflexivity.
  - rewrite st_run_new. cbn [stt_run stt_new]. destruct (st_run m s) as [[a s']|]; reflexivity.
Qed.
Theorem C39_functor : forall (F : Type -> Type) (fmap : forall X Y, (X -> Y) -> F X -> F Y),
  functor_laws F (fun A x y => x = y) fmap ->
  (forall X Y (f g : X -> Y) m, (forall x, f x = g x) -> fmap X Y f m = fmap X Y g m) ->
  forall S : Type,
  functor_laws (ST F S) (stt_eqv F S) (fun A B f x => stt_fmap_with x f (fun m g => fmap _ _ g m)).
Proof.
  intros F fmap (Hid & Hco) Hext S. split.
  - intros A [a|m|run] s; cbn; [reflexivity|..].
    + rewrite (Hext _ _ _ (fun x => x)); [now rewrite Hid|]. now intros [x y].
    + destruct (run s); cbn; [|reflexivity]. rewrite (Hext _ _ _ (fun x => x)); [now rewrite Hid|]. now intros [x y].
  - intros A B C f g [a|m|run] s; cbn; [reflexivity|..].
    + rewrite <- Hco. reflexivity.
    + destruct (run s); cbn; [|reflexivity]. rewrite <- Hco. reflexivity.
Qed.
(** [lift] of the transformer replaces the state by the one of the base value;
    it keeps the incoming state only if the base value already holds it. *)
Theorem C39_lift : forall (S A : Type) (s0 s : S) (a : A),
  stt_run (@stt_lift S _ A (mkId (s0, a))) s = Ret (mkId (s0, a)) /\
  (stt_run (@stt_lift S _ A (mkId (s0, a))) s = stt_run (st_return id_ (@mkId) S a) s <-> s0 = s).
Proof. intros. split; [reflexivity|]. cbn. split; congruence. Qed.
Example C39_case :
  stt_run (tcompile nat option (@Some) option_bindo
    (TBind (TPut 5) (fun old => TBind (TEffect (fun s => if s =? 5 then Some (s + 1, old) else None)) (fun x => TRet (x * 10))))) 7
  = Ret (Some (6, 70)).
Proof. reflexivity. Qed.

(** ** C40: combine_with / apply of StateT *)
(** The composition the property asks for. *)
Definition composed {S A B C} (x : ST id_ S A) (y : ST id_ S B) (f : A -> B -> C) : ST id_ S C :=
  st_then id_ id_bindo S x (fun a => st_then id_ id_bindo S y (fun b => st_return id_ (@mkId) S (f a b))).
Definition id_combine_fn {X Y Z} (m : id_ X) (n : id_ Y) (g : X -> Y -> Z) : id_ Z := mkId (g (id_value m) (id_value n)).
Theorem C40_combine_refuted : exists x y : ST id_ nat nat, exists z,
  stt_combine_with x y Nat.add id_combine_fn = Ret z /\
  stt_run z 1 = Ret (mkId (1, 2)) /\ stt_run (composed x y Nat.add) 1 = Ret (mkId (2, 3)).
Proof.
  exists (SEffect (fun s => Ret (mkId (s + 1, s)))), (stt_get mkId). eexists.
  split; [reflexivity|]. split; reflexivity.
Qed.
Theorem C40_apply_refuted : exists (x : ST id_ nat (nat -> nat)) (y : ST id_ nat nat),
  let apply_fn := fun (m : id_ (nat * (nat -> nat))) (n : id_ (nat * nat)) =>
                    mkId (fst (id_value n), snd (id_value m) (snd (id_value n))) in
  stt_run (stt_apply (C := nat) x y apply_fn) 1 = Ret (mkId (1, 2)) /\
  stt_run (composed x y (fun f a => f a)) 1 = Ret (mkId (2, 3)).
Proof.
  exists (SEffect (fun s => Ret (mkId (s + 1, S)))), (stt_get mkId). split; reflexivity.
Qed.
(** What [combine_with] computes, for all inputs: both run from the initial
    state; effects keep the second's state, lifted values the first's, and
    mixed variants panic when combined. *)
Theorem C40_combine_partial : forall (S A B C : Type) (f : A -> B -> C),
  (forall (r1 : S -> outcome (id_ (S * A))) (r2 : S -> outcome (id_ (S * B))), exists z,
     stt_combine_with (SEffect r1) (SEffect r2) f id_combine_fn = Ret z /\
     forall s s1 a s2 b, r1 s = Ret (mkId (s1, a)) -> r2 s = Ret (mkId (s2, b)) ->
       stt_run z s = Ret (mkId (s2, f a b)) /\
       (s1 = s -> stt_run z s = stt_run (composed (SEffect r1) (SEffect r2) f) s)) /\
  (forall (s1 : S) (a : A) (s2 : S) (b : B), exists z, stt_combine_with (SLiftM (mkId (s1, a))) (SLiftM (mkId (s2, b))) f id_combine_fn = Ret z /\
     forall s : S, stt_run z s = Ret (mkId (s1, f a b)) /\
       (stt_run z s = stt_run (composed (SLiftM (mkId (s1, a))) (SLiftM (mkId (s2, b))) f) s <-> s1 = s2)) /\
  (forall (x : ST id_ S A) (y : ST id_ S B),
     stt_combine_with x y f id_combine_fn = Panic <->
     match x, y with
     | SPure _, SPure _ | SLiftM _, SLiftM _ | SEffect _, SEffect _ => False
     | _, _ => True
     end).
Proof.
  intros S A B C f. split; [|split].
  - intros r1 r2. eexists. split; [reflexivity|]. intros s s1 a s2 b H1 H2. cbn. rewrite H1, H2. cbn.
    split; [reflexivity|]. intros ->. unfold id_bindo. cbn. rewrite H2. reflexivity.
  - intros s1 a s2 b. eexists. split; [reflexivity|]. intros s. cbn. split; [reflexivity|].
    unfold id_bindo. cbn. split; intros H; [injection H; auto|subst; reflexivity].
  - intros x y. destruct x, y; cbn; split; intros H; try discriminate; try contradiction; auto.
Qed.
(** The second computation never sees the state left by the first. *)
Theorem C40_second_ignores_first : forall (S A B C : Type) (f : A -> B -> C) (r1 r1' : S -> outcome (id_ (S * A)))
    (r2 : S -> outcome (id_ (S * B))) z z' s,
  stt_combine_with (SEffect r1) (SEffect r2) f id_combine_fn = Ret z ->
  stt_combine_with (SEffect r1') (SEffect r2) f id_combine_fn = Ret z' ->
  omap (fun m => snd (id_value m)) (r1 s) = omap (fun m => snd (id_value m)) (r1' s) ->
  stt_run z s = stt_run z' s.
Proof.
  intros S A B C f r1 r1' r2 z z' s H1 H2 He. injection H1 as <-. injection H2 as <-. cbn.
  destruct (r1 s) as [[[? ?]]|], (r1' s) as [[[? ?]]|]; cbn in *; try discriminate; [|reflexivity].
  injection He as ->. reflexivity.
Qed.
Example C40_case :
  stt_combine_with (@SPure nat (id_ (nat * nat)) nat 1) (SLiftM (mkId (0, 2))) Nat.add id_combine_fn = Panic.
Proof. reflexivity. Qed.

(** [apply] runs both parts from the initial state, for every variant; it panics
    when run if a part is the bare [Pure]. *)
Theorem C40_apply_exact : forall (S M N K A B C : Type) (x : stateT S M A) (y : stateT S N B) (ap : M -> N -> K) (s : S),
  (forall m n, stt_run x s = Ret m -> stt_run y s = Ret n -> stt_run (stt_apply (C := C) x y ap) s = Ret (ap m n)) /\
  (stt_run x s = Panic \/ stt_run y s = Panic <-> stt_run (stt_apply (C := C) x y ap) s = Panic).
Proof.
  intros S M N K A B C x y ap s. split.
  - intros m n Hx Hy. destruct x, y; cbn in *; try discriminate; rewrite ?Hx, ?Hy; cbn; congruence.
  - destruct x as [a|m|f], y as [b|n|g]; cbn; try (split; auto; fail);
      repeat match goal with |- context [f s] => destruct (f s) | |- context [g s] => destruct (g s) end; cbn;
      (split; [intros [H|H]|intros H]); auto; discriminate.
Qed.
(** [join] applies the given function to what running yields; [exec_state]
    extracts from what running yields. *)
Theorem C40_join_exec : forall (S M N A B : Type) (x : stateT S M A) (j : M -> N) (ex : N -> B) (s : S),
  (forall m, stt_run x s = Ret m -> stt_run (stt_join x j) s = Ret (j m)) /\
  (stt_run (stt_join x j) s = Panic <-> stt_run x s = Panic) /\
  stt_exec (stt_join x j) s ex = stt_exec x s (fun m => ex (j m)).
Proof.
  intros S M N A B x j ex s. unfold stt_exec. destruct x as [a|m|f]; cbn.
  - repeat split; auto; discriminate.
  - repeat split; try discriminate. intros m' H. congruence.
  - destruct (f s); cbn; repeat split; intros; congruence.
Qed.
(** ** C41: Reader *)
Definition rd_eqv {E} A (x y : reader E A) : Prop := forall e, rd_run x e = rd_run y e.
Definition rd_pure {E A} (a : A) : reader E A := rd_new (fun _ => a).
Definition rd_ap {E A B} (x : reader E (A -> B)) (y : reader E A) : reader E B := rd_combine x y (fun f a => f a).
Theorem C41_laws : forall E : Type,
  functor_laws (reader E) rd_eqv (@rd_fmap E) /\
  applicative_laws (reader E) rd_eqv (@rd_pure E) (@rd_ap E) /\
  monad_laws (reader E) rd_eqv (@rd_pure E) (@rd_bind E) /\
  fmap_is_bind (reader E) rd_eqv (@rd_fmap E) (@rd_pure E) (@rd_bind E) /\
  apply_is_bind (reader E) rd_eqv (@rd_pure E) (@rd_ap E) (@rd_bind E).
Proof.
  intros E. unfold functor_laws, applicative_laws, monad_laws, fmap_is_bind, apply_is_bind, rd_eqv.
  repeat split; intros; reflexivity.
Qed.
Fixpoint rcompile {E A} (p : rprog E A) : reader E A :=
  match p with
  | RRet a => rd_pure a
  | RAsk => rd_ask (fun e => e)
  | RAsks f => rd_asks f
  | RLocal f p => rd_local (rcompile p) f
  | RMap f p => rd_fmap f (rcompile p)
  | RBind p k => rd_bind (rcompile p) (fun a => rcompile (k a))
  | RCombine f p q => rd_combine (rcompile p) (rcompile q) f
  end.
Theorem C41_programs : forall (E A : Type) (p : rprog E A) (e : E), rd_run (rcompile p) e = rmeaning p e.
Proof.
  intros E A p. induction p as [| | |A f p IH|A B f p IH|A B p IHp k IHk|A B C f p IHp q IHq]; intros e; cbn;
    try reflexivity.
  - apply IH.
  - f_equal. apply IH.
  - unfold rd_run, rd_bind in *. cbn. rewrite IHp. apply IHk.
  - f_equal; [apply IHp|apply IHq].
Qed.
Theorem C41_local : forall (E A B : Type) (r : reader E A) (f g : E -> E) (k : A -> reader E B) (e : E),
  rd_run (rd_local r f) e = rd_run r (f e) /\
  rd_run (rd_local (rd_local r f) g) e = rd_run (rd_local r (fun x => f (g x))) e /\
  rd_run (rd_local r (fun x => x)) e = rd_run r e /\
  rd_run (rd_local (rd_bind r k) f) e = rd_run (rd_bind (rd_local r f) (fun a => rd_local (k a) f)) e /\
  rd_run (rd_bind (rd_local r f) k) e = rd_run (k (rd_run r (f e))) e /\
  rd_run (rd_ask (fun x : E => x)) e = e.
Proof. repeat split; reflexivity. Qed.
Theorem C41_ask_with : forall (E A : Type) (f : E -> A) (t : A -> id_ A) (e : E) (x : readerT E (id_ A) A),
  rd_run (rd_ask_with f t) e = id_value (t (f e)) /\ rd_run (rd_asks f) e = f e /\
  rd_run (rd_new f) e = f e /\ rd_run (rd_from_inner x) e = id_value (rdt_run x e).
Proof. repeat split; reflexivity. Qed.
Example C41_case :
  rd_run (rcompile (RBind (RLocal (Nat.mul 2) RAsk) (fun a => RCombine Nat.add (RRet a) RAsk))) 5 = 15.
Proof. reflexivity. Qed.

(** ** C42: ReaderT *)
Section ReaderTLaws.
Variables (F : Type -> Type) (E : Type).
Definition RT A := readerT E (F A) A.
Definition rdt_eqv A (x y : RT A) : Prop := forall e, rdt_run x e = rdt_run y e.
End ReaderTLaws.
Theorem C42_laws : forall (F : Type -> Type) (pure : forall X, X -> F X) (bind : forall X Y, F X -> (X -> F Y) -> F Y),
  monad_laws F (fun A x y => x = y) pure bind ->
  forall E : Type,
  let ret := fun A (a : A) => rdt_pure a (pure A) : RT F E A in
  let bindw := fun A B (x : RT F E A) f => rdt_bind_with x f (bind A B) : RT F E B in
  let bindt := fun A B (x : RT F E A) f => rdt_bind (bind A B) x f : RT F E B in
  monad_laws (RT F E) (rdt_eqv F E) ret bindw /\
  monad_laws (RT F E) (rdt_eqv F E) ret bindt /\
  (forall A B x f, rdt_eqv F E B (bindw A B x f) (bindt A B x f)).
Proof.
  intros F pure bind (HL & HR & HA) E ret bindw bindt.
  assert (monad_laws (RT F E) (rdt_eqv F E) ret bindw) as H.
  { split; [|split].
    - intros A B x f e. cbn. now rewrite HL.
    - intros A m e. cbn. apply HR.
    - intros A B C m f g e. cbn. now rewrite HA. }
  split; [exact H|]. split; [exact H|]. intros A B x f e. reflexivity.
Qed.
Theorem C42_functor : forall (F : Type -> Type) (fmap : forall X Y, (X -> Y) -> F X -> F Y),
  functor_laws F (fun A x y => x = y) fmap ->
  forall E : Type,
  functor_laws (RT F E) (rdt_eqv F E) (fun A B f x => rdt_fmap (fmap A B) f x) /\
  functor_laws (RT F E) (rdt_eqv F E) (fun A B f x => rdt_fmap_with x f (fun m g => fmap A B g m)).
Proof.
  intros F fmap (Hid & Hco) E. repeat split; intros; intros e; cbn; first [apply Hid|apply Hco].
Qed.
Theorem C42_lift : forall (F : Type -> Type) (pure : forall X, X -> F X) (bind : forall X Y, F X -> (X -> F Y) -> F Y)
    (E A B : Type) (m : F A) (k : A -> F B) (a : A) (e e' : E),
  rdt_run (@rdt_lift E _ A m) e = m /\
  rdt_run (@rdt_lift E _ A m) e = rdt_run (@rdt_lift E _ A m) e' /\
  rdt_run (@rdt_lift E _ A (pure A a)) e = rdt_run (rdt_pure a (pure A)) e /\
  rdt_run (@rdt_lift E _ B (bind A B m k)) e =
    rdt_run (rdt_bind_with (B := B) (rdt_lift m) (fun x => rdt_lift (k x)) (bind A B)) e.
Proof. repeat split; reflexivity. Qed.
Theorem C42_environment : forall (E M A B C : Type) (x : readerT E M A) (f g : E -> E) (h : E -> B) (t : B -> C)
    (p : B -> M) (q : C -> M) (e : E) (pe : E -> M),
  rdt_run (rdt_local x f) e = rdt_run x (f e) /\
  rdt_run (rdt_local (rdt_local x f) g) e = rdt_run x (f (g e)) /\
  rdt_run (rdt_ask pe) e = pe e /\ rdt_run (rdt_asks h p) e = p (h e) /\
  rdt_run (rdt_asks_with h t q) e = q (t (h e)).
Proof. repeat split; reflexivity. Qed.
(** [combine] gives both parts the same environment; with [Result] as the base
    and both parts failing, the receiver's error is reported, so [apply] reports
    the error of the argument rather than of the function. *)
Theorem C42_combine : forall (E X A B C : Type) (x : RT (fun T => result T X) E A) (y : RT (fun T => result T X) E B)
    (f : A -> B -> C) (e : E),
  rdt_run (rdt_combine (@re_lift2 A B C X) x y f) e = re_lift2 f (rdt_run x e) (rdt_run y e) /\
  (forall e1, rdt_run x e = Err e1 -> rdt_run (rdt_combine (@re_lift2 A B C X) x y f) e = Err e1).
Proof. intros. split; [reflexivity|]. intros e1 H. cbn. rewrite H. reflexivity. Qed.
(** Over a lawful base, [combine_with] and [apply_with] given the base's own
    combination are the ones derived from [bind]. *)
Theorem C42_combine_with : forall (F : Type -> Type) (pure : forall X, X -> F X) (bind : forall X Y, F X -> (X -> F Y) -> F Y)
    (E A B C : Type) (x : RT F E A) (y : RT F E B) (u : RT F E (A -> C)) (f : A -> B -> C),
  monad_laws F (fun A x y => x = y) pure bind ->
  rdt_eqv F E C
    (rdt_combine_with x y f (fun m n g => bind A C m (fun a => bind B C n (fun b => pure C (g a b)))))
    (rdt_bind (bind A C) x (fun a => rdt_bind (bind B C) y (fun b => rdt_pure (f a b) (pure C)))) /\
  rdt_eqv F E C
    (rdt_apply_with x u (fun m n => bind A C m (fun a => bind (A -> C) C n (fun g => pure C (g a)))))
    (rdt_bind (bind A C) x (fun a => rdt_bind (bind (A -> C) C) u (fun g => rdt_pure (g a) (pure C)))) /\
  (forall (a : A) (b : B) (e : E),
     rdt_run (rdt_combine_with (rdt_pure a (pure A)) (rdt_pure b (pure B)) f
       (fun m n g => bind A C m (fun a => bind B C n (fun b => pure C (g a b))))) e = pure C (f a b)).
Proof.
  intros F pure bind E A B C x y u f (HL & _). split; [intros e; reflexivity|]. split; [intros e; reflexivity|].
  intros a b e. cbn. rewrite HL. apply HL.
Qed.
Theorem C42_apply_order_refuted : exists (x : RT (fun T => result T nat) unit nat)
    (f : RT (fun T => result T nat) unit (nat -> nat)),
  rdt_run (rdt_apply (@re_lift2 nat (nat -> nat) nat nat) x f) tt
  <> re_apply (rdt_run f tt) (rdt_run x tt).
Proof. exists (mkReaderT (fun _ => Err 1)), (mkReaderT (fun _ => Err 2)). vm_compute. discriminate. Qed.
Example C42_case :
  rdt_run (rdt_bind (@op_bind nat nat) (rdt_asks S (@Some nat)) (fun a => @mkReaderT nat (option nat) nat (fun e => if e <? a then Some (a * e) else None))) 3
  = Some 12.
Proof. reflexivity. Qed.

(** ** C44: Cont *)
Definition co_eqv {R} A (x y : cont R A) : Prop := forall k, co_run x k = co_run y k.
Definition co_ap {R A B} (u : cont R (A -> B)) (x : cont R A) : cont R B := co_apply x u.
Theorem C44_laws : forall R : Type,
  functor_laws (cont R) co_eqv (@co_fmap R) /\
  applicative_laws (cont R) co_eqv (@co_pure R) (@co_ap R) /\
  monad_laws (cont R) co_eqv (@co_pure R) (@co_bind R) /\
  fmap_is_apply (cont R) co_eqv (@co_fmap R) (@co_pure R) (@co_ap R) /\
  fmap_is_bind (cont R) co_eqv (@co_fmap R) (@co_pure R) (@co_bind R) /\
  apply_is_bind (cont R) co_eqv (@co_pure R) (@co_ap R) (@co_bind R).
Proof.
  intros R.
  unfold functor_laws, applicative_laws, monad_laws, fmap_is_apply, fmap_is_bind, apply_is_bind, co_eqv.
  repeat split; intros; reflexivity.
Qed.
Theorem C44_run : forall (R A : Type) (a : A) (f : (A -> R) -> R) (k : A -> R),
  co_run (co_new f) k = f k /\ co_run (co_pure a) k = k a.
Proof. repeat split; reflexivity. Qed.
(** Function part first: if the function part aborts with [r], so does the
    whole, whatever the argument part is; and conversely. *)
Theorem C44_apply_order : forall (R A B : Type) (x : cont R A) (cf : cont R (A -> B)) (r : R) (k : B -> R) (f : A -> B),
  co_run (co_apply x (co_new (fun _ => r))) k = r /\
  co_run (co_apply (co_new (fun _ => r)) (co_pure f)) k = r /\
  co_run (co_apply x (co_pure f)) k = co_run x (fun a => k (f a)).
Proof. repeat split; reflexivity. Qed.
(** [call_cc]: escaping discards the rest of the body; a body that never
    escapes is run as is; the receiver is never used. *)
Theorem C44_call_cc : forall (R A B : Type) (self self' : cont R A) (b : B) (rest : A -> cont R B) (m : cont R B)
    (f : (B -> cont R A) -> cont R B) (k : B -> R),
  co_run (co_call_cc self (fun exit => co_bind (exit b) rest)) k = k b /\
  co_run (co_call_cc self (fun _ => m)) k = co_run m k /\
  co_run (co_call_cc self (fun exit => co_bind m (fun x => co_bind (exit x) rest))) k = co_run m k /\
  co_run (co_call_cc self f) k = co_run (co_call_cc self' f) k.
Proof. repeat split; reflexivity. Qed.
Theorem C44_round_trip : forall (R A : Type) (x : cont R A) (y : contT (id_ R) A),
  ct_to_cont (ct_from_cont x) = x /\ ct_from_cont (ct_to_cont y) = y.
Proof. intros R A [x] y. split; reflexivity. Qed.
Example C44_case :
  co_run (co_call_cc (co_pure 0) (fun exit => co_bind (co_pure 3) (fun x => if x =? 3 then co_bind (exit 10) (fun y => co_pure (y + 100)) else co_pure 7))) (fun n => n + 1) = 11.
Proof. reflexivity. Qed.

(** ** C45: ContT *)
Definition ct_eqv {M} A (x y : contT M A) : Prop := forall k, ct_run x k = ct_run y k.
Theorem C45_laws_partial : forall M : Type,
  functor_laws (contT M) ct_eqv (@ct_fmap M) /\
  applicative_laws (contT M) ct_eqv (@ct_pure M) (fun A B u x => ct_apply x u) /\
  monad_laws (contT M) ct_eqv (@ct_pure M) (@ct_bind M) /\
  fmap_is_bind (contT M) ct_eqv (@ct_fmap M) (@ct_pure M) (@ct_bind M) /\
  apply_is_bind (contT M) ct_eqv (@ct_pure M) (fun A B u x => ct_apply x u) (@ct_bind M).
Proof.
  intros R.
  unfold functor_laws, applicative_laws, monad_laws, fmap_is_apply, fmap_is_bind, apply_is_bind, ct_eqv.
  repeat split; intros; reflexivity.
Qed.
Theorem C45_call_cc : forall (M A B : Type) (a : A) (rest : B -> contT M A) (m : contT M A) (k : A -> M),
  ct_run (ct_call_cc (fun exit : A -> contT M B => ct_bind (exit a) rest)) k = k a /\
  ct_run (ct_call_cc (fun _ : A -> contT M B => m)) k = ct_run m k.
Proof. repeat split; reflexivity. Qed.
(** [lift] drops the continuation: neither morphism law holds. *)
Theorem C45_lift_refuted :
  (exists (a : nat) (k : nat -> option nat), ct_run (@ct_lift (option nat) nat (Some a)) k <> ct_run (ct_pure a) k) /\
  (exists (m : option nat) (f : nat -> option nat) (k : nat -> option nat),
     ct_run (@ct_lift _ nat (op_bind m f)) k <> ct_run (ct_bind (ct_lift m) (fun a : nat => @ct_lift _ nat (f a))) k).
Proof.
  split; [exists 1, (fun _ => None)|exists (Some 1), (fun _ => None), (fun _ => None)]; vm_compute; discriminate.
Qed.
Theorem C45_lift_absorbs : forall (M A B : Type) (m : M) (f : A -> contT M B) (k : B -> M),
  ct_run (ct_bind (ct_lift m) f) k = m.
Proof. reflexivity. Qed.
Example C45_case : ct_run (ct_bind (ct_pure 2) (fun a => mkContT (fun k => k a ++ k (a + 1)))) (fun a => [a * 10]) = [20; 30].
Proof. reflexivity. Qed.

Print Assumptions C37_laws.
Print Assumptions C37_programs.
Print Assumptions C37_list_log.
Print Assumptions C37_accessors.
Print Assumptions C37_monoid.
Print Assumptions C38_laws.
Print Assumptions C38_programs.
Print Assumptions C38_state_laws.
Print Assumptions C38_from_pure_panics.
Print Assumptions C39_laws_partial.
Print Assumptions C39_bare_pure_refuted.
Print Assumptions C39_bases.
Print Assumptions C39_programs.
Print Assumptions C39_round_trip.
Print Assumptions C39_functor.
Print Assumptions C39_lift.
Print Assumptions C40_combine_refuted.
Print Assumptions C40_apply_refuted.
Print Assumptions C40_combine_partial.
Print Assumptions C40_second_ignores_first.
Print Assumptions C41_laws.
Print Assumptions C41_programs.
Print Assumptions C41_local.
Print Assumptions C41_ask_with.
Print Assumptions C42_laws.
Print Assumptions C42_functor.
Print Assumptions C42_lift.
Print Assumptions C42_environment.
Print Assumptions C42_combine.
Print Assumptions C42_apply_order_refuted.
Print Assumptions C44_laws.
Print Assumptions C44_run.
Print Assumptions C44_apply_order.
Print Assumptions C44_call_cc.
Print Assumptions C44_round_trip.
Print Assumptions C45_laws_partial.
Print Assumptions C45_call_cc.
Print Assumptions C45_lift_refuted.
Print Assumptions C45_lift_absorbs.
Print Assumptions C40_apply_exact.
Print Assumptions C40_join_exec.
Print Assumptions C42_combine_with.

(** C103: computations that are built first and run later - nothing is called
    while building, everything once and in order at every run. *)
From Coq Require Import List Arith Lia.
From Verif Require Import Base Types SumModel WrapModel LazyModel EffModel OpticModel DeferModel DeferSpec.
Import ListNotations.
Open Scope outcome_scope.

(** ** Scripts written with the library *)
Section Build.
Context {W : Type}.
Fixpoint s_build {S A} (p : sscript W S A) : dstate W S A :=
  match p in sscript _ _ A return dstate W S A with
  | SNew f => ds_new f
  | SPure a => ds_pure a
  | SGet => ds_get
  | SPut s => ds_put s
  | SModify f => ds_modify f
  | SFmap p f => ds_fmap (s_build p) f
  | SBind p f => ds_bind (s_build p) (fun a w =>
      match f a w with (Ret q, w') => (Ret (s_build q), w') | (Panic, w') => (Panic, w') end)
  | SApply p q => ds_apply (s_build p) (s_build q)
  end.
Fixpoint r_build {E A} (p : rscript W E A) : dreader W E A :=
  match p in rscript _ _ A return dreader W E A with
  | RNew f => dr_new f
  | RFmap p f => dr_fmap (r_build p) f
  | RBind p f => dr_bind (r_build p) (fun a w =>
      match f a w with (Ret q, w') => (Ret (r_build q), w') | (Panic, w') => (Panic, w') end)
  | RLocal p f => dr_local (r_build p) f
  | RCombine p q f => dr_combine (r_build p) (r_build q) f
  end.
Fixpoint k_build {R A} (p : kscript W R A) : dcont W R A :=
  match p in kscript _ _ A return dcont W R A with
  | KPure a => dc_pure a
  | KAbort r => dc_new (fun _ => r)
  | KFmap p f => dc_fmap (k_build p) f
  | KBind p f => dc_bind (k_build p) (fun a w =>
      match f a w with (Ret q, w') => (Ret (k_build q), w') | (Panic, w') => (Panic, w') end)
  | KApply p q => dc_apply (k_build p) (k_build q)
  end.
(** [fmap_with] and [bind_with] with [Result::map] and [Result::and_then]; building is an effect *)
Fixpoint t_build {S Er A} (p : tscript W S Er A) : eff W (lz_stateT W S (result (S * A) Er) A) :=
  match p in tscript _ _ _ A return eff W (lz_stateT W S (result (S * A) Er) A) with
  | TNew f => eff_ret (dt_new f)
  | TPure a => eff_ret (dt_pure a (fun sa => eff_ret (Ok sa)))
  | TGet => eff_ret (dt_get (fun ss => eff_ret (Ok ss)))
  | TPut s => eff_ret (dt_put s (fun ss => eff_ret (Ok ss)))
  | TModify f => eff_ret (dt_modify f (fun su => eff_ret (Ok su)))
  | TLift r => eff_ret (dt_lift r)
  | TFmap p f => eff_bind (t_build p) (fun x => dt_fmap_with x f res_map_eff)
  | TBind p f => eff_bind (t_build p) (fun x => dt_bind_with x (fun a w =>
      match f a w with (Ret q, w') => t_build q w' | (Panic, w') => (Panic, w') end) res_bind_eff)
  end.
(** [with_] chooses between [fmap], [bind], [combine], [apply] and their [_with] forms *)
Fixpoint e_build {E Er A} (with_ : bool) (p : escript W E Er A) : dreaderT W E (result A Er) A :=
  match p in escript _ _ _ A return dreaderT W E (result A Er) A with
  | ENew f => mkDreaderT f
  | EPure a => drt_pure a (fun a => eff_ret (Ok a))
  | ELift r => drt_lift r
  | EAsks f => if with_ then drt_asks f (fun a => eff_ret (Ok a)) else drt_asks_with f eff_ret (fun a => eff_ret (Ok a))
  | ELocal p f => drt_local (e_build with_ p) f
  | EFmap p f => if with_ then drt_fmap_with (e_build with_ p) f res_map_eff else drt_fmap res_map_eff (e_build with_ p) f
  | EBind p f =>
      let k := fun a w => match f a w with (Ret q, w') => (Ret (e_build with_ q), w') | (Panic, w') => (Panic, w') end in
      if with_ then drt_bind_with (e_build with_ p) k res_bind_eff else drt_bind res_bind_eff (e_build with_ p) k
  | ECombine p q f =>
      if with_ then drt_combine_with (e_build with_ p) (e_build with_ q) f (fun ra rb f => res_lift2_eff f ra rb)
      else drt_combine res_lift2_eff (e_build with_ p) (e_build with_ q) f
  | EApply p q =>
      if with_ then drt_apply_with (e_build with_ p) (e_build with_ q) (fun ra rf => res_lift2_eff (fun a f => f a) ra rf)
      else drt_apply res_lift2_eff (e_build with_ p) (e_build with_ q)
  end.
End Build.


Local Arguments eff_bind : simpl never.
Lemma eff_bind_run : forall W A B (m : eff W A) (k : A -> eff W B) w, eff_bind m k w = after (m w) k.
Proof. intros; unfold eff_bind, after. destruct (m w) as [[a|] w']; reflexivity. Qed.
Lemma ds_run_new : forall W S A (f : S -> eff W (A * S)) s w, ds_run (ds_new f) s w = f s w.
Proof. intros; unfold ds_run, ds_new; cbn. rewrite !eff_bind_run; destruct (f s w) as [[p|] w']; reflexivity. Qed.

(** ** Every run of a State does what the script says, in that order, from the
    world it is given; building it is not an effect at all. *)
Theorem C103_state : forall W S A (p : sscript W S A) (s : S) (w : W),
  ds_run (s_build p) s w = s_does p s w.
Proof.
  intros W S. fix go 2. intros A p; destruct p as [A f|A a| |s0|f|A B p f|A B p f|A B p q]; intros s w; cbn [s_build s_does].
  - apply ds_run_new.
  - reflexivity.
  - reflexivity.
  - reflexivity.
  - unfold ds_modify. rewrite ds_run_new, eff_bind_run. destruct (f s w) as [[s'|] w']; reflexivity.
  - unfold ds_fmap. rewrite ds_run_new, eff_bind_run, go. destruct (s_does p s w) as [[[a s1]|] w1]; cbn; [|reflexivity].
    rewrite eff_bind_run. destruct (f a w1) as [[b|] w2]; reflexivity.
  - unfold ds_bind. rewrite ds_run_new, eff_bind_run, go. destruct (s_does p s w) as [[[a s1]|] w1]; cbn; [|reflexivity].
    rewrite eff_bind_run. destruct (f a w1) as [[q|] w2]; cbn; [apply go|reflexivity].
  - unfold ds_apply. rewrite ds_run_new, eff_bind_run, go. destruct (s_does p s w) as [[[f s1]|] w1]; cbn; [|reflexivity].
    rewrite eff_bind_run, go. destruct (s_does q s1 w1) as [[[a s2]|] w2]; cbn; [|reflexivity].
    rewrite eff_bind_run. destruct (f a w2) as [[b|] w3]; reflexivity.
Qed.

Theorem C103_state_eval_exec : forall W S A (p : sscript W S A) (s : S) (w : W),
  ds_eval (s_build p) s w = after (s_does p s w) (fun r w' => (Ret (fst r), w')) /\
  ds_exec (s_build p) s w = after (s_does p s w) (fun r w' => (Ret (snd r), w')).
Proof. intros; unfold ds_eval, ds_exec; rewrite !eff_bind_run, C103_state; split; reflexivity. Qed.

(** ** The same for a Reader *)
Lemma drt_run_inner : forall W E A (x : dreader W E A) e w,
  drt_run (dr_inner x) e w = after (dr_run x e w) (fun a w' => (Ret (mkId a), w')).
Proof. intros; unfold dr_run; rewrite eff_bind_run. destruct (drt_run (dr_inner x) e w) as [[[a]|] w']; reflexivity. Qed.
Theorem C103_reader : forall W E A (p : rscript W E A) (e : E) (w : W),
  dr_run (r_build p) e w = r_does p e w.
Proof.
  intros W E. fix go 2. intros A p; destruct p as [A f|A B p f|A B p f|A p f|A B C p q f]; intros e w;
    cbn [r_build r_does]; unfold dr_run; rewrite eff_bind_run; cbn [dr_inner dr_new dr_fmap dr_bind dr_local dr_combine drt_run];
    rewrite eff_bind_run.
  - destruct (f e w) as [[a|] w']; reflexivity.
  - rewrite drt_run_inner, go. destruct (r_does p e w) as [[a|] w1]; cbn; [|reflexivity].
    rewrite eff_bind_run. destruct (f a w1) as [[b|] w2]; reflexivity.
  - rewrite drt_run_inner, go. destruct (r_does p e w) as [[a|] w1]; cbn; [|reflexivity].
    rewrite eff_bind_run. destruct (f a w1) as [[q|] w2]; cbn; [|reflexivity].
    rewrite drt_run_inner, go. destruct (r_does q e w2) as [[b|] w3]; reflexivity.
  - destruct (f e w) as [[e'|] w1]; cbn; [|reflexivity].
    rewrite drt_run_inner, go. destruct (r_does p e' w1) as [[b|] w3]; reflexivity.
  - rewrite drt_run_inner, go. destruct (r_does p e w) as [[a|] w1]; cbn; [|reflexivity].
    rewrite eff_bind_run, drt_run_inner, go. destruct (r_does q e w1) as [[b|] w2]; cbn; [|reflexivity].
    rewrite eff_bind_run. destruct (f a b w2) as [[c|] w3]; reflexivity.
Qed.

(** ** The same for a Cont, whatever is done with its value in the end *)
Theorem C103_cont : forall W R A (p : kscript W R A) (k : A -> eff W R) (w : W),
  dc_run (k_build p) k w =
  after (k_does p w) (fun ar => match ar with inl a => k a | inr r => fun w' => (Ret r, w') end).
Proof.
  intros W R A p k w.
  assert (H : forall A (p : kscript W R A) (k : A -> eff W (id_ R)) (w : W),
    dct_run (dc_inner (k_build p)) k w =
    after (k_does p w) (fun ar => match ar with inl a => k a | inr r => fun w' => (Ret (mkId r), w') end)).
  { clear. fix go 2. intros A p; destruct p as [A a|A r|A B p f|A B p f|A B p pf]; intros k w; cbn [k_build k_does].
    - reflexivity.
    - cbn. rewrite eff_bind_run. destruct (r w) as [[x|] w']; reflexivity.
    - cbn. rewrite go. destruct (k_does p w) as [[[a|r]|] w1]; cbn; try reflexivity.
      rewrite eff_bind_run. unfold lift_act. destruct (f a w1) as [[b|] w2]; reflexivity.
    - cbn. rewrite go. destruct (k_does p w) as [[[a|r]|] w1]; cbn; try reflexivity.
      rewrite !eff_bind_run. destruct (f a w1) as [[q|] w2]; cbn; [apply go|reflexivity].
    - cbn. rewrite go. destruct (k_does pf w) as [[[f|r]|] w1]; cbn; try reflexivity.
      rewrite go. destruct (k_does p w1) as [[[a|r]|] w2]; cbn; try reflexivity.
      rewrite eff_bind_run. unfold lift_act. destruct (f a w2) as [[b|] w3]; reflexivity. }
  unfold dc_run. rewrite eff_bind_run, H. destruct (k_does p w) as [[[a|r]|] w1]; cbn; try reflexivity.
  rewrite eff_bind_run. destruct (k a w1) as [[r|] w2]; reflexivity.
Qed.

(** [call_cc]: the body is called once per run; its exit, run anywhere later,
    continues with the value given to it and forgets what would have followed. *)
Theorem C103_call_cc : forall W R A B (self : dcont W R A) (body : (B -> eff W (dcont W R A)) -> eff W (dcont W R B))
    (k : B -> eff W R) (w : W),
  exists exit,
    dc_run (dc_call_cc self body) k w = after (body exit w) (fun x => dc_run x k) /\
    (forall b w', exists y, exit b w' = (Ret y, w') /\ forall k' w'', dc_run y k' w'' = k b w'').
Proof.
  intros.
  exists (fun b => eff_bind (eff_ret (mkDcontT (fun _ => eff_bind (k b) (fun r => eff_ret (mkId r))))) (fun z => eff_ret (mkDcont z))).
  split.
  - cbn. unfold dc_run. rewrite eff_bind_run. cbn. rewrite !eff_bind_run.
    match goal with |- context [body ?e w] => destruct (body e w) as [[x|] w1] end; cbn; [|reflexivity].
    rewrite eff_bind_run. reflexivity.
  - intros b w'. eexists; split; [reflexivity|]. intros k' w''. unfold dc_run. rewrite eff_bind_run. cbn.
    rewrite eff_bind_run. destruct (k b w'') as [[r|] w3]; reflexivity.
Qed.

(** ** StateT over Result: building changes nothing, each run does what the script says *)
Theorem C103_state_t : forall W S Er A (p : tscript W S Er A) (w : W),
  exists x, t_build p w = (Ret x, w) /\ forall s w', dt_run x s w' = t_does p s w'.
Proof.
  intros W S Er A p w0.
  assert (H : forall A (p : tscript W S Er A) (w : W),
    exists f, t_build p w = (Ret (LEffect f), w) /\ forall s w', f s w' = t_does p s w').
  { clear. fix go 2. intros A p; destruct p as [A f|A a| |s0|f|A r|A B p f|A B p f]; intros w; cbn [t_build t_does].
    1-4,6: eexists; split; [reflexivity|]; reflexivity.
    - eexists; split; [reflexivity|]. intros s w'. cbn. apply eff_bind_run.
    - destruct (go _ p w) as (g & Hg & Hr). rewrite eff_bind_run, Hg. cbn.
      eexists; split; [reflexivity|]. intros s w'. cbn beta. rewrite eff_bind_run, Hr. unfold after_ok.
      destruct (t_does p s w') as [[[[s1 a]|e]|] w1]; cbn; try reflexivity.
      rewrite !eff_bind_run. destruct (f a w1) as [[b|] w2]; reflexivity.
    - destruct (go _ p w) as (g & Hg & Hr). rewrite eff_bind_run, Hg. cbn.
      eexists; split; [reflexivity|]. intros s w'. cbn beta. rewrite eff_bind_run, Hr. unfold after_ok.
      destruct (t_does p s w') as [[[[s1 a]|e]|] w1]; cbn; try reflexivity.
      rewrite !eff_bind_run. destruct (f a w1) as [[q|] w2]; cbn; [|reflexivity].
      destruct (go _ q w2) as (h & Hh & Hq). rewrite Hh. cbn. apply Hq. }
  destruct (H _ p w0) as (f & Hf & Hr). exists (LEffect f). split; [exact Hf|exact Hr].
Qed.

(** ** ReaderT over Result: likewise, in both forms of the methods *)
Theorem C103_reader_t : forall W E Er A with_ (p : escript W E Er A) (e : E) (w : W),
  drt_run (e_build with_ p) e w = e_does p e w.
Proof.
  intros W E Er A with_. revert A. fix go 2.
  intros A p; destruct p as [A f|A a|A r|A f|A p f|A B p f|A B p f|A B C p q f|A B p q]; intros e w; cbn [e_build e_does].
  - reflexivity.
  - reflexivity.
  - reflexivity.
  - clear go; destruct with_; cbn; rewrite eff_bind_run; destruct (f e w) as [[a|] w1]; reflexivity.
  - cbn. rewrite eff_bind_run. destruct (f e w) as [[e'|] w1]; cbn; [apply go|reflexivity].
  - assert (H : eff_bind (drt_run (e_build with_ p) e) (fun m => res_map_eff m f) w =
                after_ok (e_does p e w) (fun a w1 => after (f a w1) (fun b w2 => (Ret (Ok b), w2)))).
    { rewrite eff_bind_run, go. unfold after_ok. destruct (e_does p e w) as [[[a|er]|] w1]; cbn; reflexivity. }
    clear go; destruct with_; exact H.
  - match goal with |- context [drt_bind_with _ ?k _] => set (kk := k) end.
    assert (H : eff_bind (drt_run (e_build with_ p) e)
                  (fun m => res_bind_eff m (fun a => eff_bind (kk a) (fun y => drt_run y e))) w =
                after_ok (e_does p e w) (fun a w1 =>
                  match f a w1 with (Ret q, w2) => e_does q e w2 | (Panic, w2) => (Panic, w2) end)).
    { rewrite eff_bind_run, go. unfold after_ok. destruct (e_does p e w) as [[[a|er]|] w1]; cbn; try reflexivity.
      rewrite eff_bind_run. unfold kk. destruct (f a w1) as [[q|] w2]; cbn; [apply go|reflexivity]. }
    clear go; destruct with_; exact H.
  - assert (H : eff_bind (drt_run (e_build with_ p) e)
                  (fun ma => eff_bind (drt_run (e_build with_ q) e) (fun mb => res_lift2_eff f ma mb)) w =
                after (e_does p e w) (fun ra w1 => after (e_does q e w1) (fun rb => both_ok ra rb f))).
    { rewrite eff_bind_run, go. destruct (e_does p e w) as [[ra|] w1]; cbn; [|reflexivity].
      rewrite eff_bind_run, go. destruct (e_does q e w1) as [[rb|] w2]; cbn; [|reflexivity].
      destruct ra, rb; cbn; reflexivity. }
    clear go; destruct with_; exact H.
  - assert (H : eff_bind (drt_run (e_build with_ p) e)
                  (fun ma => eff_bind (drt_run (e_build with_ q) e) (fun mb => res_lift2_eff (fun a f => f a) ma mb)) w =
                after (e_does p e w) (fun ra w1 => after (e_does q e w1) (fun rb => both_ok ra rb (fun a f => f a)))).
    { rewrite eff_bind_run, go. destruct (e_does p e w) as [[ra|] w1]; cbn; [|reflexivity].
      rewrite eff_bind_run, go. destruct (e_does q e w1) as [[rb|] w2]; cbn; [|reflexivity].
      destruct ra, rb; cbn; reflexivity. }
    clear go; destruct with_; exact H.
Qed.

(** ** The log of the calls *)
Lemma logs_after : forall A B L1 L2 w (m : outcome A * list nat) (k : A -> list nat -> outcome B * list nat),
  logs L1 w m -> (forall a w1, logs L2 w1 (k a w1)) -> logs (L1 ++ L2) w (after m k).
Proof.
  intros A B L1 L2 w [[a|] w1] k H1 H2; cbn in *.
  - subst w1. specialize (H2 a (w ++ L1)). destruct (k a (w ++ L1)) as [[b|] w2]; cbn in *.
    + subst. now rewrite app_assoc.
    + destruct H2 as (d & r & -> & Hd & ->). exists (L1 ++ d), r. rewrite !app_assoc. repeat split; auto.
      intro E. apply app_eq_nil in E. tauto.
  - destruct H1 as (d & r & -> & Hd & ->). exists d, (r ++ L2). rewrite app_assoc. auto.
Qed.
Lemma logs_labelled : forall A B n (f : A -> outcome B) a w, logs [n] w (labelled n f a w).
Proof.
  intros. unfold labelled. cbn. destruct (f a); [reflexivity|]. exists [n], []. repeat split. discriminate.
Qed.
Lemma logs_ret : forall A (a : A) w, logs [] w (Ret a, w).
Proof. intros; cbn. now rewrite app_nil_r. Qed.
Lemma logs_eq : forall A L L' w (r r' : outcome A * list nat), logs L w r -> L = L' -> r = r' -> logs L' w r'.
Proof. intros; subst; assumption. Qed.
Ltac by_log H := eapply logs_eq; [exact H| |]; [cbn; rewrite ?app_nil_r, ?app_assoc; reflexivity|].

(** Exactly once each, in order, whoever panics being the last. *)
Theorem C103_state_calls_in_order : forall S A (p : sline S A) (s : S) (w : list nat),
  logs (sline_labels p) w (ds_run (s_build (sline_script p)) s w).
Proof.
  intros S A p s w. rewrite C103_state. revert s w.
  induction p as [A n f|A a| |s0|n f|A B p IH n f|A B p IHp n q IHq|A B p IHp q IHq n]; intros s w;
    cbn [sline_labels sline_script s_does].
  - apply logs_labelled.
  - apply logs_ret.
  - apply logs_ret.
  - apply logs_ret.
  - eapply logs_eq; [eapply (logs_after _ (unit * S) [n] [] w (labelled n f s w) (fun s' w' => (Ret (tt, s'), w')));
      [apply logs_labelled|intros; apply logs_ret]|reflexivity|].
    destruct (labelled n f s w) as [[s'|] w']; reflexivity.
  - eapply logs_eq; [apply (logs_after _ (B * S) _ ([n] ++ []) _ _ (fun r w1 =>
      after (labelled n f (fst r) w1) (fun b w2 => (Ret (b, snd r), w2))) (IH s w)); intros [a s'] w1;
      apply logs_after; [apply logs_labelled|intros; apply logs_ret]|reflexivity|].
    destruct (s_does (sline_script p) s w) as [[[a s']|] w1]; [|reflexivity]. cbn. now destruct (f a).
  - eapply logs_eq; [apply (logs_after _ (B * S) _ ([n] ++ sline_labels q) _ _ (fun r w1 =>
      after (labelled n (fun _ => Ret (sline_script q)) (fst r) w1) (fun _ w2 => s_does (sline_script q) (snd r) w2)) (IHp s w));
      intros [a s'] w1; apply logs_after; [apply logs_labelled|intros; apply IHq]|reflexivity|].
    destruct (s_does (sline_script p) s w) as [[[a s']|] w1]; reflexivity.
  - eapply logs_eq; [apply (logs_after _ (B * S) _ (sline_labels q ++ ([n] ++ [])) _ _ (fun r w1 =>
      after (s_does (sline_script q) (snd r) w1) (fun r2 w2 =>
      after (labelled n (fst r) (fst r2) w2) (fun b w3 => (Ret (b, snd r2), w3)))) (IHp s w));
      intros [f s1] w1; apply logs_after; [apply IHq|]; intros [a s2] w2;
      apply logs_after; [apply logs_labelled|intros; apply logs_ret]|reflexivity|].
    destruct (s_does (sline_script p) s w) as [[[f s1]|] w1]; cbn; [|reflexivity].
    destruct (s_does (sline_script q) s1 w1) as [[[a s2]|] w2]; [|reflexivity]. cbn. now destruct (f a).
Qed.

Theorem C103_reader_calls_in_order : forall E A (p : rline E A) (e : E) (w : list nat),
  logs (rline_labels p) w (dr_run (r_build (rline_script p)) e w).
Proof.
  intros E A p e w. rewrite C103_reader. revert e w.
  induction p as [A n f|A B p IH n f|A B p IHp n q IHq|A n f p IH|A B C p IHp q IHq n f]; intros e w;
    cbn [rline_labels rline_script r_does].
  - apply logs_labelled.
  - apply logs_after; [apply IH|intros; apply logs_labelled].
  - eapply logs_eq; [apply (logs_after _ B _ ([n] ++ rline_labels q) _ _ (fun a w1 =>
      after (labelled n (fun _ => Ret (rline_script q)) a w1) (fun _ w2 => r_does (rline_script q) e w2)) (IHp e w));
      intros a w1; apply logs_after; [apply logs_labelled|intros; apply IHq]|reflexivity|].
    destruct (r_does (rline_script p) e w) as [[a|] w1]; reflexivity.
  - apply logs_after; [apply logs_labelled|intros; apply IH].
  - apply logs_after; [apply IHp|]. intros a w1. apply logs_after; [apply IHq|intros; apply logs_labelled].
Qed.

(** For Cont the last call is that of the continuation given to [run]. *)
Theorem C103_cont_calls_in_order : forall R A (p : kline A) n (k : A -> outcome R) (w : list nat),
  logs (kline_labels p ++ [n]) w (dc_run (k_build (kline_script p)) (labelled n k) w).
Proof.
  intros R A p n0 k0 w0. rewrite C103_cont.
  assert (H : forall A (p : kline A) w, exists o w', k_does (@kline_script R A p) w = (omap inl o, w') /\ logs (kline_labels p) w (o, w')).
  { clear. induction p as [A a|A B p IH n f|A B p IHp n q IHq|A B p IHp pf IHf n]; intros w;
      cbn [kline_labels kline_script k_does].
    - exists (Ret a), w. split; [reflexivity|apply logs_ret].
    - destruct (IH w) as (o & w1 & -> & H). destruct o as [a|].
      + exists (f a), (w1 ++ [n]). split; [cbn; unfold lift_act, labelled; now destruct (f a)|].
        apply (logs_after _ _ _ _ _ _ (fun a w => labelled n f a w) H). intros; apply logs_labelled.
      + exists Panic, w1. split; [reflexivity|].
        apply (logs_after _ _ _ _ _ _ (fun a w => labelled n f a w) H). intros; apply logs_labelled.
    - destruct (IHp w) as (o & w1 & -> & H). destruct o as [a|].
      + destruct (IHq (w1 ++ [n])) as (o & w2 & Hq & Hl). exists o, w2. cbn. split; [exact Hq|].
        cbn in H. subst w1. unfold logs in *. destruct o; [subst; rewrite <- !app_assoc; reflexivity|].
        destruct Hl as (d & r & -> & Hd & ->). exists (kline_labels p ++ n :: d), r. rewrite <- !app_assoc. cbn.
        repeat split; auto. intro E. apply app_eq_nil in E. destruct E; discriminate.
      + exists Panic, w1. split; [reflexivity|]. cbn in H |- *. destruct H as (d & r & -> & Hd & ->).
        exists d, (r ++ n :: kline_labels q). rewrite <- app_assoc. auto.
    - destruct (IHf w) as (of & w1 & -> & Hf). destruct of as [f|].
      + cbn. destruct (IHp w1) as (o & w2 & -> & H). destruct o as [a|].
        * exists (f a), (w2 ++ [n]). split; [cbn; unfold lift_act, labelled; now destruct (f a)|].
          cbn in Hf, H. subst. pose proof (logs_labelled _ _ n f a (((w ++ kline_labels pf) ++ kline_labels p))) as Hn.
          unfold labelled in Hn. unfold logs in *. destruct (f a); [now rewrite !app_assoc|].
          exists (kline_labels pf ++ kline_labels p ++ [n]), []. rewrite !app_assoc, app_nil_r. repeat split; auto.
          intro E. apply app_eq_nil in E. destruct E; discriminate.
        * exists Panic, w2. split; [reflexivity|]. cbn in Hf, H |- *. subst w1. destruct H as (d & r & -> & Hd & ->).
          exists (kline_labels pf ++ d), (r ++ [n]). rewrite <- !app_assoc. repeat split; auto.
          intro E. apply app_eq_nil in E. tauto.
      + exists Panic, w1. split; [reflexivity|]. cbn in Hf |- *. destruct Hf as (d & r & -> & Hd & ->).
        exists d, (r ++ kline_labels p ++ [n]). rewrite <- !app_assoc. auto. }
  destruct (H _ p w0) as (o & w1 & -> & Hl).
  pose proof (logs_after _ _ _ [n0] _ _ (fun a w => labelled n0 k0 a w) Hl (fun a w => logs_labelled _ _ n0 k0 a w)) as HH.
  destruct o; exact HH.
Qed.

(** ** Running again does everything again *)
Lemma logs_again : forall A L (m : list nat -> outcome A * list nat), (forall w, logs L w (m w)) ->
  forall n w, logs (concat (repeat L n)) w (again n m w).
Proof.
  intros A L m H. induction n as [|n IH]; intros w; [apply logs_ret|]. cbn [repeat concat again].
  apply logs_after; [apply H|]. intros a w1. eapply logs_eq; [eapply logs_after; [apply IH|intros; apply logs_ret]| |reflexivity].
  apply app_nil_r.
Qed.
Theorem C103_every_run_calls_again : forall S E R A (p : sline S A) (q : rline E A) (k : kline A) (rest : A -> outcome R)
    (s : S) (e : E) (last times : nat) (w : list nat),
  logs (concat (repeat (sline_labels p) times)) w (again times (ds_run (s_build (sline_script p)) s) w) /\
  logs (concat (repeat (rline_labels q) times)) w (again times (dr_run (r_build (rline_script q)) e) w) /\
  logs (concat (repeat (kline_labels k ++ [last]) times)) w
       (again times (dc_run (k_build (kline_script k)) (labelled last rest)) w).
Proof.
  intros. repeat split; apply logs_again; intros w'.
  - apply C103_state_calls_in_order.
  - apply C103_reader_calls_in_order.
  - apply C103_cont_calls_in_order.
Qed.

(** ** The monad laws, with closures that have effects *)
Theorem C103_monad_laws : forall W S E R A B C,
  (forall (a : A) (f : A -> eff W (dstate W S B)) s w,
     ds_run (ds_bind (ds_pure a) f) s w = after (f a w) (fun y => ds_run y s)) /\
  (forall (x : dstate W S A) s w, ds_run (ds_bind x (fun a => eff_ret (ds_pure a))) s w = ds_run x s w) /\
  (forall (x : dstate W S A) (f : A -> eff W (dstate W S B)) (g : B -> eff W (dstate W S C)) s w,
     ds_run (ds_bind (ds_bind x f) g) s w =
     ds_run (ds_bind x (fun a w1 => after (f a w1) (fun y w2 => (Ret (ds_bind y g), w2)))) s w) /\
  (forall (a : A) (f : A -> eff W (dreader W E B)) e w,
     dr_run (dr_bind (dr_new (fun _ => eff_ret a)) f) e w = after (f a w) (fun y => dr_run y e)) /\
  (forall (x : dreader W E A) e w, dr_run (dr_bind x (fun a => eff_ret (dr_new (fun _ => eff_ret a)))) e w = dr_run x e w) /\
  (forall (x : dreader W E A) (f : A -> eff W (dreader W E B)) (g : B -> eff W (dreader W E C)) e w,
     dr_run (dr_bind (dr_bind x f) g) e w =
     dr_run (dr_bind x (fun a w1 => after (f a w1) (fun y w2 => (Ret (dr_bind y g), w2)))) e w) /\
  (forall (a : A) (f : A -> eff W (dcont W R B)) k w,
     dc_run (dc_bind (dc_pure a) f) k w = after (f a w) (fun y => dc_run y k)).
Proof.
  intros W S E R A B C.
  assert (Hb : forall A B (x : dstate W S A) (f : A -> eff W (dstate W S B)) s w,
    ds_run (ds_bind x f) s w = after (ds_run x s w) (fun r w1 => after (f (fst r) w1) (fun y => ds_run y (snd r)))).
  { clear. intros. unfold ds_bind. rewrite ds_run_new, eff_bind_run. destruct (ds_run x s w) as [[[a s1]|] w1]; [|reflexivity].
    cbn. apply eff_bind_run. }
  assert (Hr : forall A B (x : dreader W E A) (f : A -> eff W (dreader W E B)) e w,
    dr_run (dr_bind x f) e w = after (dr_run x e w) (fun r w1 => after (f r w1) (fun y => dr_run y e))).
  { clear. intros. unfold dr_run at 1. rewrite eff_bind_run. cbn [dr_bind dr_inner drt_run]. rewrite eff_bind_run, drt_run_inner.
    destruct (dr_run x e w) as [[a|] w1]; [|reflexivity]. cbn. rewrite eff_bind_run.
    destruct (f a w1) as [[y|] w2]; cbn; [|reflexivity]. rewrite drt_run_inner. destruct (dr_run y e w2) as [[b|] w3]; reflexivity. }
  repeat split; intros.
  - rewrite Hb. reflexivity.
  - rewrite Hb. destruct (ds_run x s w) as [[[a s1]|] w1]; reflexivity.
  - rewrite !Hb. destruct (ds_run x s w) as [[[a s1]|] w1]; cbn; [|reflexivity].
    destruct (f a w1) as [[y|] w2]; cbn; [|reflexivity]. rewrite Hb. reflexivity.
  - rewrite Hr. reflexivity.
  - rewrite Hr. destruct (dr_run x e w) as [[a|] w1]; reflexivity.
  - rewrite !Hr. destruct (dr_run x e w) as [[a|] w1]; cbn; [|reflexivity].
    destruct (f a w1) as [[y|] w2]; cbn; [|reflexivity]. rewrite Hr. reflexivity.
  - unfold dc_run at 1. rewrite eff_bind_run. cbn. rewrite eff_bind_run, eff_bind_run.
    destruct (f a w) as [[y|] w1]; cbn; [|reflexivity]. unfold dc_run. now rewrite eff_bind_run.
Qed.

(** ** What building a StateT does *)
(** On values that hold a function of the state - which is what every public
    constructor but the variants themselves makes - building calls nothing, and a
    run calls the first side, the second, then the function of the base monad. *)
Theorem C103_state_t_functions_partial : forall W S M N K A B C (r1 : S -> eff W M) (r2 : S -> eff W N),
  let x := LEffect r1 : lz_stateT W S M A in
  let y := LEffect r2 : lz_stateT W S N B in
  (forall (f : A -> eff W C) map_fn w, exists z : lz_stateT W S K C, dt_fmap_with x f map_fn w = (Ret z, w) /\
     exists on, (forall s w1, dt_run z s w1 = after (r1 s w1) (fun m => map_fn m on)) /\
       (forall s1 a w', on (s1, a) w' = after (f a w') (fun c w'' => (Ret (s1, c), w'')))) /\
  (forall (f : A -> eff W (lz_stateT W S K C)) bind_fn w, exists z, dt_bind_with x f bind_fn w = (Ret z, w) /\
     exists on, (forall s w1, dt_run z s w1 = after (r1 s w1) (fun m => bind_fn m on)) /\
       (forall s1 a w', on (s1, a) w' = after (f a w') (fun next => dt_run next s1))) /\
  (forall (f : A -> B -> eff W C) combine_fn w, exists z : lz_stateT W S K C, dt_combine_with x y f combine_fn w = (Ret z, w) /\
     exists on, (forall s w1, dt_run z s w1 = after (r1 s w1) (fun m w2 => after (r2 s w2) (fun n => combine_fn m n on))) /\
       (forall s1 a s2 b w', on (s1, a) (s2, b) w' = after (f a b w') (fun c w'' => (Ret (s2, c), w'')))) /\
  (forall apply_fn w, exists z : lz_stateT W S K C, dt_apply x y apply_fn w = (Ret z, w) /\
     forall s w1, dt_run z s w1 = after (r1 s w1) (fun m w2 => after (r2 s w2) (apply_fn m))) /\
  (forall join_fn w, exists z : lz_stateT W S K A, dt_join x join_fn w = (Ret z, w) /\
     forall s w1, dt_run z s w1 = after (r1 s w1) join_fn) /\
  (forall D (extract : M -> eff W D) s w, dt_exec x s extract w = after (r1 s w) extract).
Proof.
  intros W S M N K A B C r1 r2 x y. repeat split.
  - intros f map_fn w. eexists; split; [reflexivity|].
    exists (fun '(state, a) => eff_bind (f a) (fun b => eff_ret (state, b))). split; intros; cbn; apply eff_bind_run.
  - intros f bind_fn w. eexists; split; [reflexivity|].
    exists (fun '(state, a) => eff_bind (f a) (fun next => dt_run next state)). split; intros; cbn; apply eff_bind_run.
  - intros f combine_fn w. eexists; split; [reflexivity|].
    exists (fun '(_, a) '(state, b) => eff_bind (f a b) (fun c => eff_ret (state, c))). split; intros; cbn; apply eff_bind_run.
  - intros apply_fn w. eexists; split; [reflexivity|]. intros; cbn. rewrite eff_bind_run.
    destruct (r1 s w1) as [[m|] w2]; cbn; [apply eff_bind_run|reflexivity].
  - intros join_fn w. eexists; split; [reflexivity|]. intros; cbn. apply eff_bind_run.
Qed.

(** On the other variants the closures are called while building, once, and
    never again by a run; a value and a lifted computation together cannot even
    be built. *)
Theorem C103_state_t_variants_call_early : forall W S M N K A B C (a : A) (b : B) (m : M) (n : N) (w : W),
  (forall (f : A -> eff W C) map_fn,
     dt_fmap_with (LPure a : lz_stateT W S M A) f map_fn w = after (f a w) (fun c w' => (Ret (LPure c : lz_stateT W S K C), w'))) /\
  (forall (f : A -> eff W C) map_fn, exists on,
     dt_fmap_with (LLiftM m : lz_stateT W S M A) f map_fn w =
       after (map_fn m on w) (fun k w' => (Ret (LLiftM k : lz_stateT W S K C), w')) /\
     (forall s1 a w', on (s1, a) w' = after (f a w') (fun c w'' => (Ret (s1, c), w'')))) /\
  (forall (f : A -> eff W (lz_stateT W S K C)) bind_fn,
     dt_bind_with (LPure a : lz_stateT W S M A) f bind_fn w = f a w) /\
  (forall (f : A -> B -> eff W C) combine_fn,
     dt_combine_with (LPure a : lz_stateT W S M A) (LPure b : lz_stateT W S N B) f combine_fn w =
       after (f a b w) (fun c w' => (Ret (LPure c : lz_stateT W S K C), w')) /\
     forall g : S -> eff W M, forall g' : S -> eff W N,
     dt_combine_with (LPure a : lz_stateT W S M A) (LLiftM n : lz_stateT W S N B) f combine_fn w =
       (Panic : outcome (lz_stateT W S K C), w) /\
     dt_combine_with (LLiftM m : lz_stateT W S M A) (LPure b : lz_stateT W S N B) f combine_fn w =
       (Panic : outcome (lz_stateT W S K C), w) /\
     dt_combine_with (LPure a : lz_stateT W S M A) (LEffect g' : lz_stateT W S N B) f combine_fn w =
       (Panic : outcome (lz_stateT W S K C), w) /\
     dt_combine_with (LEffect g : lz_stateT W S M A) (LPure b : lz_stateT W S N B) f combine_fn w =
       (Panic : outcome (lz_stateT W S K C), w) /\
     dt_combine_with (LLiftM m : lz_stateT W S M A) (LEffect g' : lz_stateT W S N B) f combine_fn w =
       (Panic : outcome (lz_stateT W S K C), w) /\
     dt_combine_with (LEffect g : lz_stateT W S M A) (LLiftM n : lz_stateT W S N B) f combine_fn w =
       (Panic : outcome (lz_stateT W S K C), w)) /\
  (forall (f : A -> B -> eff W C) combine_fn, exists on,
     dt_combine_with (LLiftM m : lz_stateT W S M A) (LLiftM n : lz_stateT W S N B) f combine_fn w =
       after (combine_fn m n on w) (fun k w' => (Ret (LLiftM k : lz_stateT W S K C), w')) /\
     (forall s1 a s2 b w', on (s1, a) (s2, b) w' = after (f a b w') (fun c w'' => (Ret (s1, c), w'')))) /\
  (forall apply_fn, dt_apply (LLiftM m : lz_stateT W S M A) (LLiftM n : lz_stateT W S N B) apply_fn w =
       after (apply_fn m n w) (fun k w' => (Ret (LLiftM k : lz_stateT W S K C), w'))) /\
  (forall join_fn, dt_join (LLiftM m : lz_stateT W S M A) join_fn w =
       after (join_fn m w) (fun k w' => (Ret (LLiftM k : lz_stateT W S K A), w'))) /\
  (forall (k : K) s, dt_run (LLiftM k : lz_stateT W S K C) s w = (Ret k, w)) /\
  (forall (c : C) s, dt_run (LPure c : lz_stateT W S K C) s w = (Panic, w)).
Proof.
  intros. repeat split; intros; try reflexivity; try (cbn; apply eff_bind_run).
  - exists (fun '(state, a) => eff_bind (f a) (fun b => eff_ret (state, b))). split; intros; cbn; apply eff_bind_run.
  - exists (fun '(s1, a) '(_, b) => eff_bind (f a b) (fun c => eff_ret (s1, c))). split; intros; cbn; apply eff_bind_run.
Qed.

(** What is left: a lifted computation can be bound, and sides of different
    variants applied, without a call; the runs go left to right. *)
Theorem C103_state_t_variants_wait : forall W S M N K A B C,
  (forall (m : M) (f : A -> eff W (lz_stateT W S K C)) bind_fn w, exists z,
     dt_bind_with (LLiftM m : lz_stateT W S M A) f bind_fn w = (Ret z, w) /\
     exists on, (forall s w1, dt_run z s w1 = bind_fn m on w1) /\
       (forall s1 a w', on (s1, a) w' = after (f a w') (fun next => dt_run next s1))) /\
  (forall (x : lz_stateT W S M A) (y : lz_stateT W S N B) apply_fn w,
     match x, y with LLiftM _, LLiftM _ => False | _, _ => True end ->
     exists z : lz_stateT W S K C, dt_apply x y apply_fn w = (Ret z, w) /\
       forall s w1, dt_run z s w1 = after (dt_run x s w1) (fun m w2 => after (dt_run y s w2) (apply_fn m))).
Proof.
  intros. split.
  - intros. eexists; split; [reflexivity|].
    exists (fun '(state, a) => eff_bind (f a) (fun next => dt_run next state)). split; intros; cbn; [reflexivity|apply eff_bind_run].
  - intros x y apply_fn w H. destruct x, y; try contradiction; cbn; (eexists; split; [reflexivity|]); intros s w1; cbn [dt_run dt_new];
      rewrite !eff_bind_run; cbn; try reflexivity;
      repeat match goal with |- context [after (?f ?s ?w) _] => destruct (f s w) as [[?|] ?]; cbn end; try reflexivity;
      rewrite ?eff_bind_run; reflexivity.
Qed.

(** So "building calls nothing" is false of StateT. *)
Theorem C103_building_is_silent_refuted : exists (x : lz_stateT (list nat) nat (result (nat * nat) nat) nat) (f : nat -> eff (list nat) nat),
  ~ (exists z, dt_fmap_with x f res_map_eff [] = (Ret z, [])) /\
  exists z, dt_fmap_with x f res_map_eff [] = (Ret z, [1]) /\ forall s w, dt_run z s w = (Ret (Ok (3, 5)), w).
Proof.
  exists (LLiftM (Ok (3, 4))), (labelled 1 (fun a => Ret (Nat.succ a))). split.
  - intros [z H]. discriminate H.
  - eexists; split; [reflexivity|]. intros; reflexivity.
Qed.

(** ** Between the types the order of an [apply] differs: State, StateT, Cont run
    the function's side first, ReaderT the value's. *)
Theorem C103_apply_order_refuted : exists (f : eff (list nat) (nat -> eff (list nat) nat)) (v : eff (list nat) nat),
  (let x := SNew (fun s => eff_bind f (fun x => eff_ret (x, s))) in
   let y := SNew (fun s => eff_bind v (fun x => eff_ret (x, s))) in
   snd (ds_run (s_build (SApply x y)) 0 []) = [1; 2; 3]) /\
  (let x := KBind (KPure tt) (fun _ w => match v w with (Ret x, w') => (Ret (KPure x), w') | (Panic, w') => (Panic, w') end) in
   let y := KBind (KPure tt) (fun _ w => match f w with (Ret x, w') => (Ret (KPure x), w') | (Panic, w') => (Panic, w') end) in
   snd (dc_run (k_build (KApply x y)) (fun n => eff_ret n) []) = [1; 2; 3]) /\
  (let x := ENew (fun _ => eff_bind v (fun x => eff_ret (Ok x))) in
   let y := ENew (fun _ => eff_bind f (fun x => eff_ret (Ok x))) in
   forall with_, snd (drt_run (e_build (E := unit) (Er := nat) with_ (EApply x y)) tt []) = [2; 1; 3]).
Proof.
  exists (fun w => (Ret (labelled 3 (fun n => Ret (n + 1))), w ++ [1])), (fun w => (Ret 10, w ++ [2])).
  split; [reflexivity|split; [reflexivity|]]. intros x y with_; destruct with_; reflexivity.
Qed.

(** ** The remaining constructors and conversions *)
Theorem C103_constructors_and_conversions : forall W S E R M N K A B C,
  (* asking the environment: one call per run *)
  (forall (f : E -> eff W A) e w, dr_run (dr_ask f) e w = f e w /\ dr_run (dr_asks f) e w = f e w) /\
  (forall (f : E -> eff W A) (t : A -> eff W (id_ A)) e w,
     dr_run (dr_ask_with f t) e w = after (f e w) (fun a w1 => after (t a w1) (fun i w2 => (Ret (id_value i), w2)))) /\
  (forall (pure : E -> eff W M) e w, drt_run (drt_ask pure) e w = pure e w) /\
  (forall (f : E -> eff W B) (pure : B -> eff W M) e w,
     drt_run (drt_asks f pure) e w = after (f e w) pure) /\
  (forall (select : E -> eff W B) (transform : B -> eff W C) (pure : C -> eff W M) e w,
     drt_run (drt_asks_with select transform pure) e w =
     after (select e w) (fun b w1 => after (transform b w1) pure)) /\
  (* lift2 does not run the reader it is called on *)
  (forall (self x : dreaderT W E M A) (y : dreaderT W E N B) (f : A -> B -> eff W C) combine_fn e w,
     drt_run (drt_lift2 self f combine_fn x y : dreaderT W E K C) e w =
     after (drt_run x e w) (fun m w1 => after (drt_run y e w1) (fun n => combine_fn m n f))) /\
  (* a lifted ContT calls no continuation *)
  (forall (m : M) (k : A -> eff W M) w, dct_run (dct_lift m) k w = (Ret m, w)) /\
  (* a Cont made from a function that has effects calls it once per run and hands it the continuation *)
  (forall (f : (A -> eff W R) -> eff W R) k w, (forall k1 k2 w, (forall a w, k1 a w = k2 a w) -> f k1 w = f k2 w) ->
     dc_run (dc_new f) k w = f k w) /\
  (* StateT over Id and State *)
  (forall (x : dstate W S A) s w,
     dt_run (dt_from_state x) s w = after (ds_run x s w) (fun r w' => (Ret (mkId (snd r, fst r)), w')) /\
     ds_run (dt_to_state (dt_from_state x)) s w = ds_run x s w) /\
  (forall (x : lz_stateT W S (id_ (S * A)) A) s w,
     ds_run (dt_to_state x) s w = after (dt_run x s w) (fun r w' => (Ret (snd (id_value r), fst (id_value r)), w')) /\
     dt_run (dt_from_state (dt_to_state x)) s w = dt_run x s w).
Proof.
  intros W S E R M N K A B C.
  assert (H1 : forall (x : dstate W S A) s w,
     dt_run (dt_from_state x) s w = after (ds_run x s w) (fun r w' => (Ret (mkId (snd r, fst r)), w'))).
  { intros. unfold dt_from_state. cbn. rewrite eff_bind_run. destruct (ds_run x s w) as [[[a s1]|] w1]; reflexivity. }
  assert (H2 : forall (x : lz_stateT W S (id_ (S * A)) A) s w,
     ds_run (dt_to_state x) s w = after (dt_run x s w) (fun r w' => (Ret (snd (id_value r), fst (id_value r)), w'))).
  { intros. unfold dt_to_state. rewrite ds_run_new, eff_bind_run. destruct (dt_run x s w) as [[[[s1 a]]|] w1]; reflexivity. }
  split; [|split; [|split; [|split; [|split; [|split; [|split; [|split; [|split]]]]]]]].
  - intros f e w. unfold dr_run; rewrite !eff_bind_run; cbn; rewrite !eff_bind_run. destruct (f e w) as [[a|] w1]; split; reflexivity.
  - intros f t e w. unfold dr_run; rewrite !eff_bind_run; cbn; rewrite !eff_bind_run. destruct (f e w) as [[a|] w1]; reflexivity.
  - reflexivity.
  - intros. cbn. apply eff_bind_run.
  - intros. cbn. rewrite eff_bind_run. destruct (select e w) as [[b|] w1]; cbn; [apply eff_bind_run|reflexivity].
  - intros. cbn. rewrite eff_bind_run. destruct (drt_run x e w) as [[m|] w1]; cbn; [apply eff_bind_run|reflexivity].
  - reflexivity.
  - intros f k w Hf. unfold dc_run. rewrite eff_bind_run. cbn. rewrite eff_bind_run.
    rewrite (Hf _ k). { destruct (f k w) as [[r|] w1]; reflexivity. }
    intros a w'. rewrite !eff_bind_run. destruct (k a w') as [[r|] w1]; reflexivity.
  - intros x s w. split; [apply H1|]. rewrite H2, H1. destruct (ds_run x s w) as [[[a s1]|] w1]; reflexivity.
  - intros x s w. split; [apply H2|]. rewrite H1, H2. destruct (dt_run x s w) as [[[[s1 a]]|] w1]; reflexivity.
Qed.

(** ** Optics, with a getter [g], a setter [t], a modifier [n] that write down their calls *)
Definition logging_lens {S A} (g t : nat) (get : S -> outcome A) (set : S -> A -> outcome S) : dlens (list nat) S A :=
  mkDlens (labelled g get) (fun s => labelled t (set s)).
Definition logging_prism {S A} (g t : nat) (preview : S -> outcome (option A)) (review : A -> outcome S) : dprism (list nat) S A :=
  mkDprism (labelled g preview) (labelled t review).

Theorem C103_lens_calls : forall S A (eqb : A -> A -> bool) g t n get set (f : A -> outcome A) (s : S) (v : A) w,
  let l := logging_lens g t get set in
  dl_set eqb l s v w =
    match get s with
    | Panic => (Panic, w ++ [g])
    | Ret a => if eqb a v then (Ret s, w ++ [g]) else (set s v, w ++ [g; t])
    end /\
  dl_modify eqb l s (labelled n f) w =
    match get s with
    | Panic => (Panic, w ++ [g])
    | Ret a => match f a with
               | Panic => (Panic, w ++ [g; n])
               | Ret v => if eqb a v then (Ret s, w ++ [g; n; g]) else (set s v, w ++ [g; n; g; t])
               end
    end /\
  dl_modify_always l s (labelled n f) w =
    match get s with
    | Panic => (Panic, w ++ [g])
    | Ret a => match f a with
               | Panic => (Panic, w ++ [g; n])
               | Ret v => (set s v, w ++ [g; n; t])
               end
    end.
Proof.
  intros. subst l. unfold dl_modify, dl_modify_always, dl_set, logging_lens, labelled; repeat split; rewrite !eff_bind_run; cbn.
  - destruct (get s) as [a|]; cbn; [|reflexivity]. destruct (eqb a v); [reflexivity|]. now rewrite <- app_assoc.
  - destruct (get s) as [a|] eqn:Hg; cbn; [|reflexivity]. rewrite eff_bind_run. destruct (f a) as [v'|]; cbn; rewrite <- app_assoc; [|reflexivity].
    rewrite eff_bind_run; cbn. destruct (eqb a v'); now rewrite <- !app_assoc.
  - destruct (get s) as [a|]; cbn; [|reflexivity]. rewrite eff_bind_run. destruct (f a) as [v'|]; cbn; now rewrite <- !app_assoc.
Qed.

Theorem C103_prism_calls : forall S A (eqb : A -> A -> bool) g t n preview review (f : A -> outcome A) (s : S) (v : A) w,
  let p := logging_prism g t preview review in
  dp_modify eqb p s (labelled n f) w =
    match preview s with
    | Panic => (Panic, w ++ [g])
    | Ret None => (Ret s, w ++ [g])
    | Ret (Some a) => match f a with
                      | Panic => (Panic, w ++ [g; n])
                      | Ret v => if eqb v a then (Ret s, w ++ [g; n]) else (review v, w ++ [g; n; t])
                      end
    end /\
  dp_set_if_different eqb p s v w =
    match preview s with
    | Panic => (Panic, w ++ [g])
    | Ret None => (review v, w ++ [g; t])
    | Ret (Some a) => if eqb v a then (Ret s, w ++ [g]) else (review v, w ++ [g; t])
    end.
Proof.
  intros. subst p. unfold dp_modify, dp_set_if_different, logging_prism, labelled; split; rewrite !eff_bind_run; cbn.
  - destruct (preview s) as [[a|]|]; cbn; try reflexivity. rewrite eff_bind_run.
    destruct (f a) as [v'|]; cbn; [|now rewrite <- app_assoc]. destruct (eqb v' a); now rewrite <- !app_assoc.
  - destruct (preview s) as [[a|]|]; cbn; try reflexivity; [destruct (eqb v a); [reflexivity|]|]; now rewrite <- app_assoc.
Qed.

(** A lens mapped by [fmap] calls the lens's closure next to its own. *)
Theorem C103_lens_fmap_calls : forall S A B g t nf ng get set (f : A -> outcome B) (b : B -> outcome A) (s : S) (v : B) w,
  let l := dl_fmap (logging_lens g t get set) (labelled nf f) (labelled ng b) in
  dl_get l s w = match get s with Panic => (Panic, w ++ [g]) | Ret a => (f a, w ++ [g; nf]) end /\
  dl_set_always l s v w = match b v with Panic => (Panic, w ++ [ng]) | Ret a => (set s a, w ++ [ng; t]) end.
Proof.
  intros. unfold l, dl_fmap, logging_lens, labelled; split; cbn; rewrite !eff_bind_run.
  - destruct (get s); cbn; [now rewrite <- app_assoc|reflexivity].
  - destruct (b v); cbn; [now rewrite <- app_assoc|reflexivity].
Qed.

(** With a preview that has effects, modifying by the identity still gives back
    the source; with a getter that has effects it need not: [modify] asks it twice. *)
Theorem C103_prism_modify_identity : forall W S A (eqb : A -> A -> bool) (p : dprism W S A) s w,
  (forall a, eqb a a = true) ->
  dp_modify eqb p s (fun a => eff_ret a) w = after (dp_preview p s w) (fun _ w' => (Ret s, w')).
Proof.
  intros W S A eqb p s w H. unfold dp_modify. rewrite eff_bind_run.
  destruct (dp_preview p s w) as [[[a|]|] w1]; cbn; try reflexivity. rewrite eff_bind_run. cbn. now rewrite H.
Qed.
Theorem C103_lens_getter_once_refuted : exists (l : dlens nat nat nat) (s : nat),
  (forall s w, snd (dl_get l s w) = S w) /\ (forall s v w, dl_set_always l s v w = (Ret v, w)) /\
  dl_modify Nat.eqb l s (fun a => eff_ret a) 0 = (Ret 0, 2) /\ s <> 0.
Proof.
  exists (mkDlens (fun s w => (Ret w, S w)) (fun _ v => eff_ret v)), 7. repeat split. discriminate.
Qed.

(** ** With closures that are plain functions, this is the model of the other claims *)
Theorem C103_pure_state : forall W S A B,
  let same {A} (x : dstate W S A) (y : state S A) := forall s w, ds_run x s w = (st_run y s, w) in
  (forall f : S -> outcome (A * S), same (ds_new (fun s w => (f s, w))) (st_new f)) /\
  same ds_get st_get /\ (forall s, same (ds_put s) (st_put s)) /\
  (forall f, same (ds_modify (fun s => eff_ret (f s))) (st_modify f)) /\
  (forall a : A, same (ds_pure a) (st_pure a)) /\
  (forall (f : A -> B) x y, same x y -> same (ds_fmap x (fun a => eff_ret (f a))) (st_fmap f y)) /\
  (forall f g (x : dstate W S A) y, same x y -> (forall a : A, same (f a) (g a)) ->
     same (ds_bind x (fun a => eff_ret (f a)) : dstate W S B) (st_bind y g)) /\
  (forall (x : dstate W S (A -> eff W B)) y v v',
     (forall s w, exists r, st_run y s = r /\ match r with
        | Ret (f, s') => exists f', ds_run x s w = (Ret (f', s'), w) /\ forall a w, f' a w = (Ret (f a), w)
        | Panic => ds_run x s w = (Panic, w) end) -> same v v' ->
     same (ds_apply x v) (st_apply y v')).
Proof.
  intros W S A B same. unfold same. repeat split; intros.
  - rewrite ds_run_new. unfold st_run, st_new. cbn. now destruct (f s).
  - unfold ds_fmap. rewrite ds_run_new, eff_bind_run, H. unfold st_run at 2, st_fmap, st_new. cbn.
    destruct (st_run y s) as [[a s1]|]; reflexivity.
  - unfold ds_bind. rewrite ds_run_new, eff_bind_run, H. unfold st_run at 2, st_bind, st_new. cbn.
    destruct (st_run y s) as [[a s1]|]; cbn; [|reflexivity]. rewrite eff_bind_run. cbn. rewrite H0.
    now destruct (st_run (g a) s1).
  - unfold ds_apply. rewrite ds_run_new, eff_bind_run. unfold st_run at 1, st_apply, st_new. cbn.
    destruct (H s w) as (r & Hr & Hm). rewrite Hr. destruct r as [[f s1]|].
    + destruct Hm as (f' & -> & Hf). cbn. rewrite eff_bind_run, H0. destruct (st_run v' s1) as [[a s2]|]; cbn; [|reflexivity].
      rewrite eff_bind_run, Hf. reflexivity.
    + now rewrite Hm.
Qed.
Theorem C103_pure_reader : forall W E A B C,
  let same {A} (x : dreader W E A) (y : reader E A) := forall e w, dr_run x e w = (Ret (rd_run y e), w) in
  (forall f : E -> A, same (dr_new (fun e => eff_ret (f e))) (rd_new f)) /\
  (forall (f : A -> B) x y, same x y -> same (dr_fmap x (fun a => eff_ret (f a))) (rd_fmap f y)) /\
  (forall f g (x : dreader W E A) y, same x y -> (forall a : A, same (f a) (g a)) ->
     same (dr_bind x (fun a => eff_ret (f a)) : dreader W E B) (rd_bind y g)) /\
  (forall f (x : dreader W E A) y, same x y -> same (dr_local x (fun e => eff_ret (f e))) (rd_local y f)) /\
  (forall (f : A -> B -> C) x y x' y', same x y -> same x' y' ->
     same (dr_combine x x' (fun a b => eff_ret (f a b))) (rd_combine y y' f)).
Proof.
  intros W E A B C same. unfold same.
  assert (Hi : forall A (x : dreader W E A) y e w, dr_run x e w = (Ret (rd_run y e), w) ->
             drt_run (dr_inner x) e w = (Ret (mkId (rd_run y e)), w)).
  { clear. intros A x y e w H. rewrite drt_run_inner, H. reflexivity. }
  repeat split; intros; unfold dr_run; rewrite eff_bind_run; cbn; rewrite ?eff_bind_run; cbn.
  - now rewrite (Hi _ _ _ _ _ (H e w)).
  - rewrite (Hi _ _ _ _ _ (H e w)). cbn. rewrite eff_bind_run. cbn. now rewrite (Hi _ _ _ _ _ (H0 (rd_run y e) e w)).
  - now rewrite (Hi _ _ _ _ _ (H (f e) w)).
  - rewrite (Hi _ _ _ _ _ (H e w)). cbn. rewrite eff_bind_run. now rewrite (Hi _ _ _ _ _ (H0 e w)).
Qed.
Theorem C103_pure_optics : forall W S A (eqb : A -> A -> bool) get set preview review (f : A -> A) (s : S) (v : A) (w : W),
  let l := mkDlens (fun s => eff_ret (get s)) (fun s a => eff_ret (set s a)) in
  let p := mkDprism (fun s => eff_ret (preview s)) (fun a => eff_ret (review a)) in
  dl_set eqb l s v w = (Ret (ln_set eqb (mkLens get set) s v), w) /\
  dl_modify eqb l s (fun a => eff_ret (f a)) w = (Ret (ln_modify eqb (mkLens get set) s f), w) /\
  dl_modify_always l s (fun a => eff_ret (f a)) w = (Ret (ln_modify_always (mkLens get set) s f), w) /\
  dp_modify eqb p s (fun a => eff_ret (f a)) w = (Ret (pr_modify eqb (mkPrism preview review) s f), w) /\
  dp_set_if_different eqb p s v w = (Ret (pr_set_if_different eqb (mkPrism preview review) s v), w).
Proof.
  intros. unfold dl_set, dl_modify, dl_modify_always, dp_modify, dp_set_if_different.
  unfold ln_modify, ln_set, ln_modify_always, pr_modify, pr_set_if_different. cbn. repeat split; rewrite eff_bind_run; cbn.
  - now destruct (eqb (get s) v).
  - rewrite eff_bind_run; cbn. unfold dl_set. rewrite eff_bind_run; cbn. now destruct (eqb (get s) (f (get s))).
  - destruct (preview s) as [a|]; [|reflexivity]. rewrite eff_bind_run; cbn. now destruct (eqb (f a) a).
  - destruct (preview s) as [a|]; [|reflexivity]. now destruct (eqb v a).
Qed.

(** ** Cases *)
(** modify (closure 1), then a continuation (2), then a mapped [get] (3), applied
    to a function computed by closure 4; closure 5 is the function *)
Definition case_line : sline nat nat :=
  LsApply _ _ _ (LsFmap _ _ _ (LsThen _ _ _ (LsModify _ 1 (fun s => Ret (s + 1))) 2 (LsGet _)) 4 (fun s => Ret (fun n => if n =? 0 then Panic else Ret (s * n))))
                (LsFmap _ _ _ (LsGet _) 3 (fun s => Ret (s - 6))) 5.
Example C103_case_state :
  sline_labels case_line = [1; 2; 4; 3; 5] /\
  ds_run (s_build (sline_script case_line)) 6 [] = (Ret (7, 7), [1; 2; 4; 3; 5]) /\
  ds_run (s_build (sline_script case_line)) 5 [9] = (Panic, [9; 1; 2; 4; 3; 5]).
Proof. repeat split. Qed.
Example C103_case_state_panics_in_the_middle :
  ds_run (s_build (sline_script (LsFmap _ _ _ (LsThen _ _ _ (LsNew _ nat 1 (fun s : nat => if s <? 3 then Panic else Ret (s, s))) 2 (LsGet _)) 3 Ret))) 1 []
    = (Panic, [1]) /\
  ds_run (s_build (sline_script (LsFmap _ _ _ (LsThen _ _ _ (LsNew _ nat 1 (fun s : nat => if s <? 3 then Panic else Ret (s, s))) 2 (LsGet _)) 3 Ret))) 4 []
    = (Ret (4, 4), [1; 2; 3]).
Proof. repeat split. Qed.
Example C103_case_reader :
  again 2 (dr_run (r_build (rline_script
    (LrCombine _ _ _ _ (LrLocal _ _ 1 (fun e => Ret (e + 1)) (LrNew _ nat 2 Ret)) (LrNew _ nat 3 Ret) 4 (fun a b => Ret (a * b))))) 5) []
  = (Ret [30; 30], [1; 2; 3; 4; 1; 2; 3; 4]).
Proof. reflexivity. Qed.
Example C103_case_cont :
  dc_run (k_build (kline_script (R := nat) (LkApply _ _ (LkFmap _ _ (LkPure _ 3) 1 (fun n => Ret (n + 1)))
                                   (LkFmap _ _ (LkPure _ 10) 2 (fun n => Ret (fun m => Ret (n * m)))) 3))) (labelled 4 Ret) []
  = (Ret 40, [2; 1; 3; 4]) /\
  dc_run (k_build (KFmap (KBind (KPure 3) (fun n w => (Ret (KAbort (fun w => (Ret (n + 100), w ++ [2]))), w ++ [1])))
                         (labelled 3 (fun n : nat => Ret n)))) (labelled 4 Ret) []
  = (Ret 103, [1; 2]).
Proof. split; reflexivity. Qed.
Example C103_case_call_cc :
  dc_run (dc_call_cc (dc_pure 0) (fun exit w => (Ret (dc_bind (dc_pure 5) (fun n w =>
     match exit n w with (Ret y, w') => (Ret (dc_fmap y (labelled 2 (fun m => Ret (m + 1)))), w') | (Panic, w') => (Panic, w') end)), w ++ [1])))
    (labelled 3 (fun n => Ret (n * 2))) [] = (Ret 10, [1; 3]).
Proof. reflexivity. Qed.
Example C103_case_state_t :
  let p := TFmap (TBind (TModify (labelled 1 (fun s => Ret (s + 1)))) (fun _ w => (Ret (TNew (labelled 3 (fun s =>
             Ret (if s <? 5 then Err 77 else Ok (s, s * 2))))), w ++ [2]))) (labelled 4 (fun n => Ret (n + 1))) in
  match t_build p [] with
  | (Ret x, w) => w = [] /\ dt_run x 3 [] = (Ret (Err 77), [1; 2; 3]) /\ dt_run x 4 [] = (Ret (Ok (5, 11)), [1; 2; 3; 4])
  | (Panic, _) => False
  end.
Proof. repeat split. Qed.
Example C103_case_reader_t : forall with_,
  let p := ECombine (EAsks (labelled 1 (fun e => Ret (e + 1)))) (ENew (labelled 2 (fun e => Ret (if e <? 3 then Err 9 else Ok e))))
             (fun a => labelled 3 (fun b => Ret (a * b))) in
  drt_run (e_build with_ p) 2 [] = (Ret (Err 9), [1; 2]) /\ drt_run (e_build with_ p) 3 [] = (Ret (Ok 12), [1; 2; 3]).
Proof. intros []; split; reflexivity. Qed.
Example C103_case_optics :
  let l := logging_lens 1 2 (fun p : nat * nat => Ret (fst p)) (fun p a => Ret (a, snd p)) in
  let p := logging_prism 1 2 (fun o : option nat => Ret o) (fun a => Ret (Some a)) in
  dl_modify Nat.eqb l (3, 4) (labelled 5 (fun a => Ret (a + 1))) [] = (Ret (4, 4), [1; 5; 1; 2]) /\
  dl_modify Nat.eqb l (3, 4) (labelled 5 Ret) [] = (Ret (3, 4), [1; 5; 1]) /\
  dp_modify Nat.eqb p (Some 3) (labelled 5 (fun a => Ret (a + 1))) [] = (Ret (Some 4), [1; 5; 2]) /\
  dp_modify Nat.eqb p None (labelled 5 (fun a => Ret (a + 1))) [] = (Ret None, [1]).
Proof. repeat split. Qed.
(** an [apply] of a pure function stored in a State meets the last part of [C103_pure_state] *)
Example C103_case_pure : forall s w,
  ds_run (ds_apply (ds_pure (fun n => eff_ret (n + 1))) (ds_get : dstate unit nat nat)) s w =
  (st_run (st_apply (st_pure (fun n => n + 1)) st_get) s, w).
Proof.
  pose proof (C103_pure_state unit nat nat nat) as H. cbv zeta in H.
  destruct H as (_ & Hg & _ & _ & _ & _ & _ & Ha). apply Ha; [|exact Hg].
  intros s w. exists (Ret (fun n => n + 1, s)). split; [reflexivity|]. exists (fun n => eff_ret (n + 1)). split; reflexivity.
Qed.

Print Assumptions C103_state.
Print Assumptions C103_state_eval_exec.
Print Assumptions C103_reader.
Print Assumptions C103_cont.
Print Assumptions C103_call_cc.
Print Assumptions C103_state_t.
Print Assumptions C103_reader_t.
Print Assumptions C103_state_calls_in_order.
Print Assumptions C103_reader_calls_in_order.
Print Assumptions C103_cont_calls_in_order.
Print Assumptions C103_every_run_calls_again.
Print Assumptions C103_monad_laws.
Print Assumptions C103_state_t_functions_partial.
Print Assumptions C103_state_t_variants_call_early.
Print Assumptions C103_state_t_variants_wait.
Print Assumptions C103_building_is_silent_refuted.
Print Assumptions C103_apply_order_refuted.
Print Assumptions C103_constructors_and_conversions.
Print Assumptions C103_lens_calls.
Print Assumptions C103_prism_calls.
Print Assumptions C103_lens_fmap_calls.
Print Assumptions C103_prism_modify_identity.
Print Assumptions C103_lens_getter_once_refuted.
Print Assumptions C103_pure_state.
Print Assumptions C103_pure_reader.
Print Assumptions C103_pure_optics.

(** Which operations call [Clone::clone], on what and when: the functions again,
    with the clones as calls that may have effects (the state [W]), panic or answer
    another value.  A function takes the [clone] of every type for which its
    signature asks [Clone] (without the bound no generic code can copy a value).
    Closures may have effects as well.  A derived [clone] of a container clones what
    it holds, front to back (for [Copy] elements the library may copy bytes instead
    of calling [clone]; such elements are left out).  [Into] is the identity.
    Definitions only. *)
From Coq Require Import List Arith Bool.
From Verif Require Import Base Types SumModel ValidatedModel ChoiceModel WrapModel EffModel CallModel SemiModel.
Import ListNotations.
Open Scope list_scope.

Section Clone.
Context {W : Type}.
Notation eff := (eff W).
Local Notation "x <- m ;; k" := (eff_bind m (fun x => k)) (at level 61, m at next level, right associativity).
(** The type of [Clone::clone] *)
Notation clone A := (A -> eff A).

(** ** Derived [clone]: maybe.rs 233, either.rs 262, core.rs 137, id.rs 246, choice.rs 196, and the standard
    [Option], [Result], [Vec], [SmallVec] *)
Definition clone_maybe {A} (ca : clone A) (m : maybe A) : eff (maybe A) :=
  match m with Just a => a' <- ca a;; eff_ret (Just a') | Nothing => eff_ret Nothing end.
Definition clone_option {A} (ca : clone A) (o : option A) : eff (option A) :=
  match o with Some a => a' <- ca a;; eff_ret (Some a') | None => eff_ret None end.
Definition clone_result {A E} (ca : clone A) (ce : clone E) (r : result A E) : eff (result A E) :=
  match r with Ok a => a' <- ca a;; eff_ret (Ok a') | Err e => e' <- ce e;; eff_ret (Err e') end.
Definition clone_either {L R} (cl : clone L) (cr : clone R) (e : either L R) : eff (either L R) :=
  match e with Left l => l' <- cl l;; eff_ret (Left l') | Right r => r' <- cr r;; eff_ret (Right r') end.
Definition clone_vec {A} (ca : clone A) (l : list A) : eff (list A) := map_collect ca l.
Definition clone_validated {E A} (ce : clone E) (ca : clone A) (v : validated E A) : eff (validated E A) :=
  match v with Valid a => a' <- ca a;; eff_ret (Valid a') | Invalid es => es' <- clone_vec ce es;; eff_ret (Invalid es') end.
Definition clone_choice {A} (ca : clone A) (c : choice A) : eff (choice A) := l <- clone_vec ca (values c);; eff_ret (mkChoice l).

(** ** By value *)
(** maybe.rs 906-916 [apply_owned], 932-944 [lift2_owned], 947-962 [lift3_owned], 1204-1212 [mplus_owned] *)
Definition mb_apply_owned_c {A B} (ca : clone A) (cb : clone B) (mf : maybe (A -> eff B)) (value : maybe A) : eff (maybe B) :=
  match mf, value with Just f, Just x => b <- f x;; eff_ret (Just b) | _, _ => eff_ret Nothing end.
Definition mb_lift2_owned_c {A B C} (ca : clone A) (cb : clone B) (cc : clone C) (f : A -> B -> eff C)
    (fa : maybe A) (fb : maybe B) : eff (maybe C) :=
  match fa, fb with Just a, Just b => c <- f a b;; eff_ret (Just c) | _, _ => eff_ret Nothing end.
Definition mb_lift3_owned_c {A B C D} (ca : clone A) (cb : clone B) (cc : clone C) (cd : clone D) (f : A -> B -> C -> eff D)
    (fa : maybe A) (fb : maybe B) (fc : maybe C) : eff (maybe D) :=
  match fa, fb, fc with Just a, Just b, Just c => d <- f a b c;; eff_ret (Just d) | _, _, _ => eff_ret Nothing end.
Definition mb_mplus_owned_c {A} (ca : clone A) (self other : maybe A) : eff (maybe A) :=
  match self with Just _ => eff_ret self | Nothing => eff_ret other end.
(** applicative.rs 737-747, 750-762, 765-780 [Option]'s; monad.rs 334-340 [bind_owned], 343-349 [join_owned];
    monad_error.rs 332-342 [catch_owned], 362-372 [map_error_to_owned]; monad_plus.rs 138-143 [mplus_owned];
    semigroup.rs 468-475 [combine_owned] ([comb] is the element's [combine_owned]) *)
Definition op_apply_owned_c {A B} (ca : clone A) (cb : clone B) (of : option (A -> eff B)) (value : option A) : eff (option B) :=
  match of, value with Some f, Some a => b <- f a;; eff_ret (Some b) | _, _ => eff_ret None end.
Definition op_lift2_owned_c {A B C} (ca : clone A) (cb : clone B) (cc : clone C) (f : A -> B -> eff C)
    (fa : option A) (fb : option B) : eff (option C) :=
  match fa, fb with Some a, Some b => c <- f a b;; eff_ret (Some c) | _, _ => eff_ret None end.
Definition op_lift3_owned_c {A B C D} (ca : clone A) (cb : clone B) (cc : clone C) (cd : clone D) (f : A -> B -> C -> eff D)
    (fa : option A) (fb : option B) (fc : option C) : eff (option D) :=
  match fa, fb, fc with Some a, Some b, Some c => d <- f a b c;; eff_ret (Some d) | _, _, _ => eff_ret None end.
Definition op_bind_owned_c {A B} (ca : clone A) (o : option A) (f : A -> eff (option B)) : eff (option B) :=
  match o with Some x => f x | None => eff_ret None end.
Definition op_join_owned_c {A} (ca : clone A) (o : option (option A)) : eff (option A) :=
  match o with Some x => eff_ret x | None => eff_ret None end.
Definition op_catch_owned_c {A} (ca : clone A) (o : option A) (f : unit -> eff (option A)) : eff (option A) :=
  match o with Some value => eff_ret (Some value) | None => f tt end.
Definition op_map_error_to_owned_c {A N} (ca : clone A) (o : option A) (f : unit -> eff N) : eff (result A N) :=
  match o with Some value => eff_ret (Ok value) | None => n <- f tt;; eff_ret (Err n) end.
Definition op_mplus_owned_c {A} (ca : clone A) (self other : option A) : eff (option A) :=
  match self with Some _ => eff_ret self | None => eff_ret other end.
Definition op_combine_owned_c {A} (ca : clone A) (comb : A -> A -> eff A) (self other : option A) : eff (option A) :=
  match self, other with
  | Some a, Some b => c <- comb a b;; eff_ret (Some c)
  | Some a, None => eff_ret (Some a)
  | None, Some b => eff_ret (Some b)
  | None, None => eff_ret None
  end.
(** functor.rs 626-635 [Result::fmap_owned] *)
Definition re_fmap_owned_c {A B E} (ce : clone E) (r : result A E) (f : A -> eff B) : eff (result B E) :=
  match r with Ok value => b <- f value;; eff_ret (Ok b) | Err e => e' <- ce e;; eff_ret (Err e') end.
(** applicative.rs 835-846, 849-862, 865-882; monad.rs 378-384, 387-393; monad_error.rs 267-277, 298-308;
    monad_plus.rs 159-164 [Result] *)
Definition re_apply_owned_c {A B E} (ca : clone A) (cb : clone B) (ce : clone E) (rf : result (A -> eff B) E) (value : result A E)
  : eff (result B E) :=
  match rf, value with
  | Ok f, Ok a => b <- f a;; eff_ret (Ok b)
  | Err e, _ => eff_ret (Err e)
  | _, Err e => eff_ret (Err e)
  end.
Definition re_lift2_owned_c {A B C E} (ca : clone A) (cb : clone B) (cc : clone C) (ce : clone E) (f : A -> B -> eff C)
    (fa : result A E) (fb : result B E) : eff (result C E) :=
  match fa, fb with
  | Ok a, Ok b => c <- f a b;; eff_ret (Ok c)
  | Err e, _ => eff_ret (Err e)
  | _, Err e => eff_ret (Err e)
  end.
Definition re_lift3_owned_c {A B C D E} (ca : clone A) (cb : clone B) (cc : clone C) (cd : clone D) (ce : clone E)
    (f : A -> B -> C -> eff D) (fa : result A E) (fb : result B E) (fc : result C E) : eff (result D E) :=
  match fa, fb, fc with
  | Ok a, Ok b, Ok c => d <- f a b c;; eff_ret (Ok d)
  | Err e, _, _ => eff_ret (Err e)
  | _, Err e, _ => eff_ret (Err e)
  | _, _, Err e => eff_ret (Err e)
  end.
Definition re_bind_owned_c {A B E} (ca : clone A) (ce : clone E) (r : result A E) (f : A -> eff (result B E)) : eff (result B E) :=
  match r with Ok x => f x | Err e => eff_ret (Err e) end.
Definition re_join_owned_c {A E} (ca : clone A) (ce : clone E) (r : result (result A E) E) : eff (result A E) :=
  match r with Ok x => eff_ret x | Err e => eff_ret (Err e) end.
Definition re_catch_owned_c {A E} (ca : clone A) (ce : clone E) (r : result A E) (f : E -> eff (result A E)) : eff (result A E) :=
  match r with Ok value => eff_ret (Ok value) | Err error => f error end.
Definition re_map_error_to_owned_c {A E N} (ca : clone A) (r : result A E) (f : E -> eff N) : eff (result A N) :=
  match r with Ok value => eff_ret (Ok value) | Err error => n <- f error;; eff_ret (Err n) end.
Definition re_mplus_owned_c {A E} (ca : clone A) (ce : clone E) (self other : result A E) : eff (result A E) :=
  match self with Ok _ => eff_ret self | Err _ => eff_ret other end.
(** either.rs 821-829 [fmap_owned]; 885-896, 898-911, 913-930; 957-966, 969-978; 1143-1152 *)
Definition ei_fmap_owned_c {L A B} (cl : clone L) (ca : clone A) (e : either L A) (f : A -> eff B) : eff (either L B) :=
  match e with Left l => eff_ret (Left l) | Right r => b <- f r;; eff_ret (Right b) end.
Definition ei_apply_owned_c {L A B} (cl : clone L) (ca : clone A) (cb : clone B) (ef : either L (A -> eff B)) (value : either L A)
  : eff (either L B) :=
  match ef, value with
  | Right f, Right x => b <- f x;; eff_ret (Right b)
  | Left l, _ => eff_ret (Left l)
  | _, Left l => eff_ret (Left l)
  end.
Definition ei_lift2_owned_c {L A B C} (cl : clone L) (ca : clone A) (cb : clone B) (cc : clone C) (f : A -> B -> eff C)
    (fa : either L A) (fb : either L B) : eff (either L C) :=
  match fa, fb with
  | Right x, Right y => c <- f x y;; eff_ret (Right c)
  | Left l, _ => eff_ret (Left l)
  | _, Left l => eff_ret (Left l)
  end.
Definition ei_lift3_owned_c {L A B C D} (cl : clone L) (ca : clone A) (cb : clone B) (cc : clone C) (cd : clone D)
    (f : A -> B -> C -> eff D) (fa : either L A) (fb : either L B) (fc : either L C) : eff (either L D) :=
  match fa, fb, fc with
  | Right x, Right y, Right z => d <- f x y z;; eff_ret (Right d)
  | Left l, _, _ => eff_ret (Left l)
  | _, Left l, _ => eff_ret (Left l)
  | _, _, Left l => eff_ret (Left l)
  end.
Definition ei_bind_owned_c {L A B} (cl : clone L) (ca : clone A) (e : either L A) (f : A -> eff (either L B)) : eff (either L B) :=
  match e with Left l => eff_ret (Left l) | Right r => f r end.
Definition ei_join_owned_c {L A} (cl : clone L) (ca : clone A) (e : either L (either L A)) : eff (either L A) :=
  match e with Left l => eff_ret (Left l) | Right r => eff_ret r end.
Definition ei_mplus_owned_c {L A} (cl : clone L) (ca : clone A) (self other : either L A) : eff (either L A) :=
  match self, other with
  | Right _, _ => eff_ret self
  | Left _, Right _ => eff_ret other
  | Left _, Left _ => eff_ret self
  end.
(** traits.rs 142-151 [fmap_owned], 174-186 [map_second_owned]; core.rs 853-865 [fmap_invalid_owned] (the same);
    error_utils.rs 172-182 [fmap_error] *)
Definition va_fmap_owned_c {E A B} (ce : clone E) (ca : clone A) (v : validated E A) (f : A -> eff B) : eff (validated E B) :=
  match v with Valid x => b <- f x;; eff_ret (Valid b) | Invalid e => eff_ret (Invalid e) end.
Definition va_map_second_owned_c {E A G} (ce : clone E) (ca : clone A) (cg : clone G) (v : validated E A) (f : E -> eff G) : eff (validated G A) :=
  match v with Valid x => eff_ret (Valid x) | Invalid es => l <- map_collect f es;; eff_ret (Invalid l) end.
(** traits.rs 383-404, 432-455, 491-529 *)
Definition va_apply_owned_c {E A B} (ce : clone E) (ca : clone A) (cb : clone B) (vf : validated E (A -> eff B)) (value : validated E A)
  : eff (validated E B) :=
  match vf, value with
  | Valid f, Valid x => b <- f x;; eff_ret (Valid b)
  | a, b => eff_ret (Invalid (extend_if_invalid (extend_if_invalid [] a) b))
  end.
Definition va_lift2_owned_c {E A B C} (ce : clone E) (ca : clone A) (cb : clone B) (cc : clone C) (f : A -> B -> eff C)
    (fa : validated E A) (fb : validated E B) : eff (validated E C) :=
  match fa, fb with
  | Valid a, Valid b => c <- f a b;; eff_ret (Valid c)
  | a, b => eff_ret (Invalid (extend_if_invalid (extend_if_invalid [] a) b))
  end.
Definition va_lift3_owned_c {E A B C D} (ce : clone E) (ca : clone A) (cb : clone B) (cc : clone C) (cd : clone D)
    (f : A -> B -> C -> eff D) (fa : validated E A) (fb : validated E B) (fc : validated E C) : eff (validated E D) :=
  match fa, fb, fc with
  | Valid a, Valid b_val, Valid c_val => d <- f a b_val c_val;; eff_ret (Valid d)
  | Invalid e1, Invalid e2, Invalid e3 => eff_ret (Invalid ((e1 ++ e2) ++ e3))
  | a, b, c => eff_ret (Invalid (extend_if_invalid (extend_if_invalid (extend_if_invalid [] a) b) c))
  end.
(** traits.rs 615-624, 627-635; 919-931 [mplus_owned], 947-956 [combine_owned]; core.rs 955-965 [combine_errors_owned] *)
Definition va_bind_owned_c {E A B} (ce : clone E) (ca : clone A) (cb : clone B) (v : validated E A) (f : A -> eff (validated E B)) : eff (validated E B) :=
  match v with Valid a => f a | Invalid e => eff_ret (Invalid e) end.
Definition va_join_owned_c {E A} (ce : clone E) (ca : clone A) (v : validated E (validated E A)) : eff (validated E A) :=
  match v with Valid inner => eff_ret inner | Invalid e => eff_ret (Invalid e) end.
Definition va_mplus_owned_c {E A} (ce : clone E) (ca : clone A) (self other : validated E A) : eff (validated E A) :=
  match self, other with
  | Valid _, _ => eff_ret self
  | Invalid _, Valid _ => eff_ret other
  | Invalid e1, Invalid e2 => eff_ret (Invalid (e1 ++ e2))
  end.
Definition va_combine_errors_owned_c {E A} (ce : clone E) (ca : clone A) (self other : validated E A) : eff (validated E A) :=
  match self, other with
  | Valid _, Valid _ => fun w => (Panic, w)
  | Valid _, invalid => eff_ret invalid
  | invalid, Valid _ => eff_ret invalid
  | Invalid e1, Invalid e2 => eff_ret (Invalid (e1 ++ e2))
  end.
(** core.rs 1044-1047 [from_result_owned] with convert.rs 152-161; core.rs 1088-1091 [to_result_owned] with
    error_utils.rs 184-189; core.rs 1148-1153, 1213-1221 *)
Definition va_from_result_owned_c {E A} (ce : clone E) (ca : clone A) (r : result A E) : eff (validated E A) :=
  match r with Ok value => eff_ret (Valid value) | Err error => eff_ret (Invalid [error]) end.
Definition va_to_result_owned_c {E A} (ce : clone E) (ca : clone A) (v : validated E A) : eff (result A E) :=
  match v with
  | Valid t => eff_ret (Ok t)
  | Invalid e => match e with x :: _ => eff_ret (Err x) | [] => fun w => (Panic, w) end
  end.
Definition va_from_option_owned_c {E A} (ce : clone E) (ca : clone A) (o : option A) (error : E) : eff (validated E A) :=
  match o with Some value => eff_ret (Valid value) | None => eff_ret (Invalid [error]) end.
Definition va_from_option_with_owned_c {E A} (ce : clone E) (ca : clone A) (o : option A) (error_fn : eff E) : eff (validated E A) :=
  match o with Some value => eff_ret (Valid value) | None => e <- error_fn;; eff_ret (Invalid [e]) end.
(** core.rs 1447-1478 [sequence_owned]; 1543-1566 [collect], 1591-1611 [collect_owned] ([C] a [Vec]) *)
Definition va_sequence_owned_c {E A B} (ce : clone E) (ca : clone A) (cb : clone B) (vs : list (validated E A)) (f : list A -> eff B)
  : eff (validated E B) :=
  match vs with
  | [] => b <- f [];; eff_ret (Valid b)
  | _ =>
      if forallb (fun v => match v with Valid _ => true | _ => false end) vs
      then b <- f (flat_map (fun v => match v with Valid x => [x] | _ => [] end) vs);; eff_ret (Valid b)
      else errors <- for_in (fun acc v => match v with Invalid es => eff_ret (acc ++ es) | Valid _ => eff_ret acc end) [] vs;;
           eff_ret (Invalid errors)
  end.
Definition va_collect_c {E A} (ce : clone E) (ca : clone A) (vs : list (validated E A)) : eff (validated E (list A)) :=
  ve <- for_in (fun '(values, errors) item =>
          match item with Valid a => eff_ret (values ++ [a], errors) | Invalid es => eff_ret (values, errors ++ es) end) ([], []) vs;;
  match snd ve with [] => eff_ret (Valid (fst ve)) | errors => eff_ret (Invalid errors) end.
(** id.rs 474-481, 484-493, 496-508, 578-585, 588-595 *)
Definition id_apply_owned_c {A B} (ca : clone A) (cb : clone B) (i : id_ (A -> eff B)) (value : id_ A) : eff (id_ B) :=
  b <- (id_value i) (id_value value);; eff_ret (mkId b).
Definition id_lift2_owned_c {A B C} (ca : clone A) (cb : clone B) (cc : clone C) (f : A -> B -> eff C) (fa : id_ A) (fb : id_ B) : eff (id_ C) :=
  c <- f (id_value fa) (id_value fb);; eff_ret (mkId c).
Definition id_lift3_owned_c {A B C D} (ca : clone A) (cb : clone B) (cc : clone C) (cd : clone D) (f : A -> B -> C -> eff D)
    (fa : id_ A) (fb : id_ B) (fc : id_ C) : eff (id_ D) :=
  d <- f (id_value fa) (id_value fb) (id_value fc);; eff_ret (mkId d).
Definition id_bind_owned_c {A B} (ca : clone A) (cb : clone B) (i : id_ A) (f : A -> eff (id_ B)) : eff (id_ B) := f (id_value i).
Definition id_join_owned_c {A} (ca : clone A) (i : id_ (id_ A)) : eff (id_ A) := eff_ret (id_value i).

(** ** By reference *)
(** maybe.rs 1107-1115 [join]; 1196-1202 [mplus], 1249-1254 [alt]; 1277-1285 [many] *)
Definition mb_join_c {A} (ca : clone A) (m : maybe (maybe A)) : eff (maybe A) :=
  match m with Just m' => clone_maybe ca m' | Nothing => eff_ret Nothing end.
Definition mb_mplus_c {A} (ca : clone A) (self other : maybe A) : eff (maybe A) :=
  match self, other with
  | Just _, _ => clone_maybe ca self
  | Nothing, Just _ => clone_maybe ca other
  | _, _ => eff_ret Nothing
  end.
Definition mb_alt_c {A} (ca : clone A) (self other : maybe A) : eff (maybe A) :=
  match self with Just _ => clone_maybe ca self | Nothing => clone_maybe ca other end.
Definition mb_many_c {A} (ca : clone A) (m : maybe A) : eff (maybe (list A)) :=
  match m with Just x => x' <- ca x;; eff_ret (Just [x']) | Nothing => eff_ret Nothing end.
(** monad.rs 317-322 [join]; monad_error.rs 320-329 [catch], 350-359 [map_error_to]; monad_plus.rs 131-136 [mplus];
    alternative.rs 162-164 [alt], 170-175 [many]; semigroup.rs 458-465 [combine] *)
Definition op_join_c {A} (ca : clone A) (o : option (option A)) : eff (option A) :=
  match o with Some x => clone_option ca x | None => eff_ret None end.
Definition op_catch_c {A} (ca : clone A) (o : option A) (f : unit -> eff (option A)) : eff (option A) :=
  match o with Some value => v <- ca value;; eff_ret (Some v) | None => f tt end.
Definition op_map_error_to_c {A N} (ca : clone A) (o : option A) (f : unit -> eff N) : eff (result A N) :=
  match o with Some value => v <- ca value;; eff_ret (Ok v) | None => n <- f tt;; eff_ret (Err n) end.
Definition op_mplus_c {A} (ca : clone A) (self other : option A) : eff (option A) :=
  match self with Some _ => clone_option ca self | None => clone_option ca other end.
Definition op_alt_c {A} (ca : clone A) (self other : option A) : eff (option A) :=
  s <- clone_option ca self;; match s with Some _ => eff_ret s | None => clone_option ca other end.
Definition op_many_c {A} (ca : clone A) (o : option A) : eff (option (list A)) :=
  match o with Some x => x' <- ca x;; eff_ret (Some [x']) | None => eff_ret None end.
Definition op_combine_c {A} (ca : clone A) (comb : A -> A -> eff A) (self other : option A) : eff (option A) :=
  match self, other with
  | Some a, Some b => c <- comb a b;; eff_ret (Some c)
  | Some a, None => a' <- ca a;; eff_ret (Some a')
  | None, Some b => b' <- ca b;; eff_ret (Some b')
  | None, None => eff_ret None
  end.
(** functor.rs 614-623 [Result::fmap]; applicative.rs 786-796, 799-812, 815-832; monad.rs 366-375 [bind], 355-363 [join];
    monad_error.rs 255-264 [catch], 286-295 [map_error_to]; monad_plus.rs 152-157 [mplus] *)
Definition re_fmap_c {A B E} (ce : clone E) (r : result A E) (f : A -> eff B) : eff (result B E) :=
  match r with Ok value => b <- f value;; eff_ret (Ok b) | Err e => e' <- ce e;; eff_ret (Err e') end.
Definition re_apply_c {A B E} (ce : clone E) (rf : result (A -> eff B) E) (value : result A E) : eff (result B E) :=
  match rf, value with
  | Ok f, Ok a => b <- f a;; eff_ret (Ok b)
  | Err e, _ => e' <- ce e;; eff_ret (Err e')
  | _, Err e => e' <- ce e;; eff_ret (Err e')
  end.
Definition re_lift2_c {A B C E} (ca : clone A) (cb : clone B) (ce : clone E) (f : A -> B -> eff C) (fa : result A E) (fb : result B E) : eff (result C E) :=
  match fa, fb with
  | Ok a, Ok b => c <- f a b;; eff_ret (Ok c)
  | Err e, _ => e' <- ce e;; eff_ret (Err e')
  | _, Err e => e' <- ce e;; eff_ret (Err e')
  end.
Definition re_lift3_c {A B C D E} (ca : clone A) (cb : clone B) (cc : clone C) (ce : clone E) (f : A -> B -> C -> eff D)
    (fa : result A E) (fb : result B E) (fc : result C E) : eff (result D E) :=
  match fa, fb, fc with
  | Ok a, Ok b, Ok c => d <- f a b c;; eff_ret (Ok d)
  | Err e, _, _ => e' <- ce e;; eff_ret (Err e')
  | _, Err e, _ => e' <- ce e;; eff_ret (Err e')
  | _, _, Err e => e' <- ce e;; eff_ret (Err e')
  end.
Definition re_bind_c {A B E} (ca : clone A) (ce : clone E) (r : result A E) (f : A -> eff (result B E)) : eff (result B E) :=
  match r with Ok x => f x | Err e => e' <- ce e;; eff_ret (Err e') end.
Definition re_join_c {A E} (ca : clone A) (ce : clone E) (r : result (result A E) E) : eff (result A E) :=
  match r with Ok x => clone_result ca ce x | Err e => e' <- ce e;; eff_ret (Err e') end.
Definition re_catch_c {A E} (ca : clone A) (ce : clone E) (r : result A E) (f : E -> eff (result A E)) : eff (result A E) :=
  match r with Ok value => v <- ca value;; eff_ret (Ok v) | Err error => f error end.
Definition re_map_error_to_c {A E N} (ca : clone A) (r : result A E) (f : E -> eff N) : eff (result A N) :=
  match r with Ok value => v <- ca value;; eff_ret (Ok v) | Err error => n <- f error;; eff_ret (Err n) end.
Definition re_mplus_c {A E} (ca : clone A) (ce : clone E) (self other : result A E) : eff (result A E) :=
  match self with Ok _ => clone_result ca ce self | Err _ => clone_result ca ce other end.
(** either.rs 810-818 [fmap], 1008-1017 [first]; 840-849, 851-864, 866-883; 935-943 [bind], 946-954 [join];
    985-994 [map_second], 1019-1028 [second]; 1132-1138 [mplus] *)
Definition ei_fmap_c {L A B} (cl : clone L) (ca : clone A) (e : either L A) (f : A -> eff B) : eff (either L B) :=
  match e with Left l => l' <- cl l;; eff_ret (Left l') | Right r => b <- f r;; eff_ret (Right b) end.
Definition ei_apply_c {L A B} (cl : clone L) (ef : either L (A -> eff B)) (value : either L A) : eff (either L B) :=
  match ef, value with
  | Right f, Right a => b <- f a;; eff_ret (Right b)
  | Left l, _ => l' <- cl l;; eff_ret (Left l')
  | _, Left l => l' <- cl l;; eff_ret (Left l')
  end.
Definition ei_lift2_c {L A B C} (cl : clone L) (ca : clone A) (cb : clone B) (f : A -> B -> eff C) (fa : either L A) (fb : either L B) : eff (either L C) :=
  match fa, fb with
  | Right a, Right b => c <- f a b;; eff_ret (Right c)
  | Left l, _ => l' <- cl l;; eff_ret (Left l')
  | _, Left l => l' <- cl l;; eff_ret (Left l')
  end.
Definition ei_lift3_c {L A B C D} (cl : clone L) (ca : clone A) (cb : clone B) (cc : clone C) (f : A -> B -> C -> eff D)
    (fa : either L A) (fb : either L B) (fc : either L C) : eff (either L D) :=
  match fa, fb, fc with
  | Right a, Right b, Right c => d <- f a b c;; eff_ret (Right d)
  | Left l, _, _ => l' <- cl l;; eff_ret (Left l')
  | _, Left l, _ => l' <- cl l;; eff_ret (Left l')
  | _, _, Left l => l' <- cl l;; eff_ret (Left l')
  end.
Definition ei_bind_c {L A B} (cl : clone L) (ca : clone A) (e : either L A) (f : A -> eff (either L B)) : eff (either L B) :=
  match e with Left l => l' <- cl l;; eff_ret (Left l') | Right r => f r end.
Definition ei_join_c {L A} (cl : clone L) (ca : clone A) (e : either L (either L A)) : eff (either L A) :=
  match e with Left l => l' <- cl l;; eff_ret (Left l') | Right r => clone_either cl ca r end.
Definition ei_map_second_c {L A N} (ca : clone A) (e : either L A) (f : L -> eff N) : eff (either N A) :=
  match e with Left l => n <- f l;; eff_ret (Left n) | Right r => r' <- ca r;; eff_ret (Right r') end.
Definition ei_mplus_c {L A} (cl : clone L) (ca : clone A) (self other : either L A) : eff (either L A) :=
  match self, other with
  | Right _, _ => clone_either cl ca self
  | Left _, Right _ => clone_either cl ca other
  | Left _, Left _ => clone_either cl ca self
  end.
(** traits.rs 130-139 [fmap], 232-241 [first]; 158-172 [map_second], 243-255 [second], core.rs 815-827 [fmap_invalid] *)
Definition va_fmap_c {E A B} (ce : clone E) (ca : clone A) (v : validated E A) (f : A -> eff B) : eff (validated E B) :=
  match v with Valid x => b <- f x;; eff_ret (Valid b) | Invalid e => e' <- clone_vec ce e;; eff_ret (Invalid e') end.
Definition va_map_second_c {E A G} (ce : clone E) (ca : clone A) (v : validated E A) (f : E -> eff G) : eff (validated G A) :=
  match v with Valid x => x' <- ca x;; eff_ret (Valid x') | Invalid es => l <- map_collect f es;; eff_ret (Invalid l) end.
(** traits.rs 366-381 [apply]; 406-430 [lift2]; 458-489 [lift3] *)
Definition va_apply_c {E A B} (ce : clone E) (vf : validated E (A -> eff B)) (value : validated E A) : eff (validated E B) :=
  match vf, value with
  | Valid f, Valid a => b <- f a;; eff_ret (Valid b)
  | Valid _, Invalid e => e' <- clone_vec ce e;; eff_ret (Invalid e')
  | Invalid e, Valid _ => e' <- clone_vec ce e;; eff_ret (Invalid e')
  | Invalid e1, Invalid e2 => errors <- map_collect ce (e1 ++ e2);; eff_ret (Invalid errors)
  end.
(** [if let Validated::Invalid(es) = v { errors.extend(es.iter().cloned()) }] *)
Definition extend_cloned_if_invalid {E A} (ce : clone E) (errors : list E) (v : validated E A) : eff (list E) :=
  match v with Invalid es => for_in (fun acc e => e' <- ce e;; eff_ret (acc ++ [e'])) errors es | Valid _ => eff_ret errors end.
Definition va_lift2_c {E A B C} (ce : clone E) (ca : clone A) (cb : clone B) (f : A -> B -> eff C) (fa : validated E A) (fb : validated E B)
  : eff (validated E C) :=
  match fa, fb with
  | Valid a, Valid b => c <- f a b;; eff_ret (Valid c)
  | _, _ =>
      e1 <- extend_cloned_if_invalid ce [] fa;;
      e2 <- extend_cloned_if_invalid ce e1 fb;;
      eff_ret (Invalid e2)
  end.
Definition va_lift3_c {E A B C D} (ce : clone E) (ca : clone A) (cb : clone B) (cc : clone C) (f : A -> B -> C -> eff D)
    (fa : validated E A) (fb : validated E B) (fc : validated E C) : eff (validated E D) :=
  match fa, fb, fc with
  | Valid a, Valid b, Valid c => d <- f a b c;; eff_ret (Valid d)
  | _, _, _ =>
      e1 <- extend_cloned_if_invalid ce [] fa;;
      e2 <- extend_cloned_if_invalid ce e1 fb;;
      e3 <- extend_cloned_if_invalid ce e2 fc;;
      eff_ret (Invalid e3)
  end.
(** traits.rs 590-599 [bind], 602-612 [join]; 907-917 [mplus], 935-945 [combine]; core.rs 920-932 [combine_errors] *)
Definition va_bind_c {E A B} (ce : clone E) (ca : clone A) (v : validated E A) (f : A -> eff (validated E B)) : eff (validated E B) :=
  match v with Valid a => f a | Invalid e => e' <- clone_vec ce e;; eff_ret (Invalid e') end.
Definition va_join_c {E A} (ce : clone E) (ca : clone A) (v : validated E (validated E A)) : eff (validated E A) :=
  match v with Valid inner => clone_validated ce ca inner | Invalid e => e' <- clone_vec ce e;; eff_ret (Invalid e') end.
Definition va_mplus_c {E A} (ce : clone E) (ca : clone A) (self other : validated E A) : eff (validated E A) :=
  match self, other with
  | Valid _, _ => clone_validated ce ca self
  | Invalid _, Valid _ => clone_validated ce ca other
  | Invalid e1, Invalid e2 => errors <- map_collect ce (e1 ++ e2);; eff_ret (Invalid errors)
  end.
Definition va_combine_errors_c {E A} (ce : clone E) (ca : clone A) (self other : validated E A) : eff (validated E A) :=
  match self, other with
  | Valid _, Valid _ => fun w => (Panic, w)
  | Valid _, invalid => clone_validated ce ca invalid
  | invalid, Valid _ => clone_validated ce ca invalid
  | Invalid e1, Invalid e2 =>
      a1 <- extend_cloned_if_invalid ce [] self;;
      a2 <- extend_cloned_if_invalid ce a1 other;;
      eff_ret (Invalid a2)
  end.
(** core.rs 339-344 [errors], 1329-1337 [unwrap_invalid]; 1248-1253 [unwrap], 1276-1281 [unwrap_or], 1614-1619 [to_option];
    1001-1008 [from_result]; 1064-1071 [to_result]: the whole value is cloned first; 1117-1122, 1179-1187 *)
Definition va_errors_c {E A} (ce : clone E) (v : validated E A) : eff (list E) :=
  match v with Invalid es => map_collect ce es | Valid _ => eff_ret [] end.
Definition va_unwrap_invalid_c {E A} (ce : clone E) (v : validated E A) : eff (list E) :=
  match v with Invalid es => map_collect ce es | Valid _ => fun w => (Panic, w) end.
Definition va_unwrap_c {E A} (ca : clone A) (v : validated E A) : eff A :=
  match v with Valid value => ca value | _ => fun w => (Panic, w) end.
Definition va_unwrap_or_c {E A} (ca : clone A) (v : validated E A) (default : A) : eff A :=
  match v with Valid x => ca x | _ => ca default end.
Definition va_to_option_c {E A} (ca : clone A) (v : validated E A) : eff (option A) :=
  match v with Valid x => x' <- ca x;; eff_ret (Some x') | _ => eff_ret None end.
Definition va_from_result_c {E A} (ce : clone E) (ca : clone A) (r : result A E) : eff (validated E A) :=
  r' <- clone_result ca ce r;; va_from_result_owned_c ce ca r'.
Definition va_to_result_c {E A} (ce : clone E) (ca : clone A) (v : validated E A) : eff (result A E) :=
  v' <- clone_validated ce ca v;; va_to_result_owned_c ce ca v'.
Definition va_from_option_c {E A} (ce : clone E) (ca : clone A) (o : option A) (error : E) : eff (validated E A) :=
  match o with Some value => v <- ca value;; eff_ret (Valid v) | None => e <- ce error;; eff_ret (Invalid [e]) end.
Definition va_from_option_with_c {E A} (ce : clone E) (ca : clone A) (o : option A) (error_fn : eff E) : eff (validated E A) :=
  match o with Some value => v <- ca value;; eff_ret (Valid v) | None => e <- error_fn;; eff_ret (Invalid [e]) end.
(** core.rs 1386-1417 [sequence] *)
Definition va_sequence_c {E A B} (ce : clone E) (ca : clone A) (vs : list (validated E A)) (f : list A -> eff B) : eff (validated E B) :=
  match vs with
  | [] => b <- f [];; eff_ret (Valid b)
  | _ =>
      if forallb (fun v => match v with Valid _ => true | _ => false end) vs
      then valid_values <- for_in (fun acc v => match v with Valid x => x' <- ca x;; eff_ret (acc ++ [x']) | _ => eff_ret acc end) [] vs;;
           b <- f valid_values;; eff_ret (Valid b)
      else errors <- for_in (fun acc v => extend_cloned_if_invalid ce acc v) [] vs;; eff_ret (Invalid errors)
  end.
(** id.rs 570-575 [join], 615-617 [extract], 637-639 [duplicate] *)
Definition id_join_c {A} (ca : clone A) (i : id_ (id_ A)) : eff (id_ A) := a <- ca (id_value (id_value i));; eff_ret (mkId a).
Definition id_extract_c {A} (ca : clone A) (i : id_ A) : eff A := ca (id_value i).
Definition id_duplicate_c {A} (ca : clone A) (i : id_ A) : eff (id_ A) := a <- ca (id_value i);; eff_ret (mkId a).

(** ** [pure] and [pure_owned]; [wrap] makes the container *)
(** [pure]: pure.rs 190-192, 202-204, 219-221, maybe.rs/either.rs 834-836, traits.rs 59-61, id.rs 432-434, choice.rs 1295-1297;
    [pure_owned]: pure.rs 195-197, 207-209, 214-216, traits.rs 64-66, choice.rs 1299-1301;
    pure.rs 181-183 the default [pure_owned], used by [Maybe], [Either] and [Id] *)
Definition pure_c {A M} (ca : clone A) (wrap : A -> M) (value : A) : eff M := a <- ca value;; eff_ret (wrap a).
Definition pure_owned_c {A M} (ca : clone A) (wrap : A -> M) (value : A) : eff M := eff_ret (wrap value).
Definition pure_owned_default_c {A M} (ca : clone A) (wrap : A -> M) (value : A) : eff M := pure_c ca wrap value.
(** pure.rs 384-392 [pair_with]; the pair's [clone] clones both parts.  469-478 [combine_with] *)
Definition clone_pair {A B} (ca : clone A) (cb : clone B) (p : A * B) : eff (A * B) :=
  a <- ca (fst p);; b <- cb (snd p);; eff_ret (a, b).
Definition pair_with_c {A B M} (ca : clone A) (cb : clone B) (wrap : A * B -> M) (self : A) (other : B) : eff M :=
  a <- ca self;; b <- cb other;; pure_c (clone_pair ca cb) wrap (a, b).
Definition combine_with_c {A B V M} (cv : clone V) (wrap : V -> M) (f : A -> B -> eff V) (self : A) (other : B) : eff M :=
  result <- f self other;; pure_c cv wrap result.
(** monad.rs 272-282 [map_and_pure], 301-311 [try_bind] *)
Definition map_and_pure_c {A U M} (cu : clone U) (wrap : U -> M) (bind : (A -> eff M) -> eff M) (f : A -> eff U) : eff M :=
  bind (fun x => result <- f x;; pure_c cu wrap result).
Definition try_bind_c {A U E M} (cu : clone U) (wrap : U -> M) (bind : (A -> eff M) -> eff M) (default : U) (f : A -> eff (result M E)) : eff M :=
  bind (fun x => r <- f x;; match r with Ok m => eff_ret m | Err _ => pure_c cu wrap default end).
(** functor.rs 197-203 [replace_owned] *)
Definition replace_owned_c {A B M} (cb : clone B) (fmap : (A -> eff B) -> eff M) (value : B) : eff M := fmap (fun _ => cb value).

(** ** Writer; [comb] is the log's [combine], [combo] its [combine_owned] *)
(** writer.rs 508-516 [fmap], 519-527 [fmap_owned]; 793-803, 859-871, 929-943; 1061-1071, 1120-1130 [join], 1180-1191 *)
Definition wr_fmap_c {L A B} (cl : clone L) (ca : clone A) (m : writer L A) (f : A -> eff B) : eff (writer L B) :=
  log <- cl (w_log m);; value <- f (w_value m);; eff_ret (mkWriter log value).
Definition wr_fmap_owned_c {L A B} (cl : clone L) (ca : clone A) (m : writer L A) (f : A -> eff B) : eff (writer L B) :=
  value <- f (w_value m);; eff_ret (mkWriter (w_log m) value).
Definition wr_apply_owned_c {L A B} (cl : clone L) (ca : clone A) (cb : clone B) (combo : L -> L -> eff L) (m : writer L (A -> eff B)) (value : writer L A)
  : eff (writer L B) :=
  log <- combo (w_log m) (w_log value);; v <- (w_value m) (w_value value);; eff_ret (mkWriter log v).
Definition wr_lift2_owned_c {L A B C} (cl : clone L) (ca : clone A) (cb : clone B) (cc : clone C) (combo : L -> L -> eff L) (f : A -> B -> eff C)
    (fa : writer L A) (fb : writer L B) : eff (writer L C) :=
  log <- combo (w_log fa) (w_log fb);; v <- f (w_value fa) (w_value fb);; eff_ret (mkWriter log v).
Definition wr_lift3_owned_c {L A B C D} (cl : clone L) (ca : clone A) (cb : clone B) (cc : clone C) (cd : clone D) (combo : L -> L -> eff L)
    (f : A -> B -> C -> eff D) (fa : writer L A) (fb : writer L B) (fc : writer L C) : eff (writer L D) :=
  l <- combo (w_log fa) (w_log fb);; log <- combo l (w_log fc);;
  v <- f (w_value fa) (w_value fb) (w_value fc);; eff_ret (mkWriter log v).
Definition wr_bind_owned_c {L A B} (cl : clone L) (ca : clone A) (combo : L -> L -> eff L) (m : writer L A) (f : A -> eff (writer L B)) : eff (writer L B) :=
  r <- f (w_value m);; log <- combo (w_log m) (w_log r);; eff_ret (mkWriter log (w_value r)).
Definition wr_join_c {L A} (cl : clone L) (ca : clone A) (comb : L -> L -> eff L) (m : writer L (writer L A)) : eff (writer L A) :=
  il <- cl (w_log (w_value m));; iv <- ca (w_value (w_value m));; log <- comb (w_log m) il;; eff_ret (mkWriter log iv).
Definition wr_join_owned_c {L A} (cl : clone L) (ca : clone A) (combo : L -> L -> eff L) (m : writer L (writer L A)) : eff (writer L A) :=
  log <- combo (w_log m) (w_log (w_value m));; eff_ret (mkWriter log (w_value (w_value m))).

(** ** The wrappers *)
(** first.rs 256-261, 301-306; last.rs 263-268, 314-319; first.rs 195-197, last.rs 196-198 [unwrap]; first.rs 211-213, last.rs 212-214 *)
Definition first_combine_owned_c {A} (ca : clone A) (self other : option A) : eff (option A) :=
  match self with Some _ => eff_ret self | None => eff_ret other end.
Definition first_combine_c {A} (ca : clone A) (self other : option A) : eff (option A) :=
  match self with Some _ => clone_option ca self | None => clone_option ca other end.
Definition last_combine_owned_c {A} (ca : clone A) (self other : option A) : eff (option A) :=
  match other with Some _ => eff_ret other | None => eff_ret self end.
Definition last_combine_c {A} (ca : clone A) (self other : option A) : eff (option A) :=
  match other with Some _ => clone_option ca other | None => clone_option ca self end.
Definition first_unwrap_c {A} (ca : clone A) (self : option A) : eff A :=
  o <- clone_option ca self;; match o with Some a => eff_ret a | None => fun w => (Panic, w) end.
Definition first_unwrap_or_c {A} (ca : clone A) (self : option A) (default : A) : eff A :=
  o <- clone_option ca self;; match o with Some a => eff_ret a | None => eff_ret default end.
(** min.rs 242-247, 304-309; max.rs 246-251, 308-313; [cmp] is the user's [Ord::cmp] *)
Definition min_combine_owned_c {A} (ca : clone A) (cmp : A -> A -> eff comparison) (self other : A) : eff A :=
  o <- cmp self other;; match o with Lt | Eq => eff_ret self | Gt => eff_ret other end.
Definition min_combine_c {A} (ca : clone A) (cmp : A -> A -> eff comparison) (self other : A) : eff A :=
  o <- cmp self other;; match o with Lt | Eq => ca self | Gt => ca other end.
Definition max_combine_owned_c {A} (ca : clone A) (cmp : A -> A -> eff comparison) (self other : A) : eff A :=
  o <- cmp self other;; match o with Gt | Eq => eff_ret self | Lt => eff_ret other end.
Definition max_combine_c {A} (ca : clone A) (cmp : A -> A -> eff comparison) (self other : A) : eff A :=
  o <- cmp self other;; match o with Gt | Eq => ca self | Lt => ca other end.
(** sum.rs 287-289, 345-347; product.rs 225-227, 283-285; [op] is the user's [+] or [*], which takes values *)
Definition sum_combine_owned_c {A} (ca : clone A) (op : A -> A -> eff A) (self other : A) : eff A := op self other.
Definition sum_combine_c {A} (ca : clone A) (op : A -> A -> eff A) (self other : A) : eff A :=
  a <- ca self;; b <- ca other;; op a b.

(** ** [Vec] *)
(** semigroup.rs 298-302 [combine_owned], 291-295 [combine]; alternative.rs 186-192 [alt], 198-207 [many] *)
Definition vec_combine_owned_c {A} (ca : clone A) (self other : list A) : eff (list A) := eff_ret (self ++ other).
Definition vec_combine_c {A} (ca : clone A) (self other : list A) : eff (list A) :=
  result <- clone_vec ca self;; for_in (fun acc x => x' <- ca x;; eff_ret (acc ++ [x'])) result other.
Definition vec_alt_c {A} (ca : clone A) (self other : list A) : eff (list A) :=
  match self with [] => clone_vec ca other | _ => clone_vec ca self end.
Definition vec_many_c {A} (ca : clone A) (self : list A) : eff (list (list A)) :=
  match self with [] => eff_ret [] | _ => l <- clone_vec ca self;; eff_ret [l] end.
(** applicative.rs 945-958 [apply_owned], 961-976 [lift2_owned], 979-999 [lift3_owned] *)
Definition vec_apply_owned_c {A B} (ca : clone A) (cb : clone B) (fs : list (A -> eff B)) (value : list A) : eff (list B) :=
  for_in (fun acc func =>
    vs <- clone_vec ca value;;
    for_in (fun acc val => y <- (func : A -> eff B) val;; eff_ret (acc ++ [y])) acc vs) [] fs.
Definition vec_lift2_owned_c {A B C} (ca : clone A) (cb : clone B) (cc : clone C) (f : A -> B -> eff C) (fa : list A) (fb : list B) : eff (list C) :=
  for_in (fun acc a =>
    bs <- clone_vec cb fb;;
    for_in (fun acc b => a' <- ca a;; y <- f a' b;; eff_ret (acc ++ [y])) acc bs) [] fa.
Definition vec_lift3_owned_c {A B C D} (ca : clone A) (cb : clone B) (cc : clone C) (cd : clone D) (f : A -> B -> C -> eff D)
    (fa : list A) (fb : list B) (fc : list C) : eff (list D) :=
  for_in (fun acc a =>
    bs <- clone_vec cb fb;;
    for_in (fun acc b =>
      cs <- clone_vec cc fc;;
      for_in (fun acc c => a' <- ca a;; b' <- cb b;; c' <- cc c;; y <- f a' b' c';; eff_ret (acc ++ [y])) acc cs) acc bs) [] fa.

(** ** Choice *)
(** choice.rs 1374-1387 [fmap_owned]; 1609-1621 [combine_owned], 1943-1951 [mplus_owned]; 1992-1994 [into_iter];
    2060-2072 [From<Vec>]; 2049-2058 [FromIterator<Choice>]; 528-536 [add_alternatives] *)
Definition ch_fmap_owned_c {A B} (ca : clone A) (f : A -> eff B) (c : choice A) : eff (choice B) :=
  match values c with
  | [] => eff_ret ch_empty
  | x :: rest => primary <- f x;; alternatives <- map_collect f rest;; eff_ret (ch_new primary alternatives)
  end.
Definition ch_combine_owned_c {A} (ca : clone A) (self other : choice A) : eff (choice A) :=
  match values self, values other with
  | [], _ => eff_ret other
  | _, [] => eff_ret self
  | primary :: rest, others => eff_ret (ch_new primary (rest ++ others))
  end.
Definition ch_mplus_owned_c {A} (ca : clone A) (self other : choice A) : eff (choice A) :=
  match values self, values other with
  | [], _ => eff_ret other
  | _, [] => eff_ret self
  | _, _ => ch_combine_owned_c ca self other
  end.
Definition ch_into_iter_c {A} (ca : clone A) (c : choice A) : eff (list A) := eff_ret (values c).
Definition ch_from_vec_c {A} (ca : clone A) (v : list A) : eff (choice A) :=
  match v with [] => eff_ret ch_empty | primary :: alternatives => eff_ret (ch_new primary alternatives) end.
Definition ch_from_choices_c {A} (ca : clone A) (cs : list (choice A)) : eff (choice A) :=
  let vs := flat_map values cs in match length vs with 0 => eff_ret ch_empty | _ => eff_ret (mkChoice vs) end.
Definition ch_add_alternatives_c {A} (ca : clone A) (c : choice A) (items : list A) : eff (choice A) := eff_ret (mkChoice (values c ++ items)).
(** choice.rs 2087-2091 [From<Choice> for Vec], 420-425 [to_vec]; 1973-1976 [sequence]: [collect] stops at the first [None] *)
Definition ch_into_vec_c {A} (ca : clone A) (c : choice A) : eff (list A) := clone_vec ca (values c).
Fixpoint collect_options {A} (ca : clone A) (acc : list A) (l : list (option A)) : eff (option (list A)) :=
  match l with
  | [] => eff_ret (Some acc)
  | x :: l' => o <- clone_option ca x;; match o with Some a => collect_options ca (acc ++ [a]) l' | None => eff_ret None end
  end.
Definition ch_sequence_c {A} (ca : clone A) (c : choice (option A)) : eff (option (choice A)) :=
  o <- collect_options ca [] (values c);; match o with Some l => eff_ret (Some (mkChoice l)) | None => eff_ret None end.
(** [v.extend_from_slice(s)] *)
Definition extend_from_slice {A} (ca : clone A) (v s : list A) : eff (list A) :=
  for_in (fun acc x => x' <- ca x;; eff_ret (acc ++ [x'])) v s.
(** choice.rs 1479-1509 [bind_owned], 1444-1477 [bind] *)
Definition ch_bind_owned_c {A U} (cu : clone U) (f : A -> eff (choice U)) (c : choice A) : eff (choice U) :=
  match values c with
  | [] => eff_ret ch_empty
  | x :: rest =>
      primary_choice <- f x;;
      match values primary_choice with
      | [] => eff_ret ch_empty
      | y :: ys =>
          first <- cu y;;
          alternatives <- extend_from_slice cu [] ys;;
          alternatives <- for_in (fun acc alt => alt_choice <- f alt;; eff_ret (acc ++ values alt_choice)) alternatives rest;;
          eff_ret (ch_new first alternatives)
      end
  end.
Definition ch_bind_c {A U} (cu : clone U) (f : A -> eff (choice U)) (c : choice A) : eff (choice U) :=
  match values c with
  | [] => eff_ret ch_empty
  | x :: rest =>
      first_choice <- f x;;
      match values first_choice with
      | [] => eff_ret ch_empty
      | y :: ys =>
          first <- cu y;;
          alternatives <- extend_from_slice cu [] ys;;
          alternatives <- for_in (fun acc alt => alt_choice <- f alt;; extend_from_slice cu acc (values alt_choice)) alternatives rest;;
          eff_ret (ch_new first alternatives)
      end
  end.
(** choice.rs 1547-1580 [join_owned], 1512-1544 [join] ([T] a [Choice<U>]) *)
Definition ch_join_owned_c {U} (cu : clone U) (c : choice (choice U)) : eff (choice U) :=
  match values c with
  | [] => eff_ret ch_empty
  | primary_choice :: rest =>
      match values primary_choice with
      | [] => eff_ret ch_empty
      | y :: _ =>
          first <- cu y;;
          alternatives <- extend_from_slice cu [] (ch_alternatives primary_choice);;
          alternatives <- for_in (fun acc alt => extend_from_slice cu acc (values alt)) alternatives rest;;
          eff_ret (ch_new first alternatives)
      end
  end.
Definition ch_join_c {U} (cu : clone U) (c : choice (choice U)) : eff (choice U) :=
  match values c with
  | [] => eff_ret ch_empty
  | primary_value :: _ =>
      primary_choice <- clone_choice cu primary_value;;
      match values primary_choice with
      | [] => eff_ret ch_empty
      | y :: _ =>
          first <- cu y;;
          alternatives <- extend_from_slice cu [] (ch_alternatives primary_choice);;
          alternatives <- for_in (fun acc alt => alt_choice <- clone_choice cu alt;; extend_from_slice cu acc (values alt_choice))
                            alternatives (ch_alternatives c);;
          eff_ret (ch_new first alternatives)
      end
  end.
(** choice.rs 1717-1733 [apply_owned] with 1266-1286; 1768-1796 [lift2_owned], 1838-1874 [lift3_owned] *)
Definition ch_apply_owned_c {A B} (ca : clone A) (fs : choice (A -> eff B)) (vs : choice A) : eff (choice B) :=
  match values fs, values vs with
  | [], _ | _, [] => eff_ret ch_empty
  | f0 :: _, v0 :: _ =>
      v <- ca v0;;
      primary <- f0 v;;
      alternatives <- for_in (fun acc '(i, val) =>
          for_in (fun acc '(j, func) =>
            if (i =? 0) && (j =? 0) then eff_ret acc
            else v <- ca val;; y <- (func : A -> eff B) v;; eff_ret (acc ++ [y])) acc (enumerate (values fs)))
        [] (enumerate (values vs));;
      eff_ret (ch_new primary alternatives)
  end.
Definition ch_lift2_owned_c {A B C} (ca : clone A) (cb : clone B) (cc : clone C) (f : A -> B -> eff C) (fa : choice A) (fb : choice B)
  : eff (choice C) :=
  match values fa, values fb with
  | [], _ | _, [] => eff_ret ch_empty
  | a0 :: _, b0 :: _ =>
      a' <- ca a0;; b' <- cb b0;;
      primary <- f a' b';;
      alternatives <- for_in (fun acc '(i, a) =>
          for_in (fun acc '(j, b) =>
            if (i =? 0) && (j =? 0) then eff_ret acc
            else a' <- ca a;; b' <- cb b;; y <- f a' b';; eff_ret (acc ++ [y])) acc (enumerate (values fb)))
        [] (enumerate (values fa));;
      eff_ret (ch_new primary alternatives)
  end.
Definition ch_lift3_owned_c {A B C D} (ca : clone A) (cb : clone B) (cc : clone C) (cd : clone D) (f : A -> B -> C -> eff D)
    (fa : choice A) (fb : choice B) (fc : choice C) : eff (choice D) :=
  match values fa, values fb, values fc with
  | [], _, _ | _, [], _ | _, _, [] => eff_ret ch_empty
  | a0 :: _, b0 :: _, c0 :: _ =>
      a' <- ca a0;; b' <- cb b0;; c' <- cc c0;;
      primary <- f a' b' c';;
      alternatives <- for_in (fun acc '(i, a) =>
          for_in (fun acc '(j, b) =>
            for_in (fun acc '(k, c) =>
              if (i =? 0) && (j =? 0) && (k =? 0) then eff_ret acc
              else a' <- ca a;; b' <- cb b;; c' <- cc c;; y <- f a' b' c';; eff_ret (acc ++ [y])) acc (enumerate (values fc)))
            acc (enumerate (values fb)))
        [] (enumerate (values fa));;
      eff_ret (ch_new primary alternatives)
  end.
(** choice.rs 1584-1607 [combine], 1878-1901 [alt] (the same); 1933-1941 [mplus]; 2074-2085 [From<&[T]>]; 1915-1925 [many];
    2099-2103 [Sum] *)
Definition ch_combine_c {A} (ca : clone A) (self other : choice A) : eff (choice A) :=
  match values self, values other with
  | [], _ => clone_choice ca other
  | _, [] => clone_choice ca self
  | x :: rest, others =>
      primary <- ca x;;
      alternatives <- map_collect ca (rest ++ others);;
      eff_ret (ch_new primary alternatives)
  end.
Definition ch_mplus_c {A} (ca : clone A) (self other : choice A) : eff (choice A) :=
  match values self, values other with
  | [], _ => clone_choice ca other
  | _, [] => clone_choice ca self
  | _, _ => ch_combine_c ca self other
  end.
Definition ch_from_slice_c {A} (ca : clone A) (s : list A) : eff (choice A) :=
  match s with
  | [] => eff_ret ch_empty
  | x :: _ => primary <- ca x;; alternatives <- clone_vec ca (skipn 1 s);; eff_ret (ch_new primary alternatives)
  end.
Definition ch_many_c {A} (ca : clone A) (c : choice A) : eff (choice (list A)) :=
  match values c with [] => eff_ret ch_empty | x :: _ => x' <- ca x;; eff_ret (ch_new [x'] []) end.
Definition ch_sum_c {A} (ca : clone A) (cs : list (choice A)) : eff (choice A) :=
  for_in (fun a b => ch_mplus_c ca a b) ch_empty cs.
(** choice.rs 661-675 [filter], 683-708 [fmap_alternatives], 1038-1054 [filter_values]: [filter(p).cloned()] asks and clones in turn *)
Definition filter_cloned {A} (ca : clone A) (p : A -> eff bool) (acc l : list A) : eff (list A) :=
  for_in (fun acc x => b <- p x;; if (b : bool) then x' <- ca x;; eff_ret (acc ++ [x']) else eff_ret acc) acc l.
Definition ch_filter_c {A} (ca : clone A) (p : A -> eff bool) (c : choice A) : eff (choice A) :=
  match values c with
  | [] => eff_ret ch_empty
  | x :: _ => x' <- ca x;; l <- filter_cloned ca p [x'] (skipn 1 (values c));; eff_ret (mkChoice l)
  end.
Definition ch_fmap_alternatives_c {A} (ca : clone A) (f : A -> eff A) (c : choice A) : eff (choice A) :=
  match values c with
  | [] => eff_ret ch_empty
  | x :: rest => primary_value <- ca x;; l <- map_collect f rest;; eff_ret (mkChoice (primary_value :: l))
  end.
Definition ch_filter_values_c {A} (ca : clone A) (p : A -> eff bool) (c : choice A) : eff (choice A) :=
  l <- filter_cloned ca p [] (values c);;
  eff_ret (match length l with 0 => ch_empty | _ => mkChoice l end).
(** choice.rs 773-802 [flatten], 864-894 [flatten_sorted] before sorting ([T] a [Vec<I>]): whole inner vectors are cloned *)
Definition ch_flatten_c {A} (ca : clone A) (c : choice (list A)) : eff (choice A) :=
  match values c with
  | [] => eff_ret ch_empty
  | p :: rest =>
      primary <- clone_vec ca p;;
      match primary with
      | [] => fun w => (Panic, w)
      | first_item :: more =>
          alternatives <- for_in (fun acc val => v <- clone_vec ca val;; eff_ret (acc ++ v)) more rest;;
          eff_ret (ch_new first_item alternatives)
      end
  end.

(** ** Semigroups and monoids; [comb] is [combine], [combo] is [combine_owned] *)
(** semigroup.rs 214-226 [combine_n], 230-242 [combine_n_owned]; 202-210 [combine_all_owned] *)
Definition combine_n_c {A} (ca : clone A) (comb : A -> A -> eff A) (self : A) (n : nat) : eff A :=
  match n with
  | 0 => ca self
  | S k => acc <- ca self;; for_in (fun acc _ => comb acc self) acc (seq 1 k)
  end.
Definition combine_n_owned_c {A} (ca : clone A) (combo : A -> A -> eff A) (self : A) (n : nat) : eff A :=
  match n with
  | 0 => eff_ret self
  | S k => for_in (fun acc _ => copy <- ca acc;; combo copy acc) self (seq 1 k)
  end.
(** monoid.rs 267-285 [repeat], 378-387 [power]; 325-338 [mconcat] *)
Definition repeat_c {A} (ca : clone A) (empty : eff A) (combo : A -> A -> eff A) (value : A) (n : nat) : eff A :=
  if n =? 0 then empty
  else if n =? 1 then eff_ret value
  else result <- ca value;; for_in (fun result _ => copy <- ca value;; combo result copy) result (seq 1 (n - 1)).
Definition power_c {A} (ca : clone A) (empty : eff A) (combo : A -> A -> eff A) (value : A) (exponent : nat) : eff A :=
  match exponent with
  | 0 => empty
  | 1 => eff_ret value
  | _ => repeat_c ca empty combo value exponent
  end.
Definition mconcat_c {A} (ca : clone A) (empty : eff A) (comb : A -> A -> eff A) (values : list A) : eff A :=
  match values with
  | [] => empty
  | x :: rest => result <- ca x;; for_in comb result rest
  end.
(** semigroup.rs 365-379 [BTreeMap::combine_owned], 353-362 [combine]; the keys' [cmp] has no effects, [or_insert]'s argument is
    made first *)
Definition bt_combine_owned_c {K V} (cmp : K -> K -> comparison) (ck : clone K) (cv : clone V) (combo : V -> V -> eff V)
    (self other : list (K * V)) : eff (list (K * V)) :=
  for_in (fun result kv =>
    match bt_get cmp result (fst kv) with
    | Some existing => copy <- cv existing;; combined <- combo copy (snd kv);; eff_ret (bt_insert cmp result (fst kv) combined)
    | None => eff_ret (bt_insert cmp result (fst kv) (snd kv))
    end) self other.
Definition bt_combine_c {K V} (cmp : K -> K -> comparison) (ck : clone K) (cv : clone V) (comb : V -> V -> eff V)
    (self other : list (K * V)) : eff (list (K * V)) :=
  result <- clone_vec (clone_pair ck cv) self;;
  for_in (fun result kv =>
    k <- ck (fst kv);;
    match bt_get cmp result k with
    | Some e => e' <- comb e (snd kv);; _ <- cv (snd kv);; eff_ret (bt_insert cmp result k e')
    | None => v <- cv (snd kv);; eff_ret (bt_insert cmp result k v)
    end) result other.

(** ** Folding a [Vec] (foldable.rs 694-703: [init] is cloned first) *)
Definition vec_fold_left_c {A U} (cu : clone U) (l : list A) (init : U) (f : U -> A -> eff U) : eff U :=
  acc <- cu init;; for_in f acc l.
(** foldable.rs 529-538 [to_vec]; 339-353 [find]; 602-614 [maximum]; 676-685 [reduce]; 555-560 [sum_values];
    492-507 [is_sorted] *)
Definition vec_to_vec_c {A} (ca : clone A) (l : list A) : eff (list A) :=
  vec_fold_left_c (clone_vec ca) l [] (fun acc x => new_acc <- clone_vec ca acc;; x' <- ca x;; eff_ret (new_acc ++ [x'])).
Definition vec_find_c {A} (ca : clone A) (pred : A -> eff bool) (l : list A) : eff (option A) :=
  vec_fold_left_c (clone_option ca) l None (fun acc x =>
    match acc with
    | Some _ => clone_option ca acc
    | None => b <- pred x;; if (b : bool) then x' <- ca x;; eff_ret (Some x') else eff_ret None
    end).
Definition vec_maximum_c {A} (ca : clone A) (cmp : A -> A -> comparison) (l : list A) : eff (option A) :=
  vec_fold_left_c (clone_option ca) l None (fun max x =>
    match max with
    | None => x' <- ca x;; eff_ret (Some x')
    | Some current_max => m <- ca (match cmp x current_max with Gt => x | _ => current_max end);; eff_ret (Some m)
    end).
Definition vec_reduce_c {A} (ca : clone A) (f : A -> A -> eff A) (l : list A) : eff (option A) :=
  vec_fold_left_c (clone_option ca) l None (fun acc x =>
    match acc with None => x' <- ca x;; eff_ret (Some x') | Some a => y <- f a x;; eff_ret (Some y) end).
Definition vec_sum_values_c {A} (ca : clone A) (default : eff A) (add : A -> A -> eff A) (l : list A) : eff A :=
  d <- default;; vec_fold_left_c ca l d (fun acc x => a <- ca acc;; x' <- ca x;; add a x').
Definition vec_is_sorted_c {A} (ca : clone A) (cmp : A -> A -> comparison) (l : list A) : eff bool :=
  r <- vec_fold_left_c (clone_pair (fun b => eff_ret b) (clone_option ca)) l (true, None) (fun '(is_sorted, prev) curr =>
    c <- ca curr;;
    if negb is_sorted then eff_ret (false, Some c)
    else match prev with
         | None => eff_ret (true, Some c)
         | Some p => eff_ret (match cmp p curr with Gt => false | _ => true end, Some c)
         end);;
  eff_ret (fst r).
(** hkt_utils.rs 467-472 [fan_out] *)
Definition fan_out_c {A B} (ca : clone A) (input : A) (ops : list (A -> eff B)) : eff (list B) :=
  map_collect (fun op : A -> eff B => i <- ca input;; op i) ops.
End Clone.

(** The operations on a single value that take a closure, with closures that may
    have effects (the state [W]) or panic: the same functions as in [SumModel],
    [ValidatedModel], [EffModel] and [ErrModel], written with the order of the
    calls.  Definitions only.  Cloning has no effect. *)
From Coq Require Import List String.
From Verif Require Import Base Types SumModel ValidatedModel WrapModel EffModel ErrModel CallModel.
Import ListNotations.
Open Scope list_scope.

Section Once.
Context {W : Type}.
Notation eff := (eff W).
Local Notation "x <- m ;; k" := (eff_bind m (fun x => k)) (at level 61, m at next level, right associativity).

(** ** Maybe *)
(** maybe.rs 556-564 [fmap_or], 607-615 [unwrap_or_else] *)
Definition mb_fmap_or_e {T U} (m : maybe T) (default : U) (f : T -> eff U) : eff U :=
  match m with Just val => f val | Nothing => eff_ret default end.
Definition mb_unwrap_or_else_e {T} (m : maybe T) (f : eff T) : eff T :=
  match m with Just val => eff_ret val | Nothing => f end.
(** maybe.rs 655-663 [filter], 679-687 [tap] *)
Definition mb_filter_e {T} (m : maybe T) (predicate : T -> eff bool) : eff (maybe T) :=
  match m with
  | Just value => b <- predicate value;; if (b : bool) then eff_ret (Just value) else eff_ret Nothing
  | _ => eff_ret Nothing
  end.
Definition mb_tap_e {T} (m : maybe T) (f : T -> eff unit) : eff (maybe T) :=
  match m with Just value => _ <- f value;; eff_ret m | Nothing => eff_ret m end.
(** maybe.rs 788-796 [fmap], 813-821 [fmap_owned] *)
Definition mb_fmap_e {A B} (m : maybe A) (f : A -> eff B) : eff (maybe B) :=
  match m with Just x => b <- f x;; eff_ret (Just b) | Nothing => eff_ret Nothing end.
(** maybe.rs 841-849 [apply], 906-916 [apply_owned] *)
Definition mb_apply_e {A B} (mf : maybe (A -> eff B)) (value : maybe A) : eff (maybe B) :=
  match mf, value with
  | Just g, Just x => b <- g x;; eff_ret (Just b)
  | _, _ => eff_ret Nothing
  end.
(** maybe.rs 867-876 [lift2], 932-944 [lift2_owned]; 879-890 [lift3], 947-962 [lift3_owned] *)
Definition mb_lift2_e {A B C} (f : A -> B -> eff C) (fa : maybe A) (fb : maybe B) : eff (maybe C) :=
  match fa, fb with
  | Just a, Just b => c <- f a b;; eff_ret (Just c)
  | _, _ => eff_ret Nothing
  end.
Definition mb_lift3_e {A B C D} (f : A -> B -> C -> eff D) (fa : maybe A) (fb : maybe B) (fc : maybe C) : eff (maybe D) :=
  match fa, fb, fc with
  | Just a, Just b, Just c => d <- f a b c;; eff_ret (Just d)
  | _, _, _ => eff_ret Nothing
  end.
(** maybe.rs 1005-1013 [bind], 1055-1064 [bind_owned] *)
Definition mb_bind_e {A B} (m : maybe A) (f : A -> eff (maybe B)) : eff (maybe B) :=
  match m with Just x => f x | Nothing => eff_ret Nothing end.
(** maybe.rs 1336-1345 *)
Definition mb_fmap_error_e {T G} (m : maybe T) (f : maybe_error -> eff G) : eff (maybe G) :=
  match m with Just _ => g <- f ValueNotPresent;; eff_ret (Just g) | Nothing => eff_ret Nothing end.

(** ** Option *)
(** functor.rs 505-510 [filter_map], 513-525 [try_map_or], 528-540 [try_map_or_else] *)
Definition op_filter_map_e {A B} (o : option A) (f : A -> eff (option B)) : eff (option B) :=
  match o with Some a => f a | None => eff_ret None end.
Definition op_try_map_or_e {A B E} (o : option A) (default : B) (f : A -> eff (result B E)) : eff (option B) :=
  match o with
  | Some value => r <- f value;; match r with Ok b => eff_ret (Some b) | Err _ => eff_ret (Some default) end
  | None => eff_ret None
  end.
Definition op_try_map_or_else_e {A B E} (o : option A) (default_fn : E -> eff B) (f : A -> eff (result B E)) : eff (option B) :=
  match o with
  | Some value => r <- f value;; match r with Ok b => eff_ret (Some b) | Err e => b <- default_fn e;; eff_ret (Some b) end
  | None => eff_ret None
  end.
(** functor.rs 594-600 [fmap], 603-609 [fmap_owned] *)
Definition op_fmap_e {A B} (o : option A) (f : A -> eff B) : eff (option B) :=
  match o with Some a => b <- f a;; eff_ret (Some b) | None => eff_ret None end.
(** applicative.rs 692-701 [apply], 737-747 [apply_owned]; 704-716 [lift2], 750-762 [lift2_owned];
    719-734 [lift3], 765-780 [lift3_owned] *)
Definition op_apply_e {A B} (of : option (A -> eff B)) (value : option A) : eff (option B) :=
  match of, value with
  | Some func, Some a => b <- func a;; eff_ret (Some b)
  | _, _ => eff_ret None
  end.
Definition op_lift2_e {A B C} (f : A -> B -> eff C) (fa : option A) (fb : option B) : eff (option C) :=
  match fa, fb with
  | Some a, Some b => c <- f a b;; eff_ret (Some c)
  | _, _ => eff_ret None
  end.
Definition op_lift3_e {A B C D} (f : A -> B -> C -> eff D) (fa : option A) (fb : option B) (fc : option C) : eff (option D) :=
  match fa, fb, fc with
  | Some a, Some b, Some c => d <- f a b c;; eff_ret (Some d)
  | _, _, _ => eff_ret None
  end.
(** monad.rs 325-331 [bind], 334-340 [bind_owned] *)
Definition op_bind_e {A B} (o : option A) (f : A -> eff (option B)) : eff (option B) :=
  match o with Some a => f a | None => eff_ret None end.
(** monad_error.rs 320-329 [catch], 332-342 [catch_owned]; 350-359 [map_error_to], 362-372 [map_error_to_owned] *)
Definition op_catch_e {A} (o : option A) (f : unit -> eff (option A)) : eff (option A) :=
  match o with Some value => eff_ret (Some value) | None => f tt end.
Definition op_map_error_to_e {A N} (o : option A) (f : unit -> eff N) : eff (result A N) :=
  match o with Some value => eff_ret (Ok value) | None => e <- f tt;; eff_ret (Err e) end.

(** ** Result *)
(** functor.rs 548-559 [filter_map] ([dflt] is [E::default()]), 562-574 [try_map_or], 577-589 [try_map_or_else] *)
Definition re_filter_map_e {A B E} (dflt : eff E) (r : result A E) (f : A -> eff (option B)) : eff (result B E) :=
  match r with
  | Ok value => o <- f value;; match o with Some b => eff_ret (Ok b) | None => e <- dflt;; eff_ret (Err e) end
  | Err e => eff_ret (Err e)
  end.
Definition re_try_map_or_e {A B E E2} (r : result A E) (default : B) (f : A -> eff (result B E2)) : eff (result B E) :=
  match r with
  | Ok value => x <- f value;; match x with Ok b => eff_ret (Ok b) | Err _ => eff_ret (Ok default) end
  | Err e => eff_ret (Err e)
  end.
Definition re_try_map_or_else_e {A B E E2} (r : result A E) (default_fn : E2 -> eff B) (f : A -> eff (result B E2)) : eff (result B E) :=
  match r with
  | Ok value => x <- f value;; match x with Ok b => eff_ret (Ok b) | Err e => b <- default_fn e;; eff_ret (Ok b) end
  | Err e => eff_ret (Err e)
  end.
(** functor.rs 614-623 [fmap], 626-635 [fmap_owned] *)
Definition re_fmap_e {A B E} (r : result A E) (f : A -> eff B) : eff (result B E) :=
  match r with Ok value => b <- f value;; eff_ret (Ok b) | Err e => eff_ret (Err e) end.
(** applicative.rs 786-796 [apply], 835-846 [apply_owned]; 799-812 [lift2], 849-862 [lift2_owned];
    815-832 [lift3], 865-882 [lift3_owned] *)
Definition re_apply_e {A B E} (rf : result (A -> eff B) E) (value : result A E) : eff (result B E) :=
  match rf, value with
  | Ok func, Ok a => b <- func a;; eff_ret (Ok b)
  | Err e, _ => eff_ret (Err e)
  | _, Err e => eff_ret (Err e)
  end.
Definition re_lift2_e {A B C E} (f : A -> B -> eff C) (fa : result A E) (fb : result B E) : eff (result C E) :=
  match fa, fb with
  | Ok a, Ok b => c <- f a b;; eff_ret (Ok c)
  | Err e, _ => eff_ret (Err e)
  | _, Err e => eff_ret (Err e)
  end.
Definition re_lift3_e {A B C D E} (f : A -> B -> C -> eff D) (fa : result A E) (fb : result B E) (fc : result C E) : eff (result D E) :=
  match fa, fb, fc with
  | Ok a, Ok b, Ok c => d <- f a b c;; eff_ret (Ok d)
  | Err e, _, _ => eff_ret (Err e)
  | _, Err e, _ => eff_ret (Err e)
  | _, _, Err e => eff_ret (Err e)
  end.
(** monad.rs 366-375 [bind], 378-384 [bind_owned] *)
Definition re_bind_e {A B E} (r : result A E) (f : A -> eff (result B E)) : eff (result B E) :=
  match r with Ok x => f x | Err e => eff_ret (Err e) end.
(** monad_error.rs 255-264 [catch], 267-277 [catch_owned]; error/core.rs 215-223 [recover] *)
Definition re_catch_e {A E} (r : result A E) (f : E -> eff (result A E)) : eff (result A E) :=
  match r with Ok value => eff_ret (Ok value) | Err error => f error end.
(** monad_error.rs 286-295 [map_error_to], 298-308 [map_error_to_owned]; error_utils.rs 131-139 [fmap_error] *)
Definition re_fmap_error_e {A E N} (r : result A E) (f : E -> eff N) : eff (result A N) :=
  match r with Ok value => eff_ret (Ok value) | Err error => n <- f error;; eff_ret (Err n) end.
(** error/core.rs 226-237 [bimap_result]; error_utils.rs 514-523 [bimap] *)
Definition re_bimap_e {A B E N} (r : result A E) (success_f : A -> eff B) (error_f : E -> eff N) : eff (result B N) :=
  match r with
  | Ok value => b <- success_f value;; eff_ret (Ok b)
  | Err error => n <- error_f error;; eff_ret (Err n)
  end.

(** ** Either *)
(** either.rs 367-375 [fmap_left], 985-994 [map_second], 996-1004 [map_second_owned], 1019-1028 [second];
    error_utils.rs 150-158 [fmap_error] *)
Definition ei_fmap_left_e {L R T} (e : either L R) (f : L -> eff T) : eff (either T R) :=
  match e with Left l => t <- f l;; eff_ret (Left t) | Right r => eff_ret (Right r) end.
(** either.rs 400-408 [fmap_right], 810-818 [fmap], 821-829 [fmap_owned], 1008-1017 [first] *)
Definition ei_fmap_e {L R T} (e : either L R) (f : R -> eff T) : eff (either L T) :=
  match e with Left l => eff_ret (Left l) | Right r => t <- f r;; eff_ret (Right t) end.
(** either.rs 840-849 [apply], 885-896 [apply_owned]; 851-864 [lift2], 898-911 [lift2_owned];
    866-883 [lift3], 913-930 [lift3_owned] *)
Definition ei_apply_e {L A B} (ef : either L (A -> eff B)) (value : either L A) : eff (either L B) :=
  match ef, value with
  | Right func, Right a => b <- func a;; eff_ret (Right b)
  | Left l, _ => eff_ret (Left l)
  | _, Left l => eff_ret (Left l)
  end.
Definition ei_lift2_e {L A B C} (f : A -> B -> eff C) (fa : either L A) (fb : either L B) : eff (either L C) :=
  match fa, fb with
  | Right a, Right b => c <- f a b;; eff_ret (Right c)
  | Left l, _ => eff_ret (Left l)
  | _, Left l => eff_ret (Left l)
  end.
Definition ei_lift3_e {L A B C D} (f : A -> B -> C -> eff D) (fa : either L A) (fb : either L B) (fc : either L C) : eff (either L D) :=
  match fa, fb, fc with
  | Right a, Right b, Right c => d <- f a b c;; eff_ret (Right d)
  | Left l, _, _ => eff_ret (Left l)
  | _, Left l, _ => eff_ret (Left l)
  | _, _, Left l => eff_ret (Left l)
  end.
(** either.rs 935-943 [bind], 957-966 [bind_owned] *)
Definition ei_bind_e {L A B} (e : either L A) (f : A -> eff (either L B)) : eff (either L B) :=
  match e with Left l => eff_ret (Left l) | Right r => f r end.
(** either.rs 1030-1041 [bimap] *)
Definition ei_bimap_e {L R C D} (e : either L R) (f : R -> eff C) (g : L -> eff D) : eff (either D C) :=
  match e with
  | Left l => d <- g l;; eff_ret (Left d)
  | Right r => c <- f r;; eff_ret (Right c)
  end.
(** error/core.rs 243-251 [recover], 253-265 [bimap_result] *)
Definition ei_recover_e {L R} (e : either L R) (recovery : L -> eff (either L R)) : eff (either L R) :=
  match e with Right value => eff_ret (Right value) | Left error => recovery error end.
Definition ei_bimap_result_e {L R B F} (e : either L R) (success_f : R -> eff B) (error_f : L -> eff F) : eff (result B F) :=
  match e with
  | Right value => b <- success_f value;; eff_ret (Ok b)
  | Left error => n <- error_f error;; eff_ret (Err n)
  end.

(** ** Validated *)
(** core.rs 283-291 [recover_all_at_once]; 1179-1187 [from_option_with], 1213-1221 [from_option_with_owned] *)
Definition va_recover_all_at_once_e {E A} (v : validated E A) (recovery : list E -> eff (validated E A)) : eff (validated E A) :=
  match v with Valid a => eff_ret (Valid a) | Invalid errors => recovery errors end.
Definition va_from_option_with_e {E A} (o : option A) (error_fn : eff E) : eff (validated E A) :=
  match o with Some value => eff_ret (Valid value) | None => e <- error_fn;; eff_ret (Invalid [e]) end.
(** traits.rs 130-139 [fmap], 142-151 [fmap_owned], 232-241 [first] *)
Definition va_fmap_e {E A B} (v : validated E A) (f : A -> eff B) : eff (validated E B) :=
  match v with Valid x => b <- f x;; eff_ret (Valid b) | Invalid e => eff_ret (Invalid e) end.
(** error_utils.rs 172-182 *)
Definition va_fmap_error_e {E G A} (v : validated E A) (f : E -> eff G) : eff (validated G A) :=
  match v with Valid t => eff_ret (Valid t) | Invalid e => l <- map_collect f e;; eff_ret (Invalid l) end.
(** traits.rs 366-381 [apply], 383-404 [apply_owned] *)
Definition va_apply_e {E A B} (vf : validated E (A -> eff B)) (value : validated E A) : eff (validated E B) :=
  match vf, value with
  | Valid f, Valid a => b <- f a;; eff_ret (Valid b)
  | Valid _, Invalid e => eff_ret (Invalid e)
  | Invalid e, Valid _ => eff_ret (Invalid e)
  | Invalid e1, Invalid e2 => eff_ret (Invalid (e1 ++ e2))
  end.
Definition va_apply_owned_e {E A B} (vf : validated E (A -> eff B)) (value : validated E A) : eff (validated E B) :=
  match vf, value with
  | Valid f, Valid x => b <- f x;; eff_ret (Valid b)
  | a, b => eff_ret (Invalid (extend_if_invalid (extend_if_invalid [] a) b))
  end.
(** traits.rs 406-430 [lift2], 432-455 [lift2_owned] *)
Definition va_lift2_e {E A B C} (f : A -> B -> eff C) (fa : validated E A) (fb : validated E B) : eff (validated E C) :=
  match fa, fb with
  | Valid a, Valid b => c <- f a b;; eff_ret (Valid c)
  | _, _ => eff_ret (Invalid (extend_if_invalid (extend_if_invalid [] fa) fb))
  end.
(** traits.rs 458-489 [lift3], 491-529 [lift3_owned] *)
Definition va_lift3_e {E A B C D} (f : A -> B -> C -> eff D) (fa : validated E A) (fb : validated E B) (fc : validated E C) : eff (validated E D) :=
  match fa, fb, fc with
  | Valid a, Valid b, Valid c => d <- f a b c;; eff_ret (Valid d)
  | _, _, _ => eff_ret (Invalid (extend_if_invalid (extend_if_invalid (extend_if_invalid [] fa) fb) fc))
  end.
Definition va_lift3_owned_e {E A B C D} (f : A -> B -> C -> eff D) (fa : validated E A) (fb : validated E B) (fc : validated E C) : eff (validated E D) :=
  match fa, fb, fc with
  | Valid a, Valid b_val, Valid c_val => d <- f a b_val c_val;; eff_ret (Valid d)
  | Invalid e1, Invalid e2, Invalid e3 => eff_ret (Invalid ((e1 ++ e2) ++ e3))
  | a, b, c => eff_ret (Invalid (extend_if_invalid (extend_if_invalid (extend_if_invalid [] a) b) c))
  end.
(** traits.rs 590-599 [bind], 615-624 [bind_owned] *)
Definition va_bind_e {E A B} (v : validated E A) (f : A -> eff (validated E B)) : eff (validated E B) :=
  match v with Valid a => f a | Invalid e => eff_ret (Invalid e) end.

(** ** Id *)
(** id.rs 414-419 [fmap], 422-427 [fmap_owned]; 439-444 [apply], 474-481 [apply_owned]; 447-456 [lift2],
    484-493 [lift2_owned]; 459-471 [lift3], 496-508 [lift3_owned]; 562-567 [bind], 578-585 [bind_owned] *)
Definition id_fmap_e {A B} (i : id_ A) (f : A -> eff B) : eff (id_ B) := b <- f (id_value i);; eff_ret (mkId b).
Definition id_apply_e {A B} (i : id_ (A -> eff B)) (value : id_ A) : eff (id_ B) :=
  b <- (id_value i) (id_value value);; eff_ret (mkId b).
Definition id_lift2_e {A B C} (f : A -> B -> eff C) (fa : id_ A) (fb : id_ B) : eff (id_ C) :=
  c <- f (id_value fa) (id_value fb);; eff_ret (mkId c).
Definition id_lift3_e {A B C D} (f : A -> B -> C -> eff D) (fa : id_ A) (fb : id_ B) (fc : id_ C) : eff (id_ D) :=
  d <- f (id_value fa) (id_value fb) (id_value fc);; eff_ret (mkId d).
Definition id_bind_e {A B} (i : id_ A) (f : A -> eff (id_ B)) : eff (id_ B) := f (id_value i).
(** id.rs 672-677 [extend]; 770-776 [fold_left], 779-785 [fold_right] *)
Definition id_extend_e {A B} (i : id_ A) (f : id_ A -> eff B) : eff (id_ B) := b <- f i;; eff_ret (mkId b).
Definition id_fold_left_e {A U} (i : id_ A) (init : U) (f : U -> A -> eff U) : eff U := f init (id_value i).
Definition id_fold_right_e {A U} (i : id_ A) (init : U) (f : A -> U -> eff U) : eff U := f (id_value i) init.

(** ** Writer: [combine] of the logs is also a call of the user's code *)
Section Writer.
Context {L : Type} (combine : L -> L -> eff L).
(** writer.rs 508-516 [fmap], 519-527 [fmap_owned] *)
Definition wr_fmap_e {A B} (w : writer L A) (f : A -> eff B) : eff (writer L B) :=
  value <- f (w_value w);; eff_ret (mkWriter (w_log w) value).
(** writer.rs 592-600 [apply], 793-803 [apply_owned] *)
Definition wr_apply_e {A B} (w : writer L (A -> eff B)) (value : writer L A) : eff (writer L B) :=
  log <- combine (w_log w) (w_log value);; b <- (w_value w) (w_value value);; eff_ret (mkWriter log b).
(** writer.rs 655-667 [lift2], 859-871 [lift2_owned] *)
Definition wr_lift2_e {A B C} (f : A -> B -> eff C) (fa : writer L A) (fb : writer L B) : eff (writer L C) :=
  log <- combine (w_log fa) (w_log fb);; c <- f (w_value fa) (w_value fb);; eff_ret (mkWriter log c).
(** writer.rs 717-732 [lift3], 929-943 [lift3_owned] *)
Definition wr_lift3_e {A B C D} (f : A -> B -> C -> eff D) (fa : writer L A) (fb : writer L B) (fc : writer L C)
  : eff (writer L D) :=
  log1 <- combine (w_log fa) (w_log fb);; log <- combine log1 (w_log fc);;
  value <- f (w_value fa) (w_value fb) (w_value fc);; eff_ret (mkWriter log value).
(** writer.rs 1004-1013 [bind], 1061-1071 [bind_owned] *)
Definition wr_bind_e {A B} (w : writer L A) (f : A -> eff (writer L B)) : eff (writer L B) :=
  result <- f (w_value w);; log <- combine (w_log w) (w_log result);; eff_ret (mkWriter log (w_value result)).
End Writer.

(** ** ErrorPipeline *)
(** context.rs 241-249 [map_error], 274-282 [recover], 308-316 [and_then], 342-350 [map] *)
Definition ep_map_error_e {T E F} (p : epipe T E) (f : E -> eff F) : eff (epipe T F) :=
  r <- match ep_result p with Ok t => eff_ret (Ok t) | Err e => n <- f e;; eff_ret (Err n) end;;
  eff_ret (mkEpipe r (ep_pending p)).
Definition ep_recover_e {T E} (p : epipe T E) (recovery : E -> eff (result T E)) : eff (epipe T E) :=
  r <- match ep_result p with Ok t => eff_ret (Ok t) | Err e => recovery e end;;
  eff_ret (mkEpipe r (ep_pending p)).
Definition ep_and_then_e {T U E} (p : epipe T E) (f : T -> eff (result U E)) : eff (epipe U E) :=
  r <- match ep_result p with Ok t => f t | Err e => eff_ret (Err e) end;;
  eff_ret (mkEpipe r (ep_pending p)).
Definition ep_map_e {T U E} (p : epipe T E) (f : T -> eff U) : eff (epipe U E) :=
  r <- match ep_result p with Ok t => u <- f t;; eff_ret (Ok u) | Err e => eff_ret (Err e) end;;
  eff_ret (mkEpipe r (ep_pending p)).

(** ** monad.rs 272-282 [map_and_pure], 301-311 [try_bind], for a type with [bind] and [pure] *)
Definition default_map_and_pure_e {A B R} (bind : (A -> eff R) -> eff R) (pure : B -> R) (f : A -> eff B) : eff R :=
  bind (fun x => result <- f x;; eff_ret (pure result)).
Definition default_try_bind_e {A B E R} (bind : (A -> eff R) -> eff R) (pure : B -> R) (default : B)
    (f : A -> eff (result R E)) : eff R :=
  bind (fun x => r <- f x;; match r with Ok m => eff_ret m | Err _ => eff_ret (pure default) end).
End Once.

(** Vocabulary for the statements about estimation method objects. *)
From Coq Require Import Reals List Bool Arith String.
From Verif Require Import Base M_CD M_Path M_Ridge M_Factory.
Import ListNotations.

(** A program starts with the objects the user has built and no estimator. *)
Definition start (h0 : heap) : world := mk_world h0 [].

(** The references among the arguments are to objects the user has built. *)
Definition user_refs (h0 : heap) (args : list marg) : Prop :=
  forall a, In (MRef a) args -> (a < List.length h0)%nat.

(** The calls for parameter [p] and their results, out of all calls and results. *)
Definition calls_for (p : nat) (cs : list (nat * call)) : list call :=
  map snd (filter (fun c => Nat.eqb (fst c) p) cs).
Definition results_for (p : nat) (cs : list (nat * call)) (rs : list (res out)) : list (res out) :=
  map snd (filter (fun c => Nat.eqb (fst (fst c)) p) (combine cs rs)).

(** The three names and the objects they stand for: ordinary least squares, and 100 penalties
    down to 1/10000 of the largest, cyclic coordinate descent without bounds and early stop,
    fits warm-started along the path and updates at the previous fit, tolerance 1/10000, at most
    1000 iterations, with mixing parameter 1 (lasso) or 1/2 (elastic net). *)
Definition penalised (mixing : R) : mobj :=
  OEn {| en_alpha := mixing; en_n := 100; en_eps := (1 / 10000)%R; en_early_stop := 0;
         en_start_initial := previous_lambda; en_start_update := previous_fit; en_random := false;
         en_lower := None; en_upper := None; en_tol := (1 / 10000)%R; en_maxit := 1000 |}.
Definition named (s : string) : option mobj :=
  if String.eqb s "ols" then Some OOls
  else if String.eqb s "elasticnet" then Some (penalised (1 / 2)%R)
  else if String.eqb s "lasso" then Some (penalised 1%R)
  else None.

(** The object which the argument stands for, before any call. *)
Definition pristine (h0 : heap) (m : marg) : option mobj :=
  match m with
  | MName s => named s
  | MRef a => nth_error h0 a
  | MOther => None
  end.

(** The event is not one of estimator [i]. *)
Definition of_other (i : nat) (ev : event) : Prop :=
  match ev with ENew _ => True | EFit j _ | EUpdate j _ => j <> i end.

(** The same ridge object with the penalty given. *)
Definition with_penalty (r : ridge_cfg) (l : R) : ridge_cfg :=
  mk_ridge (Some l) (ri_start r) (ri_random r) (ri_lower r) (ri_upper r) (ri_tol r) (ri_maxit r).

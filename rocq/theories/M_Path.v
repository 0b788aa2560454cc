(** Model of [src/ondil/methods/elasticnet.py] (and [lasso_path.py], which is
    [ElasticNetPath] with [alpha = 1.0], lasso_path.py:63-75). Real arithmetic. *)
From Coq Require Import Reals List Bool Arith.
From Verif Require Import Base Lin M_CD.
Import ListNotations.
Open Scope R_scope.

(** [np.max] over indices [0..n]. *)
Fixpoint vmax (n : nat) (v : vec) : R :=
  match n with O => v 0%nat | S m => Rmax (vmax m v) (v (S m)) end.

(** [np.max] of an array of length [J]; an empty array raises ValueError. *)
Definition np_max (J : nat) (v : vec) : res R :=
  match J with O => Raise ValueError | S n => Ok (vmax n v) end.

Definition unregularized (J : nat) (isreg : nat -> bool) : list nat :=
  filter (fun j => negb (isreg j)) (seq 0 J).

(** elasticnet.py:90-102 [_get_lambda_max]. With a zero diagonal entry the numpy
    division gives NaN or inf (and coordinate descent divides by the same entry
    and raises); the model raises ZeroDivisionError right here. *)
Definition get_lambda_max (J : nat) (x : mat) (y : vec) (isreg : nat -> bool) : res R :=
  match unregularized J isreg with
  | [] => np_max J y
  | [u] =>
      if Reqb (x u u) 0 then Raise ZeroDivisionError
      else let intercept := y u / x u u in
           np_max J (fun k => Rabs (y k - x u k * intercept))
  | _ => Raise NotImplementedErr
  end.

(** [np.geomspace(start, stop, num)] (called in elasticnet.py:137-139, 162-164).
    It raises ValueError if either end is zero; ends of opposite sign (complex
    result in numpy) do not occur for [lambda_eps > 0]. *)
Definition geomspace (start stop : R) (num : nat) : res (list R) :=
  if Reqb start 0 || Reqb stop 0 then Raise ValueError
  else Ok (map (fun i => start * Rpower (stop / start) (INR i / INR (num - 1))) (seq 0 num)).

(** Attributes of the estimation object, elasticnet.py:75-87. *)
Record en_cfg := mk_en {
  en_alpha : R; en_n : nat; en_eps : R; en_early_stop : nat;
  en_start_initial : start_value; en_start_update : start_value;
  en_random : bool;                           (* selection == "random" *)
  en_lower : option (list (option R));        (* beta_lower_bound *)
  en_upper : option (list (option R));
  en_tol : R; en_maxit : nat
}.

(** elasticnet.py:104-109: a missing bound becomes the infinite bound. *)
Definition fill_bound (b : option (list (option R))) (J : nat) : list (option R) :=
  match b with None => repeat None J | Some l => l end.

(** elasticnet.py:104-114 [_set_and_validate_bounds]: returns the object with the
    attributes set, or ValueError. *)
Definition set_and_validate_bounds (c : en_cfg) (J : nat) : res en_cfg :=
  let lo := fill_bound (en_lower c) J in
  let up := fill_bound (en_upper c) J in
  if negb (Nat.eqb (length lo) J) then Raise ValueError
  else if negb (Nat.eqb (length up) J) then Raise ValueError
  else Ok (mk_en (en_alpha c) (en_n c) (en_eps c) (en_early_stop c)
             (en_start_initial c) (en_start_update c) (en_random c)
             (Some lo) (Some up) (en_tol c) (en_maxit c)).

Definition bound_fun (b : option (list (option R))) : nat -> option R :=
  match b with None => fun _ => None | Some l => fun j => nth j l None end.

Definition en_args (c : en_cfg) (J : nat) (x : mat) (y : vec) (isreg : nat -> bool) : cd_args :=
  mk_cd J x y 0 isreg (en_alpha c) (bound_fun (en_lower c)) (bound_fun (en_upper c)).

(** elasticnet.py:132-156 [fit_beta_path]; also returns the object after the call. *)
Definition fit_beta_path (c : en_cfg) (perm : nat -> nat -> list nat)
    (J : nat) (x : mat) (y : vec) (isreg : nat -> bool)
  : res (en_cfg * (nat -> vec)) :=
  do c <- set_and_validate_bounds c J;
  do lambda_max <- get_lambda_max J x y isreg;
  do lambda_path <- geomspace lambda_max (lambda_max * en_eps c) (en_n c);
  do r <- online_coordinate_descent_path (en_args c J x y isreg) (en_random c) perm
            (en_tol c) (en_maxit c) (en_early_stop c) (en_start_initial c)
            (fun _ _ => 0) lambda_path;
  Ok (c, fst r).

(** elasticnet.py:158-180 [update_beta_path]. *)
Definition update_beta_path (c : en_cfg) (perm : nat -> nat -> list nat)
    (J : nat) (x : mat) (y : vec) (beta_path : nat -> vec) (isreg : nat -> bool)
  : res (nat -> vec) :=
  do lambda_max <- get_lambda_max J x y isreg;
  do lambda_path <- geomspace lambda_max (lambda_max * en_eps c) (en_n c);
  do r <- online_coordinate_descent_path (en_args c J x y isreg) (en_random c) perm
            (en_tol c) (en_maxit c) (en_early_stop c) (en_start_update c)
            beta_path lambda_path;
  Ok (fst r).

(** A stream of updates of the path: Gramians and visiting orders per update. *)
Fixpoint update_paths (c : en_cfg) (J : nat) (isreg : nat -> bool) (P : nat -> vec)
    (us : list ((nat -> nat -> list nat) * mat * vec)) : res (nat -> vec) :=
  match us with
  | [] => Ok P
  | (perm, x, y) :: us' =>
      do P' <- update_beta_path c perm J x y P isreg; update_paths c J isreg P' us'
  end.

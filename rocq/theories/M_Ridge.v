(** Model of [src/ondil/methods/ridge.py]. Real arithmetic; [inv] is the oracle for
    [np.linalg.matrix_rank] and [np.linalg.inv] ([None]: not of full rank). *)
From Coq Require Import Reals List Bool Arith.
From Verif Require Import Base Lin M_CD M_Path.
Import ListNotations.
Open Scope R_scope.

(** ridge.py:52-58. [start_beta] must be one-dimensional (ridge.py:108-111 raises
    otherwise); a vector here always is. *)
Record ridge_cfg := mk_ridge {
  ri_lambda : option R; ri_start : option vec; ri_random : bool;
  ri_lower : option (list (option R)); ri_upper : option (list (option R));
  ri_tol : R; ri_maxit : nat
}.

Definition mtrace (J : nat) (x : mat) : R := bsum J (fun j => x j j).

(** ridge.py:60-70. *)
Definition ridge_bounds (c : ridge_cfg) (J : nat) : res ridge_cfg :=
  let lo := fill_bound (ri_lower c) J in
  let up := fill_bound (ri_upper c) J in
  if negb (Nat.eqb (length lo) J) then Raise ValueError
  else if negb (Nat.eqb (length up) J) then Raise ValueError
  else Ok (mk_ridge (ri_lambda c) (ri_start c) (ri_random c) (Some lo) (Some up) (ri_tol c) (ri_maxit c)).

(** ridge.py:93-102. *)
Definition ridge_start (inv : nat -> mat -> option mat) (c : ridge_cfg) (J : nat) (x : mat) (y : vec) : vec :=
  match ri_start c with
  | Some b => b
  | None => match inv J x with Some xi => mvec J xi y | None => fun _ => 0 end
  end.

(** ridge.py:104-105. *)
Definition ridge_lambda (c : ridge_cfg) (J : nat) (x : mat) : R :=
  match ri_lambda c with Some l => l | None => mtrace J x / INR J end.

Definition ridge_args (c : ridge_cfg) (lambda : R) (J : nat) (x : mat) (y : vec) (isreg : nat -> bool) : cd_args :=
  mk_cd J x y lambda isreg 0 (bound_fun (ri_lower c)) (bound_fun (ri_upper c)).

(** ridge.py:88-126 [fit_beta]; also returns the object after the call. *)
Definition ridge_fit (inv : nat -> mat -> option mat) (c : ridge_cfg) (perm : nat -> list nat)
    (J : nat) (x : mat) (y : vec) (isreg : nat -> bool) : res (ridge_cfg * vec) :=
  do c <- ridge_bounds c J;
  let beta := ridge_start inv c J x y in
  let lambda := ridge_lambda c J x in
  let c := mk_ridge (Some lambda) (ri_start c) (ri_random c) (ri_lower c) (ri_upper c) (ri_tol c) (ri_maxit c) in
  do r <- online_coordinate_descent (ridge_args c lambda J x y isreg) (ri_random c) perm
            (ri_tol c) (ri_maxit c) beta;
  Ok (c, fst r).

(** ridge.py:128-142 [update_beta]. Before any fit [lambda_reg] can be [None] and
    numba rejects it (TypingError, modelled as TypeError). *)
Definition ridge_update (c : ridge_cfg) (perm : nat -> list nat)
    (J : nat) (x : mat) (y : vec) (beta : vec) (isreg : nat -> bool) : res vec :=
  match ri_lambda c with
  | None => Raise TypeError
  | Some lambda =>
      do r <- online_coordinate_descent (ridge_args c lambda J x y isreg) (ri_random c) perm
                (ri_tol c) (ri_maxit c) beta;
      Ok (fst r)
  end.

(** A fit followed by a stream of updates with new Gramians (as the estimators do). *)
Fixpoint ridge_updates (c : ridge_cfg) (J : nat) (isreg : nat -> bool) (beta : vec)
    (us : list ((nat -> list nat) * mat * vec)) : res vec :=
  match us with
  | [] => Ok beta
  | (perm, x, y) :: us' => do b <- ridge_update c perm J x y beta isreg; ridge_updates c J isreg b us'
  end.

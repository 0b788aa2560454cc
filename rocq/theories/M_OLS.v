(** Model of [src/ondil/methods/recursive_least_squares.py]
    ([OrdinaryLeastSquares]), driven the way the estimators drive it: a first
    batch through [init_x_gram], [init_y_gram], [fit_beta], later batches
    through [update_x_gram], [update_y_gram], [update_beta]
    (online_linear_model.py:144-149,170-172,206-211,231-236). *)
From Coq Require Import Reals List.
From Verif Require Import Base Lin Data M_Gram.
Import ListNotations.
Open Scope R_scope.

Record ols_state := mk_ols { ols_x : mat; ols_y : vec; ols_coef : vec }.

(** recursive_least_squares.py:59-65 [fit_beta] and 67-74 [update_beta]:
    [(x_gram @ y_gram).squeeze(-1)]. *)
Definition ols_beta (p : nat) (x_gram : mat) (y_gram : vec) : vec := mvec p x_gram y_gram.

(** recursive_least_squares.py:20-27 and 59-65. *)
Definition ols_fit (inv : nat -> mat -> option mat) (p : nat) (forget : R) (b : list obs)
  : res ols_state :=
  do xg <- init_inverted_gram inv p (Xs b) (ws b) forget;
  let yg := init_y_gram (Xs b) (ys b) (ws b) forget in
  Ok (mk_ols xg yg (ols_beta p xg yg)).

(** recursive_least_squares.py:30-43 and 67-74. *)
Definition ols_update (p : nat) (forget : R) (s : ols_state) (b : list obs) : res ols_state :=
  do xg <- update_inverted_gram p (ols_x s) (Xs b) forget (ws b);
  let yg := update_y_gram (ols_y s) (Xs b) (ys b) forget (ws b) in
  Ok (mk_ols xg yg (ols_beta p xg yg)).

(** A fit followed by updates with the given batches, stopping at the first
    exception. *)
Fixpoint ols_updates (p : nat) (forget : R) (s : ols_state) (bs : list (list obs)) : res ols_state :=
  match bs with
  | [] => Ok s
  | b :: bs' => do s' <- ols_update p forget s b; ols_updates p forget s' bs'
  end.
Definition ols_history inv p forget b0 bs : res ols_state :=
  do s <- ols_fit inv p forget b0; ols_updates p forget s bs.

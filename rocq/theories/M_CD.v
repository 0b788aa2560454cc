(** Model of [src/ondil/coordinate_descent.py]. Vectors are index functions of
    length [J]; real arithmetic. Coefficient bounds are [option R]: [None] is
    [-inf] for a lower and [+inf] for an upper bound (other infinities are not
    representable). *)
From Coq Require Import Reals List Bool Arith.
From Verif Require Import Base Lin.
Import ListNotations.
Open Scope R_scope.

(** [np.sign]. *)
Definition rsign (x : R) : R := if Rltb 0 x then 1 else if Rltb x 0 then -1 else 0.

(** coordinate_descent.py:8-23 [soft_threshold]. *)
Definition soft_threshold (value threshold : R) : R :=
  rsign value * Rmax (Rabs value - threshold) 0.

(** The read-only arguments of [online_coordinate_descent]
    (coordinate_descent.py:31-43). *)
Record cd_args := mk_cd {
  cd_J : nat;                       (* beta.shape[0] *)
  cd_x : mat;                       (* x_gram *)
  cd_y : vec;                       (* y_gram *)
  cd_reg : R;                       (* regularization *)
  cd_isreg : nat -> bool;           (* is_regularized *)
  cd_alpha : R;
  cd_lo : nat -> option R;          (* beta_lower_bound *)
  cd_up : nat -> option R           (* beta_upper_bound *)
}.

(** [max(v, lower)] and [min(v, upper)] with possibly infinite bounds. *)
Definition max_lo (v : R) (lo : option R) : R := match lo with Some l => Rmax v l | None => v end.
Definition min_up (v : R) (up : option R) : R := match up with Some u => Rmin v u | None => v end.

(** Array assignment [b[j] = v]. *)
Definition vset (b : vec) (j : nat) (v : R) : vec := fun k => if Nat.eqb k j then v else b k.

(** coordinate_descent.py:76-78. *)
Definition cd_partial (a : cd_args) (beta : vec) (j : nat) : R :=
  cd_y a j - bsum (cd_J a) (fun k => cd_x a j k * beta k) + cd_x a j j * beta j.

(** coordinate_descent.py:79-83: numerator and denominator. *)
Definition cd_num (a : cd_args) (beta : vec) (j : nat) : R :=
  if cd_isreg a j then soft_threshold (cd_partial a beta j) (cd_alpha a * cd_reg a)
  else cd_partial a beta j.
Definition cd_den (a : cd_args) (j : nat) : R :=
  if cd_isreg a j then cd_x a j j + cd_reg a * (1 - cd_alpha a) else cd_x a j j.

(** coordinate_descent.py:84-86: the new value of coordinate [j]. Scalar division
    by zero raises under numba's default error model. *)
Definition cd_coord (a : cd_args) (beta : vec) (j : nat) : res R :=
  if Reqb (cd_den a j) 0 then Raise ZeroDivisionError
  else Ok (min_up (max_lo (cd_num a beta j / cd_den a j) (cd_lo a j)) (cd_up a j)).

(** coordinate_descent.py:75-86: visit coordinate [j]; [first] is [i < 2]. *)
Definition cd_visit (a : cd_args) (first : bool) (beta : vec) (j : nat) : res vec :=
  if first || negb (Reqb (beta j) 0) then
    do v <- cd_coord a beta j; Ok (vset beta j v)
  else Ok beta.

(** coordinate_descent.py:74-86: one sweep in the order [JJ]. *)
Fixpoint cd_sweep (a : cd_args) (first : bool) (JJ : list nat) (beta : vec) : res vec :=
  match JJ with
  | [] => Ok beta
  | j :: JJ' => do b <- cd_visit a first beta j; cd_sweep a first JJ' b
  end.

(** [np.max(np.abs(v))] of an array of length [n]; [n >= 1] in the code. *)
Fixpoint max_abs (n : nat) (v : vec) : R :=
  match n with O => 0 | S m => Rmax (max_abs m v) (Rabs (v m)) end.

(** coordinate_descent.py:71-72. [perm i] is what [np.random.permutation(J)]
    returns in iteration [i]; it is an arbitrary oracle. *)
Definition cd_order (a : cd_args) (random : bool) (perm : nat -> list nat) (i : nat) : list nat :=
  if random && (2 <=? i)%nat then perm i else seq 0 (cd_J a).

(** coordinate_descent.py:67-90: the [while True] loop. [i] is the counter before
    the increment. *)
Fixpoint cd_loop (fuel : nat) (a : cd_args) (random : bool) (perm : nat -> list nat)
    (tolerance : R) (max_iterations : nat) (i : nat) (beta_now : vec) : res (vec * nat) :=
  match fuel with
  | O => Raise OutOfFuel
  | S fuel' =>
      let i := S i in
      let beta_star := beta_now in
      let JJ := cd_order a random perm i in
      do beta_now <- cd_sweep a (i <? 2)%nat JJ beta_now;
      if Rleb (max_abs (cd_J a) (fun k => beta_now k - beta_star k))
              (tolerance * max_abs (cd_J a) beta_now)
      then Ok (beta_now, i)
      else if (max_iterations <? i)%nat then Ok (beta_now, i)
      else cd_loop fuel' a random perm tolerance max_iterations i beta_now
  end.

(** coordinate_descent.py:31-91 [online_coordinate_descent]. The loop is left at
    the latest when the counter reaches [max_iterations + 1]. *)
Definition online_coordinate_descent (a : cd_args) (random : bool) (perm : nat -> list nat)
    (tolerance : R) (max_iterations : nat) (beta : vec) : res (vec * nat) :=
  cd_loop (S max_iterations) a random perm tolerance max_iterations 0 beta.

(** * The regularisation path, coordinate_descent.py:99-166 *)

Inductive start_value := previous_lambda | previous_fit | average.

Definition is_average (w : start_value) : bool := match w with average => true | _ => false end.
Definition is_previous_lambda (w : start_value) : bool :=
  match w with previous_lambda => true | _ => false end.

(** coordinate_descent.py:141-146: two consecutive [if] statements, the second
    one with an [else]. [beta0] is the (possibly unset) variable [beta] before. *)
Definition path_start (w : start_value) (beta_path_new beta_path : nat -> vec) (i : nat) : vec :=
  let beta : option vec :=
    if is_average w
    then Some (fun k => (beta_path_new (pred i) k + beta_path i k) / 2) else None in
  let beta : vec :=
    if is_previous_lambda w then beta_path_new (pred i) else beta_path i in
  beta.

(** [np.count_nonzero] of an array of length [n]. *)
Fixpoint count_nonzero (n : nat) (v : vec) : nat :=
  match n with
  | O => 0%nat
  | S m => (count_nonzero m v + if Reqb (v m) 0 then 0 else 1)%nat
  end.

Definition with_reg (a : cd_args) (lambda : R) : cd_args :=
  mk_cd (cd_J a) (cd_x a) (cd_y a) lambda (cd_isreg a) (cd_alpha a) (cd_lo a) (cd_up a).

(** Row assignment [P[i, :] = b]. *)
Definition rset (P : nat -> vec) (i : nat) (b : vec) : nat -> vec :=
  fun k => if Nat.eqb k i then b else P k.

(** coordinate_descent.py:139-164: the loop over [enumerate(lambda_path)],
    starting at index [i]. [perm l i] is the permutation drawn in iteration [i] of
    the coordinate descent for path index [l]. *)
Fixpoint path_loop (a : cd_args) (random : bool) (perm : nat -> nat -> list nat)
    (tolerance : R) (max_iterations early_stop : nat) (w : start_value)
    (beta_path : nat -> vec) (i : nat) (lambdas : list R)
    (beta_path_new : nat -> vec) (iterations : list nat)
  : res ((nat -> vec) * list nat) :=
  match lambdas with
  | [] => Ok (beta_path_new, iterations)
  | lambda :: rest =>
      let beta := path_start w beta_path_new beta_path i in
      if (0 <? early_stop)%nat && (early_stop <=? count_nonzero (cd_J a) beta)%nat then
        path_loop a random perm tolerance max_iterations early_stop w beta_path (S i) rest
          (rset beta_path_new i beta) (iterations ++ [0%nat])
      else
        do r <- online_coordinate_descent (with_reg a lambda) random (perm i)
                  tolerance max_iterations beta;
        path_loop a random perm tolerance max_iterations early_stop w beta_path (S i) rest
          (rset beta_path_new i (fst r)) (iterations ++ [snd r])
  end.

(** coordinate_descent.py:99-166 [online_coordinate_descent_path]; the field
    [cd_reg] of [a] is not used. [beta_path_new] starts as zeros (line 136). *)
Definition online_coordinate_descent_path (a : cd_args) (random : bool)
    (perm : nat -> nat -> list nat) (tolerance : R) (max_iterations early_stop : nat)
    (w : start_value) (beta_path : nat -> vec) (lambda_path : list R)
  : res ((nat -> vec) * list nat) :=
  path_loop a random perm tolerance max_iterations early_stop w beta_path 0 lambda_path
    (fun _ _ => 0) [].

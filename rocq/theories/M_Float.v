(** Model in IEEE 754 binary64 arithmetic (round to nearest even, with signed zeros,
    infinities and NaN) of the parts of the code whose behaviour depends on
    rounding: [coordinate_descent.py], [scaler.py] for one column, and pieces of
    [links/]. The number format is Flocq's. *)
From Coq Require Import ZArith List Bool Arith.
From Flocq Require Import Core BinarySingleNaN.
From Verif Require Import Base M_CD.
Import ListNotations.

(** [np.float64]: 53 bits, largest exponent 1024. *)
#[global] Instance prec64 : Prec_gt_0 53 := eq_refl.
#[global] Instance emax64 : Prec_lt_emax 53 1024 := eq_refl.
Definition float := binary_float 53 1024.
Definition fvec := nat -> float.

(** Arithmetic of float64. *)
Definition fadd : float -> float -> float := Bplus mode_NE.
Definition fsub : float -> float -> float := Bminus mode_NE.
Definition fmul : float -> float -> float := Bmult mode_NE.
Definition fdiv : float -> float -> float := Bdiv mode_NE.
Definition fsqrt : float -> float := Bsqrt mode_NE.
Definition fabs : float -> float := Babs.
Definition fopp : float -> float := Bopp.
(** [==], [<] and [<=]; false if an operand is NaN. *)
Definition feq : float -> float -> bool := Beqb.
Definition flt : float -> float -> bool := Bltb.
Definition fle : float -> float -> bool := Bleb.
(** Integer literals. *)
Definition fint (z : Z) : float := binary_normalize 53 1024 prec64 emax64 mode_NE z 0 false.

(** * coordinate_descent.py *)

(** [np.sign]. *)
Definition fsign (v : float) : float :=
  if is_nan v then v else if flt (fint 0) v then fint 1 else if flt v (fint 0) then fint (-1) else fint 0.
(** [np.maximum]: NaN if an operand is NaN. *)
Definition fmaximum (a b : float) : float :=
  if is_nan a then a else if is_nan b then b else if fle b a then a else b.
(** coordinate_descent.py:8-23 [soft_threshold]. *)
Definition fsoft (value threshold : float) : float :=
  fmul (fsign value) (fmaximum (fsub (fabs value) threshold) (fint 0)).

(** The builtins [max(a, b)] and [min(a, b)]. *)
Definition pymax (a b : float) : float := if flt a b then b else a.
Definition pymin (a b : float) : float := if flt b a then b else a.

(** The arguments of [online_coordinate_descent] (coordinate_descent.py:31-43).
    [fc_dot j beta] is the value of [x_gram[j, :] @ beta]: how the product is
    summed up is left open. *)
Record fcd_args := mk_fcd {
  fc_J : nat;
  fc_diag : fvec;                   (* x_gram[j, j] *)
  fc_dot : nat -> fvec -> float;
  fc_y : fvec;
  fc_reg : float;
  fc_isreg : nat -> bool;
  fc_alpha : float;
  fc_lo : fvec;
  fc_up : fvec
}.

Definition fvset (b : fvec) (j : nat) (v : float) : fvec := fun k => if Nat.eqb k j then v else b k.

(** coordinate_descent.py:76-78. *)
Definition fcd_update (a : fcd_args) (beta : fvec) (j : nat) : float :=
  fadd (fsub (fc_y a j) (fc_dot a j beta)) (fmul (fc_diag a j) (beta j)).
(** coordinate_descent.py:79-83. *)
Definition fcd_num (a : fcd_args) (beta : fvec) (j : nat) : float :=
  if fc_isreg a j then fsoft (fcd_update a beta j) (fmul (fc_alpha a) (fc_reg a)) else fcd_update a beta j.
Definition fcd_den (a : fcd_args) (j : nat) : float :=
  if fc_isreg a j then fadd (fc_diag a j) (fmul (fc_reg a) (fsub (fint 1) (fc_alpha a))) else fc_diag a j.
(** coordinate_descent.py:84-86; numba raises on a zero denominator. *)
Definition fcd_coord (a : fcd_args) (beta : fvec) (j : nat) : res float :=
  if feq (fcd_den a j) (fint 0) then Raise ZeroDivisionError
  else Ok (pymin (pymax (fdiv (fcd_num a beta j) (fcd_den a j)) (fc_lo a j)) (fc_up a j)).
(** coordinate_descent.py:75-86; [first] is [i < 2]. *)
Definition fcd_visit (a : fcd_args) (first : bool) (beta : fvec) (j : nat) : res fvec :=
  if first || negb (feq (beta j) (fint 0)) then do v <- fcd_coord a beta j; Ok (fvset beta j v) else Ok beta.
(** coordinate_descent.py:74-86. *)
Fixpoint fcd_sweep (a : fcd_args) (first : bool) (JJ : list nat) (beta : fvec) : res fvec :=
  match JJ with
  | [] => Ok beta
  | j :: JJ' => do b <- fcd_visit a first beta j; fcd_sweep a first JJ' b
  end.

(** [np.max(np.abs(v))] of an array of length [n] (at least one in the code); NaN if an entry is NaN. *)
Fixpoint fmax_abs (n : nat) (v : fvec) : float :=
  match n with O => fint 0 | S m => fmaximum (fmax_abs m v) (fabs (v m)) end.

(** coordinate_descent.py:71-72, as in the model over the reals. *)
Definition fcd_order (a : fcd_args) (random : bool) (perm : nat -> list nat) (i : nat) : list nat :=
  if random && (2 <=? i)%nat then perm i else seq 0 (fc_J a).

(** coordinate_descent.py:67-90. *)
Fixpoint fcd_loop (fuel : nat) (a : fcd_args) (random : bool) (perm : nat -> list nat)
    (tolerance : float) (max_iterations : nat) (i : nat) (beta_now : fvec) : res (fvec * nat) :=
  match fuel with
  | O => Raise OutOfFuel
  | S fuel' =>
      let i := S i in
      let beta_star := beta_now in
      do beta_now <- fcd_sweep a (i <? 2)%nat (fcd_order a random perm i) beta_now;
      if fle (fmax_abs (fc_J a) (fun k => fsub (beta_now k) (beta_star k)))
             (fmul tolerance (fmax_abs (fc_J a) beta_now))
      then Ok (beta_now, i)
      else if (max_iterations <? i)%nat then Ok (beta_now, i)
      else fcd_loop fuel' a random perm tolerance max_iterations i beta_now
  end.
(** coordinate_descent.py:31-91 [online_coordinate_descent]. *)
Definition float_coordinate_descent (a : fcd_args) (random : bool) (perm : nat -> list nat)
    (tolerance : float) (max_iterations : nat) (beta : fvec) : res (fvec * nat) :=
  fcd_loop (S max_iterations) a random perm tolerance max_iterations 0 beta.

(** * scaler.py, one column. *)

(** gram.py:27-35 [init_forget_vector]: newest last. [forget_rev] lists it newest
    first. *)
Fixpoint forget_rev (gamma : float) (n : nat) (w : float) : list float :=
  match n with O => [] | S n' => w :: forget_rev gamma n' (fmul w gamma) end.
Definition fforget_vector (forget : float) (size : nat) : list float :=
  let gamma := fsub (fint 1) forget in
  if feq gamma (fint 1) then repeat (fint 1) size else rev (forget_rev gamma size (fint 1)).

(** [np.sum] along the first axis: row by row. *)
Definition fsum (l : list float) : float :=
  match l with [] => fint 0 | x :: l' => fold_left fadd l' x end.
(** [np.average(x, weights=w)]. *)
Definition faverage (x w : list float) : float :=
  fdiv (fsum (map (fun xw => fmul (fst xw) (snd xw)) (combine x w))) (fsum w).

(** Attributes [_cumulative_w], [mean_], [_M] and [var_]. *)
Record fscaler := mk_fscaler { fs_w : float; fs_mean : float; fs_M : float; fs_var : float }.

(** scaler.py:97-110 [fit]. *)
Definition fscaler_fit (forget : float) (x sample_weight : list float) : fscaler :=
  let w := map (fun uv => fmul (fst uv) (snd uv)) (combine sample_weight (fforget_vector forget (length x))) in
  let cw := fsum w in
  let mean := faverage x w in
  let var := faverage (map (fun xi => let d := fsub xi mean in fmul d d) x) w in
  mk_fscaler cw mean (fmul var cw) var.

(** scaler.py:137-156: one row of [update] with weight [w]. *)
Definition fscaler_row (forget : float) (s : fscaler) (x w : float) : fscaler :=
  let eff_old_w := fmul (fs_w s) (fsub (fint 1) forget) in
  let cw := fadd eff_old_w w in
  let diff_old := fsub x (fs_mean s) in
  let mean := fdiv (fadd (fmul (fs_mean s) eff_old_w) (fmul x w)) cw in
  let diff_new := fsub x mean in
  let M := fadd (fmul (fs_M s) (fsub (fint 1) forget)) (fmul (fmul w diff_old) diff_new) in
  mk_fscaler cw mean M (fdiv M cw).
Definition fscaler_update (forget : float) (s : fscaler) (rows : list (float * float)) : fscaler :=
  fold_left (fun s xw => fscaler_row forget s (fst xw) (snd xw)) rows s.
(** scaler.py:183-186 [transform]. *)
Definition fscaler_transform (s : fscaler) (x : float) : float :=
  fdiv (fsub x (fs_mean s)) (fsqrt (fs_var s)).
(** scaler.py:209-214 [inverse_transform]. *)
Definition fscaler_inverse (s : fscaler) (x : float) : float :=
  fadd (fmul x (fsqrt (fs_var s))) (fs_mean s).

(** * links/robust_math.py and the inverses of the link functions.

    [exp] and [log] are [np.exp] and [np.log] for float64. *)

(** robust_math.py:5, a whole number below 2^53. *)
Definition flarge_number : float := fint 1000000000000000.
(** robust_math.py:26-34 [robust_exp]; robust_math.py:7 for [LOG_LARGE_NUMBER]. *)
Definition frobust_exp (exp log : float -> float) (x : float) : float :=
  if flt (log flarge_number) x then flarge_number else exp x.
(** robust_math.py:48-52 [robust_softplus]. *)
Definition frobust_softplus (exp log : float -> float) (value : float) : float :=
  if flt (fint 40) value then value else log (fadd (fint 1) (exp value)).

(** loglinks.py:24-25 [Log.inverse]. *)
Definition flog_inverse (exp log : float -> float) (x : float) : float := frobust_exp exp log x.
(** loglinks.py:57-58 [LogShiftValue.inverse]. *)
Definition flogshift_inverse (exp log : float -> float) (value x : float) : float :=
  fadd value (frobust_exp exp log x).
(** loglinks.py:101-102 [LogIdent.inverse]. *)
Definition flogident_inverse (exp log : float -> float) (x : float) : float :=
  if fle x (fint 0) then frobust_exp exp log x else fadd x (fint 1).
(** logitlinks.py:21-22 [Logit.inverse]. *)
Definition flogit_inverse (exp log : float -> float) (x : float) : float :=
  fdiv (frobust_exp exp log x) (fadd (frobust_exp exp log x) (fint 1)).
(** softpluslinks.py:36-37 [InverseSoftPlus.inverse]. *)
Definition fsoftplus_inverse (exp log : float -> float) (x : float) : float := frobust_softplus exp log x.
(** softpluslinks.py:69-70 [InverseSoftPlusShiftValue.inverse]. *)
Definition fsoftplusshift_inverse (exp log : float -> float) (value x : float) : float :=
  fadd (frobust_softplus exp log x) value.

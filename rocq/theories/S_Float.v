(** Specification: rounding of a real number to binary64 and what is asked of the
    elementary functions of the C library. *)
From Coq Require Import Reals.
From Flocq Require Import Core BinarySingleNaN.
From Verif Require Import M_Float.
Open Scope R_scope.

(** Nearest number of the form m * 2^e with |m| < 2^53 and e >= -1074, ties to even. *)
Definition rnd64 (x : R) : R := round radix2 (FLT_exp (-1074) 53) ZnearestE x.

(** [np.exp] is right up to a relative error of 2^-50 (at least four units in the last
    place) plus the smallest positive float, where the result is far from overflow. *)
Definition exp_accurate (fexp : float -> float) : Prop := forall x, is_finite x = true -> B2R x <= 600 ->
  is_finite (fexp x) = true /\
  Rabs (B2R (fexp x) - exp (B2R x)) <= / 1125899906842624 * exp (B2R x) + bpow radix2 (-1074).
(** [np.log] is right up to a relative error of 2^-50 on positive floats. *)
Definition log_accurate (flog : float -> float) : Prop := forall x, is_finite x = true -> 0 < B2R x ->
  is_finite (flog x) = true /\
  Rabs (B2R (flog x) - ln (B2R x)) <= / 1125899906842624 * Rabs (ln (B2R x)).

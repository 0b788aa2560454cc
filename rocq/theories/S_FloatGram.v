(** Specification for C128: the Gramian in binary64. *)
From Coq Require Import Reals List Bool Arith.
From Flocq Require Import Core BinarySingleNaN.
From Verif Require Import Base Lin S_Gram M_Float M_FloatGram.
Import ListNotations.
Open Scope R_scope.

(** [** 0.5] has a relative error of at most 2^-52 (two units of rounding). *)
Definition root_accurate (root : float -> float) : Prop := forall v, is_finite v = true -> 0 <= B2R v ->
  is_finite (root v) = true /\ Rabs (B2R (root v) - sqrt (B2R v)) <= 2 * bpow radix2 (-53) * sqrt (B2R v).
(** [** n] is not worse than [n] rounded multiplications. *)
Definition pow_accurate (pw : float -> nat -> float) : Prop := forall g n, is_finite g = true -> 0 <= B2R g <= 1 ->
  (1 <= n)%nat -> INR n <= bpow radix2 40 ->
  is_finite (pw g n) = true /\
  Rabs (B2R (pw g n) - B2R g ^ n) <= 2 * INR n * bpow radix2 (-53) * B2R g ^ n + 2 * INR n * bpow radix2 (-1075).

(** Values of size at most [X] and [Y], weight between 2^-100 and 2^100. *)
Definition frow_ok (X Y : R) (r : frow) : Prop :=
  is_finite (rx r) = true /\ Rabs (B2R (rx r)) <= X /\
  is_finite (ry r) = true /\ Rabs (B2R (ry r)) <= Y /\
  is_finite (rw r) = true /\ bpow radix2 (-100) <= B2R (rw r) <= bpow radix2 100.

(** The exact discounted weighted sum of products and of weights, oldest row first. *)
Definition exact_entry (f : R) (rows : list frow) : R :=
  dsum (1 - f) (fun r => B2R (rw r) * B2R (rx r) * B2R (ry r)) rows.
Definition exact_weight (f : R) (rows : list frow) : R := dsum (1 - f) (fun r => B2R (rw r)) rows.

(** Not a number, or no sign bit. *)
Definition sign_clear (v : float) : Prop := is_nan v = true \/ Bsign v = false.
(** [** n] of such a number is such a number. *)
Definition pow_sign (pw : float -> nat -> float) : Prop := forall g n, sign_clear g -> sign_clear (pw g n).

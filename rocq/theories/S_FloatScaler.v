(** Specification for the scaler in binary64: rows far from overflow and underflow. *)
From Coq Require Import Reals List Bool Arith.
From Flocq Require Import Core BinarySingleNaN.
From Verif Require Import Base Lin Data M_Float.
Open Scope R_scope.

(** The observations of one column held by a list of values and weights. *)
Definition frows (l : list (float * float)) : list obs :=
  map (fun xw => mkobs (fun _ => B2R (fst xw)) 0 (B2R (snd xw))) l.
(** A finite value of absolute value at most [X] and a weight between 2^-100 and 2^100. *)
Definition row_ok (X : R) (xw : float * float) : Prop :=
  is_finite (fst xw) = true /\ Rabs (B2R (fst xw)) <= X /\
  is_finite (snd xw) = true /\ bpow radix2 (-100) <= B2R (snd xw) <= bpow radix2 100.

(** Specifications for the utilities. *)
From Coq Require Import Reals List.
From Verif Require Import Base S_Gram M_Utils.
Import ListNotations.
Open Scope R_scope.

(** Discounted mean of a stream, oldest value first. *)
Definition dmean (forget : R) (l : list R) : R :=
  dsum (1 - forget) (fun v => v) l / dsum (1 - forget) (fun _ => 1) l.

(** Gaussian log-likelihood of [n] residuals with sum of squares [rss] at variance [s2]. *)
Definition gauss_ll (n rss s2 : R) : R := - n / 2 * ln (2 * PI * s2) - rss / (2 * s2).

(** [k] is the position of the first minimum of [l]. *)
Definition first_min (l : list R) (k : nat) : Prop :=
  (k < length l)%nat /\
  (forall i, (i < length l)%nat -> nth k l 0 <= nth i l 0) /\
  (forall i, (i < k)%nat -> nth k l 0 < nth i l 0).

(** [n] is large enough for the criterion to be a penalty up to size [p]. *)
Definition penalises (c : criterion) (n p : R) : Prop :=
  match c with
  | aic | max_ll => True
  | bic => 1 <= n
  | hqc => exp 1 <= n
  | aicc => p + 1 < n
  end.

(** Specification for coordinate descent in binary64: numbers far from overflow, the accuracy
    asked of the inner product, and the slack that rounding leaves. *)
From Coq Require Import Reals List Bool Arith.
From Flocq Require Import Core BinarySingleNaN.
From Verif Require Import Base Lin M_CD S_CD S_CD2 M_Float.
Open Scope R_scope.

(** A finite float of absolute value at most 2^200. *)
Definition in_range (v : float) : Prop := is_finite v = true /\ Rabs (B2R v) <= bpow radix2 200.

(** The real matrix, vector and bounds held by arrays of floats. *)
Definition rmat (x : nat -> nat -> float) : mat := fun i j => B2R (x i j).
Definition rvec (v : fvec) : vec := fun j => B2R (v j).
Definition rbound (v : fvec) : nat -> option R := fun j => if is_finite (v j) then Some (B2R (v j)) else None.

(** A lower bound is finite or -inf, an upper bound finite or +inf, and they are in order. *)
Definition fbounds_ok (J : nat) (lo up : fvec) : Prop := forall j, (j < J)%nat ->
  (is_finite (lo j) = true \/ lo j = B754_infinity true) /\
  (is_finite (up j) = true \/ up j = B754_infinity false) /\ fle (lo j) (up j) = true.

(** Sum of the absolute entries of row [j]. *)
Definition row_sum (J : nat) (G : mat) (j : nat) : R := bsum J (fun k => Rabs (G j k)).

(** The inner product [x[j, :] @ m] is right up to the relative error [g] (with respect to the
    sum of the absolute products) plus a tiny number, for entries up to 2^202. *)
Definition dot_accurate (J : nat) (x : nat -> nat -> float) (dot : nat -> fvec -> float) (g : R) : Prop :=
  forall m j, (j < J)%nat -> (forall k, (k < J)%nat -> is_finite (m k) = true /\ Rabs (B2R (m k)) <= bpow radix2 202) ->
    is_finite (dot j m) = true /\
    Rabs (B2R (dot j m) - bsum J (fun k => B2R (x j k) * B2R (m k)))
      <= g * bsum J (fun k => Rabs (B2R (x j k) * B2R (m k))) + bpow radix2 (-900).

(** The numbers a run starts from are far from overflow and underflow. *)
Definition ranged (J : nat) (x : nat -> nat -> float) (y : fvec) (reg alpha : float) : Prop :=
  (forall j, (j < J)%nat -> is_finite (x j j) = true /\ bpow radix2 (-200) <= B2R (x j j) /\
     row_sum J (rmat x) j <= bpow radix2 200 /\ in_range (y j)) /\
  in_range reg /\ 0 <= B2R reg /\ is_finite alpha = true /\ 0 <= B2R alpha <= 1.

(** The most a coefficient moved in the last sweep of a run that met the tolerance. *)
Definition last_move (J : nat) (tol : R) (b : vec) : R :=
  (1 + bpow radix2 (-50)) * (tol * max_abs J b) + bpow radix2 (-900).
(** Slack of coordinate [j]: the last move times the off-diagonal entries, and rounding. *)
Definition slack (J : nat) (G : mat) (h : vec) (lambda : R) (isreg : nat -> bool) (alpha g tol : R) (b : vec) (j : nat) : R :=
  let move := last_move J tol b in
  let size := max_abs J b + move in
  row_rest J G j * move + g * (row_sum J G j * size)
  + bpow radix2 (-48) * (Rabs (h j) + row_sum J G j * size
      + (if isreg j then alpha * lambda + lambda * (1 - alpha) * size else 0))
  + bpow radix2 (-700).

(** The one-dimensional problem of coordinate [j] at the coefficients [m]: minimise
    [1/2 D t^2 - U t + T |t|] over the box. These are [D], [T] and [U] in exact arithmetic. *)
Definition exact_D (G : mat) (lambda : R) (isreg : nat -> bool) (alpha : R) (j : nat) : R :=
  if isreg j then G j j + lambda * (1 - alpha) else G j j.
Definition exact_T (lambda : R) (isreg : nat -> bool) (alpha : R) (j : nat) : R :=
  if isreg j then alpha * lambda else 0.
Definition exact_U (J : nat) (G : mat) (h m : vec) (j : nat) : R :=
  h j - bsum J (fun k => if Nat.eqb k j then 0 else G j k * m k).
Definition coord_obj (D U T t : R) : R := 1 / 2 * (D * (t * t)) - U * t + T * Rabs t.
Definition in_bounds (lo up : option R) (t : R) : Prop :=
  match lo with Some l => l <= t | None => True end /\ match up with Some v => t <= v | None => True end.

(** A plain loop for the inner product: one product and one sum per entry. *)
Fixpoint serial_dot (n : nat) (v m : fvec) : float :=
  match n with O => fint 0 | S k => fadd (serial_dot k v m) (fmul (v k) (m k)) end.

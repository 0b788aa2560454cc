(** Specification for C129: coordinate descent on Gramians collected in binary64. *)
From Coq Require Import Reals List Bool Arith.
From Flocq Require Import Core BinarySingleNaN.
From Verif Require Import Base Lin Data S_Gram S_Scaler M_CD M_Float M_FloatGram S_FloatGram S_FloatCD.
Import ListNotations.
Open Scope R_scope.

(** A row of a batch: covariates, response, weight. *)
Record fobs := mk_fobs { fo_x : fvec; fo_y : float; fo_w : float }.
(** The columns an entry of the Gramian and of the y-Gramian is made of. *)
Definition col (i j : nat) (o : fobs) : frow := (fo_x o i, fo_x o j, fo_w o).
Definition coly (i : nat) (o : fobs) : frow := (fo_x o i, fo_y o, fo_w o).
(** The row as exact numbers. *)
Definition robs (o : fobs) : obs := mkobs (rvec (fo_x o)) (B2R (fo_y o)) (B2R (fo_w o)).
Definition fobs_ok (J : nat) (X Y : R) (o : fobs) : Prop :=
  (forall i, (i < J)%nat -> is_finite (fo_x o i) = true /\ Rabs (B2R (fo_x o i)) <= X) /\
  is_finite (fo_y o) = true /\ Rabs (B2R (fo_y o)) <= Y /\
  is_finite (fo_w o) = true /\ bpow radix2 (-100) <= B2R (fo_w o) <= bpow radix2 100.

(** The arguments of coordinate descent are possible results of a fit on the first batch of
    [bs] and updates with the others; [x] is the Gramian. The inner products of coordinate
    descent may add in any order. *)
Definition computed_from (root : float -> float) (pw : float -> nat -> float) (f : float) (bs : list (list fobs))
    (a : fcd_args) (x : nat -> nat -> float) : Prop :=
  (forall i j, (i < fc_J a)%nat -> (j < fc_J a)%nat -> fgram_run root pw f (map (map (col i j)) bs) (x i j)) /\
  (forall i, (i < fc_J a)%nat -> fgram_run root pw f (map (map (coly i)) bs) (fc_y a i)) /\
  (forall j, fc_diag a j = x j j) /\
  (forall j m, (j < fc_J a)%nat -> dot_value (map (fun k => (x j k, m k)) (seq 0 (fc_J a))) (fc_dot a j m)).

(** Elastic-net penalty. *)
Definition enet_penalty (J : nat) (lambda : R) (isreg : nat -> bool) (alpha : R) (b : vec) : R :=
  lambda * bsum J (fun j => if isreg j then alpha * Rabs (b j) + (1 - alpha) / 2 * b j ^ 2 else 0).

(** What is lost per unit of distance: [n] rows of total weight [W], values up to [X] and [Y],
    [M] the largest coefficient. *)
Definition stream_slack (J : nat) (X Y W lambda tol : R) (n : nat) (M : R) : R :=
  let move := (1 + bpow radix2 (-50)) * (tol * M) + bpow radix2 (-900) in
  let size := M + move in
  2 * INR J * (X * X * W) * (move + (9 / 8 * INR J * bpow radix2 (-53) + bpow radix2 (-48)) * size)
  + bpow radix2 (-48) * (2 * (X * Y * W) + lambda * (1 + size)) + bpow radix2 (-700)
  + 16 * INR n * bpow radix2 (-53) * (X * W * (X * INR J * M + Y)).

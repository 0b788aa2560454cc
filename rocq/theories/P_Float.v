(** C100-C105: what remains true in binary64 arithmetic. *)
From Coq Require Import ZArith Reals List Bool Arith Permutation Lia Lra.
From Flocq Require Import Core BinarySingleNaN.
From Verif Require Import Base M_CD M_Float S_Float L_Float L_Float2 L_Float3 L_Float4 L_Float5.
Import ListNotations.
Open Scope R_scope.

(** * C100: coordinate descent in binary64. *)
Theorem C100_float_terminates : forall a random perm tolerance max_iterations beta,
  match float_coordinate_descent a random perm tolerance max_iterations beta with
  | Ok (beta', n) => (1 <= n <= max_iterations + 1)%nat
  | Raise e => e = ZeroDivisionError
  end.
Proof. exact C100_terminates_lemma. Qed.

Theorem C100_float_within_bounds : forall a random perm tolerance max_iterations beta beta' n j,
  float_coordinate_descent a random perm tolerance max_iterations beta = Ok (beta', n) -> (j < fc_J a)%nat ->
  fle (fc_lo a j) (fc_up a j) = true ->
  is_nan (beta' j) = true \/ (fle (fc_lo a j) (beta' j) = true /\ fle (beta' j) (fc_up a j) = true).
Proof. exact C100_bounds_lemma. Qed.

Theorem C100_float_no_nan_at_tolerance : forall a random perm tolerance max_iterations beta beta' n j,
  float_coordinate_descent a random perm tolerance max_iterations beta = Ok (beta', n) ->
  (n <= max_iterations)%nat -> (j < fc_J a)%nat -> is_nan (beta' j) = false.
Proof. exact C100_no_nan_lemma. Qed.

Theorem C100_float_zero_stays_zero : forall a random perm tolerance max_iterations beta beta1 beta' n j,
  float_coordinate_descent a random perm tolerance 0 beta = Ok (beta1, 1%nat) -> (j < fc_J a)%nat ->
  feq (beta1 j) (fint 0) = true ->
  float_coordinate_descent a random perm tolerance max_iterations beta = Ok (beta', n) -> beta' j = beta1 j.
Proof. exact C100_zeros_lemma. Qed.

Theorem C100_float_raises_iff : forall a random perm tolerance max_iterations beta,
  (forall i, Permutation (perm i) (seq 0 (fc_J a))) ->
  (float_coordinate_descent a random perm tolerance max_iterations beta = Raise ZeroDivisionError <->
   exists j, (j < fc_J a)%nat /\ feq (fcd_den a j) (fint 0) = true).
Proof. exact C100_raises_lemma. Qed.

Print Assumptions C100_float_terminates.
Print Assumptions C100_float_within_bounds.
Print Assumptions C100_float_no_nan_at_tolerance.
Print Assumptions C100_float_zero_stays_zero.
Print Assumptions C100_float_raises_iff.

Definition ex100_gram (i j : nat) : float := if Nat.eqb i j then fint 4 else fint 1.
Definition ex100 (y0 : float) : fcd_args :=
  mk_fcd 3 (fun j => ex100_gram j j)
    (fun j b => fadd (fadd (fmul (ex100_gram j 0) (b 0%nat)) (fmul (ex100_gram j 1) (b 1%nat))) (fmul (ex100_gram j 2) (b 2%nat)))
    (fun j => match j with O => y0 | 1%nat => fint 1 | _ => fint (-9) end)
    (fint 2) (fun j => negb (Nat.eqb j 0)) (fint 1)
    (fun j => match j with 2%nat => fint (-1) | _ => B754_infinity true end) (fun _ => B754_infinity false).
Definition sf (r : res (fvec * nat)) : option (list SpecFloat.spec_float * nat) :=
  match r with Ok (b, n) => Some ([B2SF (b 0%nat); B2SF (b 1%nat); B2SF (b 2%nat)], n) | Raise _ => None end.
(** Three sweeps: the second coefficient is -0 after the first, the third stays at
    its bound -1. With a NaN in the moments the coefficients are NaN, the tolerance is
    never met and the run ends after [max_iterations + 1] sweeps. *)
Example C100_example :
  sf (float_coordinate_descent (ex100 (fint 7)) false (fun _ => []) (fdiv (fint 1) (fint 1024)) 10 (fun _ => fint 0))
    = Some ([B2SF (fint 2); SpecFloat.S754_zero true; B2SF (fint (-1))], 3%nat) /\
  sf (float_coordinate_descent (ex100 B754_nan) false (fun _ => []) (fdiv (fint 1) (fint 1024)) 10 (fun _ => fint 0))
    = Some ([SpecFloat.S754_nan; SpecFloat.S754_nan; SpecFloat.S754_nan], 11%nat).
Proof. split; vm_compute; reflexivity. Qed.

(** * C101: soft thresholding in binary64. *)
Theorem C101_float_soft_threshold : forall v t, is_finite v = true -> is_finite t = true -> 0 <= B2R t ->
  is_finite (fsoft v t) = true /\
  (B2R (fsoft v t) = 0 <-> Rabs (B2R v) <= B2R t) /\
  Rabs (B2R (fsoft v t) - soft_threshold (B2R v) (B2R t))
    <= / 9007199254740992 * Rabs (soft_threshold (B2R v) (B2R t)) /\
  Rabs (B2R (fsoft v t)) <= Rabs (B2R v).
Proof. exact C101_value_lemma. Qed.

Theorem C101_float_soft_threshold_monotone : forall v w t,
  is_finite v = true -> is_finite w = true -> is_finite t = true -> 0 <= B2R t ->
  B2R v <= B2R w -> B2R (fsoft v t) <= B2R (fsoft w t).
Proof. exact C101_monotone_lemma. Qed.

Print Assumptions C101_float_soft_threshold.
Print Assumptions C101_float_soft_threshold_monotone.

(** 0.3 - 0.1 is not the float 0.2; the threshold of 0.3 at 0.3 and of 0.1 at 0.3 is 0. *)
Example C101_example :
  let d z := fdiv (fint z) (fint 10) in
  fsoft (d 3%Z) (d 1%Z) <> d 2%Z /\ fsoft (d 3%Z) (d 3%Z) = fint 0 /\ fsoft (d 1%Z) (d 3%Z) = fint 0 /\
  fsoft (fint (-5)) (fint 3) = fint (-2).
Proof.
  cbv zeta. split.
  - intros H. apply (f_equal B2SF) in H. vm_compute in H. discriminate.
  - repeat split; apply B2SF_inj; vm_compute; reflexivity.
Qed.

(** * C102: the scaler in binary64. *)
Theorem C102_float_fit_variance : forall forget x sample_weight,
  fle (fint 0) forget = true -> fle forget (fint 1) = true ->
  Forall (fun w => is_nan w = false /\ Bsign w = false) sample_weight ->
  flt (fs_var (fscaler_fit forget x sample_weight)) (fint 0) = false /\
  flt (fs_M (fscaler_fit forget x sample_weight)) (fint 0) = false.
Proof. exact C102_fit_lemma. Qed.

(** [update] does not keep this: there are a forget factor in [0, 1) and a constant column
    for which two rows in [fit] and three in [update] give a negative variance. *)
Theorem C102_float_update_negative_variance : exists forget c,
  fle (fint 0) forget = true /\ flt forget (fint 1) = true /\ is_finite c = true /\
  let s := fscaler_update forget (fscaler_fit forget [c; c] [fint 1; fint 1]) (repeat (c, fint 1) 3) in
  flt (fs_var s) (fint 0) = true /\ fscaler_transform s c = B754_nan.
Proof.
  exists (fdiv (fint 5) (fint 100)), (fdiv (fint 19) (fint 100)).
  repeat (split; [vm_compute; reflexivity|]). apply B2SF_inj. vm_compute. reflexivity.
Qed.

(** A constant column of three rows need not have variance zero after [fit], and is then
    mapped to -1. *)
Theorem C102_float_constant_column : exists c, is_finite c = true /\
  let s := fscaler_fit (fint 0) [c; c; c] [fint 1; fint 1; fint 1] in
  flt (fint 0) (fs_var s) = true /\ fscaler_transform s c = fint (-1).
Proof.
  exists (fdiv (fint 1) (fint 10)).
  repeat (split; [vm_compute; reflexivity|]). apply B2SF_inj. vm_compute. reflexivity.
Qed.

Print Assumptions C102_float_fit_variance.
Print Assumptions C102_float_update_negative_variance.
Print Assumptions C102_float_constant_column.

(** Weights 1/4, 1/2, 1 on the rows 1, 3, 5: mean 27/7, variance about 2.12. *)
Example C102_example :
  let s := fscaler_fit (fdiv (fint 1) (fint 2)) [fint 1; fint 3; fint 5] [fint 1; fint 1; fint 1] in
  flt (fint 2) (fs_var s) = true /\ flt (fs_var s) (fint 3) = true /\ fs_w s = fdiv (fint 7) (fint 4).
Proof. repeat (split; [vm_compute; reflexivity|]). apply B2SF_inj. vm_compute. reflexivity. Qed.

(** * C103: [Logit.inverse] in binary64. *)
Theorem C103_float_logit_inside : forall fexp flog x, exp_accurate fexp -> log_accurate flog ->
  fle (fint (-600)) x = true ->
  is_finite (flogit_inverse fexp flog x) = true /\ 0 < B2R (flogit_inverse fexp flog x) < 1.
Proof. exact C103_lemma. Qed.

(** * C104: [InverseSoftPlus.inverse] and the shifted links in binary64. *)
Theorem C104_float_softplus_positive : forall fexp flog x, exp_accurate fexp -> log_accurate flog ->
  is_finite x = true -> fle (fint (-30)) x = true ->
  is_finite (fsoftplus_inverse fexp flog x) = true /\ 0 < B2R (fsoftplus_inverse fexp flog x).
Proof. exact C104_pos_lemma. Qed.

Theorem C104_float_softplus_reaches_zero : forall fexp flog x, exp_accurate fexp -> log_accurate flog ->
  is_finite x = true -> fle x (fint (-40)) = true ->
  is_finite (fsoftplus_inverse fexp flog x) = true /\ B2R (fsoftplus_inverse fexp flog x) = 0.
Proof. exact C104_zero_lemma. Qed.

Theorem C104_float_shift_reaches_value : forall fexp flog v x, exp_accurate fexp -> log_accurate flog ->
  is_finite v = true -> fle (fint 1) v = true -> is_finite x = true -> fle x (fint (-40)) = true ->
  fsoftplusshift_inverse fexp flog v x = v /\ flogshift_inverse fexp flog v x = v.
Proof. exact C104_shift_lemma. Qed.

(** The lower end of [link_support] of the shifted links, [value + np.nextafter(0, 1)], is
    [value] itself. *)
Theorem C104_float_shift_support : forall v tiny : float, is_finite v = true -> fle (fint 1) v = true ->
  is_finite tiny = true -> B2R tiny = bpow radix2 (-1074) -> fadd v tiny = v.
Proof. exact C104_support_lemma. Qed.

(** * C105: [Log.inverse] and [LogIdent.inverse] in binary64. *)
Theorem C105_float_log_positive : forall fexp flog x, exp_accurate fexp -> log_accurate flog ->
  fle (fint (-600)) x = true ->
  is_finite (flog_inverse fexp flog x) = true /\ 0 < B2R (flog_inverse fexp flog x) <= 2000000000000001.
Proof. exact C105_log_lemma. Qed.

Theorem C105_float_logident_positive : forall fexp flog x, exp_accurate fexp -> log_accurate flog ->
  fle (fint (-600)) x = true -> is_finite x = true ->
  is_finite (flogident_inverse fexp flog x) = true /\ 0 < B2R (flogident_inverse fexp flog x).
Proof. exact C105_logident_lemma. Qed.

Print Assumptions C103_float_logit_inside.
Print Assumptions C104_float_softplus_positive.
Print Assumptions C104_float_softplus_reaches_zero.
Print Assumptions C104_float_shift_reaches_value.
Print Assumptions C104_float_shift_support.
Print Assumptions C105_float_log_positive.
Print Assumptions C105_float_logident_positive.

(** The hypotheses on [exp] and [log] are met by rounding the exact value, so with these
    and an infinite linear predictor the logit is below 1, and softplus of -40 is 0. *)
Example C103_C104_C105_example :
  exists fexp flog, exp_accurate fexp /\ log_accurate flog /\
    0 < B2R (flogit_inverse fexp flog (B754_infinity false)) < 1 /\
    B2R (fsoftplus_inverse fexp flog (fint (-40))) = 0 /\
    fsoftplusshift_inverse fexp flog (fint 2) (fint (-40)) = fint 2 /\
    0 < B2R (flog_inverse fexp flog (fint (-600))).
Proof.
  exists (fun x => of_real (exp (B2R x))), (fun x => of_real (ln (B2R x))).
  split; [exact exp_accurate_exists|]. split; [exact log_accurate_exists|].
  split; [apply C103_lemma; auto using exp_accurate_exists, log_accurate_exists|].
  split; [apply C104_zero_lemma; auto using exp_accurate_exists, log_accurate_exists|].
  split; [apply C104_shift_lemma; auto using exp_accurate_exists, log_accurate_exists|].
  apply C105_log_lemma; auto using exp_accurate_exists, log_accurate_exists.
Qed.

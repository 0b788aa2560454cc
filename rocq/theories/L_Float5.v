(** Shifted links in binary64; accurate [exp] and [log] exist. *)
From Coq Require Import ZArith Reals List Bool Arith Lia Lra Psatz.
From Flocq Require Import Core BinarySingleNaN Relative.
From Verif Require Import Base M_CD M_Float S_Float L_Float L_Float2 L_Float4.
Open Scope R_scope.

Lemma round_absorb (v : float) e : is_finite v = true -> 1 <= B2R v -> 0 <= e < / 9007199254740992 -> rnd64 (B2R v + e) = B2R v.
Proof.
  intros Fv Hv He. apply Rle_antisym.
  - apply round_N_le_midp; auto with typeclass_instances; [apply B2R_format|]. rewrite succ_eq_pos by lra.
    assert (/ 4503599627370496 <= ulp radix2 fexp64 (B2R v)).
    { replace (/ 4503599627370496) with (ulp radix2 fexp64 1) by (rewrite one_bpow at 1; rewrite ulp_bpow; reflexivity).
      apply ulp_le_pos; auto with typeclass_instances; lra. }
    lra.
  - apply round_ge_generic; auto with typeclass_instances; [apply B2R_format|lra].
Qed.
Lemma absorb (v e : float) : is_finite v = true -> is_finite e = true -> 1 <= B2R v -> 0 <= B2R e < / 9007199254740992 ->
  fadd v e = v /\ fadd e v = v.
Proof.
  intros Fv Fe Hv He. pose proof (round_absorb v (B2R e) Fv Hv He) as R1.
  assert (Fs : is_finite_strict v = true) by (destruct v; auto; cbn in Hv; lra).
  destruct (fadd_exact v e Fv Fe) as [B F]; [rewrite R1; apply B2R_bound|].
  destruct (fadd_exact e v Fe Fv) as [B' F']; [rewrite Rplus_comm, R1; apply B2R_bound|].
  rewrite Rplus_comm in B'. rewrite R1 in B, B'.
  split; apply B2R_inj; auto; [destruct (fadd v e)|destruct (fadd e v)]; auto; cbn in B, B'; lra.
Qed.

Lemma small_exp fexp x : exp_accurate fexp -> is_finite x = true -> B2R x <= -40 ->
  is_finite (fexp x) = true /\ 0 <= B2R (fexp x) < / 9007199254740992.
Proof.
  intros HE Fx H. assert (U7 : B2R x <= 600) by lra.
  destruct (HE x Fx U7) as [Fe A]. split; auto. split; [apply accurate_nonneg; auto|].
  pose proof exp_m40 as E4. assert (exp (B2R x) <= exp (-40)) by (apply exp_le; auto).
  assert (bpow radix2 (-1074) <= bpow radix2 (-60)) by (apply bpow_le; lia).
  change (bpow radix2 (-60)) with (/ IZR 1152921504606846976) in *.
  apply Rabs_le_inv in A. lra.
Qed.

Lemma C104_shift_lemma : forall fexp flog v x, exp_accurate fexp -> log_accurate flog ->
  is_finite v = true -> fle (fint 1) v = true -> is_finite x = true -> fle x (fint (-40)) = true ->
  fsoftplusshift_inverse fexp flog v x = v /\ flogshift_inverse fexp flog v x = v.
Proof.
  intros fexp flog v x HE HL Fv H1 Fx H.
  destruct (fle_fint 1 v ltac:(vm_compute; discriminate) H1) as [->|[_ Hv]]; [discriminate|].
  destruct (C104_zero_lemma fexp flog x HE HL Fx H) as [F0 Z0].
  apply (fle_fint_ge (-40)) in H; [|vm_compute; discriminate|auto]. split.
  - unfold fsoftplusshift_inverse. apply (absorb v (fsoftplus_inverse fexp flog x)); auto. rewrite Z0. lra.
  - unfold flogshift_inverse, frobust_exp.
    destruct (fint_val 1000000000000000) as [VL FL]; [vm_compute; discriminate|]. fold flarge_number in VL, FL.
    destruct (HL flarge_number FL) as [Fl Al]; [rewrite VL; lra|].
    rewrite VL, (Rabs_right (ln _)) in Al by (pose proof ln_large; lra). apply Rabs_le_inv in Al. pose proof ln_large as LL.
    destruct (flt_spec _ x Fl Fx) as [[_ C]|[-> _]]; [lra|].
    destruct (small_exp fexp x HE Fx H). apply absorb; auto.
Qed.

(** The lower end of [link_support] of the shifted links, [value + np.nextafter(0, 1)]. *)
Lemma C104_support_lemma : forall v tiny : float, is_finite v = true -> fle (fint 1) v = true ->
  is_finite tiny = true -> B2R tiny = bpow radix2 (-1074) -> fadd v tiny = v.
Proof.
  intros v tiny Fv H1 Ft Ht.
  destruct (fle_fint 1 v ltac:(vm_compute; discriminate) H1) as [->|[_ Hv]]; [discriminate|].
  apply absorb; auto. rewrite Ht. split; [apply bpow_ge_0|].
  change (/ 9007199254740992) with (bpow radix2 (-53)). apply bpow_lt. reflexivity.
Qed.

(** * The nearest float of a real number, and with it the hypotheses on [exp] and [log]
    can be met. *)
Definition of_real (r : R) : float :=
  binary_normalize 53 1024 prec64 emax64 mode_NE (ZnearestE (scaled_mantissa radix2 fexp64 r)) (cexp radix2 fexp64 r) false.
Lemma of_real_val r : Rabs r <= bpow radix2 1023 -> B2R (of_real r) = rnd64 r /\ is_finite (of_real r) = true.
Proof.
  intros H.
  assert (Q : rnd64 (rnd64 r) = rnd64 r).
  { apply rnd64_id, generic_format_round; auto with typeclass_instances. }
  assert (L : Rabs (rnd64 r) < bpow radix2 1024).
  { apply Rle_lt_trans with (bpow radix2 1023); [|apply bpow_lt; reflexivity].
    apply abs_round_le_generic; auto with typeclass_instances. apply generic_format_bpow. vm_compute. discriminate. }
  pose proof (binary_normalize_correct 53 1024 prec64 emax64 mode_NE (ZnearestE (scaled_mantissa radix2 fexp64 r)) (cexp radix2 fexp64 r) false) as C.
  cbv zeta in C. change (F2R (Float radix2 (ZnearestE (scaled_mantissa radix2 fexp64 r)) (cexp radix2 fexp64 r))) with (rnd64 r) in C.
  match type of C with context [round ?a ?b ?c (rnd64 r)] => replace (round a b c (rnd64 r)) with (rnd64 r) in C by (symmetry; exact Q) end.
  rewrite Rlt_bool_true in C by exact L. destruct C as (C1 & C2 & _). split; auto.
Qed.
Lemma u_ro_val : u_ro radix2 53 = / 9007199254740992.
Proof. unfold u_ro. replace (bpow radix2 (- (53) + 1)) with (/ 4503599627370496) by reflexivity. lra. Qed.


Lemma exp_accurate_exists : exp_accurate (fun x => of_real (exp (B2R x))).
Proof.
  intros x Fx H. pose proof (exp_pos (B2R x)) as P.
  assert (U : Rabs (exp (B2R x)) <= bpow radix2 1023).
  { rewrite Rabs_right by lra. apply Rle_trans with (exp 600); [apply exp_le; auto|].
    pose proof (exp_up 120) as E. replace (5 * INR 120) with 600 in E by (rewrite INR_IZR_INZ; cbn; ring).
    eapply Rle_trans; [exact E|]. apply bpow_le. lia. }
  destruct (of_real_val _ U) as [V F]. split; auto. rewrite V.
  destruct (error_N_FLT radix2 (-1074) 53 eq_refl (fun z => negb (Z.even z)) (exp (B2R x))) as (eps & eta & H1 & H2 & _ & E).
  change (round radix2 fexp64 _ (exp (B2R x))) with (rnd64 (exp (B2R x))) in E. rewrite E.
  replace (exp (B2R x) * (1 + eps) + eta - exp (B2R x)) with (eps * exp (B2R x) + eta) by ring.
  eapply Rle_trans; [apply Rabs_triang|]. rewrite Rabs_mult, (Rabs_right (exp _)) by lra.
  pose proof u_ro_val as UV. unfold u_ro in UV. rewrite UV in H1.
  pose proof (bpow_ge_0 radix2 (-1074)). apply Rplus_le_compat; [apply Rmult_le_compat_r; lra|lra].
Qed.

Lemma ln_upper x : 0 < x -> ln x <= x - 1.
Proof. intros H. pose proof (exp_ineq1_le (ln x)) as E. rewrite exp_ln in E by auto. lra. Qed.
Lemma ln_lower x : 0 < x -> 1 - / x <= ln x.
Proof. intros H. pose proof (ln_upper (/ x) (Rinv_0_lt_compat _ H)) as U. rewrite ln_Rinv in U by auto. lra. Qed.

Lemma float_near_1 (x : float) : B2R x < 1 -> B2R x <= 1 - / 9007199254740992.
Proof.
  intros H. assert (P : pred radix2 fexp64 1 = 1 - / 9007199254740992).
  { rewrite one_bpow at 1. rewrite pred_bpow. reflexivity. }
  rewrite <- P. apply pred_ge_gt; auto with typeclass_instances; [apply B2R_format|apply format_1].
Qed.
Lemma float_near_1' (x : float) : 1 < B2R x -> 1 + / 4503599627370496 <= B2R x.
Proof. intros H. rewrite <- succ_1. apply succ_le_lt; auto with typeclass_instances; [apply format_1|apply B2R_format]. Qed.

Lemma log_accurate_exists : log_accurate (fun x => of_real (ln (B2R x))).
Proof.
  intros x Fx H.
  assert (U : Rabs (ln (B2R x)) <= bpow radix2 1023).
  { assert (B1024 : B2R x < bpow radix2 1024) by (eapply Rle_lt_trans; [apply Rle_abs|apply B2R_bound]).
    assert (T : ln (bpow radix2 1024) <= 1024 * 1).
    { change 1024%Z with (1 * Z.of_nat 1024)%Z at 1. rewrite bpow_pow by lia. change (bpow radix2 1) with 2. rewrite <- Rpower_pow by lra.
      unfold Rpower. rewrite ln_exp. rewrite INR_IZR_INZ. change (IZR (Z.of_nat 1024)) with 1024. pose proof (ln_upper 2 ltac:(lra)). nra. }
    assert (S : bpow radix2 (-1074) <= B2R x).
    { rewrite <- (Rabs_right (B2R x)) by lra. apply (abs_B2R_ge_emin 53 1024). destruct x; auto; cbn in H; lra. }
    assert (T' : - (1074) <= ln (bpow radix2 (-1074))).
    { change (-1074)%Z with (- (1 * Z.of_nat 1074))%Z. rewrite bpow_opp, ln_Rinv by apply bpow_gt_0. rewrite bpow_pow by lia. change (bpow radix2 1) with 2. rewrite <- Rpower_pow by lra.
      unfold Rpower. rewrite ln_exp. rewrite INR_IZR_INZ. change (IZR (Z.of_nat 1074)) with 1074. pose proof (ln_upper 2 ltac:(lra)). nra. }
    assert (L1 : ln (B2R x) <= ln (bpow radix2 1024)) by (left; apply ln_increasing; auto).
    assert (L2 : ln (bpow radix2 (-1074)) <= ln (B2R x)) by (destruct S as [S|S]; [left; apply ln_increasing; auto; apply bpow_gt_0|rewrite S; lra]).
    apply Rle_trans with (bpow radix2 12); [|apply bpow_le; lia]. change (bpow radix2 12) with 4096. apply Rabs_le. lra. }
  destruct (of_real_val _ U) as [V F]. split; auto. rewrite V.
  destruct (Rtotal_order (B2R x) 1) as [L|[E|G]].
  - pose proof (float_near_1 x L). pose proof (ln_upper _ H) as LU.
    assert (RE : Rabs (rnd64 (ln (B2R x)) - ln (B2R x)) <= / 2 * bpow radix2 (- (53) + 1) * Rabs (ln (B2R x))).
    { apply (relative_error_N_FLT radix2 (-1074) 53 eq_refl). apply Rle_trans with (bpow radix2 (-53)); [apply bpow_le; lia|].
      change (bpow radix2 (-53)) with (/ 9007199254740992). rewrite Rabs_left; lra. }
    pose proof u_ro_val as UV. unfold u_ro in UV. rewrite UV in RE. pose proof (Rabs_pos (ln (B2R x))). lra.
  - rewrite E, ln_1, rnd64_0, Rminus_0_r, Rabs_R0. lra.
  - pose proof (float_near_1' x G). pose proof (ln_lower _ H) as LU.
    assert (/ 9007199254740992 <= ln (B2R x)).
    { assert (/ B2R x <= / (1 + / 4503599627370496)) by (apply Rinv_le; lra).
      assert (/ (1 + / 4503599627370496) <= 1 - / 9007199254740992).
      { apply (Rmult_le_reg_r (1 + / 4503599627370496)); [lra|]. rewrite Rinv_l by lra. lra. }
      lra. }
    assert (RE : Rabs (rnd64 (ln (B2R x)) - ln (B2R x)) <= / 2 * bpow radix2 (- (53) + 1) * Rabs (ln (B2R x))).
    { apply (relative_error_N_FLT radix2 (-1074) 53 eq_refl). apply Rle_trans with (bpow radix2 (-53)); [apply bpow_le; lia|].
      change (bpow radix2 (-53)) with (/ 9007199254740992). rewrite Rabs_right; lra. }
    pose proof u_ro_val as UV. unfold u_ro in UV. rewrite UV in RE. pose proof (Rabs_pos (ln (B2R x))). lra.
Qed.

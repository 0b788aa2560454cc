(** The inverses of the links in binary64, given accurate [exp] and [log]. *)
From Coq Require Import ZArith Reals List Bool Arith Lia Lra Psatz.
From Flocq Require Import Core BinarySingleNaN.
From Verif Require Import Base M_CD M_Float S_Float L_Float L_Float2.
Open Scope R_scope.

Lemma fint_val z : (Z.abs z <= 2 ^ 53)%Z -> B2R (fint z) = IZR z /\ is_finite (fint z) = true.
Proof.
  intros H. pose proof (binary_normalize_correct 53 1024 prec64 emax64 mode_NE z 0 false) as C.
  assert (E : F2R (Float radix2 z 0) = IZR z) by (unfold F2R; cbn; ring).
  rewrite E in C.
  assert (F : format64 (IZR z)).
  { destruct (Z.eq_dec (Z.abs z) (2 ^ 53)) as [Q|Q].
    - destruct (Z.abs_eq_or_opp z) as [A|A].
      + replace z with (2 ^ 53)%Z by lia. change (IZR (2 ^ 53)) with (bpow radix2 53). apply generic_format_bpow. vm_compute. discriminate.
      + replace z with (- 2 ^ 53)%Z by lia. rewrite opp_IZR. change (IZR (2 ^ 53)) with (bpow radix2 53).
        apply generic_format_opp, generic_format_bpow. vm_compute. discriminate.
    - apply generic_format_FLT. exists (Float radix2 z 0); auto; cbn; lia. }
  cbv zeta in C. match type of C with context [round ?a ?b ?c (IZR z)] => replace (round a b c (IZR z)) with (IZR z) in C by (symmetry; exact (rnd64_id _ F)) end.
  rewrite Rlt_bool_true in C.
  - destruct C as (C1 & C2 & _). split; auto.
  - rewrite <- abs_IZR. apply Rle_lt_trans with (IZR (2 ^ 53)); [apply IZR_le; auto|].
    change (IZR (2 ^ 53)) with (bpow radix2 53). apply bpow_lt. reflexivity.
Qed.

Lemma fle_fint z x : (Z.abs z <= 2 ^ 53)%Z -> fle (fint z) x = true ->
  x = B754_infinity false \/ (is_finite x = true /\ IZR z <= B2R x).
Proof.
  intros Hz H. destruct (fint_val z Hz) as [V F].
  destruct (is_finite x) eqn:Fx.
  - right. split; auto. unfold fle in H. rewrite Bleb_correct in H by auto. rewrite V in H.
    pose proof (Rle_bool_spec (IZR z) (B2R x)) as S. rewrite H in S. inversion S; auto.
  - destruct x as [s|s| |s m e B]; try discriminate.
    + destruct s; auto. unfold fle, Bleb in H. destruct (fint z) as [s|s| |s m e B]; try discriminate F; cbn in H; destruct s; discriminate.
    + destruct (fle_nan _ _ H). discriminate.
Qed.
Lemma fle_fint_ge z x : (Z.abs z <= 2 ^ 53)%Z -> is_finite x = true -> fle x (fint z) = true -> B2R x <= IZR z.
Proof.
  intros Hz Fx H. destruct (fint_val z Hz) as [V F]. unfold fle in H. rewrite Bleb_correct in H by auto. rewrite V in H.
  pose proof (Rle_bool_spec (B2R x) (IZR z)) as S. rewrite H in S. inversion S; auto.
Qed.
Lemma flt_spec a b : is_finite a = true -> is_finite b = true ->
  (flt a b = true /\ B2R a < B2R b) \/ (flt a b = false /\ B2R b <= B2R a).
Proof. intros Fa Fb. unfold flt. rewrite Bltb_correct by auto. destruct (Rlt_bool_spec (B2R a) (B2R b)); auto. Qed.

(** Powers of e. *)
Lemma exp_pow x n : exp (INR n * x) = exp x ^ n.
Proof.
  induction n; [cbn; rewrite Rmult_0_l; apply exp_0|].
  rewrite S_INR, Rmult_plus_distr_r, Rmult_1_l, exp_plus, IHn. cbn. ring.
Qed.
Lemma bpow_pow e n : (0 <= e)%Z -> bpow radix2 (e * Z.of_nat n) = bpow radix2 e ^ n.
Proof.
  intros He. induction n; [rewrite Z.mul_0_r; reflexivity|].
  rewrite Nat2Z.inj_succ, Z.mul_succ_r, bpow_plus, IHn. cbn. ring.
Qed.
Lemma exp_up n : exp (5 * INR n) <= bpow radix2 (8 * Z.of_nat n).
Proof.
  rewrite Rmult_comm, exp_pow, bpow_pow by lia. apply pow_incr. split; [left; apply exp_pos|].
  replace 5 with (INR 5 * 1) by (cbn; ring). rewrite exp_pow. pose proof exp_le_3. pose proof (exp_pos 1).
  apply Rle_trans with (3 ^ 5); [apply pow_incr; lra|]. cbn. lra.
Qed.
Lemma exp_m600 : bpow radix2 (-960) <= exp (-600).
Proof.
  replace (-600) with (- (600)) by lra. rewrite exp_Ropp. change (-960)%Z with (- (960))%Z. rewrite bpow_opp. apply Rinv_le; [apply exp_pos|].
  pose proof (exp_up 120) as H. replace (5 * INR 120) with 600 in H by (rewrite INR_IZR_INZ; cbn; ring).
  exact H.
Qed.
Lemma exp_m30 : bpow radix2 (-48) <= exp (-30).
Proof.
  replace (-30) with (- (30)) by lra. rewrite exp_Ropp. change (-48)%Z with (- (48))%Z. rewrite bpow_opp. apply Rinv_le; [apply exp_pos|].
  pose proof (exp_up 6) as H. replace (5 * INR 6) with 30 in H by (cbn; ring). exact H.
Qed.
Lemma exp_40 : bpow radix2 54 <= exp 40.
Proof.
  assert (H8 : 9 / 8 <= exp (/ 8)) by (pose proof (exp_ineq1_le (/ 8)); lra).
  assert (H53 : bpow radix2 9 <= exp (/ 8) ^ 53).
  { apply Rle_trans with ((9 / 8) ^ 53); [|apply pow_incr; lra].
    unfold Rdiv. rewrite Rpow_mult_distr, pow_inv. rewrite !pow_IZR.
    apply (Rmult_le_reg_r (IZR (8 ^ Z.of_nat 53))); [apply IZR_lt; reflexivity|].
    rewrite Rmult_assoc, Rinv_l, Rmult_1_r by (apply not_0_IZR; vm_compute; discriminate).
    change (bpow radix2 9) with (IZR 512). rewrite <- mult_IZR. apply IZR_le. vm_compute. discriminate. }
  apply Rle_trans with (exp (INR 318 * / 8)).
  - rewrite exp_pow. change 318%nat with (53 * 6)%nat. rewrite pow_mult. change (bpow radix2 54) with (bpow radix2 (9 * Z.of_nat 6)).
    rewrite bpow_pow by lia. apply pow_incr. split; auto. apply bpow_ge_0.
  - left. apply exp_increasing. rewrite INR_IZR_INZ. cbn. lra.
Qed.
Lemma exp_m40 : exp (-40) <= / 18014398509481984.
Proof. replace (-40) with (- (40)) by lra. rewrite exp_Ropp. apply Rinv_le; [lra|]. exact exp_40. Qed.
Lemma exp_le x y : x <= y -> exp x <= exp y.
Proof. intros [H|H]; [left; apply exp_increasing; auto|subst; lra]. Qed.

Lemma ln_large : 0 < ln 1000000000000000 <= 50.
Proof.
  split; [rewrite <- ln_1; apply ln_increasing; lra|].
  rewrite <- (ln_exp 50). left. apply ln_increasing; [lra|].
  assert (2 <= exp 1) by (pose proof (exp_ineq1_le 1); lra).
  replace 50 with (INR 50 * 1) by (rewrite INR_IZR_INZ; cbn; ring). rewrite exp_pow.
  apply Rlt_le_trans with (2 ^ 50); [|apply pow_incr; lra]. rewrite pow_IZR. apply IZR_lt. vm_compute. reflexivity.
Qed.

Lemma eta_small n : (-1074 <= n)%Z -> bpow radix2 (-1074) <= bpow radix2 n.
Proof. apply bpow_le. Qed.
Lemma accurate_pos fexp x : exp_accurate fexp -> is_finite x = true -> -600 <= B2R x <= 600 -> 0 < B2R (fexp x).
Proof.
  intros HE Fx [L U]. destruct (HE x Fx U) as [_ A].
  assert (bpow radix2 (-960) <= exp (B2R x)) by (eapply Rle_trans; [apply exp_m600|apply exp_le; auto]).
  assert (bpow radix2 (-1074) <= / 1125899906842624 * bpow radix2 (-960)).
  { change (/ 1125899906842624) with (bpow radix2 (-50)). rewrite <- bpow_plus. apply bpow_le. lia. }
  assert (0 < bpow radix2 (-960)) by apply bpow_gt_0.
  apply Rabs_le_inv in A. lra.
Qed.

Lemma robust_exp_range fexp flog x : exp_accurate fexp -> log_accurate flog -> fle (fint (-600)) x = true ->
  is_finite (frobust_exp fexp flog x) = true /\ 0 < B2R (frobust_exp fexp flog x) <= 2000000000000001.
Proof.
  intros HE HL Hx. unfold frobust_exp.
  destruct (fint_val 1000000000000000) as [VL FL]; [vm_compute; discriminate|]. fold flarge_number in VL, FL.
  destruct (HL flarge_number FL) as [Fl Al]; [rewrite VL; lra|].
  rewrite VL, (Rabs_right (ln _)) in Al by (pose proof ln_large; lra). apply Rabs_le_inv in Al. pose proof ln_large as LL.
  destruct (fle_fint (-600) x ltac:(vm_compute; discriminate) Hx) as [->|[Fx Lx]].
  - replace (flt (flog flarge_number) (B754_infinity false)) with true.
    + rewrite VL. split; auto. lra.
    + destruct (flog flarge_number) as [s|s| |s m e B]; try discriminate Fl; reflexivity.
  - destruct (flt_spec _ x Fl Fx) as [[-> H]|[-> H]]; [rewrite VL; split; auto; lra|].
    assert (U : B2R x <= ln 1000000000000000 + / 2) by lra.
    assert (U7 : B2R x <= 600) by lra.
    pose proof (accurate_pos fexp x HE Fx (conj Lx U7)) as P.
    destruct (HE x Fx U7) as [Fe A]. split; auto. split; auto.
    assert (EU : exp (B2R x) <= 1000000000000000 * (1 + / 1000000000000)).
    { apply Rle_trans with (exp (ln 1000000000000000 + / 10000000000000)); [apply exp_le; lra|].
      rewrite exp_plus, exp_ln by lra. apply Rmult_le_compat_l; [lra|].
      assert (I : 1 - / 10000000000000 <= exp (- / 10000000000000)) by (pose proof (exp_ineq1_le (- / 10000000000000)); lra).
      replace (exp (/ 10000000000000)) with (/ exp (- / 10000000000000)) by (rewrite exp_Ropp, Rinv_inv; reflexivity).
      apply Rle_trans with (/ (1 - / 10000000000000)); [apply Rinv_le; lra|].
      apply (Rmult_le_reg_r (1 - / 10000000000000)); [lra|]. rewrite Rinv_l by lra. lra. }
    assert (bpow radix2 (-1074) <= bpow radix2 0) by (apply bpow_le; lia). change (bpow radix2 0) with 1 in *.
    apply Rabs_le_inv in A. lra.
Qed.

Lemma C103_lemma : forall fexp flog x, exp_accurate fexp -> log_accurate flog -> fle (fint (-600)) x = true ->
  is_finite (flogit_inverse fexp flog x) = true /\ 0 < B2R (flogit_inverse fexp flog x) < 1.
Proof.
  intros fexp flog x HE HL Hx. destruct (robust_exp_range fexp flog x HE HL Hx) as [F [P U]].
  destruct (odds_lemma _ F) as (O1 & O2 & O3); [lra|]. change (odds (frobust_exp fexp flog x)) with (flogit_inverse fexp flog x) in *.
  split; auto. split; [|lra]. destruct (Rle_lt_or_eq_dec _ _ (proj1 O2)) as [|Z]; auto.
  symmetry in Z. apply O3 in Z. lra.
Qed.

(** ** The logarithmic links *)
Lemma C105_log_lemma : forall fexp flog x, exp_accurate fexp -> log_accurate flog -> fle (fint (-600)) x = true ->
  is_finite (flog_inverse fexp flog x) = true /\ 0 < B2R (flog_inverse fexp flog x) <= 2000000000000001.
Proof. intros. apply robust_exp_range; auto. Qed.

Lemma C105_logident_lemma : forall fexp flog x, exp_accurate fexp -> log_accurate flog ->
  fle (fint (-600)) x = true -> is_finite x = true ->
  is_finite (flogident_inverse fexp flog x) = true /\ 0 < B2R (flogident_inverse fexp flog x).
Proof.
  intros fexp flog x HE HL Hx Fx. unfold flogident_inverse. destruct (fle x (fint 0)) eqn:L0.
  - destruct (robust_exp_range fexp flog x HE HL Hx) as [F [P U]]. auto.
  - assert (X0 : 0 <= B2R x).
    { unfold fle in L0. rewrite Bleb_correct in L0 by (auto; reflexivity). change (B2R (fint 0)) with 0 in L0.
      pose proof (Rle_bool_spec (B2R x) 0) as S. rewrite L0 in S. inversion S; lra. }
    assert (G1 : 1 <= rnd64 (B2R x + 1)).
    { apply round_ge_generic; auto with typeclass_instances; [apply format_1|lra]. }
    destruct (fadd_exact x (fint 1) Fx (proj2 fint_1)) as [B F].
    + rewrite (proj1 fint_1), Rabs_right by lra.
      destruct (Rle_dec (B2R x) (bpow radix2 60)) as [S|S].
      * apply Rle_lt_trans with (bpow radix2 61); [|apply bpow_lt; reflexivity].
        apply round_le_generic; auto with typeclass_instances; [apply generic_format_bpow; vm_compute; discriminate|].
        change (bpow radix2 61) with (IZR 2305843009213693952). change (bpow radix2 60) with (IZR 1152921504606846976) in S. lra.
      * apply Rnot_le_lt in S. apply Rle_lt_trans with (B2R x); [|pose proof (B2R_bound x) as BB; rewrite Rabs_right in BB; lra].
        apply round_N_le_midp; auto with typeclass_instances; [apply B2R_format|].
        rewrite succ_eq_pos by lra.
        assert (bpow radix2 8 <= ulp radix2 fexp64 (B2R x)).
        { replace (bpow radix2 8) with (ulp radix2 fexp64 (bpow radix2 60)) by (rewrite ulp_bpow; reflexivity).
          apply ulp_le_pos; auto with typeclass_instances; [apply bpow_ge_0|lra]. }
        change (bpow radix2 8) with 256 in *. lra.
    + rewrite B, (proj1 fint_1). split; auto. lra.
Qed.

(** ** Softplus *)
Lemma accurate_nonneg fexp x : exp_accurate fexp -> is_finite x = true -> B2R x <= 600 -> 0 <= B2R (fexp x).
Proof.
  intros HE Fx U. destruct (HE x Fx U) as [_ A]. pose proof (exp_pos (B2R x)).
  destruct (Rle_dec 0 (B2R (fexp x))) as [|N]; auto. apply Rnot_le_lt in N.
  assert (bpow radix2 (-1074) <= Rabs (B2R (fexp x))).
  { apply (abs_B2R_ge_emin 53 1024). destruct (fexp x); auto; cbn in N; lra. }
  rewrite Rabs_left in H0 by auto. apply Rabs_le_inv in A. lra.
Qed.

Lemma C104_zero_lemma : forall fexp flog x, exp_accurate fexp -> log_accurate flog ->
  is_finite x = true -> fle x (fint (-40)) = true ->
  is_finite (fsoftplus_inverse fexp flog x) = true /\ B2R (fsoftplus_inverse fexp flog x) = 0.
Proof.
  intros fexp flog x HE HL Fx H. apply (fle_fint_ge (-40)) in H; [|vm_compute; discriminate|auto].
  assert (U7 : B2R x <= 600) by lra. unfold fsoftplus_inverse, frobust_softplus.
  destruct (fint_val 40) as [V40 F40]; [vm_compute; discriminate|].
  destruct (flt_spec (fint 40) x F40 Fx) as [[_ C]|[-> _]]; [rewrite V40 in C; lra|].
  destruct (HE x Fx U7) as [Fe A]. pose proof (accurate_nonneg _ _ HE Fx U7) as P.
  rewrite one_plus_small; auto.
  - destruct (HL (fint 1) (proj2 fint_1)) as [Fl Al]; [rewrite (proj1 fint_1); lra|].
    split; auto. rewrite (proj1 fint_1), ln_1, Rabs_R0, Rmult_0_r, Rminus_0_r in Al.
    apply Rabs_le_inv in Al. lra.
  - split; auto. pose proof exp_m40 as E4. assert (exp (B2R x) <= exp (-40)) by (apply exp_le; auto).
    assert (bpow radix2 (-1074) <= bpow radix2 (-60)) by (apply bpow_le; lia).
    change (bpow radix2 (-60)) with (/ IZR 1152921504606846976) in *.
    apply Rabs_le_inv in A. lra.
Qed.

Lemma C104_pos_lemma : forall fexp flog x, exp_accurate fexp -> log_accurate flog ->
  is_finite x = true -> fle (fint (-30)) x = true ->
  is_finite (fsoftplus_inverse fexp flog x) = true /\ 0 < B2R (fsoftplus_inverse fexp flog x).
Proof.
  intros fexp flog x HE HL Fx H.
  destruct (fle_fint (-30) x ltac:(vm_compute; discriminate) H) as [->|[_ L]]; [discriminate|].
  unfold fsoftplus_inverse, frobust_softplus.
  destruct (fint_val 40) as [V40 F40]; [vm_compute; discriminate|].
  destruct (flt_spec (fint 40) x F40 Fx) as [[-> C]|[-> C]]; rewrite V40 in C; [split; auto; lra|].
  assert (U7 : B2R x <= 600) by lra. destruct (HE x Fx U7) as [Fe A].
  assert (E1 : bpow radix2 (-48) <= exp (B2R x)) by (eapply Rle_trans; [apply exp_m30|apply exp_le; auto]).
  assert (E2 : exp (B2R x) <= bpow radix2 64).
  { apply Rle_trans with (exp 40); [apply exp_le; auto|]. pose proof (exp_up 8) as X.
    replace (5 * INR 8) with 40 in X by (cbn; ring). exact X. }
  assert (bpow radix2 (-1074) <= bpow radix2 (-60)) by (apply bpow_le; lia).
  change (bpow radix2 (-60)) with (/ IZR 1152921504606846976) in *.
  change (bpow radix2 (-48)) with (/ IZR 281474976710656) in *.
  change (bpow radix2 64) with (IZR 18446744073709551616) in *.
  apply Rabs_le_inv in A.
  assert (G : 1 + / 4503599627370496 <= rnd64 (1 + B2R (fexp x))).
  { apply round_ge_generic; auto with typeclass_instances; [|lra].
    rewrite <- succ_1. apply generic_format_succ; auto with typeclass_instances. apply format_1. }
  assert (GU : rnd64 (1 + B2R (fexp x)) <= bpow radix2 65).
  { apply round_le_generic; auto with typeclass_instances; [apply generic_format_bpow; vm_compute; discriminate|].
    change (bpow radix2 65) with (IZR 36893488147419103232). lra. }
  destruct (fadd_exact (fint 1) (fexp x) (proj2 fint_1) Fe) as [B F].
  { rewrite (proj1 fint_1), Rabs_right by lra. eapply Rle_lt_trans; [exact GU|]. apply bpow_lt. reflexivity. }
  rewrite (proj1 fint_1) in B.
  destruct (HL _ F) as [Fl Al]; [rewrite B; lra|]. split; auto. rewrite B in Al.
  assert (LP : 0 < ln (rnd64 (1 + B2R (fexp x)))) by (rewrite <- ln_1; apply ln_increasing; lra).
  rewrite (Rabs_right (ln _)) in Al by lra. apply Rabs_le_inv in Al. lra.
Qed.

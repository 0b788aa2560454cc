(** One coordinate step in binary64 is the exact step for slightly perturbed data. *)
From Coq Require Import ZArith Reals List Bool Arith Lia Lra Psatz.
From Flocq Require Import Core BinarySingleNaN Plus_error Relative.
From Verif Require Import Base Lin M_CD S_CD S_CD2 L_CD1 M_Float S_Float S_FloatCD L_Float L_Float2 L_Float5.
Import ListNotations.
Open Scope R_scope.

#[local] Instance vexp64' : Valid_exp fexp64 := FLT_exp_valid (-1074) 53.
#[local] Instance mexp64' : Monotone_exp fexp64 := FLT_exp_monotone (-1074) 53.

Notation u := (/ 9007199254740992).
Notation eta := (bpow radix2 (-1075)).

Lemma rnd_small x : Rabs x <= bpow radix2 1023 -> Rabs (rnd64 x) < bpow radix2 1024.
Proof.
  intros H. apply Rle_lt_trans with (bpow radix2 1023); [|apply bpow_lt; reflexivity].
  apply abs_round_le_generic; auto with typeclass_instances. apply generic_format_bpow. vm_compute. discriminate.
Qed.
Lemma rnd_err x : Rabs (rnd64 x - x) <= u * Rabs x + eta.
Proof.
  destruct (error_N_FLT radix2 (-1074) 53 eq_refl (fun z => negb (Z.even z)) x) as (eps & et & H1 & H2 & _ & E).
  change (round radix2 fexp64 _ x) with (rnd64 x) in E. rewrite E.
  replace (x * (1 + eps) + et - x) with (eps * x + et) by ring.
  eapply Rle_trans; [apply Rabs_triang|]. rewrite Rabs_mult.
  pose proof u_ro_val as UV. unfold u_ro in UV. rewrite UV in H1.
  replace (/ 2 * bpow radix2 (-1074)) with eta in H2.
  - apply Rplus_le_compat; [apply Rmult_le_compat_r; [apply Rabs_pos|lra]|lra].
  - change (/ 2) with (bpow radix2 (-1)). rewrite <- bpow_plus. reflexivity.
Qed.

Lemma fmul_err a b : is_finite a = true -> is_finite b = true -> Rabs (B2R a * B2R b) <= bpow radix2 1023 ->
  is_finite (fmul a b) = true /\ Rabs (B2R (fmul a b) - B2R a * B2R b) <= u * Rabs (B2R a * B2R b) + eta.
Proof.
  intros Fa Fb H. destruct (fmul_exact a b Fa Fb (rnd_small _ H)) as [E F]. split; auto. rewrite E. apply rnd_err.
Qed.
Lemma fdiv_err a b : is_finite a = true -> B2R b <> 0 -> Rabs (B2R a / B2R b) <= bpow radix2 1023 ->
  is_finite (fdiv a b) = true /\ Rabs (B2R (fdiv a b) - B2R a / B2R b) <= u * Rabs (B2R a / B2R b) + eta.
Proof.
  intros Fa Fb H. destruct (fdiv_exact a b Fa Fb (rnd_small _ H)) as [E F]. split; auto. rewrite E. apply rnd_err.
Qed.
Lemma fsub_err a b : is_finite a = true -> is_finite b = true -> Rabs (B2R a - B2R b) <= bpow radix2 1023 ->
  is_finite (fsub a b) = true /\ Rabs (B2R (fsub a b) - (B2R a - B2R b)) <= u * Rabs (B2R a - B2R b).
Proof.
  intros Fa Fb H. destruct (fsub_exact a b Fa Fb (rnd_small _ H)) as [E F]. split; auto. rewrite E.
  apply rnd64_sub_error; apply B2R_format.
Qed.
Lemma fadd_err a b : is_finite a = true -> is_finite b = true -> Rabs (B2R a + B2R b) <= bpow radix2 1023 ->
  is_finite (fadd a b) = true /\ Rabs (B2R (fadd a b) - (B2R a + B2R b)) <= u * Rabs (B2R a + B2R b).
Proof.
  intros Fa Fb H. destruct (fadd_exact a b Fa Fb (rnd_small _ H)) as [E F]. split; auto. rewrite E.
  replace (B2R a + B2R b) with (B2R a - - B2R b) by ring.
  apply rnd64_sub_error; [apply B2R_format|apply generic_format_opp, B2R_format].
Qed.

Lemma abs_near a b e : Rabs (a - b) <= e -> Rabs a <= Rabs b + e.
Proof. intros H. pose proof (Rabs_triang (a - b) b) as T. replace (a - b + b) with a in T by ring. lra. Qed.

(** The partial residual. *)
Lemma update_err y s d b : is_finite y = true -> is_finite s = true -> is_finite d = true -> is_finite b = true ->
  Rabs (B2R y - B2R s) <= bpow radix2 1000 -> Rabs (B2R d * B2R b) <= bpow radix2 1000 ->
  is_finite (fadd (fsub y s) (fmul d b)) = true /\
  Rabs (B2R (fadd (fsub y s) (fmul d b)) - (B2R y - B2R s + B2R d * B2R b))
    <= 3 * u * (Rabs (B2R y - B2R s) + Rabs (B2R d * B2R b)) + 2 * eta.
Proof.
  intros Fy Fs Fd Fb H1 H2.
  assert (B : bpow radix2 1000 * 8 <= bpow radix2 1023).
  { change 8 with (bpow radix2 3). rewrite <- bpow_plus. apply bpow_le. lia. }
  assert (B0 : 0 < eta) by apply bpow_gt_0.
  assert (B2 : eta <= bpow radix2 1000) by (apply bpow_le; lia).
  destruct (fsub_err y s Fy Fs ltac:(lra)) as [F1 E1]. destruct (fmul_err d b Fd Fb ltac:(lra)) as [F2 E2].
  set (p := B2R y - B2R s) in *. set (q := B2R d * B2R b) in *.
  set (P := B2R (fsub y s)) in *. set (Q := B2R (fmul d b)) in *.
  pose proof (abs_near _ _ _ E1) as N1. pose proof (abs_near _ _ _ E2) as N2.
  pose proof (Rabs_triang P Q) as T. pose proof (Rabs_pos p) as Pp. pose proof (Rabs_pos q) as Pq.
  destruct (fadd_err (fsub y s) (fmul d b) F1 F2) as [F3 E3].
  { fold P Q. lra. }
  split; auto. fold P Q in E3.
  replace (B2R (fadd (fsub y s) (fmul d b)) - (p + q))
    with ((B2R (fadd (fsub y s) (fmul d b)) - (P + Q)) + ((P - p) + (Q - q))) by ring.
  pose proof (Rabs_triang (B2R (fadd (fsub y s) (fmul d b)) - (P + Q)) ((P - p) + (Q - q))) as T1.
  pose proof (Rabs_triang (P - p) (Q - q)) as T2. lra.
Qed.

(** The denominator. *)
Lemma den_err d l al : is_finite d = true -> is_finite l = true -> is_finite al = true ->
  bpow radix2 (-200) <= B2R d <= bpow radix2 200 -> 0 <= B2R l <= bpow radix2 200 -> 0 <= B2R al <= 1 ->
  let D := B2R d + B2R l * (1 - B2R al) in
  is_finite (fadd d (fmul l (fsub (fint 1) al))) = true /\
  Rabs (B2R (fadd d (fmul l (fsub (fint 1) al))) - D) <= 4 * u * D.
Proof.
  intros Fd Fl Fal Hd Hl Ha D.
  destruct fint_1 as [V1 F1].
  assert (BB : bpow radix2 200 * 8 <= bpow radix2 1023).
  { change 8 with (bpow radix2 3). rewrite <- bpow_plus. apply bpow_le. lia. }
  assert (B1 : 1 <= bpow radix2 200) by (change 1 with (bpow radix2 0); apply bpow_le; lia).
  assert (B0 : 0 < eta) by apply bpow_gt_0.
  assert (B2 : eta * 8 <= u * bpow radix2 (-200)).
  { change u with (bpow radix2 (-53)). change 8 with (bpow radix2 3). rewrite <- !bpow_plus. apply bpow_le. lia. }
  assert (BS : u * bpow radix2 (-200) <= u * B2R d) by (apply Rmult_le_compat_l; lra).
  set (DD := B2R d) in *. set (L := B2R l) in *. set (AL := B2R al) in *.
  destruct (fsub_err (fint 1) al F1 Fal) as [F2 E2].
  { rewrite V1. fold AL. rewrite Rabs_right by lra. lra. }
  rewrite V1 in E2. fold AL in E2. rewrite (Rabs_right (1 - AL)) in E2 by lra.
  set (c := B2R (fsub (fint 1) al)) in *. apply Rabs_le_inv in E2.
  assert (C0 : 0 <= c) by lra.
  assert (LC : L * ((1 - u) * (1 - AL)) <= L * c) by (apply Rmult_le_compat_l; lra).
  assert (LC' : L * c <= L * ((1 + u) * (1 - AL))) by (apply Rmult_le_compat_l; lra).
  assert (LA : L * (1 - AL) <= L * 1) by (apply Rmult_le_compat_l; lra).
  assert (LA0 : 0 <= L * (1 - AL)) by (apply Rmult_le_pos; lra).
  assert (LC0 : 0 <= L * c) by (apply Rmult_le_pos; lra).
  destruct (fmul_err l (fsub (fint 1) al) Fl F2) as [F3 E3].
  { fold L c. rewrite Rabs_right by lra. lra. }
  fold L c in E3. rewrite (Rabs_right (L * c)) in E3 by lra.
  set (q := B2R (fmul l (fsub (fint 1) al))) in *. apply Rabs_le_inv in E3.
  assert (Q0 : 0 <= q).
  { unfold q. destruct (fmul_exact l (fsub (fint 1) al) Fl F2) as [EX _].
    - apply rnd_small. fold L c. rewrite Rabs_right by lra. lra.
    - rewrite EX. rewrite <- rnd64_0. apply rnd64_mono. exact LC0. }
  destruct (fadd_err d (fmul l (fsub (fint 1) al)) Fd F3) as [F4 E4].
  { fold DD q. rewrite Rabs_right by lra. lra. }
  split; auto. fold DD q in E4. rewrite (Rabs_right (DD + q)) in E4 by lra. apply Rabs_le_inv in E4.
  apply Rabs_le. unfold D. lra.
Qed.

Lemma thr_err l al : is_finite l = true -> is_finite al = true ->
  0 <= B2R l <= bpow radix2 200 -> 0 <= B2R al <= 1 ->
  is_finite (fmul al l) = true /\ 0 <= B2R (fmul al l) /\
  Rabs (B2R (fmul al l) - B2R al * B2R l) <= u * (B2R al * B2R l) + eta.
Proof.
  intros Fl Fal Hl Ha.
  assert (BB : bpow radix2 200 <= bpow radix2 1023) by (apply bpow_le; lia).
  assert (P0 : 0 <= B2R al * B2R l) by (apply Rmult_le_pos; lra).
  assert (P1 : B2R al * B2R l <= 1 * B2R l) by (apply Rmult_le_compat_r; lra).
  assert (P2 : Rabs (B2R al * B2R l) <= bpow radix2 1023) by (rewrite Rabs_right; lra).
  destruct (fmul_err al l Fal Fl P2) as [F E]. rewrite (Rabs_right (B2R al * B2R l)) in E by lra.
  split; [auto|]. split; [|auto].
  destruct (fmul_exact al l Fal Fl (rnd_small _ P2)) as [EX _]. rewrite EX, <- rnd64_0. apply rnd64_mono; auto.
Qed.

(** Division of the thresholded residual: exact for a perturbed residual. *)
Lemma quotient_backward U T D : is_finite U = true -> is_finite T = true -> 0 <= B2R T ->
  bpow radix2 (-201) <= B2R D <= bpow radix2 202 -> Rabs (B2R U) <= bpow radix2 700 ->
  is_finite (fdiv (fsoft U T) D) = true /\
  exists U', B2R (fdiv (fsoft U T) D) = soft_threshold U' (B2R T) / B2R D /\
    Rabs (U' - B2R U) <= 3 * u * Rabs (B2R U) + bpow radix2 (-873).
Proof.
  intros FU FT HT HD HU.
  destruct (C101_value_lemma U T FU FT HT) as (FN & ZN & EN & LN).
  set (N := B2R (fsoft U T)) in *. set (S := soft_threshold (B2R U) (B2R T)) in *.
  assert (P1 : 0 < bpow radix2 (-201)) by apply bpow_gt_0.
  assert (Dp : 0 < B2R D) by lra.
  assert (BIG : Rabs (N / B2R D) <= bpow radix2 1023).
  { unfold Rdiv. rewrite Rabs_mult, (Rabs_right (/ B2R D)) by (apply Rle_ge, Rlt_le, Rinv_0_lt_compat; auto).
    apply Rle_trans with (bpow radix2 700 * bpow radix2 201).
    - apply Rmult_le_compat; [apply Rabs_pos|apply Rlt_le, Rinv_0_lt_compat; auto|lra|].
      replace (bpow radix2 201) with (/ bpow radix2 (-201)) by (rewrite <- bpow_opp; reflexivity).
      apply Rinv_le; lra.
    - rewrite <- bpow_plus. apply bpow_le. lia. }
  destruct (fdiv_err (fsoft U T) D FN (Rgt_not_eq _ _ Dp) BIG) as [FQ EQ]. fold N in EQ.
  destruct (fdiv_exact (fsoft U T) D FN (Rgt_not_eq _ _ Dp) (rnd_small _ BIG)) as [XQ _]. fold N in XQ.
  split; auto. set (q := B2R (fdiv (fsoft U T) D)) in *.
  assert (S_U : Rabs S <= Rabs (B2R U)).
  { unfold S. rewrite soft_cases by auto. rewrite Rabs_mult.
    pose proof (Rabs_pos (B2R U)).
    destruct (rsign_cases (B2R U)) as [(? & ->)|[(? & ->)|(? & ->)]].
    - rewrite Rabs_R1, Rmult_1_l. unfold Rmax. destruct (Rle_dec _ 0); [rewrite Rabs_R0; lra|rewrite Rabs_right; lra].
    - rewrite (Rabs_left (-1)) by lra. replace (- (-1)) with 1 by ring. rewrite Rmult_1_l.
      unfold Rmax. destruct (Rle_dec _ 0); [rewrite Rabs_R0; lra|rewrite Rabs_right; lra].
    - rewrite Rabs_R0, Rmult_0_l. lra. }
  assert (ERR : Rabs (B2R D * q - S) <= 3 * u * Rabs (B2R U) + bpow radix2 (-873)).
  { replace (B2R D * q - S) with (B2R D * (q - N / B2R D) + (N - S)) by (field; lra).
    eapply Rle_trans; [apply Rabs_triang|].
    rewrite Rabs_mult, (Rabs_right (B2R D)) by lra.
    assert (K : B2R D * Rabs (q - N / B2R D) <= B2R D * (u * Rabs (N / B2R D) + eta)) by (apply Rmult_le_compat_l; lra).
    replace (B2R D * (u * Rabs (N / B2R D) + eta)) with (u * Rabs N + B2R D * eta) in K.
    - assert (B2R D * eta <= bpow radix2 (-873)).
      { apply Rle_trans with (bpow radix2 202 * eta); [apply Rmult_le_compat_r; [apply bpow_ge_0|lra]|].
        rewrite <- bpow_plus. apply bpow_le. lia. }
      pose proof (Rabs_pos (B2R U)). lra.
    - unfold Rdiv. rewrite Rabs_mult, (Rabs_right (/ B2R D)) by (apply Rle_ge, Rlt_le, Rinv_0_lt_compat; auto).
      field. lra. }
  exists (B2R U + (B2R D * q - S)). split; [|replace (B2R U + (B2R D * q - S) - B2R U) with (B2R D * q - S) by ring; exact ERR].
  apply (Rmult_eq_reg_l (B2R D)); [|lra].
  replace (B2R D * (soft_threshold (B2R U + (B2R D * q - S)) (B2R T) / B2R D))
    with (soft_threshold (B2R U + (B2R D * q - S)) (B2R T)) by (field; lra).
  destruct (Rle_dec (Rabs (B2R U)) (B2R T)) as [Z|NZ].
  - assert (N0 : N = 0) by (apply ZN; auto).
    assert (q0 : q = 0) by (rewrite XQ, N0; unfold Rdiv; rewrite Rmult_0_l; apply rnd64_0).
    assert (S0 : S = 0) by (apply st_zero_iff; auto).
    rewrite q0, S0. rewrite Rmult_0_r. replace (B2R U + (0 - 0)) with (B2R U) by ring. symmetry. exact S0.
  - apply Rnot_le_lt in NZ.
    destruct (Rlt_dec 0 (B2R U)) as [Pu|Nu].
    + rewrite Rabs_right in NZ by lra.
      assert (S1 : S = B2R U - B2R T) by (apply st_pos; lra).
      assert (q0 : 0 <= q).
      { rewrite XQ, <- rnd64_0. apply rnd64_mono. apply Rmult_le_pos; [|apply Rlt_le, Rinv_0_lt_compat; auto].
        rewrite (Rabs_right S) in EN by lra. apply Rabs_le_inv in EN. lra. }
      assert (0 <= B2R D * q) by (apply Rmult_le_pos; lra).
      rewrite S1. destruct (Req_dec (B2R D * q) 0) as [Z0|NZ0].
      * rewrite Z0. symmetry. apply st_zero_iff; auto. rewrite Rabs_right; lra.
      * rewrite st_pos; lra.
    + rewrite Rabs_left1 in NZ by lra.
      assert (S1 : S = B2R U + B2R T) by (apply st_neg; lra).
      assert (q0 : q <= 0).
      { rewrite XQ, <- rnd64_0. apply rnd64_mono. unfold Rdiv.
        assert (N <= 0) by (rewrite (Rabs_left1 S) in EN by lra; apply Rabs_le_inv in EN; lra).
        assert (0 < / B2R D) by (apply Rinv_0_lt_compat; auto). nra. }
      assert (B2R D * q <= 0) by nra.
      rewrite S1. destruct (Req_dec (B2R D * q) 0) as [Z0|NZ0].
      * rewrite Z0. symmetry. apply st_zero_iff; auto. rewrite Rabs_left1; lra.
      * rewrite st_neg; lra.
Qed.

Lemma quotient_plain U D : is_finite U = true ->
  bpow radix2 (-201) <= B2R D <= bpow radix2 202 -> Rabs (B2R U) <= bpow radix2 700 ->
  is_finite (fdiv U D) = true /\
  exists U', B2R (fdiv U D) = U' / B2R D /\
    Rabs (U' - B2R U) <= 3 * u * Rabs (B2R U) + bpow radix2 (-873).
Proof.
  intros FU HD HU.
  assert (P1 : 0 < bpow radix2 (-201)) by apply bpow_gt_0.
  assert (Dp : 0 < B2R D) by lra.
  assert (BIG : Rabs (B2R U / B2R D) <= bpow radix2 1023).
  { unfold Rdiv. rewrite Rabs_mult, (Rabs_right (/ B2R D)) by (apply Rle_ge, Rlt_le, Rinv_0_lt_compat; auto).
    apply Rle_trans with (bpow radix2 700 * bpow radix2 201).
    - apply Rmult_le_compat; [apply Rabs_pos|apply Rlt_le, Rinv_0_lt_compat; auto|lra|].
      replace (bpow radix2 201) with (/ bpow radix2 (-201)) by (rewrite <- bpow_opp; reflexivity).
      apply Rinv_le; lra.
    - rewrite <- bpow_plus. apply bpow_le. lia. }
  destruct (fdiv_err U D FU (Rgt_not_eq _ _ Dp) BIG) as [FQ EQ].
  split; auto. set (q := B2R (fdiv U D)) in *.
  exists (B2R D * q). split; [field; lra|].
  replace (B2R D * q - B2R U) with (B2R D * (q - B2R U / B2R D)) by (field; lra).
  rewrite Rabs_mult, (Rabs_right (B2R D)) by lra.
  assert (K : B2R D * Rabs (q - B2R U / B2R D) <= B2R D * (u * Rabs (B2R U / B2R D) + eta)) by (apply Rmult_le_compat_l; lra).
  replace (B2R D * (u * Rabs (B2R U / B2R D) + eta)) with (u * Rabs (B2R U) + B2R D * eta) in K.
  - assert (B2R D * eta <= bpow radix2 (-873)).
    { apply Rle_trans with (bpow radix2 202 * eta); [apply Rmult_le_compat_r; [apply bpow_ge_0|lra]|].
      rewrite <- bpow_plus. apply bpow_le. lia. }
    pose proof (Rabs_pos (B2R U)). lra.
  - unfold Rdiv. rewrite Rabs_mult, (Rabs_right (/ B2R D)) by (apply Rle_ge, Rlt_le, Rinv_0_lt_compat; auto).
    field. lra.
Qed.

(** [min(max(v, lower), upper)]. *)
Lemma clip_val J lo up j v : fbounds_ok J lo up -> (j < J)%nat -> is_finite v = true ->
  is_finite (pymin (pymax v (lo j)) (up j)) = true /\
  B2R (pymin (pymax v (lo j)) (up j)) = clip (rbound lo j) (rbound up j) (B2R v).
Proof.
  intros HB Hj Fv. destruct (HB j Hj) as (HL & HU & _). unfold clip, rbound.
  assert (A : is_finite (pymax v (lo j)) = true /\
              B2R (pymax v (lo j)) = max_lo (B2R v) (if is_finite (lo j) then Some (B2R (lo j)) else None)).
  { unfold pymax. destruct HL as [FL| ->].
    - rewrite FL. unfold flt. rewrite Bltb_correct by auto. cbn [max_lo].
      destruct (Rlt_bool_spec (B2R v) (B2R (lo j))); split; auto.
      + rewrite Rmax_right; lra. + rewrite Rmax_left; lra.
    - replace (flt v (B754_infinity true)) with false by (destruct v; try discriminate Fv; reflexivity).
      split; [auto|reflexivity]. }
  destruct A as [FA EA]. rewrite <- EA. unfold pymin. destruct HU as [FU| ->].
  - rewrite FU. unfold flt. rewrite Bltb_correct by auto. cbn [min_up].
    destruct (Rlt_bool_spec (B2R (up j)) (B2R (pymax v (lo j)))); split; auto.
    + rewrite Rmin_right; lra. + rewrite Rmin_left; lra.
  - replace (flt (B754_infinity false) (pymax v (lo j))) with false
      by (destruct (pymax v (lo j)); try discriminate FA; reflexivity).
    split; [auto|reflexivity].
Qed.

Lemma bsum_le n f g : (forall k, (k < n)%nat -> f k <= g k) -> bsum n f <= bsum n g.
Proof.
  induction n as [|n IH]; intros H; simpl; [lra|].
  assert (bsum n f <= bsum n g) by (apply IH; intros; apply H; lia).
  assert (f n <= g n) by (apply H; lia). lra.
Qed.
Lemma bsum_abs n f : Rabs (bsum n f) <= bsum n (fun k => Rabs (f k)).
Proof.
  induction n as [|n IH]; simpl; [rewrite Rabs_R0; lra|]. eapply Rle_trans; [apply Rabs_triang|]. lra.
Qed.
Lemma bsum_term n f j : (j < n)%nat -> (forall k, (k < n)%nat -> 0 <= f k) -> f j <= bsum n f.
Proof.
  induction n as [|n IH]; intros Hj H; [lia|]. simpl.
  assert (0 <= f n) by (apply H; lia).
  destruct (Nat.eq_dec j n) as [->|N].
  - assert (0 <= bsum n f); [|lra]. clear IH Hj. induction n as [|n IH]; simpl; [lra|].
    assert (0 <= f n) by (apply H; lia). assert (0 <= bsum n f); [apply IH; auto|lra].
  - assert (f j <= bsum n f) by (apply IH; [lia|auto]). lra.
Qed.

(** The exact problem that belongs to the float arguments. *)
Definition rcd (a : fcd_args) (x : nat -> nat -> float) : cd_args :=
  mk_cd (fc_J a) (rmat x) (rvec (fc_y a)) (B2R (fc_reg a)) (fc_isreg a) (B2R (fc_alpha a)) (rbound (fc_lo a)) (rbound (fc_up a)).
Definition rthr (a : fcd_args) (j : nat) : R := if fc_isreg a j then B2R (fc_alpha a) * B2R (fc_reg a) else 0.

Theorem step_backward a x g mu m j :
  ranged (fc_J a) x (fc_y a) (fc_reg a) (fc_alpha a) -> (forall j, fc_diag a j = x j j) ->
  dot_accurate (fc_J a) x (fc_dot a) g -> 0 <= g <= 1 -> fbounds_ok (fc_J a) (fc_lo a) (fc_up a) ->
  (j < fc_J a)%nat -> mu <= bpow radix2 202 ->
  (forall k, (k < fc_J a)%nat -> is_finite (m k) = true /\ Rabs (B2R (m k)) <= mu) ->
  exists v U T D, fcd_coord a m j = Ok v /\ is_finite v = true /\
    B2R v = clip (rbound (fc_lo a) j) (rbound (fc_up a) j) (soft_threshold U T / D) /\
    0 < D /\ 0 <= T /\
    Rabs (D - cd_den (rcd a x) j) <= 4 * u * cd_den (rcd a x) j /\
    Rabs (T - rthr a j) <= u * rthr a j + eta /\
    Rabs (U - cd_partial (rcd a x) (rvec m) j)
      <= g * (row_sum (fc_J a) (rmat x) j * mu)
         + 21 * u * (Rabs (B2R (fc_y a j)) + row_sum (fc_J a) (rmat x) j * mu) + bpow radix2 (-800).
Proof.
  intros (RX & (FR & RR) & R0 & FA & RA) HD HDot Hg HB Hj Hmu Hm.
  destruct (RX j Hj) as (FX & X0 & RS & (FY & YR)).
  assert (Hm' : forall k, (k < fc_J a)%nat -> is_finite (m k) = true /\ Rabs (B2R (m k)) <= bpow radix2 202).
  { intros k Hk. destruct (Hm k Hk). split; [auto|lra]. }
  destruct (HDot m j Hj Hm') as [FS ES].
  destruct (Hm j Hj) as [Fm Mm].
  assert (M0 : 0 <= mu) by (pose proof (Rabs_pos (B2R (m j))); lra).
  set (W := bsum (fc_J a) (fun k => Rabs (B2R (x j k) * B2R (m k)))) in *.
  set (s := bsum (fc_J a) (fun k => B2R (x j k) * B2R (m k))) in *.
  set (rs := row_sum (fc_J a) (rmat x) j) in *.
  assert (WS : W <= rs * mu).
  { unfold W, rs, row_sum. rewrite <- bsum_scal_r. apply bsum_le. intros k Hk. rewrite Rabs_mult.
    apply Rmult_le_compat_l; [apply Rabs_pos|apply Hm; auto]. }
  assert (SW : Rabs s <= W) by apply bsum_abs.
  assert (XW : Rabs (B2R (x j j) * B2R (m j)) <= W).
  { apply (bsum_term (fc_J a) (fun k => Rabs (B2R (x j k) * B2R (m k))) j Hj). intros; apply Rabs_pos. }
  assert (XR : B2R (x j j) <= rs).
  { eapply Rle_trans; [apply Rle_abs|]. apply (bsum_term (fc_J a) (fun k => Rabs (rmat x j k)) j Hj). intros; apply Rabs_pos. }
  assert (Bp : 0 < bpow radix2 (-200)) by apply bpow_gt_0.
  assert (RSmu : rs * mu <= bpow radix2 200 * bpow radix2 202) by (apply Rmult_le_compat; lra).
  rewrite <- bpow_plus in RSmu. change (200 + 202)%Z with 402%Z in RSmu.
  assert (B402 : bpow radix2 402 * 64 <= bpow radix2 500).
  { change 64 with (bpow radix2 6). rewrite <- bpow_plus. apply bpow_le. lia. }
  assert (B200 : bpow radix2 200 <= bpow radix2 402) by (apply bpow_le; lia).
  assert (B500 : bpow radix2 500 <= bpow radix2 700 <= bpow radix2 1000) by (split; apply bpow_le; lia).
  assert (B900 : 0 < bpow radix2 (-900) <= bpow radix2 402) by (split; [apply bpow_gt_0|apply bpow_le; lia]).
  assert (E0 : 0 < eta) by apply bpow_gt_0.
  assert (E1 : eta * 8 <= bpow radix2 (-900)).
  { change 8 with (bpow radix2 3). rewrite <- bpow_plus. apply bpow_le. lia. }
  assert (E2 : bpow radix2 (-900) * 8 <= bpow radix2 (-873)).
  { change 8 with (bpow radix2 3). rewrite <- bpow_plus. apply bpow_le. lia. }
  assert (E3 : bpow radix2 (-873) * 8 <= bpow radix2 (-800)).
  { change 8 with (bpow radix2 3). rewrite <- bpow_plus. apply bpow_le. lia. }
  assert (gW : g * W <= g * (rs * mu)) by (apply Rmult_le_compat_l; lra).
  assert (W0 : 0 <= W) by (pose proof (Rabs_pos s); lra).
  assert (gW1 : g * W <= 1 * W) by (apply Rmult_le_compat_r; lra).
  set (Y := B2R (fc_y a j)) in *. set (sh := B2R (fc_dot a j m)) in *.
  assert (YS : Rabs (Y - sh) <= Rabs Y + 2 * (rs * mu) + bpow radix2 (-900)).
  { replace (Y - sh) with (Y + (- s + - (sh - s))) by ring.
    eapply Rle_trans; [apply Rabs_triang|]. pose proof (Rabs_triang (- s) (- (sh - s))) as T.
    rewrite !Rabs_Ropp in T. lra. }
  pose proof (Rabs_pos Y) as Y0.
  rewrite <- HD in FX.
  destruct (update_err (fc_y a j) (fc_dot a j m) (fc_diag a j) (m j) FY FS FX Fm) as [FU EU].
  { fold Y sh. lra. } { rewrite HD. lra. }
  change (fadd (fsub (fc_y a j) (fc_dot a j m)) (fmul (fc_diag a j) (m j))) with (fcd_update a m j) in FU, EU.
  rewrite HD in EU. fold Y sh in EU.
  set (U1 := B2R (fcd_update a m j)) in *.
  set (dm := B2R (x j j) * B2R (m j)) in *.
  assert (PU : cd_partial (rcd a x) (rvec m) j = Y - s + dm) by reflexivity.
  assert (ErrU : Rabs (U1 - (Y - s + dm)) <= g * (rs * mu) + 3 * u * (Rabs Y + 3 * (rs * mu)) + bpow radix2 (-900) * 2).
  { replace (U1 - (Y - s + dm)) with ((U1 - (Y - sh + dm)) + - (sh - s)) by ring.
    eapply Rle_trans; [apply Rabs_triang|]. rewrite Rabs_Ropp. lra. }
  assert (SzU : Rabs U1 <= 2 * (Rabs Y + 3 * (rs * mu)) + bpow radix2 (-900) * 3 /\ Rabs U1 <= 8 / 7 * (Rabs Y + 3 * (rs * mu)) + bpow radix2 (-900) * 3).
  { assert (Rabs (U1 - (Y - sh + dm)) <= 3 * u * (Rabs Y + 3 * (rs * mu)) + bpow radix2 (-900)) by lra.
    pose proof (abs_near _ _ _ H) as N. pose proof (Rabs_triang (Y - sh) dm). lra. }
  destruct SzU as [SzU SzU']. rewrite PU.
  assert (XB : bpow radix2 (-200) <= B2R (fc_diag a j) <= bpow radix2 200) by (rewrite HD; lra).
  assert (RB : 0 <= B2R (fc_reg a) <= bpow radix2 200) by (pose proof (Rle_abs (B2R (fc_reg a))); lra).
  assert (Q1 : bpow radix2 (-201) * 2 = bpow radix2 (-200)).
  { replace (bpow radix2 (-200)) with (bpow radix2 (-201) * bpow radix2 1) by (rewrite <- bpow_plus; reflexivity). reflexivity. }
  assert (Q2 : bpow radix2 200 * 4 = bpow radix2 202).
  { replace (bpow radix2 202) with (bpow radix2 200 * bpow radix2 2) by (rewrite <- bpow_plus; reflexivity). reflexivity. }
  unfold fcd_coord.
  assert (MAIN : exists U T, 0 <= T /\ is_finite (fdiv (fcd_num a m j) (fcd_den a j)) = true /\
     B2R (fdiv (fcd_num a m j) (fcd_den a j)) = soft_threshold U T / B2R (fcd_den a j) /\
     bpow radix2 (-201) <= B2R (fcd_den a j) /\ is_finite (fcd_den a j) = true /\
     Rabs (B2R (fcd_den a j) - cd_den (rcd a x) j) <= 4 * u * cd_den (rcd a x) j /\
     Rabs (T - rthr a j) <= u * rthr a j + eta /\ Rabs (U - U1) <= 3 * u * Rabs U1 + bpow radix2 (-873)).
  { unfold fcd_num, fcd_den, cd_den, rthr. cbn [rcd cd_isreg cd_x cd_reg cd_alpha]. unfold rmat. destruct (fc_isreg a j).
    - destruct (den_err (fc_diag a j) (fc_reg a) (fc_alpha a) FX FR FA XB RB RA) as [FD ED]. cbv zeta in ED.
      destruct (thr_err (fc_reg a) (fc_alpha a) FR FA RB RA) as (FT & T0 & ET).
      rewrite HD in ED, XB, FD. rewrite HD.
      assert (LA0 : 0 <= B2R (fc_reg a) * (1 - B2R (fc_alpha a))) by (apply Rmult_le_pos; lra).
      assert (LA1 : B2R (fc_reg a) * (1 - B2R (fc_alpha a)) <= B2R (fc_reg a) * 1) by (apply Rmult_le_compat_l; lra).
      set (D := B2R (x j j) + B2R (fc_reg a) * (1 - B2R (fc_alpha a))) in *.
      assert (DB : bpow radix2 (-200) <= D <= bpow radix2 200 * 2) by (unfold D; lra).
      pose proof ED as ED'. apply Rabs_le_inv in ED'.
      assert (DB2 : bpow radix2 (-201) <= B2R (fadd (x j j) (fmul (fc_reg a) (fsub (fint 1) (fc_alpha a)))) <= bpow radix2 202) by lra.
      destruct (quotient_backward (fcd_update a m j) (fmul (fc_alpha a) (fc_reg a)) _ FU FT T0 DB2) as [FQ (U' & EQ & EU')].
      { fold U1. lra. }
      exists U', (B2R (fmul (fc_alpha a) (fc_reg a))). repeat (split; [auto; lra|]). auto.
    - rewrite HD in XB.
      destruct (quotient_plain (fcd_update a m j) (fc_diag a j) FU ltac:(rewrite HD; lra)) as [FQ (U' & EQ & EU')].
      { fold U1. lra. }
      exists U', 0. split; [lra|]. split; [auto|]. split.
      { rewrite EQ. f_equal. symmetry. unfold soft_threshold. rewrite Rminus_0_r.
        rewrite Rmax_left by apply Rabs_pos.
        destruct (rsign_cases U') as [(? & ->)|[(? & ->)|(? & ->)]];
          [rewrite Rabs_right|rewrite Rabs_left|rewrite Rabs_right]; lra. }
      split; [rewrite HD; lra|]. split; [auto|]. split.
      { rewrite HD. rewrite Rminus_diag_eq, Rabs_R0 by reflexivity. lra. }
      split; [rewrite Rminus_0_r, Rabs_R0; lra|]. auto. }
  destruct MAIN as (U & T & T0 & FQ & EQ & D0 & FDen & ED & ET & EU1).
  assert (P201 : 0 < bpow radix2 (-201)) by apply bpow_gt_0.
  replace (feq (fcd_den a j) (fint 0)) with false.
  2:{ symmetry. unfold feq. rewrite Beqb_correct by (auto; apply fint_0). change (B2R (fint 0)) with 0. apply Req_bool_false. lra. }
  destruct (clip_val (fc_J a) (fc_lo a) (fc_up a) j _ HB Hj FQ) as [FV EV].
  eexists _, U, T, (B2R (fcd_den a j)). split; [reflexivity|]. split; [exact FV|].
  split; [rewrite EV, EQ; reflexivity|]. split; [lra|]. split; [auto|]. split; [auto|]. split; [auto|].
  replace (U - (Y - s + dm)) with ((U - U1) + (U1 - (Y - s + dm))) by ring.
  eapply Rle_trans; [apply Rabs_triang|]. lra.
Qed.

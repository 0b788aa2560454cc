(** [transform] and [inverse_transform] of the scaler in binary64. *)
From Coq Require Import ZArith Reals List Bool Arith Lia Lra Psatz.
From Flocq Require Import Core BinarySingleNaN.
From Verif Require Import Base Lin Data S_Gram L_Gram S_Scaler L_Scaler M_Float S_Float S_FloatScaler L_Float L_Float2 L_Float3 L_Float5 L_Float6 L_FloatS L_FloatS2 L_FloatS3 L_FloatS4 L_FloatS5.
Import ListNotations.
Open Scope R_scope.

Lemma sqrt_lo z e : bpow radix2 (e + e) <= z -> bpow radix2 e <= sqrt z.
Proof.
  intros H. rewrite <- (sqrt_square (bpow radix2 e)) by apply bpow_ge_0. apply sqrt_le_1_alt. rewrite <- bpow_plus. exact H.
Qed.
Lemma sqrt_hi z e : z <= bpow radix2 (e + e) -> sqrt z <= bpow radix2 e.
Proof.
  intros H. rewrite <- (sqrt_square (bpow radix2 e)) by apply bpow_ge_0. apply sqrt_le_1_alt. rewrite <- bpow_plus. exact H.
Qed.

Lemma fsqrt_err a : is_finite a = true -> bpow radix2 (-400) <= B2R a <= bpow radix2 800 ->
  is_finite (fsqrt a) = true /\ Rabs (B2R (fsqrt a) - sqrt (B2R a)) <= 2 * u * sqrt (B2R a) /\
  bpow radix2 (-201) <= B2R (fsqrt a) <= bpow radix2 401.
Proof.
  intros Fa [H1 H2]. pose proof (bpow_gt_0 radix2 (-400)) as B0.
  destruct (Bsqrt_correct 53 1024 _ _ mode_NE a) as (E & F & _).
  assert (FF : is_finite (fsqrt a) = true).
  { unfold fsqrt. rewrite F. destruct a as [s| | |s m e H]; try discriminate; auto.
    destruct s; auto. exfalso.
    assert (B2R (B754_finite true m e H) < 0) by (apply F2R_lt_0; reflexivity).
    apply (Rlt_irrefl 0). eapply Rlt_trans; [exact B0|]. eapply Rle_lt_trans; [exact H1|]. assumption. }
  split; auto.
  pose proof (rnd_err (sqrt (B2R a))) as K. change (B2R (fsqrt a) = rnd64 (sqrt (B2R a))) in E. rewrite <- E in K.
  assert (S1 : bpow radix2 (-200) <= sqrt (B2R a)) by (apply sqrt_lo; exact H1).
  assert (S2 : sqrt (B2R a) <= bpow radix2 400) by (apply sqrt_hi; exact H2).
  set (q := sqrt (B2R a)) in *. pose proof (bpow_gt_0 radix2 (-200)) as B2.
  rewrite (Rabs_right q) in K by lra.
  assert (eta <= u * bpow radix2 (-200)).
  { change u with (bpow radix2 (-53)). rewrite <- bpow_plus. apply bpow_le. lia. }
  assert (K2 : Rabs (B2R (fsqrt a) - q) <= 2 * u * q) by lra.
  split; auto. apply abs_le2 in K2.
  assert (D1 : bpow radix2 (-201) = / 2 * bpow radix2 (-200)) by (change (/ 2) with (bpow radix2 (-1)); rewrite <- bpow_plus; reflexivity).
  assert (D2 : bpow radix2 401 = 2 * bpow radix2 400) by (change 2 with (bpow radix2 1); rewrite <- bpow_plus; reflexivity).
  lra.
Qed.

(** Real-number part of the accuracy of [transform]. *)
Lemma transform_real X V m mf a s x N z nu : 0 < X -> u <= nu <= / 4096 -> Rabs x <= X -> Rabs m <= X ->
  1024 * nu * (X * X) <= V -> V <= 4 * (X * X) -> Rabs (mf - m) <= 21 * nu * X -> Rabs (a - V) <= 240 * nu * (X * X) ->
  Rabs (s - sqrt a) <= 2 * u * sqrt a -> Rabs (N - (x - mf)) <= u * Rabs (x - mf) ->
  Rabs (z - N / s) <= u * Rabs (N / s) + eta ->
  Rabs (z - (x - m) / sqrt V) <= 1000 * nu * (X / sqrt V) ^ 3.
Proof.
  intros X0 Hn Hx Hm HV1 HV2 Hmf Ha Hs HN Hz.
  assert (XX : 0 < X * X) by (apply Rmult_lt_0_compat; lra).
  assert (nXX : 0 < nu * (X * X)) by (apply Rmult_lt_0_compat; lra).
  assert (V0 : 0 < V) by lra.
  set (sg := sqrt V) in *. assert (sg0 : 0 < sg) by (apply sqrt_lt_R0; auto).
  assert (sgV : sg * sg = V) by (apply sqrt_sqrt; lra).
  set (k := nu * (X * X) / V).
  assert (kV : k * V = nu * (X * X)) by (unfold k; field; lra).
  assert (k1 : k <= / 1024).
  { apply Rmult_le_reg_r with V; auto. lra. }
  assert (k2 : nu / 4 <= k).
  { apply Rmult_le_reg_r with V; auto. rewrite kV. assert (nu * V <= nu * (4 * (X * X))) by (apply Rmult_le_compat_l; lra). lra. }
  apply abs_le2 in Ha.
  assert (a0 : 3 / 4 * V <= a <= 5 / 4 * V) by lra.
  set (r := sqrt a) in *.
  assert (r0 : 0 < r) by (apply sqrt_lt_R0; lra). assert (ra : r * r = a) by (apply sqrt_sqrt; lra).
  assert (rs : Rabs (r - sg) <= 240 * k * sg).
  { apply Rmult_le_reg_r with (r + sg); [lra|].
    rewrite <- (Rabs_right (r + sg)) at 1 by lra. rewrite <- Rabs_mult. replace ((r - sg) * (r + sg)) with (a - V) by (rewrite <- ra, <- sgV; ring).
    apply Rle_trans with (240 * k * sg * sg).
    - replace (240 * k * sg * sg) with (240 * (k * (sg * sg))) by ring. rewrite sgV, kV. apply Rabs_le. lra.
    - apply Rmult_le_compat_l; [|lra]. apply Rmult_le_pos; lra. }
  assert (ks : k * sg <= / 1024 * sg) by (apply Rmult_le_compat_r; lra).
  assert (us : u * sg <= 4 * (k * sg)).
  { replace (4 * (k * sg)) with (4 * k * sg) by ring. apply Rmult_le_compat_r; lra. }
  assert (rb : 3 / 4 * sg <= r <= 5 / 4 * sg) by (apply abs_le2 in rs; lra).
  assert (ss : Rabs (s - sg) <= 255 * k * sg).
  { replace (s - sg) with ((s - r) + (r - sg)) by ring. eapply Rle_trans; [apply Rabs_triang|]. lra. }
  assert (sb : 3 / 4 * sg <= s) by (apply abs_le2 in ss; lra).
  set (t := x - m) in *.
  assert (tb : Rabs t <= 2 * X) by (unfold t, Rminus; eapply Rle_trans; [apply Rabs_triang|]; rewrite Rabs_Ropp; lra).
  assert (nX : nu * X <= / 4096 * X) by (apply Rmult_le_compat_r; lra).
  assert (uX : u * X <= nu * X) by (apply Rmult_le_compat_r; lra).
  assert (kX : nu * X <= 4 * (k * X)) by (replace (4 * (k * X)) with (4 * k * X) by ring; apply Rmult_le_compat_r; lra).
  assert (xm : Rabs (x - mf) <= 2 * X + 21 * nu * X).
  { replace (x - mf) with (t - (mf - m)) by (unfold t; ring). unfold Rminus at 1. eapply Rle_trans; [apply Rabs_triang|]. rewrite Rabs_Ropp. lra. }
  assert (Nt : Rabs (N - t) <= 96 * (k * X)).
  { replace (N - t) with ((N - (x - mf)) + (m - mf)) by (unfold t; ring). eapply Rle_trans; [apply Rabs_triang|].
    rewrite (Rabs_minus_sym m). lra. }
  assert (kX1 : k * X <= / 1024 * X) by (apply Rmult_le_compat_r; lra).
  assert (Nb : Rabs N <= (2 + / 10) * X) by (apply abs_near in Nt; lra).
  set (q := X / sg). assert (q0 : 0 < q) by (apply Rdiv_lt_0_compat; auto).
  assert (qs : q * sg = X) by (unfold q; field; lra).
  assert (s0 : 0 < s) by lra.
  assert (Q1 : Rabs (N / s) <= 3 * q).
  { unfold Rdiv. rewrite Rabs_mult, (Rabs_right (/ s)) by (apply Rle_ge, Rlt_le, Rinv_0_lt_compat; auto).
    apply Rmult_le_reg_r with s; auto. rewrite Rmult_assoc, Rinv_l, Rmult_1_r by lra.
    assert (q * (3 / 4 * sg) <= q * s) by (apply Rmult_le_compat_l; lra). lra. }
  assert (Q2 : Rabs (N / s - t / sg) <= 820 * (k * q)).
  { replace (N / s - t / sg) with (((N - t) + t / sg * (sg - s)) / s) by (field; lra).
    unfold Rdiv at 1. rewrite Rabs_mult, (Rabs_right (/ s)) by (apply Rle_ge, Rlt_le, Rinv_0_lt_compat; auto).
    apply Rmult_le_reg_r with s; auto. rewrite Rmult_assoc, Rinv_l, Rmult_1_r by lra.
    assert (T2 : Rabs (t / sg) <= 2 * q).
    { unfold Rdiv. rewrite Rabs_mult, (Rabs_right (/ sg)) by (apply Rle_ge, Rlt_le, Rinv_0_lt_compat; auto).
      apply Rmult_le_reg_r with sg; auto. rewrite Rmult_assoc, Rinv_l, Rmult_1_r by lra. lra. }
    eapply Rle_trans; [apply Rabs_triang|]. rewrite (Rabs_mult (t / sg)), (Rabs_minus_sym sg).
    assert (A : Rabs (t / sg) * Rabs (s - sg) <= 2 * q * (255 * k * sg)) by (apply Rmult_le_compat; auto using Rabs_pos).
    replace (2 * q * (255 * k * sg)) with (510 * (k * (q * sg))) in A by ring. rewrite qs in A.
    assert (B : k * q * (3 / 4 * sg) <= k * q * s) by (apply Rmult_le_compat_l; [apply Rmult_le_pos; lra|lra]).
    replace (k * q * (3 / 4 * sg)) with (3 / 4 * (k * (q * sg))) in B by ring. rewrite qs in B. lra. }
  assert (q1 : / 2 <= q).
  { apply Rmult_le_reg_r with sg; auto. rewrite qs. assert (sg <= 2 * X); [|lra].
    apply Rsqr_incr_0_var; [unfold Rsqr; lra|lra]. }
  assert (kq : nu / 4 * q <= k * q) by (apply Rmult_le_compat_r; lra).
  assert (uq : u * q <= nu * q) by (apply Rmult_le_compat_r; lra).
  assert (eta <= u / 8).
  { replace (u / 8) with (bpow radix2 (-56)) by (change (bpow radix2 (-56)) with (/ 72057594037927936); lra). apply bpow_le. lia. }
  assert (uq2 : u * / 2 <= u * q) by (apply Rmult_le_compat_l; lra).
  replace (1000 * nu * q ^ 3) with (1000 * (k * q)).
  - replace (z - t / sg) with ((z - N / s) + (N / s - t / sg)) by ring. eapply Rle_trans; [apply Rabs_triang|]. lra.
  - unfold k. rewrite <- sgV. unfold q. field. lra.
Qed.

Lemma transform_close f X l rows x : is_finite f = true -> 0 <= B2R f <= 1 -> bpow radix2 (-60) <= X <= bpow radix2 300 ->
  l <> [] -> Forall (row_ok X) (l ++ rows) -> INR (length (l ++ rows)) <= bpow radix2 40 ->
  is_finite x = true -> Rabs (B2R x) <= X ->
  let s := fscaler_update f (fscaler_fit f (map fst l) (map snd l)) rows in
  let nu := INR (length (l ++ rows)) * u in
  let V := wvar (B2R f) (frows (l ++ rows)) 0 in
  1024 * nu * (X * X) <= V ->
  is_finite (fscaler_transform s x) = true /\
  Rabs (B2R (fscaler_transform s x) - (B2R x - wmean (B2R f) (frows (l ++ rows)) 0) / sqrt V) <= 1000 * nu * (X / sqrt V) ^ 3.
Proof.
  intros Ff Hf HX Hn HF HL Fx Hx s nu V HV.
  destruct (scaler_close f X l rows Ff Hf HX Hn HF HL) as ((_ & Fm & _ & Fv) & _ & Em & Ev). fold s nu V in Fm, Fv, Em, Ev.
  assert (Hn' : l ++ rows <> []) by (destruct l; [congruence|discriminate]).
  pose proof (wmean_abs (B2R f) X _ Hf HF Hn') as Hm. pose proof (wvar_abs (B2R f) X _ Hf HF Hn') as HVb.
  destruct (wtotal_range (B2R f) X _ Hf HF Hn') as [WL _]. pose proof (bpow_gt_0 radix2 (-100)). pose proof (bpow_gt_0 radix2 (-60)).
  assert (X0 : 0 < X) by lra.
  assert (HV2 : V <= 4 * (X * X)).
  { apply Rmult_le_reg_r with (wtotal (B2R f) (frows (l ++ rows))); [lra|]. fold V in HVb. lra. }
  assert (N1 : 1 <= INR (length (l ++ rows))).
  { change 1 with (INR 1). apply le_INR. destruct l; [congruence|cbn; lia]. }
  assert (Hnu : u <= nu <= / 4096).
  { unfold nu. change (bpow radix2 40) with 1099511627776 in HL. lra. }
  set (m := wmean (B2R f) (frows (l ++ rows)) 0) in *.
  assert (XX : bpow radix2 (-120) <= X * X <= bpow radix2 600).
  { change (-120)%Z with ((-60) + (-60))%Z. change 600%Z with (300 + 300)%Z. rewrite !bpow_plus. split; apply Rmult_le_compat; lra. }
  pose proof (bpow_gt_0 radix2 (-120)).
  assert (uXX : u * (X * X) <= nu * (X * X)) by (apply Rmult_le_compat_r; lra).
  assert (L1 : bpow radix2 (-400) <= u * bpow radix2 (-120)).
  { change u with (bpow radix2 (-53)). rewrite <- bpow_plus. apply bpow_le. lia. }
  assert (L2 : 8 * bpow radix2 600 <= bpow radix2 800).
  { change 8 with (bpow radix2 3). rewrite <- bpow_plus. apply bpow_le. lia. }
  pose proof Ev as Ev'. apply abs_le2 in Ev'.
  destruct (fsqrt_err (fs_var s) Fv) as (Fs & Es & Rs); [lra|].
  assert (nX : nu * X <= / 4096 * X) by (apply Rmult_le_compat_r; lra).
  assert (mb : Rabs (B2R (fs_mean s)) <= 2 * X) by (apply abs_near in Em; lra).
  assert (xm : Rabs (B2R x - B2R (fs_mean s)) <= 3 * X).
  { unfold Rminus. eapply Rle_trans; [apply Rabs_triang|]. rewrite Rabs_Ropp. lra. }
  destruct (fsub_err x (fs_mean s) Fx Fm) as [FN EN]; [apply (big 300 3); [lia|lra|lra]|].
  assert (Nb : Rabs (B2R (fsub x (fs_mean s))) <= 4 * X) by (apply abs_near in EN; lra).
  assert (P0 : 0 < B2R (fsqrt (fs_var s))) by (pose proof (bpow_gt_0 radix2 (-201)); lra).
  destruct (fdiv_err (fsub x (fs_mean s)) (fsqrt (fs_var s)) FN) as [Fz Ez]; [lra| |].
  { unfold Rdiv. rewrite Rabs_mult, (Rabs_right (/ _)) by (apply Rle_ge, Rlt_le, Rinv_0_lt_compat; auto).
    apply (big 501 4); [lia|lra|]. change 501%Z with (300 + 201)%Z. rewrite bpow_plus.
    replace (4 * (bpow radix2 300 * bpow radix2 201)) with (4 * bpow radix2 300 * bpow radix2 201) by ring.
    apply Rmult_le_compat; [apply Rabs_pos|apply Rlt_le, Rinv_0_lt_compat; auto|lra|].
    replace (bpow radix2 201) with (/ bpow radix2 (-201)) by (rewrite <- bpow_opp; reflexivity).
    apply Rinv_le; [apply bpow_gt_0|apply Rs]. }
  split; [exact Fz|].
  apply (transform_real X V m (B2R (fs_mean s)) (B2R (fs_var s)) (B2R (fsqrt (fs_var s))) (B2R x) (B2R (fsub x (fs_mean s)))); auto.
Qed.

(** There and back again. *)
Lemma round_trip s x : is_finite (fs_mean s) = true -> is_finite (fs_var s) = true -> is_finite x = true ->
  bpow radix2 (-400) <= B2R (fs_var s) <= bpow radix2 800 -> Rabs (B2R (fs_mean s)) <= bpow radix2 400 -> Rabs (B2R x) <= bpow radix2 400 ->
  is_finite (fscaler_inverse s (fscaler_transform s x)) = true /\
  Rabs (B2R (fscaler_inverse s (fscaler_transform s x)) - B2R x) <= 5 * u * (Rabs (B2R x) + Rabs (B2R (fs_mean s))) + bpow radix2 (-670).
Proof.
  intros Fm Fv Fx Hv Hm Hx. unfold fscaler_inverse, fscaler_transform.
  destruct (fsqrt_err (fs_var s) Fv Hv) as (Fs & _ & Rs).
  set (fs := fsqrt (fs_var s)) in *. set (sv := B2R fs) in *. set (m := B2R (fs_mean s)) in *. set (v := B2R x) in *.
  assert (B0 : forall e, 0 < bpow radix2 e) by (intros; apply bpow_gt_0).
  pose proof (B0 (-201)%Z). pose proof (B0 400%Z) as B4.
  set (A := Rabs v + Rabs m). pose proof (Rabs_pos v). pose proof (Rabs_pos m).
  assert (vm : Rabs (v - m) <= A) by (unfold A, Rminus; eapply Rle_trans; [apply Rabs_triang|]; rewrite Rabs_Ropp; lra).
  destruct (fsub_err x (fs_mean s) Fx Fm) as [FN EN]; [fold v m; apply (big 400 2); [lia|lra|unfold A in vm; lra]|]. fold v m in EN.
  set (fN := fsub x (fs_mean s)) in *. set (N := B2R fN) in *.
  assert (Nb : Rabs N <= (1 + u) * A).
  { pose proof EN as E. apply abs_near in E. assert (u * Rabs (v - m) <= u * A) by (apply Rmult_le_compat_l; lra). lra. }
  assert (Ab : A <= 2 * bpow radix2 400) by (unfold A; lra).
  assert (I0 : 0 < / sv) by (apply Rinv_0_lt_compat; lra).
  assert (Ib : / sv <= bpow radix2 201).
  { replace (bpow radix2 201) with (/ bpow radix2 (-201)) by (rewrite <- bpow_opp; reflexivity). apply Rinv_le; [apply bpow_gt_0|apply Rs]. }
  assert (NS : Rabs (N / sv) <= 4 * bpow radix2 601).
  { unfold Rdiv. rewrite Rabs_mult, (Rabs_right (/ sv)) by lra. change 601%Z with (400 + 201)%Z. rewrite bpow_plus.
    replace (4 * (bpow radix2 400 * bpow radix2 201)) with (4 * bpow radix2 400 * bpow radix2 201) by ring.
    apply Rmult_le_compat; [apply Rabs_pos|lra|lra|exact Ib]. }
  destruct (fdiv_err fN fs FN) as [Fz Ez]; [fold sv; lra|fold N sv; apply (big 601 4); [lia|lra|exact NS]|]. fold N sv in Ez.
  set (fz := fdiv fN fs) in *. set (z := B2R fz) in *.
  assert (ZS : Rabs (z * sv - N) <= u * Rabs N + eta * sv).
  { replace (z * sv - N) with ((z - N / sv) * sv) by (field; lra). rewrite Rabs_mult, (Rabs_right sv) by lra.
    replace (u * Rabs N + eta * sv) with ((u * Rabs (N / sv) + eta) * sv); [apply Rmult_le_compat_r; lra|].
    unfold Rdiv. rewrite Rabs_mult, (Rabs_right (/ sv)) by lra. field. lra. }
  assert (es : eta * sv <= bpow radix2 (-674)).
  { change (-674)%Z with ((-1075) + 401)%Z. rewrite bpow_plus. apply Rmult_le_compat_l; [apply bpow_ge_0|apply Rs]. }
  assert (e674 : bpow radix2 (-674) <= bpow radix2 400) by (apply bpow_le; lia).
  assert (et : eta <= bpow radix2 (-674)) by (apply bpow_le; lia).
  assert (A0 : 0 <= A) by (unfold A; lra).
  assert (Zb : Rabs (z * sv) <= (1 + 3 * u) * A + bpow radix2 (-674)).
  { pose proof ZS as Z. apply abs_near in Z. lra. }
  destruct (fmul_err fz fs Fz Fs) as [Fp Ep]; [fold z sv; apply (big 400 8); [lia|lra|lra]|]. fold z sv in Ep.
  set (fp := fmul fz fs) in *. set (p := B2R fp) in *.
  assert (Pb : Rabs (p - (v - m)) <= (3 + / 100) * u * A + 3 * bpow radix2 (-674)).
  { replace (p - (v - m)) with ((p - z * sv) + (z * sv - N) + (N - (v - m))) by ring.
    eapply Rle_trans; [apply Rabs_triang|]. pose proof (Rabs_triang (p - z * sv) (z * sv - N)). pose proof (B0 (-674)%Z). lra. }
  assert (pm : Rabs (p + m - v) <= (3 + / 100) * u * A + 3 * bpow radix2 (-674)) by (replace (p + m - v) with (p - (v - m)) by ring; exact Pb).
  assert (pmb : Rabs (p + m) <= Rabs v + ((3 + / 100) * u * A + 3 * bpow radix2 (-674))) by (apply abs_near; exact pm).
  destruct (fadd_err fp (fs_mean s) Fp Fm) as [Fy Ey]; [fold p m; apply (big 400 8); [lia|lra|lra]|]. fold p m in Ey.
  split; auto.
  set (y := B2R (fadd fp (fs_mean s))) in *. change (Rabs (y - v) <= 5 * u * A + bpow radix2 (-670)).
  replace (y - v) with ((y - (p + m)) + (p + m - v)) by ring. eapply Rle_trans; [apply Rabs_triang|].
  assert (D : bpow radix2 (-670) = 16 * bpow radix2 (-674)) by (change 16 with (bpow radix2 4); rewrite <- bpow_plus; reflexivity).
  assert (Rabs v <= A) by (unfold A; lra). pose proof (B0 (-674)%Z). rewrite D. lra.
Qed.

(** Lemmas for C128: one scaled row, one batch. *)
From Coq Require Import ZArith Reals List Bool Arith Permutation Lia Lra Psatz.
From Flocq Require Import Core BinarySingleNaN.
From Verif Require Import Base Lin Data S_Gram L_Gram M_Float M_FloatGram S_Float S_FloatGram L_Float L_Float2 L_Float3 L_Float5 L_Float6 L_FloatS L_FloatS2 L_FloatGram.
Import ListNotations.
Open Scope R_scope.

Notation tau := (bpow radix2 (-930)).
Lemma u_bpow : bpow radix2 (-53) = u.
Proof. cbn. lra. Qed.

(** The two scaled values. *)
Lemma scaled_real X Y x y r a b : bpow radix2 (-60) <= X -> bpow radix2 (-60) <= Y ->
  Rabs x <= X -> Rabs y <= Y -> 0 <= r <= bpow radix2 51 ->
  Rabs (a - x * r) <= u * Rabs (x * r) + eta -> Rabs (b - y * r) <= u * Rabs (y * r) + eta ->
  Rabs (a * b - x * y * (r * r)) <= X * Y * (9 / 4 * u * (r * r) + tau).
Proof.
  intros HX HY Hx Hy [r0 r1] Ea Eb.
  destruct eta_small as [e0 _]. pose proof (bpow_gt_0 radix2 (-60)) as b0.
  rewrite Rabs_mult, (Rabs_right r) in Ea, Eb by lra.
  pose proof (Rabs_pos x) as x0. pose proof (Rabs_pos y) as y0.
  assert (xr : Rabs x * r <= X * r) by (apply Rmult_le_compat_r; lra).
  assert (yr : Rabs y * r <= Y * r) by (apply Rmult_le_compat_r; lra).
  assert (Xr0 : 0 <= X * r) by (apply Rmult_le_pos; lra). assert (Yr0 : 0 <= Y * r) by (apply Rmult_le_pos; lra).
  pose proof (prod_err (x * r) a (y * r) b _ _ Ea Eb) as P. replace (x * r * (y * r)) with (x * y * (r * r)) in P by ring.
  pose proof (abs_near _ _ _ Eb) as Nb. rewrite Rabs_mult, (Rabs_right r) in Nb by lra.
  rewrite Rabs_mult, (Rabs_right r) in P by lra. pose proof (Rabs_pos b) as b1.
  assert (P1 : (u * (Rabs x * r) + eta) * Rabs b <= (u * (X * r) + eta) * ((1 + u) * (Y * r) + eta)).
  { apply Rmult_le_compat; [| |lra|lra]; [|lra]. assert (0 <= Rabs x * r) by (apply Rmult_le_pos; lra). lra. }
  assert (P2 : Rabs x * r * (u * (Rabs y * r) + eta) <= X * r * (u * (Y * r) + eta)).
  { apply Rmult_le_compat; [apply Rmult_le_pos; lra| |lra|lra]. assert (0 <= Rabs y * r) by (apply Rmult_le_pos; lra). lra. }
  set (A := bpow radix2 60). set (C := bpow radix2 51) in *.
  assert (AA : bpow radix2 (-60) * A = 1) by (unfold A; rewrite <- bpow_plus; reflexivity).
  assert (A0 : 0 < A) by apply bpow_gt_0. assert (C1 : 1 <= C) by (unfold C; change 1 with (bpow radix2 0); apply bpow_le; lia).
  assert (X1 : 1 <= X * A) by (rewrite <- AA; apply Rmult_le_compat_r; lra).
  assert (Y1 : 1 <= Y * A) by (rewrite <- AA; apply Rmult_le_compat_r; lra).
  assert (XY0 : 0 < X * Y) by (apply Rmult_lt_0_compat; lra).
  assert (K1 : X <= X * Y * A). { rewrite Rmult_assoc. rewrite <- (Rmult_1_r X) at 1. apply Rmult_le_compat_l; lra. }
  assert (K2 : Y <= X * Y * A). { rewrite (Rmult_comm X Y), Rmult_assoc. rewrite <- (Rmult_1_r Y) at 1. apply Rmult_le_compat_l; lra. }
  assert (K3 : 1 <= X * Y * (A * A)).
  { replace (X * Y * (A * A)) with ((X * A) * (Y * A)) by ring. rewrite <- (Rmult_1_r 1) at 1. apply Rmult_le_compat; lra. }
  assert (K4 : eta * (4 * (A * C) + A * A) <= tau).
  { replace 4 with (bpow radix2 2) by (cbn; lra). unfold A, C. rewrite <- !bpow_plus.
    assert (B1 : bpow radix2 (2 + (60 + 51)) <= bpow radix2 120) by (apply bpow_le; lia).
    assert (B2 : bpow radix2 (60 + 60) <= bpow radix2 120) by (apply bpow_le; lia).
    apply Rle_trans with (eta * (2 * bpow radix2 120)); [apply Rmult_le_compat_l; lra|].
    replace 2 with (bpow radix2 1) by (cbn; lra). rewrite <- !bpow_plus. apply bpow_le. lia. }
  assert (K5 : X * r <= X * Y * (A * C)).
  { replace (X * Y * (A * C)) with ((X * Y * A) * C) by ring. apply Rmult_le_compat; lra. }
  assert (K6 : Y * r <= X * Y * (A * C)).
  { replace (X * Y * (A * C)) with ((X * Y * A) * C) by ring. apply Rmult_le_compat; lra. }
  assert (K7 : X * Y * (eta * (4 * (A * C) + A * A)) <= X * Y * tau) by (apply Rmult_le_compat_l; lra).
  assert (e1 : eta <= 1).
  { change 1 with (bpow radix2 0). apply bpow_le. lia. }
  assert (M : eta * ((1 + u) * (Y * r) + eta + (1 + u) * (X * r)) <= X * Y * (eta * (4 * (A * C) + A * A))).
  { replace (X * Y * (eta * (4 * (A * C) + A * A))) with (eta * (4 * (X * Y * (A * C)) + X * Y * (A * A))) by ring.
    apply Rmult_le_compat_l; lra. }
  assert (Q : 0 <= X * r * (Y * r)) by (apply Rmult_le_pos; lra).
  replace (X * Y * (9 / 4 * u * (r * r) + tau)) with (9 / 4 * u * (X * r * (Y * r)) + X * Y * tau) by ring.
  lra.
Qed.

(** The square of the root of weight times discount. *)
Lemma root_real v q p r k : 0 <= v -> 0 <= k -> k * u <= / 4096 -> 0 <= q -> 0 <= p ->
  Rabs (q - v) <= 3 * (k * u) * v + tau -> Rabs (p - q) <= u * q + eta ->
  Rabs (r - sqrt p) <= 2 * u * sqrt p ->
  0 <= r /\ Rabs (r * r - v) <= (3 * k + 13 / 2) * u * v + 3 * tau.
Proof.
  intros v0 k0 k1 q0 p0 Eq Ep Er. set (s := sqrt p) in *.
  assert (s0 : 0 <= s) by apply sqrt_pos. assert (ss : s * s = p) by (apply sqrt_sqrt; auto).
  apply abs_le2 in Er. assert (r0 : 0 <= r) by lra. split; [exact r0|].
  assert (t0 : 0 < tau) by apply bpow_gt_0.
  assert (et : eta <= / 4 * tau).
  { replace (/ 4) with (bpow radix2 (-2)) by (cbn; lra). rewrite <- bpow_plus. apply bpow_le. lia. }
  assert (E1 : Rabs (r * r - p) <= 5 * u * p).
  { rewrite <- ss. replace (r * r - s * s) with ((r - s) * (r + s)) by ring. rewrite Rabs_mult.
    apply Rle_trans with ((2 * u * s) * ((2 + 2 * u) * s)).
    - apply Rmult_le_compat; try apply Rabs_pos; apply Rabs_le; lra.
    - assert (0 <= s * s) by (apply Rmult_le_pos; lra). replace (2 * u * s * ((2 + 2 * u) * s)) with (2 * u * (2 + 2 * u) * (s * s)) by ring.
      replace (5 * u * (s * s)) with (5 * u * (s * s)) by ring. apply Rmult_le_compat_r; lra. }
  assert (c : 3 * (k * u) * v <= / 1024 * v) by (apply Rmult_le_compat_r; lra).
  apply abs_le2 in Eq. apply abs_le2 in Ep. apply abs_le2 in E1. apply abs_le2.
  assert (q1 : q <= (1 + / 1024) * v + tau) by lra.
  assert (p1 : p <= (1 + / 512) * v + 2 * tau) by lra.
  lra.
Qed.

Section Batch.
Variables (root : float -> float) (X Y : R) (f : float).
Hypothesis HR : root_accurate root.
Hypothesis HX : bpow radix2 (-60) <= X <= bpow radix2 300.
Hypothesis HY : bpow radix2 (-60) <= Y <= bpow radix2 300.
Hypothesis Ff : is_finite f = true.
Hypothesis Hf : 0 <= B2R f <= 1.
Let g : R := 1 - B2R f.

Definition sc (r : frow) (k : nat) : float * float :=
  let s := root (fmul (rw r) (fage (fsub (fint 1) f) k)) in (fmul (rx r) s, fmul (ry r) s).
Lemma fscaled_cons r rows : fscaled root f (r :: rows) = sc r (length rows) :: fscaled root f rows.
Proof. unfold fscaled. cbn [length]. rewrite fforget_S. reflexivity. Qed.

Lemma XY_pos : 0 < X * Y.
Proof. pose proof (bpow_gt_0 radix2 (-60)). apply Rmult_lt_0_compat; lra. Qed.

Lemma sc_err r k : frow_ok X Y r -> INR k <= bpow radix2 40 ->
  pfin (sc r k) /\
  Rabs (pr (sc r k) - g ^ k * (B2R (rw r) * B2R (rx r) * B2R (ry r)))
    <= X * Y * ((3 * INR k + 9) * u * (g ^ k * B2R (rw r)) + 5 * tau).
Proof.
  intros (Fx & Hx & Fy & Hy & Fw & Hw) Hk.
  assert (k0 : 0 <= INR k) by apply pos_INR.
  assert (k1 : INR k * u <= / 4096).
  { apply Rle_trans with (bpow radix2 40 * u); [apply Rmult_le_compat_r; lra|]. cbn. lra. }
  destruct (fage_err f k Ff Hf k1) as (FF & HF & EF). fold g in EF.
  assert (Hg : 0 <= g <= 1) by (unfold g; lra). pose proof (pow_unit g k Hg) as Gk.
  destruct eta_small as [e0 e1].
  set (F := fage (fsub (fint 1) f) k) in *. set (w := B2R (rw r)) in *. set (e := g ^ k) in *. set (n := INR k) in *.
  assert (w0 : 0 < w) by (pose proof (bpow_gt_0 radix2 (-100)); lra).
  assert (q0 : 0 <= w * B2R F) by (apply Rmult_le_pos; lra).
  assert (q1 : w * B2R F <= bpow radix2 100) by (replace (bpow radix2 100) with (bpow radix2 100 * 1) by ring; apply Rmult_le_compat; lra).
  assert (b1 : bpow radix2 100 <= bpow radix2 1023) by (apply bpow_le; lia).
  destruct (fmul_err (rw r) F Fw FF) as [Fp Ep]; [fold w; rewrite Rabs_right; lra|].
  fold w in Ep. rewrite (Rabs_right (w * B2R F)) in Ep by lra. set (pf := fmul (rw r) F) in *.
  assert (p0 : 0 <= B2R pf).
  { destruct (fmul_exact (rw r) F Fw FF) as [Ex _]; [apply rnd_small; fold w; rewrite Rabs_right; lra|].
    unfold pf. rewrite Ex. fold w. replace 0 with (rnd64 0) by apply round_0, valid_rnd_N. apply round_le; auto with typeclass_instances. }
  destruct (HR pf Fp p0) as [Fr Er]. rewrite u_bpow in Er. unfold sc. fold F pf. set (s := root pf) in *.
  set (v := e * w).
  assert (v0 : 0 <= v) by (apply Rmult_le_pos; lra).
  assert (Eq : Rabs (w * B2R F - v) <= 3 * (n * u) * v + tau).
  { replace (w * B2R F - v) with (w * (B2R F - e)) by (unfold v; ring). rewrite Rabs_mult, (Rabs_right w) by lra.
    apply Rle_trans with (w * (3 * (n * u) * e + 2 * n * eta)); [apply Rmult_le_compat_l; lra|].
    assert (w * (2 * n * eta) <= tau).
    { apply Rle_trans with (bpow radix2 100 * (bpow radix2 1 * bpow radix2 40 * eta)).
      - assert (0 <= n * eta) by (apply Rmult_le_pos; lra). apply Rmult_le_compat; [lra|lra|lra|].
        replace (bpow radix2 1) with 2 by (cbn; lra). apply Rmult_le_compat_r; [lra|]. lra.
      - rewrite <- !bpow_plus. apply bpow_le. lia. }
    unfold v. lra. }
  destruct (root_real v (w * B2R F) (B2R pf) (B2R s) n v0 k0 k1 q0 p0 Eq Ep Er) as [r0 ER].
  assert (r1 : B2R s <= bpow radix2 51).
  { apply abs_le2 in Er. set (sq := sqrt (B2R pf)) in *.
    assert (sq0 : 0 <= sq) by apply sqrt_pos.
    assert (sq <= bpow radix2 50 * 2 ).
    { assert (S : bpow radix2 50 * 2 = sqrt ((bpow radix2 50 * 2) * (bpow radix2 50 * 2))).
      { rewrite sqrt_square; auto. pose proof (bpow_gt_0 radix2 50). lra. }
      rewrite S. apply sqrt_le_1_alt.
      replace (bpow radix2 50 * 2 * (bpow radix2 50 * 2)) with (4 * bpow radix2 100).
      - apply abs_le2 in Ep. assert (1 <= bpow radix2 100) by (change 1 with (bpow radix2 0); apply bpow_le; lia).
        assert (bpow radix2 (-1000) <= 1) by (change 1 with (bpow radix2 0); apply bpow_le; lia). lra.
      - change 100%Z with (50 + 50)%Z. rewrite bpow_plus. ring. }
    assert (sq <= bpow radix2 50 * (3/2)).
    { assert (S : bpow radix2 50 * (3/2) = sqrt ((bpow radix2 50 * (3/2)) * (bpow radix2 50 * (3/2)))).
      { rewrite sqrt_square; auto. pose proof (bpow_gt_0 radix2 50). lra. }
      rewrite S. apply sqrt_le_1_alt.
      replace (bpow radix2 50 * (3/2) * (bpow radix2 50 * (3/2))) with (9/4 * bpow radix2 100).
      - apply abs_le2 in Ep. assert (1 <= bpow radix2 100) by (change 1 with (bpow radix2 0); apply bpow_le; lia).
        assert (bpow radix2 (-1000) <= 1) by (change 1 with (bpow radix2 0); apply bpow_le; lia). lra.
      - change 100%Z with (50 + 50)%Z. rewrite bpow_plus. field. }
    change 51%Z with (50 + 1)%Z. rewrite bpow_plus. replace (bpow radix2 1) with 2 by (cbn; lra). pose proof (bpow_gt_0 radix2 50). lra. }
  set (x := B2R (rx r)) in *. set (y := B2R (ry r)) in *.
  assert (Bd : forall z Z, Rabs z <= Z -> Z <= bpow radix2 300 -> Rabs (z * B2R s) <= bpow radix2 1023).
  { intros z Z Hz HZ. rewrite Rabs_mult, (Rabs_right (B2R s)) by lra.
    apply Rle_trans with (bpow radix2 300 * bpow radix2 51); [apply Rmult_le_compat; try lra; apply Rabs_pos|].
    rewrite <- bpow_plus. apply bpow_le. lia. }
  destruct (fmul_err (rx r) s Fx Fr) as [Fa Ea]; [apply (Bd x X); lra|].
  destruct (fmul_err (ry r) s Fy Fr) as [Fb Eb]; [apply (Bd y Y); lra|].
  split; [split; [exact Fa|exact Fb]|]. unfold pr. cbn [fst snd]. fold x in Ea. fold y in Eb.
  set (a := B2R (fmul (rx r) s)) in *. set (b := B2R (fmul (ry r) s)) in *.
  pose proof (scaled_real X Y x y (B2R s) a b (proj1 HX) (proj1 HY) Hx Hy (conj r0 r1) Ea Eb) as E.
  set (R2 := B2R s * B2R s) in *. pose proof XY_pos as XY.
  assert (Exy : Rabs (x * y) <= X * Y) by (rewrite Rabs_mult; apply Rmult_le_compat; auto using Rabs_pos).
  replace (e * (w * x * y)) with (x * y * v) by (unfold v; ring).
  assert (T : Rabs (a * b - x * y * v) <= Rabs (a * b - x * y * R2) + Rabs (x * y) * Rabs (R2 - v)).
  { replace (a * b - x * y * v) with ((a * b - x * y * R2) + (x * y) * (R2 - v)) by ring.
    eapply Rle_trans; [apply Rabs_triang|]. rewrite Rabs_mult. lra. }
  assert (T2 : Rabs (x * y) * Rabs (R2 - v) <= X * Y * ((3 * n + 13 / 2) * u * v + 3 * tau)) by (apply Rmult_le_compat; auto using Rabs_pos).
  assert (t0 : 0 < tau) by apply bpow_gt_0.
  assert (R2v : R2 <= (1 + / 512) * v + 3 * tau).
  { apply abs_le2 in ER. assert (3 * (n * u) * v <= / 1024 * v) by (apply Rmult_le_compat_r; lra). lra. }
  assert (T3 : X * Y * (9 / 4 * u * R2 + tau) <= X * Y * (5 / 2 * u * v + 2 * tau)) by (apply Rmult_le_compat_l; lra).
  assert (T4 : X * Y * ((3 * n + 13 / 2) * u * v + 3 * tau) + X * Y * (5 / 2 * u * v + 2 * tau) <= X * Y * ((3 * n + 9) * u * v + 5 * tau)).
  { rewrite <- Rmult_plus_distr_l. apply Rmult_le_compat_l; lra. }
  lra.
Qed.

Lemma W_pos rows : Forall (frow_ok X Y) rows -> 0 <= exact_weight (B2R f) rows.
Proof.
  intros H. apply dsum_nonneg; [lra|]. intros r Hr. rewrite Forall_forall in H. destruct (H r Hr) as (_ & _ & _ & _ & _ & Hw).
  pose proof (bpow_gt_0 radix2 (-100)). lra.
Qed.
Lemma W_low rows : Forall (frow_ok X Y) rows -> rows <> [] -> bpow radix2 (-100) <= exact_weight (B2R f) rows.
Proof.
  intros H N. destruct (exists_last N) as (l & r & ->). unfold exact_weight. rewrite dsum_app. cbn [length dsum pow].
  apply Forall_app in H. destruct H as [H1 H2]. pose proof (W_pos l H1) as P. unfold exact_weight in P.
  inversion H2 as [|? ? (_ & _ & _ & _ & _ & Hw) _]; subst.
  assert (0 <= (1 - B2R f) * dsum (1 - B2R f) (fun r => B2R (rw r)) l) by (apply Rmult_le_pos; lra). lra.
Qed.
Lemma W_high rows : Forall (frow_ok X Y) rows -> exact_weight (B2R f) rows <= INR (length rows) * bpow radix2 100.
Proof.
  induction 1 as [|r rows (_ & _ & _ & _ & _ & Hw) H IH]; [unfold exact_weight; simpl; lra|].
  unfold exact_weight in *. cbn [dsum length]. rewrite S_INR.
  pose proof (pow_unit (1 - B2R f) (length rows) ltac:(lra)) as P. pose proof (bpow_gt_0 radix2 (-100)) as b0.
  assert ((1 - B2R f) ^ length rows * B2R (rw r) <= 1 * bpow radix2 100) by (apply Rmult_le_compat; lra). lra.
Qed.
Lemma exact_abs rows : Forall (frow_ok X Y) rows -> Rabs (exact_entry (B2R f) rows) <= X * Y * exact_weight (B2R f) rows.
Proof.
  intros H. unfold exact_entry, exact_weight. rewrite <- dsum_scal. apply dsum_abs; [lra|]. intros r Hr.
  rewrite Forall_forall in H. destruct (H r Hr) as (_ & Hx & _ & Hy & _ & Hw). pose proof (bpow_gt_0 radix2 (-100)) as b0.
  rewrite !Rabs_mult, (Rabs_right (B2R (rw r))) by lra.
  replace (X * Y * B2R (rw r)) with (B2R (rw r) * X * Y) by ring.
  apply Rmult_le_compat; auto using Rabs_pos; [apply Rmult_le_pos; [lra|apply Rabs_pos]|]. apply Rmult_le_compat_l; lra.
Qed.

Lemma batch_sums rows : Forall (frow_ok X Y) rows -> INR (length rows) <= bpow radix2 40 ->
  let n := INR (length rows) in let W := exact_weight (B2R f) rows in
  Forall pfin (fscaled root f rows) /\
  Rabs (psum (fscaled root f rows) - exact_entry (B2R f) rows) <= X * Y * ((3 * n + 9) * u * W + 5 * n * tau) /\
  pabs (fscaled root f rows) <= X * Y * ((1 + (3 * n + 9) * u) * W + 5 * n * tau).
Proof.
  intros H N. cbv zeta. induction H as [|r rows Hr H IH].
  - unfold fscaled, exact_entry, exact_weight. cbn [combine length map psum pabs lsum dsum]. change (INR 0) with 0.
    unfold psum, pabs. cbn [map lsum]. rewrite Rminus_diag_eq, Rabs_R0 by reflexivity. split; [constructor|]. lra.
  - cbn [length] in *. rewrite S_INR in *. pose proof (pos_INR (length rows)) as n0. destruct IH as (F & E & A); [lra|].
    rewrite fscaled_cons. destruct (sc_err r (length rows) Hr ltac:(lra)) as [F1 E1].
    set (k := length rows) in *. set (n := INR k) in *. set (p := sc r k) in *. set (l := fscaled root f rows) in *.
    change (psum (p :: l)) with (pr p + psum l). change (pabs (p :: l)) with (Rabs (pr p) + pabs l).
    pose proof (W_pos rows H) as W0.
    change (exact_entry (B2R f) (r :: rows)) with (g ^ k * (B2R (rw r) * B2R (rx r) * B2R (ry r)) + exact_entry (B2R f) rows).
    change (exact_weight (B2R f) (r :: rows)) with (g ^ k * B2R (rw r) + exact_weight (B2R f) rows).
    set (W := exact_weight (B2R f) rows) in *. set (G := exact_entry (B2R f) rows) in *.
    set (t := g ^ k * (B2R (rw r) * B2R (rx r) * B2R (ry r))) in *. set (v := g ^ k * B2R (rw r)) in *.
    pose proof XY_pos as XY. assert (t0 : 0 < tau) by apply bpow_gt_0.
    assert (v0 : 0 <= v).
    { apply Rmult_le_pos; [apply pow_unit; unfold g; lra|]. destruct Hr as (_ & _ & _ & _ & _ & Hw). pose proof (bpow_gt_0 radix2 (-100)). lra. }
    assert (nt : 0 <= n * tau) by (apply Rmult_le_pos; lra). assert (nv : 0 <= n * v) by (apply Rmult_le_pos; lra).
    assert (tv : Rabs t <= X * Y * v).
    { unfold t, v. destruct Hr as (_ & Hx & _ & Hy & _ & Hw). pose proof (bpow_gt_0 radix2 (-100)) as b0.
      replace (g ^ k * (B2R (rw r) * B2R (rx r) * B2R (ry r))) with ((g ^ k * B2R (rw r)) * (B2R (rx r) * B2R (ry r))) by ring.
      fold v. rewrite Rabs_mult, (Rabs_right v) by lra. rewrite (Rmult_comm (X * Y)). apply Rmult_le_compat_l; [lra|].
      rewrite Rabs_mult. apply Rmult_le_compat; auto using Rabs_pos. }
    split; [constructor; auto|]. split.
    + replace (pr p + psum l - (t + G)) with ((pr p - t) + (psum l - G)) by ring.
      eapply Rle_trans; [apply Rabs_triang|].
      apply Rle_trans with (X * Y * ((3 * n + 9) * u * v + 5 * tau) + X * Y * ((3 * n + 9) * u * W + 5 * n * tau)); [lra|].
      rewrite <- Rmult_plus_distr_l. apply Rmult_le_compat_l; [lra|]. lra.
    + apply abs_near in E1.
      apply Rle_trans with (X * Y * v + X * Y * ((3 * n + 9) * u * v + 5 * tau) + X * Y * ((1 + (3 * n + 9) * u) * W + 5 * n * tau)); [lra|].
      rewrite <- !Rmult_plus_distr_l. apply Rmult_le_compat_l; [lra|]. lra.
Qed.

Lemma n_tau n : 0 <= n <= bpow radix2 40 -> n * tau <= bpow radix2 (-700) * bpow radix2 (-100).
Proof.
  intros H. apply Rle_trans with (bpow radix2 40 * tau); [apply Rmult_le_compat_r; [|lra]; left; apply bpow_gt_0|].
  rewrite <- !bpow_plus. apply bpow_le. lia.
Qed.

Lemma batch_err rows d : Forall (frow_ok X Y) rows -> rows <> [] -> INR (length rows) <= bpow radix2 40 ->
  dot_value (fscaled root f rows) d ->
  is_finite d = true /\
  Rabs (B2R d - exact_entry (B2R f) rows) <= 14 * INR (length rows) * u * (X * Y * exact_weight (B2R f) rows).
Proof.
  intros H Ne N D. destruct (batch_sums rows H N) as (Fi & E & A).
  pose proof (W_low rows H Ne) as WL. pose proof (W_high rows H) as WH.
  set (n := INR (length rows)) in *. set (W := exact_weight (B2R f) rows) in *. set (G := exact_entry (B2R f) rows) in *.
  assert (n1 : 1 <= n). { unfold n. destruct rows; [congruence|]. cbn [length]. rewrite S_INR. pose proof (pos_INR (length rows)). lra. }
  pose proof XY_pos as XY. assert (t0 : 0 < tau) by apply bpow_gt_0.
  pose proof (n_tau n ltac:(lra)) as nt. assert (b7 : 0 < bpow radix2 (-700)) by apply bpow_gt_0.
  assert (b7' : bpow radix2 (-700) <= u * / 1024).
  { replace (u * / 1024) with (bpow radix2 (-63)) by (cbn; lra). apply bpow_le. lia. }
  pose proof (bpow_gt_0 radix2 (-100)) as b100.
  assert (ntW : n * tau <= u * / 1024 * W).
  { eapply Rle_trans; [exact nt|]. apply Rmult_le_compat; lra. }
  assert (nu : n * u <= / 4096).
  { apply Rle_trans with (bpow radix2 40 * u); [apply Rmult_le_compat_r; lra|]. cbn. lra. }
  assert (LE : length (fscaled root f rows) = length rows).
  { unfold fscaled. rewrite map_length, combine_length.
    assert (Q : forall m, length (fforget_vector f m) = m) by (induction m; [rewrite fforget_0; auto|rewrite fforget_S; cbn; auto]).
    rewrite Q. apply Nat.min_id. }
  assert (W1 : n * u * W <= / 4096 * W) by (apply Rmult_le_compat_r; lra).
  assert (A' : pabs (fscaled root f rows) <= X * Y * ((1 + / 512) * W)).
  { eapply Rle_trans; [exact A|]. apply Rmult_le_compat_l; lra. }
  assert (Big : X * Y * ((1 + / 512) * W) <= bpow radix2 1000).
  { apply Rle_trans with (bpow radix2 300 * bpow radix2 300 * (2 * (bpow radix2 40 * bpow radix2 100))).
    - pose proof (bpow_gt_0 radix2 (-60)). pose proof (bpow_gt_0 radix2 100).
      assert (n * bpow radix2 100 <= bpow radix2 40 * bpow radix2 100) by (apply Rmult_le_compat_r; lra).
      apply Rmult_le_compat; [lra|lra|apply Rmult_le_compat; lra|lra].
    - replace 2 with (bpow radix2 1) by (cbn; lra). rewrite <- !bpow_plus. apply bpow_le. lia. }
  destruct (dot_err _ d D Fi) as (Fd & _ & Ed); [lra|rewrite LE; exact nu|]. split; [exact Fd|].
  rewrite LE in Ed. fold n in Ed.
  assert (Nl : fscaled root f rows <> []) by (intros Q; rewrite Q in LE; destruct rows; [congruence|discriminate]).
  specialize (Ed Nl). set (P := psum (fscaled root f rows)) in *. set (B := pabs (fscaled root f rows)) in *.
  assert (T : Rabs (B2R d - G) <= Rabs (B2R d - P) + Rabs (P - G)).
  { replace (B2R d - G) with ((B2R d - P) + (P - G)) by ring. apply Rabs_triang. }
  assert (C1 : 9 / 8 * n * u * B <= 9 / 8 * n * u * (X * Y * ((1 + / 512) * W))) by (apply Rmult_le_compat_l; [|exact A']; lra).
  assert (C2 : n * eta <= X * Y * (u * / 1024 * W)).
  { apply Rle_trans with (bpow radix2 40 * eta).
    - apply Rmult_le_compat_r; [left; apply bpow_gt_0|lra].
    - apply Rle_trans with (bpow radix2 (-60) * bpow radix2 (-60) * (bpow radix2 (-53) * bpow radix2 (-10) * bpow radix2 (-100))).
      + rewrite <- !bpow_plus. apply bpow_le. lia.
      + pose proof (bpow_gt_0 radix2 (-60)). rewrite u_bpow. replace (bpow radix2 (-10)) with (/ 1024) by (cbn; lra).
        apply Rmult_le_compat; [apply Rmult_le_pos; lra| |apply Rmult_le_compat; lra|apply Rmult_le_compat_l; lra]. apply Rmult_le_pos; lra. }
  destruct eta_small as [e0 _].
  set (Z := X * Y * W). assert (Z0 : 0 < Z) by (apply Rmult_lt_0_compat; lra).
  replace (X * Y * ((1 + / 512) * W)) with ((1 + / 512) * Z) in C1 by (unfold Z; ring).
  replace (X * Y * (u * / 1024 * W)) with (u * / 1024 * Z) in C2 by (unfold Z; ring).
  assert (C3 : X * Y * ((3 * n + 9) * u * W + 5 * n * tau) <= (3 * n + 9) * u * Z + 5 * (u * / 1024) * Z).
  { replace ((3 * n + 9) * u * Z + 5 * (u * / 1024) * Z) with (X * Y * ((3 * n + 9) * u * W + 5 * (u * / 1024 * W))) by (unfold Z; ring).
    apply Rmult_le_compat_l; lra. }
  assert (C4 : Z <= n * Z) by (rewrite <- (Rmult_1_l Z) at 1; apply Rmult_le_compat_r; lra).
  lra.
Qed.
End Batch.

(** Lemmas for C128: a fit and its updates. *)
From Coq Require Import ZArith Reals List Bool Arith Permutation Lia Lra Psatz.
From Flocq Require Import Core BinarySingleNaN.
From Verif Require Import Base Lin Data S_Gram L_Gram M_Float M_FloatGram S_Float S_FloatGram L_Float L_Float2 L_Float3 L_Float5 L_Float6 L_FloatS L_FloatS2 L_FloatGram L_FloatGram2.
Import ListNotations.
Open Scope R_scope.

(** Powers of the rounded discount. *)
Lemma pow_gamma_err G g n : 0 <= g <= 1 -> Rabs (G - g) <= u * g -> INR n * u <= / 4096 ->
  Rabs (G ^ n - g ^ n) <= 9 / 8 * (INR n * u) * g ^ n.
Proof.
  intros Hg E. induction n as [|n IH]; intros H.
  - simpl. rewrite Rminus_diag_eq, Rabs_R0 by reflexivity. lra.
  - rewrite S_INR in *. pose proof (pos_INR n) as n0. assert (H' : INR n * u <= / 4096) by lra. specialize (IH H').
    pose proof (pow_unit g n Hg) as P. pose proof (prod_err g G (g ^ n) (G ^ n) _ _ E IH) as Q.
    pose proof (abs_near _ _ _ IH) as A. rewrite (Rabs_right (g ^ n)) in A by lra. rewrite (Rabs_right g) in Q by lra.
    cbn [pow]. eapply Rle_trans; [exact Q|].
    assert (c : 9 / 8 * (INR n * u) * g ^ n <= / 1024 * g ^ n) by (apply Rmult_le_compat_r; lra).
    assert (Q1 : u * g * Rabs (G ^ n) <= u * g * (9 / 8 * g ^ n)) by (apply Rmult_le_compat_l; lra).
    replace (u * g * (9 / 8 * g ^ n)) with (9 / 8 * u * (g * g ^ n)) in Q1 by ring.
    replace (g * (9 / 8 * (INR n * u) * g ^ n)) with (9 / 8 * (INR n * u) * (g * g ^ n)) by ring. lra.
Qed.

(** One update in exact numbers: [E] new batch, [c] multiplied old entry. *)
Lemma update_real N m Z Zb P g0 G c D d v : 1 <= N -> 1 <= m -> (N + m) * u <= / 4096 -> 0 <= P <= 1 -> 0 <= Z -> 0 <= Zb ->
  Rabs G <= Z -> Rabs D <= Zb ->
  Rabs (g0 - G) <= 16 * N * u * Z ->
  Rabs (c - P * g0) <= (4 * m + 2) * u * (P * Rabs g0) + / 1024 * u * Zb ->
  Rabs (d - D) <= 14 * m * u * Zb ->
  Rabs (v - (c + d)) <= u * Rabs (c + d) ->
  Rabs (v - (P * G + D)) <= 16 * (N + m) * u * (P * Z + Zb).
Proof.
  intros N1 m1 K HP Z0 Zb0 HG HD Eg Ec Ed Ev.
  assert (k1 : N * u * Z <= / 4096 * Z) by (apply Rmult_le_compat_r; lra).
  assert (k2 : m * u * Zb <= / 4096 * Zb) by (apply Rmult_le_compat_r; lra).
  assert (g1 : Rabs g0 <= (1 + / 256) * Z) by (apply abs_near in Eg; lra).
  assert (PZ0 : 0 <= P * Z) by (apply Rmult_le_pos; lra).
  assert (Pg : P * Rabs g0 <= P * ((1 + / 256) * Z)) by (apply Rmult_le_compat_l; lra).
  assert (Pg0 : 0 <= P * Rabs g0) by (apply Rmult_le_pos; [lra|apply Rabs_pos]).
  assert (c1 : (4 * m + 2) * u * (P * Rabs g0) <= (4 * m + 2) * u * ((1 + / 256) * (P * Z))).
  { apply Rmult_le_compat_l; lra. }
  assert (PE : Rabs (P * g0 - P * G) <= 16 * N * u * (P * Z)).
  { replace (P * g0 - P * G) with (P * (g0 - G)) by ring. rewrite Rabs_mult, (Rabs_right P) by lra.
    replace (16 * N * u * (P * Z)) with (P * (16 * N * u * Z)) by ring. apply Rmult_le_compat_l; lra. }
  assert (m2 : m * u * (P * Z) <= / 4096 * (P * Z)) by (apply Rmult_le_compat_r; lra).
  assert (A1 : Rabs c <= (1 + / 64) * (P * Z) + / 1024 * u * Zb).
  { apply abs_near in Ec. rewrite Rabs_mult, (Rabs_right P) in Ec by lra. lra. }
  assert (A2 : Rabs d <= (1 + / 64) * Zb) by (apply abs_near in Ed; lra).
  pose proof (Rabs_triang c d) as T.
  assert (T2 : Rabs (v - (P * G + D)) <= Rabs (v - (c + d)) + Rabs (c - P * g0) + Rabs (P * g0 - P * G) + Rabs (d - D)).
  { replace (v - (P * G + D)) with ((v - (c + d)) + ((c - P * g0) + ((P * g0 - P * G) + (d - D)))) by ring.
    eapply Rle_trans; [apply Rabs_triang|]. pose proof (Rabs_triang (c - P * g0) ((P * g0 - P * G) + (d - D))).
    pose proof (Rabs_triang (P * g0 - P * G) (d - D)). lra. }
  assert (d1 : P * Z <= m * (P * Z)) by (rewrite <- (Rmult_1_l (P * Z)) at 1; apply Rmult_le_compat_r; lra).
  assert (d2 : Zb <= N * Zb) by (rewrite <- (Rmult_1_l Zb) at 1; apply Rmult_le_compat_r; lra).
  assert (d3 : Zb <= m * Zb) by (rewrite <- (Rmult_1_l Zb) at 1; apply Rmult_le_compat_r; lra).
  lra.
Qed.

Section Run.
Variables (root : float -> float) (pw : float -> nat -> float) (X Y : R) (f : float).
Hypothesis HR : root_accurate root.
Hypothesis HPw : pow_accurate pw.
Hypothesis HX : bpow radix2 (-60) <= X <= bpow radix2 300.
Hypothesis HY : bpow radix2 (-60) <= Y <= bpow radix2 300.
Hypothesis Ff : is_finite f = true.
Hypothesis Hf : 0 <= B2R f <= 1.

Lemma small_terms W : bpow radix2 (-100) <= W ->
  3 * eta <= / 1024 * u * (X * Y * W) /\ bpow radix2 (-800) * (X * Y) <= / 2048 * u * (X * Y * W).
Proof.
  intros H. pose proof (bpow_gt_0 radix2 (-60)) as b0. pose proof (bpow_gt_0 radix2 (-100)) as b1.
  assert (XY : 0 < X * Y) by (apply Rmult_lt_0_compat; lra). split.
  - apply Rle_trans with (bpow radix2 (-10) * bpow radix2 (-53) * (bpow radix2 (-60) * bpow radix2 (-60) * bpow radix2 (-100))).
    + apply Rle_trans with (bpow radix2 2 * eta).
      * apply Rmult_le_compat_r; [left; apply bpow_gt_0|cbn; lra].
      * rewrite <- !bpow_plus. apply bpow_le. lia.
    + rewrite u_bpow. replace (bpow radix2 (-10)) with (/ 1024) by (cbn; lra). apply Rmult_le_compat_l; [lra|].
      apply Rmult_le_compat; [apply Rmult_le_pos; lra|lra| |lra]. apply Rmult_le_compat; lra.
  - replace (/ 2048 * u * (X * Y * W)) with ((/ 2048 * u * W) * (X * Y)) by ring. apply Rmult_le_compat_r; [lra|].
    apply Rle_trans with (bpow radix2 (-11) * bpow radix2 (-53) * bpow radix2 (-100)).
    + rewrite <- !bpow_plus. apply bpow_le. lia.
    + rewrite u_bpow. replace (bpow radix2 (-11)) with (/ 2048) by (cbn; lra). apply Rmult_le_compat_l; lra.
Qed.

Lemma size_bound Z N : 0 <= Z <= N * bpow radix2 100 -> N <= bpow radix2 40 -> 4 * (X * Y * Z) <= bpow radix2 1000.
Proof.
  intros [H0 H1] H2. pose proof (bpow_gt_0 radix2 (-60)) as b0. pose proof (bpow_gt_0 radix2 100) as b1.
  assert (N * bpow radix2 100 <= bpow radix2 40 * bpow radix2 100) by (apply Rmult_le_compat_r; lra).
  apply Rle_trans with (bpow radix2 2 * (bpow radix2 300 * bpow radix2 300 * (bpow radix2 40 * bpow radix2 100))).
  - replace (bpow radix2 2) with 4 by (cbn; lra). apply Rmult_le_compat_l; [lra|].
    apply Rmult_le_compat; [apply Rmult_le_pos; lra|lra|apply Rmult_le_compat; lra|lra].
  - rewrite <- !bpow_plus. apply bpow_le. lia.
Qed.

Lemma run_nonempty bs v : fgram_run root pw f bs v -> Forall (fun b => b <> []) bs -> concat bs <> [].
Proof.
  intros H F. destruct bs as [|b bs]; [exfalso; inversion H; destruct bs; discriminate|].
  inversion F; subst. destruct b; [congruence|discriminate].
Qed.

Theorem run_err bs v : fgram_run root pw f bs v -> Forall (fun b => b <> []) bs ->
  Forall (frow_ok X Y) (concat bs) -> INR (length (concat bs)) <= bpow radix2 40 ->
  is_finite v = true /\
  Rabs (B2R v - exact_entry (B2R f) (concat bs)) <= 16 * INR (length (concat bs)) * u * (X * Y * exact_weight (B2R f) (concat bs)).
Proof.
  induction 1 as [rows v D|bs rows g v Hr IH U]; intros Ne Ok N.
  - cbn [concat] in *. rewrite app_nil_r in *. inversion Ne; subst.
    destruct (batch_err root X Y f HR HX HY Ff Hf rows v Ok ltac:(auto) N D) as [F E]. split; [exact F|].
    eapply Rle_trans; [exact E|]. apply Rmult_le_compat_r; [|pose proof (pos_INR (length rows)); lra].
    pose proof (XY_pos X Y HX HY). apply Rmult_le_pos; [lra|]. apply (W_pos X Y f Hf); auto.
  - rewrite concat_app in *. cbn [concat] in *. rewrite app_nil_r in *.
    apply Forall_app in Ne. destruct Ne as [Ne1 Ne2]. inversion Ne2 as [|? ? Nr _]; subst. clear Ne2.
    apply Forall_app in Ok. destruct Ok as [Ok1 Ok2]. rewrite app_length, plus_INR in *.
    pose proof (pos_INR (length rows)) as m0. pose proof (pos_INR (length (concat bs))) as N0.
    destruct IH as [Fg Eg]; [auto|auto|lra|].
    pose proof (run_nonempty bs g Hr Ne1) as Nc.
    assert (WL : bpow radix2 (-100) <= exact_weight (B2R f) (concat bs)) by (apply (W_low X Y); auto).
    assert (WL2 : bpow radix2 (-100) <= exact_weight (B2R f) rows) by (apply (W_low X Y); auto).
    pose proof (W_high X Y f Hf _ Ok1) as WH. pose proof (W_high X Y f Hf _ Ok2) as WH2.
    pose proof (exact_abs X Y f Hf _ Ok1) as GA. pose proof (exact_abs X Y f Hf _ Ok2) as GA2.
    unfold exact_entry at 1. unfold exact_weight at 1. rewrite !dsum_app. fold (exact_entry (B2R f) (concat bs)) (exact_entry (B2R f) rows) (exact_weight (B2R f) (concat bs)) (exact_weight (B2R f) rows).
    assert (n1 : 1 <= INR (length (concat bs))).
    { destruct (concat bs) as [|o t]; [congruence|]. cbn [length]. rewrite S_INR. pose proof (pos_INR (length t)). lra. }
    assert (m1 : 1 <= INR (length rows)).
    { destruct rows as [|o t]; [congruence|]. cbn [length]. rewrite S_INR. pose proof (pos_INR (length t)). lra. }
    set (Nn := INR (length (concat bs))) in *. set (m := INR (length rows)) in *.
    set (W := exact_weight (B2R f) (concat bs)) in *. set (G := exact_entry (B2R f) (concat bs)) in *.
    set (Wb := exact_weight (B2R f) rows) in *. set (D := exact_entry (B2R f) rows) in *.
    pose proof (bpow_gt_0 radix2 (-100)) as b1. pose proof (XY_pos X Y HX HY) as XY.
    assert (Z0 : 0 <= X * Y * W) by (apply Rmult_le_pos; lra). assert (Zb0 : 0 <= X * Y * Wb) by (apply Rmult_le_pos; lra).
    assert (K : (Nn + m) * u <= / 4096).
    { apply Rle_trans with (bpow radix2 40 * u); [apply Rmult_le_compat_r; lra|]. cbn. lra. }
    destruct (gamma_err f Ff Hf) as (FG & HG & EG). set (gam := fsub (fint 1) f) in *. set (q := 1 - B2R f) in *.
    assert (Hq : 0 <= q <= 1) by (unfold q; lra).
    destruct (small_terms Wb WL2) as [S1 S2]. pose proof (size_bound W Nn ltac:(lra) ltac:(lra)) as B1. pose proof (size_bound Wb m ltac:(lra) ltac:(lra)) as B2.
    assert (B3 : bpow radix2 1000 * 4 <= bpow radix2 1023).
    { replace 4 with (bpow radix2 2) by (cbn; lra). rewrite <- bpow_plus. apply bpow_le. lia. }
    destruct eta_small as [e0 e1].
    replace (X * Y * (q ^ length rows * W + Wb)) with (q ^ length rows * (X * Y * W) + X * Y * Wb) by ring.
    set (Z := X * Y * W) in *. set (Zb := X * Y * Wb) in *.
    assert (k1 : Nn * u * Z <= / 4096 * Z) by (apply Rmult_le_compat_r; lra).
    assert (g1 : Rabs (B2R g) <= (1 + / 256) * Z) by (apply abs_near in Eg; lra).
    pose proof (pow_unit q (length rows) Hq) as P1. set (P := q ^ length rows) in *.
    (* the rounded product and sum of the last two steps *)
    assert (Main : forall cf df, is_finite cf = true -> is_finite df = true -> v = fadd cf df ->
      Rabs (B2R cf - P * B2R g) <= (4 * m + 2) * u * (P * Rabs (B2R g)) + / 1024 * u * Zb ->
      Rabs (B2R df - D) <= 14 * m * u * Zb ->
      is_finite v = true /\ Rabs (B2R v - (P * G + D)) <= 16 * (Nn + m) * u * (P * Z + Zb)).
    { intros cf df Fc Fd -> Ec Ed.
      assert (Pg : 0 <= P * Rabs (B2R g)) by (apply Rmult_le_pos; [lra|apply Rabs_pos]).
      assert (Pg2 : P * Rabs (B2R g) <= 1 * ((1 + / 256) * Z)) by (apply Rmult_le_compat; try lra; apply Rabs_pos).
      assert (mP : m * u * (P * Rabs (B2R g)) <= / 4096 * (P * Rabs (B2R g))) by (apply Rmult_le_compat_r; lra).
      assert (mZ : m * u * Zb <= / 4096 * Zb) by (apply Rmult_le_compat_r; lra).
      pose proof (abs_near _ _ _ Ec) as A1. rewrite Rabs_mult, (Rabs_right P) in A1 by lra. pose proof (abs_near _ _ _ Ed) as A2.
      pose proof (Rabs_triang (B2R cf) (B2R df)) as T.
      destruct (fadd_err cf df Fc Fd) as [Fv Ev]; [lra|]. split; [exact Fv|].
      exact (update_real Nn m Z Zb P (B2R g) G (B2R cf) D (B2R df) _ n1 m1 K P1 Z0 Zb0 GA GA2 Eg Ec Ed Ev). }
    destruct rows as [|r0 [|r1 rows]]; [congruence| |].
    + (* one row *)
      cbn [fupdate_gram] in U. cbn [length] in P, P1. assert (EP : P = q) by (unfold P; cbn; ring).
      assert (Em : m = 1) by reflexivity.
      apply (Main (fmul gam g) (fmul (rw r0) (fmul (rx r0) (ry r0)))); auto; clear Main.
      * apply fmul_err; auto. rewrite Rabs_mult, (Rabs_right (B2R gam)) by lra.
        apply Rle_trans with (1 * ((1 + / 256) * Z)); [apply Rmult_le_compat; try lra; apply Rabs_pos|lra].
      * inversion Ok2 as [|? ? (Fx & Hx & Fy & Hy & Fw & Hw) _]; subst.
        destruct (fmul_err (rx r0) (ry r0) Fx Fy) as [F1 E1].
        { rewrite Rabs_mult. apply Rle_trans with (bpow radix2 300 * bpow radix2 300); [apply Rmult_le_compat; try apply Rabs_pos; lra|].
          rewrite <- bpow_plus. apply bpow_le. lia. }
        apply fmul_err; auto. apply abs_near in E1. rewrite Rabs_mult, (Rabs_right (B2R (rw r0))) by lra.
        apply Rle_trans with (bpow radix2 100 * (bpow radix2 600 * 2 + 1)).
        { apply Rmult_le_compat; try apply Rabs_pos; try lra.
          assert (Rabs (B2R (rx r0) * B2R (ry r0)) <= bpow radix2 600).
          { rewrite Rabs_mult. change 600%Z with (300 + 300)%Z. rewrite bpow_plus. apply Rmult_le_compat; try apply Rabs_pos; lra. }
          assert (bpow radix2 (-1000) <= 1) by (change 1 with (bpow radix2 0); apply bpow_le; lia).
          pose proof (Rabs_pos (B2R (rx r0) * B2R (ry r0))). lra. }
        assert (Q1 : 1 <= bpow radix2 600) by (change 1 with (bpow radix2 0); apply bpow_le; lia).
        apply Rle_trans with (bpow radix2 100 * (bpow radix2 600 * bpow radix2 2)).
        { apply Rmult_le_compat_l; [left; apply bpow_gt_0|]. replace (bpow radix2 2) with 4 by (cbn; lra). lra. }
        rewrite <- !bpow_plus. apply bpow_le. lia.
      * rewrite EP, Em in *.
        destruct (fmul_err gam g FG Fg) as [_ E1].
        { rewrite Rabs_mult, (Rabs_right (B2R gam)) by lra.
          apply Rle_trans with (1 * ((1 + / 256) * Z)); [apply Rmult_le_compat; try lra; apply Rabs_pos|lra]. }
        rewrite Rabs_mult, (Rabs_right (B2R gam)) in E1 by lra.
        assert (E2 : Rabs (B2R gam * B2R g - q * B2R g) <= u * (q * Rabs (B2R g))).
        { replace (B2R gam * B2R g - q * B2R g) with ((B2R gam - q) * B2R g) by ring. rewrite Rabs_mult, <- Rmult_assoc.
          apply Rmult_le_compat_r; [apply Rabs_pos|exact EG]. }
        assert (E3 : B2R gam * Rabs (B2R g) <= (1 + u) * q * Rabs (B2R g)).
        { apply Rmult_le_compat_r; [apply Rabs_pos|]. apply abs_le2 in EG. lra. }
        assert (qg : 0 <= q * Rabs (B2R g)) by (apply Rmult_le_pos; [lra|apply Rabs_pos]).
        assert (T : Rabs (B2R (fmul gam g) - q * B2R g) <= Rabs (B2R (fmul gam g) - B2R gam * B2R g) + Rabs (B2R gam * B2R g - q * B2R g)).
        { replace (B2R (fmul gam g) - q * B2R g) with ((B2R (fmul gam g) - B2R gam * B2R g) + (B2R gam * B2R g - q * B2R g)) by ring. apply Rabs_triang. }
        lra.
      * rewrite Em in *. inversion Ok2 as [|? ? (Fx & Hx & Fy & Hy & Fw & Hw) _]; subst.
        assert (ED : D = B2R (rw r0) * B2R (rx r0) * B2R (ry r0)) by (unfold D, exact_entry; cbn [dsum length pow]; ring).
        assert (EW : Zb = X * Y * B2R (rw r0)) by (unfold Zb, Wb, exact_weight; cbn [dsum length pow]; ring).
        set (x := B2R (rx r0)) in *. set (y := B2R (ry r0)) in *. set (w := B2R (rw r0)) in *.
        assert (xy : Rabs (x * y) <= X * Y) by (rewrite Rabs_mult; apply Rmult_le_compat; auto using Rabs_pos).
        assert (XYb : X * Y <= bpow radix2 600).
        { change 600%Z with (300 + 300)%Z. rewrite bpow_plus. pose proof (bpow_gt_0 radix2 (-60)). apply Rmult_le_compat; lra. }
        assert (B6 : bpow radix2 600 <= bpow radix2 1023) by (apply bpow_le; lia).
        destruct (fmul_err (rx r0) (ry r0) Fx Fy) as [F1 E1]; [fold x y; lra|]. fold x y in E1.
        set (h := fmul (rx r0) (ry r0)) in *.
        assert (et : eta <= u * (X * Y)).
        { rewrite <- u_bpow. apply Rle_trans with (bpow radix2 (-53) * (bpow radix2 (-60) * bpow radix2 (-60))).
          - rewrite <- !bpow_plus. apply bpow_le. lia.
          - apply Rmult_le_compat_l; [left; apply bpow_gt_0|]. pose proof (bpow_gt_0 radix2 (-60)). apply Rmult_le_compat; lra. }
        assert (E1' : Rabs (B2R h - x * y) <= 2 * u * (X * Y)) by lra.
        assert (h1 : Rabs (B2R h) <= 2 * (X * Y)) by (apply abs_near in E1'; lra).
        assert (w0 : 0 < w) by lra.
        assert (wh : Rabs (w * B2R h) <= 2 * Zb).
        { rewrite Rabs_mult, (Rabs_right w) by lra. rewrite EW. replace (2 * (X * Y * w)) with (w * (2 * (X * Y))) by ring. apply Rmult_le_compat_l; lra. }
        destruct (fmul_err (rw r0) h Fw F1) as [F2 E2]; [fold w; lra|]. fold w in E2.
        assert (E3 : Rabs (w * B2R h - D) <= 2 * u * Zb).
        { rewrite ED. replace (w * B2R h - w * x * y) with (w * (B2R h - x * y)) by ring. rewrite Rabs_mult, (Rabs_right w) by lra.
          rewrite EW. replace (2 * u * (X * Y * w)) with (w * (2 * u * (X * Y))) by ring. apply Rmult_le_compat_l; lra. }
        assert (T : Rabs (B2R (fmul (rw r0) h) - D) <= Rabs (B2R (fmul (rw r0) h) - w * B2R h) + Rabs (w * B2R h - D)).
        { replace (B2R (fmul (rw r0) h) - D) with ((B2R (fmul (rw r0) h) - w * B2R h) + (w * B2R h - D)) by ring. apply Rabs_triang. }
        lra.
    + (* several rows *)
      cbn [fupdate_gram] in U. set (rs := r0 :: r1 :: rows) in *. destruct U as (df & Dv & Ev).
      destruct (batch_err root X Y f HR HX HY Ff Hf rs df Ok2 Nr ltac:(fold m; lra) Dv) as [Fd Ed].
      fold m Wb D Zb in Ed. fold gam in Ev.
      destruct (HPw gam (length rs) FG HG) as [Fp Ep]; [unfold rs; cbn; lia|fold m; lra|].
      rewrite u_bpow in Ep. fold m in Ep. set (p := pw gam (length rs)) in *.
      assert (K' : INR (length rs) * u <= / 4096) by (fold m; lra).
      pose proof (pow_gamma_err (B2R gam) q (length rs) Hq EG K') as E1. fold P m in E1.
      set (gp := B2R gam ^ length rs) in *.
      pose proof (pow_unit (B2R gam) (length rs) HG) as gp1. fold gp in gp1.
      assert (mP : m * u * P <= / 4096 * P) by (apply Rmult_le_compat_r; lra).
      assert (gpP : gp <= (1 + / 1024) * P) by (apply abs_le2 in E1; lra).
      assert (mg : m * u * gp <= m * u * ((1 + / 1024) * P)) by (apply Rmult_le_compat_l; lra).
      assert (mP0 : 0 <= m * u * P) by (apply Rmult_le_pos; lra).
      assert (EP : Rabs (B2R p - P) <= (13 / 4) * m * u * P + 2 * m * eta).
      { assert (T : Rabs (B2R p - P) <= Rabs (B2R p - gp) + Rabs (gp - P)).
        { replace (B2R p - P) with ((B2R p - gp) + (gp - P)) by ring. apply Rabs_triang. } lra. }
      assert (gm : Rabs (B2R g) * (2 * m * eta) <= / 2 * (bpow radix2 (-800) * (X * Y))).
      { apply Rle_trans with ((bpow radix2 1 * (X * Y * (bpow radix2 40 * bpow radix2 100))) * (bpow radix2 1 * bpow radix2 40 * eta)).
        - assert (W <= bpow radix2 40 * bpow radix2 100).
          { eapply Rle_trans; [exact WH|]. apply Rmult_le_compat_r; [left; apply bpow_gt_0|lra]. }
          assert (Z <= X * Y * (bpow radix2 40 * bpow radix2 100)) by (apply Rmult_le_compat_l; lra).
          assert (b2 : bpow radix2 1 = 2) by (cbn; lra). rewrite b2.
          apply Rmult_le_compat; [apply Rabs_pos|apply Rmult_le_pos; lra|lra|]. apply Rmult_le_compat_r; lra.
        - replace (bpow radix2 1 * (X * Y * (bpow radix2 40 * bpow radix2 100)) * (bpow radix2 1 * bpow radix2 40 * eta))
            with ((bpow radix2 1 * (bpow radix2 40 * bpow radix2 100) * (bpow radix2 1 * bpow radix2 40 * eta)) * (X * Y)) by ring.
          rewrite <- (Rmult_assoc (/ 2)). apply Rmult_le_compat_r; [lra|].
          replace (/ 2) with (bpow radix2 (-1)) by (cbn; lra). rewrite <- !bpow_plus. apply bpow_le. lia. }
      assert (E2 : Rabs (B2R g * B2R p - P * B2R g) <= Rabs (B2R g) * ((13 / 4) * m * u * P + 2 * m * eta)).
      { replace (B2R g * B2R p - P * B2R g) with (B2R g * (B2R p - P)) by ring. rewrite Rabs_mult.
        apply Rmult_le_compat_l; [apply Rabs_pos|exact EP]. }
      replace (Rabs (B2R g) * (13 / 4 * m * u * P + 2 * m * eta)) with (13 / 4 * m * u * (P * Rabs (B2R g)) + Rabs (B2R g) * (2 * m * eta)) in E2 by ring.
      set (ag := Rabs (B2R g)) in *. assert (ag0 : 0 <= ag) by apply Rabs_pos.
      assert (Pa0 : 0 <= P * ag) by (apply Rmult_le_pos; lra).
      assert (Pa1 : P * ag <= 1 * ag) by (apply Rmult_le_compat_r; lra).
      assert (mPa : m * u * (P * ag) <= / 4096 * (P * ag)) by (apply Rmult_le_compat_r; lra).
      assert (Gp : Rabs (B2R g * B2R p) <= (1 + / 512) * (P * ag) + ag * (2 * m * eta)).
      { apply abs_near in E2. rewrite (Rabs_mult P), (Rabs_right P) in E2 by lra. fold ag in E2. lra. }
      assert (mS : m * u * Zb <= / 4096 * Zb) by (apply Rmult_le_compat_r; lra).
      destruct (fmul_err g p Fg Fp) as [Fc Ec]; [lra|].
      assert (mu0 : 0 <= m * u * (P * ag)) by (apply Rmult_le_pos; lra).
      apply (Main (fmul g p) df); auto.
      assert (T : Rabs (B2R (fmul g p) - P * B2R g) <= Rabs (B2R (fmul g p) - B2R g * B2R p) + Rabs (B2R g * B2R p - P * B2R g)).
      { replace (B2R (fmul g p) - P * B2R g) with ((B2R (fmul g p) - B2R g * B2R p) + (B2R g * B2R p - P * B2R g)) by ring. apply Rabs_triang. }
      assert (0 <= ag * (2 * m * eta)) by (apply Rmult_le_pos; [lra|apply Rmult_le_pos; lra]).
      fold ag. lra.
Qed.
End Run.

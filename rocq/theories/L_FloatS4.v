(** One row of [update] keeps the scaler close to the exact moments. *)
From Coq Require Import ZArith Reals List Bool Arith Lia Lra Psatz.
From Flocq Require Import Core BinarySingleNaN.
From Verif Require Import Base Lin Data S_Gram L_Gram S_Scaler L_Scaler M_Float S_Float S_FloatScaler L_Float L_Float2 L_Float3 L_Float5 L_Float6 L_FloatS L_FloatS2 L_FloatS3.
Import ListNotations.
Open Scope R_scope.

Definition sinv (f : float) (X : R) (l : list (float * float)) (s : fscaler) : Prop :=
  let W := wtotal (B2R f) (frows l) in let nu := INR (length l) * u in
  is_finite (fs_w s) = true /\ is_finite (fs_mean s) = true /\ is_finite (fs_M s) = true /\ is_finite (fs_var s) = true /\
  Rabs (B2R (fs_w s) - W) <= 8 * nu * W /\
  Rabs (B2R (fs_mean s) * B2R (fs_w s) - wmean (B2R f) (frows l) 0 * W) <= 12 * nu * (W * X) /\
  Rabs (B2R (fs_M s) - wvar (B2R f) (frows l) 0 * W) <= 200 * nu * (W * (X * X)) /\
  Rabs (B2R (fs_var s) - wvar (B2R f) (frows l) 0) <= 240 * nu * (X * X).

(** Sizes. *)
Lemma sizes W X : bpow radix2 (-100) <= W <= bpow radix2 140 -> bpow radix2 (-60) <= X <= bpow radix2 300 ->
  0 < W /\ 0 < X /\ W * X <= bpow radix2 440 /\ W * (X * X) <= bpow radix2 740 /\
  eta <= u / 1024 * W /\ eta <= u / 1024 * X /\ eta <= u / 1024 * (X * X) /\ eta <= u / 1024 * (W * X) /\ eta <= u / 1024 * (W * (X * X)) /\
  eta * W <= u / 1024 * (W * X) /\ eta * W <= u / 1024 * (W * (X * X)).
Proof.
  intros [W1 W2] [X1 X2]. pose proof (bpow_gt_0 radix2 (-100)). pose proof (bpow_gt_0 radix2 (-60)).
  assert (W0 : 0 < W) by lra. assert (X0 : 0 < X) by lra. split; auto. split; auto.
  assert (WX : W * X <= bpow radix2 440).
  { change 440%Z with (140 + 300)%Z. rewrite bpow_plus. apply Rmult_le_compat; lra. }
  assert (XX : X * X <= bpow radix2 600).
  { change 600%Z with (300 + 300)%Z. rewrite bpow_plus. apply Rmult_le_compat; lra. }
  assert (XX1 : bpow radix2 (-120) <= X * X).
  { change (-120)%Z with ((-60) + (-60))%Z. rewrite bpow_plus. apply Rmult_le_compat; lra. }
  assert (WX1 : bpow radix2 (-160) <= W * X).
  { change (-160)%Z with ((-100) + (-60))%Z. rewrite bpow_plus. apply Rmult_le_compat; lra. }
  assert (XX0 : 0 <= X * X) by (apply Rmult_le_pos; lra).
  assert (WXX1 : bpow radix2 (-220) <= W * (X * X)).
  { change (-220)%Z with ((-100) + (-120))%Z. rewrite bpow_plus. apply Rmult_le_compat; try lra; apply bpow_ge_0. }
  split; auto. split.
  { change 740%Z with (140 + 600)%Z. rewrite bpow_plus. apply Rmult_le_compat; lra. }
  assert (K : forall e y, (- 1000 <= e)%Z -> bpow radix2 e <= y -> eta <= u / 1024 * y).
  { intros e y He Hy. apply Rle_trans with (u / 1024 * bpow radix2 e); [|apply Rmult_le_compat_l; lra].
    replace (u / 1024) with (bpow radix2 (-63)) by (change (bpow radix2 (-63)) with (/ 9223372036854775808); lra).
    rewrite <- bpow_plus. apply bpow_le. lia. }
  assert (KX : eta <= u / 1024 * X) by (eapply K; [|exact X1]; lia).
  assert (KXX : eta <= u / 1024 * (X * X)) by (eapply K; [|exact XX1]; lia).
  split; [eapply K; [|exact W1]; lia|]. split; [exact KX|]. split; [exact KXX|].
  split; [eapply K; [|exact WX1]; lia|]. split; [eapply K; [|exact WXX1]; lia|].
  split.
  - replace (u / 1024 * (W * X)) with (u / 1024 * X * W) by ring. apply Rmult_le_compat_r; lra.
  - replace (u / 1024 * (W * (X * X))) with (u / 1024 * (X * X) * W) by ring. apply Rmult_le_compat_r; lra.
Qed.

Lemma big k c z : (k <= 1013)%Z -> 0 <= c <= 1024 -> z <= c * bpow radix2 k -> z <= bpow radix2 1023.
Proof.
  intros Hk Hc Hz. apply Rle_trans with (1024 * bpow radix2 k).
  - pose proof (bpow_ge_0 radix2 k). assert (c * bpow radix2 k <= 1024 * bpow radix2 k) by (apply Rmult_le_compat_r; lra). lra.
  - change 1024 with (bpow radix2 10). rewrite <- bpow_plus. apply bpow_le. lia.
Qed.

Lemma row_step f X l s xw : is_finite f = true -> 0 <= B2R f <= 1 -> bpow radix2 (-60) <= X <= bpow radix2 300 ->
  l <> [] -> Forall (row_ok X) (l ++ [xw]) -> INR (length (l ++ [xw])) <= bpow radix2 40 ->
  sinv f X l s -> sinv f X (l ++ [xw]) (fscaler_row f s (fst xw) (snd xw)).
Proof.
  intros Ff Hf HX Hn HF HL (Fw & Fm & FM & _ & Iw & Im & IM & _).
  pose proof HF as HF'. apply Forall_app in HF'. destruct HF' as [HFl HFx]. inversion HFx as [|? ? (Fx & Hx & Fwt & Hw) _]; subst.
  destruct (wtotal_range (B2R f) X l Hf HFl Hn) as [WL WU].
  assert (Hn' : l ++ [xw] <> []) by (destruct l; discriminate).
  destruct (wtotal_range (B2R f) X (l ++ [xw]) Hf HF Hn') as [WL' WU'].
  rewrite app_length, plus_INR in HL, WU'. cbn [length INR] in HL, WU'.
  assert (B100 : 0 < bpow radix2 (-100)) by apply bpow_gt_0.
  assert (B140 : bpow radix2 140 = bpow radix2 40 * bpow radix2 100) by (rewrite <- bpow_plus; reflexivity).
  assert (B10 : 0 < bpow radix2 100) by apply bpow_gt_0.
  assert (WU2 : (INR (length l) + 1) * bpow radix2 100 <= bpow radix2 140) by (rewrite B140; apply Rmult_le_compat_r; lra).
  assert (N0 := pos_INR (length l)).
  set (nu := INR (length l) * u) in *.
  assert (nu0 : 0 <= nu <= / 4096).
  { unfold nu. change (bpow radix2 40) with 1099511627776 in HL. split; [apply Rmult_le_pos; lra|lra]. }
  assert (nu1 : 0 <= nu + u <= / 4096).
  { unfold nu in *. change (bpow radix2 40) with 1099511627776 in HL. lra. }
  assert (nu' : INR (length (l ++ [xw])) * u = nu + u).
  { unfold nu. rewrite app_length, plus_INR. cbn [length INR]. ring. }
  destruct (exact_step (B2R f) l xw) as [ES EV]; [lra|lra|].
  pose proof (wmean_abs (B2R f) X l Hf HFl Hn) as Hm. pose proof (wmean_abs (B2R f) X (l ++ [xw]) Hf HF Hn') as Hm'.
  pose proof (wvar_abs (B2R f) X l Hf HFl Hn) as HV. pose proof (wvar_abs (B2R f) X (l ++ [xw]) Hf HF Hn') as HV'.
  pose proof (wtotal_snoc (B2R f) l xw) as WE.
  unfold sinv. rewrite nu'.
  set (W := wtotal (B2R f) (frows l)) in *. set (W' := wtotal (B2R f) (frows (l ++ [xw]))) in *.
  set (m := wmean (B2R f) (frows l) 0) in *. set (m' := wmean (B2R f) (frows (l ++ [xw])) 0) in *.
  set (V := wvar (B2R f) (frows l) 0) in *. set (V' := wvar (B2R f) (frows (l ++ [xw])) 0) in *.
  set (x := B2R (fst xw)) in *. set (w := B2R (snd xw)) in *. set (g := 1 - B2R f) in *.
  assert (g01 : 0 <= g <= 1) by (unfold g; lra).
  destruct (sizes W X) as (W0 & X0 & WX & WXX & _); [lra|lra|].
  destruct (sizes W' X) as (W'0 & _ & WX' & WXX' & t1 & t2 & t3 & t4 & t5 & t6 & t7); [lra|lra|].
  destruct (sizes w X) as (w0 & _ & wX & wXX & _ & _ & _ & t8 & _); [split; [apply Hw|apply Rle_trans with (bpow radix2 100); [apply Hw|apply bpow_le; lia]]|lra|].
  destruct eta_small as [e0 _].
  destruct (gamma_err f Ff Hf) as (Fg & Hgg & Eg). fold g in Eg. set (gg := B2R (fsub (fint 1) f)) in *.
  set (Wf := B2R (fs_w s)) in *. set (mf := B2R (fs_mean s)) in *. set (Mf := B2R (fs_M s)) in *.
  destruct (Wf_near W Wf nu) as [Wn1 Wn2]; [lra|lra|lra|].
  assert (Bpos : forall k, 0 < bpow radix2 k) by (intros; apply bpow_gt_0).
  (* weights *)
  assert (mag1 : Rabs (Wf * gg) <= bpow radix2 1023).
  { rewrite Rabs_right by (apply Rle_ge, Rmult_le_pos; lra). apply (big 140 2); [lia|lra|].
    apply Rle_trans with (Wf * 1); [apply Rmult_le_compat_l; lra|lra]. }
  destruct (fmul_err (fs_w s) (fsub (fint 1) f) Fw Fg mag1) as [FE EE]. fold Wf gg in EE.
  set (fE := fmul (fs_w s) (fsub (fint 1) f)) in *. set (E := B2R fE) in *.
  destruct (eff_step W Wf g gg nu eta W0 g01 nu0 Iw Eg E EE) as (E1 & E2 & E3).
  assert (gW : 0 <= g * W) by (apply Rmult_le_pos; lra).
  assert (nW : nu * (g * W) <= / 4096 * (g * W)) by (apply Rmult_le_compat_r; lra).
  assert (Eb : 0 - eta <= E <= 2 * W').
  { apply abs_le2 in E1. lra. }
  assert (mag2 : Rabs (E + w) <= bpow radix2 1023).
  { apply (big 140 4); [lia|lra|]. apply Rabs_le. lra. }
  destruct (fadd_err fE (snd xw) FE Fwt mag2) as [FC EC]. fold E w in EC.
  set (fC := fadd fE (snd xw)) in *. set (C := B2R fC) in *.
  assert (WE' : g * W + w = W') by lra.
  assert (Cw : Rabs (C - W') <= 8 * (nu + u) * W').
  { rewrite <- WE'. apply (w_step W Wf g gg w nu eta W0 g01 w0 nu0 Iw Eg E C EE); auto. rewrite WE'; auto. }
  (* mean *)
  pose proof (mf_near W Wf nu W0 nu0 Iw m mf X X0 Hm Im) as MN.
  assert (nX : nu * X <= / 4096 * X) by (apply Rmult_le_compat_r; lra).
  assert (mfX : Rabs mf <= 2 * X) by (apply abs_near in MN; lra).
  assert (Ea : Rabs E <= 2 * W') by (apply Rabs_le; lra).
  assert (mE : Rabs (mf * E) <= 4 * (W' * X)).
  { rewrite Rabs_mult. replace (4 * (W' * X)) with ((2 * X) * (2 * W')) by ring. apply Rmult_le_compat; auto using Rabs_pos. }
  assert (xwb : Rabs (x * w) <= W' * X).
  { rewrite Rabs_mult, (Rabs_right w) by lra. rewrite (Rmult_comm W'). apply Rmult_le_compat; auto using Rabs_pos; lra. }
  destruct (fmul_err (fs_mean s) fE Fm FE) as [FN1 EN1]; [fold mf E; apply (big 440 4); [lia|lra|lra]|]. fold mf E in EN1.
  set (fN1 := fmul (fs_mean s) fE) in *. set (N1 := B2R fN1) in *.
  destruct (fmul_err (fst xw) (snd xw) Fx Fwt) as [FN2 EN2]; [fold x w; apply (big 440 1); [lia|lra|lra]|]. fold x w in EN2.
  set (fN2 := fmul (fst xw) (snd xw)) in *. set (N2 := B2R fN2) in *.
  assert (WX0 : 0 < W' * X) by (apply Rmult_lt_0_compat; lra).
  assert (N1b : Rabs N1 <= 5 * (W' * X)) by (apply abs_near in EN1; lra).
  assert (N2b : Rabs N2 <= 2 * (W' * X)) by (apply abs_near in EN2; lra).
  pose proof (Rabs_triang N1 N2) as TN.
  destruct (fadd_err fN1 fN2 FN1 FN2) as [FN EN]; [fold N1 N2; apply (big 440 7); [lia|lra|lra]|]. fold N1 N2 in EN.
  set (fN := fadd fN1 fN2) in *. set (N := B2R fN) in *.
  assert (Nb : Rabs N <= 8 * (W' * X)) by (apply abs_near in EN; lra).
  destruct (Wf_near W' C (nu + u)) as [Cn1 Cn2]; [lra|lra|lra|].
  assert (C0 : 0 < C) by lra.
  assert (NC : Rabs (N / C) <= 16 * X).
  { unfold Rdiv. rewrite Rabs_mult, (Rabs_right (/ C)) by (apply Rle_ge, Rlt_le, Rinv_0_lt_compat; lra).
    apply Rmult_le_reg_r with C; auto. rewrite Rmult_assoc, Rinv_l, Rmult_1_r by lra.
    assert (X * ((1 - / 500) * W') <= X * C) by (apply Rmult_le_compat_l; lra). lra. }
  destruct (fdiv_err fN fC FN) as [Fq Eq]; [fold C; lra|fold N C; apply (big 300 16); [lia|lra|lra]|]. fold N C in Eq.
  destruct (m_step W Wf g gg w nu eta W0 g01 w0 nu0 (Rlt_le _ _ e0) Iw Eg m mf x X X0 Hm Hx Im E C N1 N2 N (B2R (fdiv fN fC)) EE)
    as (_ & _ & _ & _ & _ & _ & Qm); auto; [rewrite WE'; auto|rewrite WE'; auto|].
  rewrite WE' in Qm. rewrite <- ES in Qm.
  set (fm' := fdiv fN fC) in *. set (mf' := B2R fm') in *.
  pose proof (mf_near W' C (nu + u) W'0 nu1 Cw m' mf' X X0 Hm' Qm) as MN'.
  assert (nX' : (nu + u) * X <= / 4096 * X) by (apply Rmult_le_compat_r; lra).
  assert (mfX' : Rabs mf' <= 2 * X) by (apply abs_near in MN'; lra).
  (* sum of squares *)
  assert (xm : Rabs (x - mf) <= 3 * X).
  { unfold Rminus. eapply Rle_trans; [apply Rabs_triang|]. rewrite Rabs_Ropp. lra. }
  assert (xm' : Rabs (x - mf') <= 3 * X).
  { unfold Rminus. eapply Rle_trans; [apply Rabs_triang|]. rewrite Rabs_Ropp. lra. }
  destruct (fsub_err (fst xw) (fs_mean s) Fx Fm) as [Fd Ed]; [fold x mf; apply (big 300 3); [lia|lra|lra]|]. fold x mf in Ed.
  destruct (fsub_err (fst xw) fm' Fx Fq) as [Fd' Ed']; [fold x mf'; apply (big 300 3); [lia|lra|lra]|]. fold x mf' in Ed'.
  set (fd := fsub (fst xw) (fs_mean s)) in *. set (d := B2R fd) in *.
  set (fd' := fsub (fst xw) fm') in *. set (d' := B2R fd') in *.
  assert (db : Rabs d <= 4 * X) by (apply abs_near in Ed; lra).
  assert (db' : Rabs d' <= 4 * X) by (apply abs_near in Ed'; lra).
  assert (wd : Rabs (w * d) <= 4 * (w * X)).
  { rewrite Rabs_mult, (Rabs_right w) by lra. replace (4 * (w * X)) with (w * (4 * X)) by ring. apply Rmult_le_compat_l; lra. }
  destruct (fmul_err (snd xw) fd Fwt Fd) as [Fp1 Ep1]; [fold w d; apply (big 440 4); [lia|lra|lra]|]. fold w d in Ep1.
  set (fp1 := fmul (snd xw) fd) in *. set (p1 := B2R fp1) in *.
  assert (wX0 : 0 < w * X) by (apply Rmult_lt_0_compat; lra).
  assert (p1b : Rabs p1 <= 5 * (w * X)) by (apply abs_near in Ep1; lra).
  assert (p1d : Rabs (p1 * d') <= 20 * (w * (X * X))).
  { rewrite Rabs_mult. replace (20 * (w * (X * X))) with (5 * (w * X) * (4 * X)) by ring. apply Rmult_le_compat; auto using Rabs_pos. }
  destruct (fmul_err fp1 fd' Fp1 Fd') as [Fp2 Ep2]; [fold p1 d'; apply (big 740 20); [lia|lra|lra]|]. fold p1 d' in Ep2.
  set (fp2 := fmul fp1 fd') in *. set (p2 := B2R fp2) in *.
  assert (Y0 : 0 < W * (X * X)) by (apply Rmult_lt_0_compat; [lra|apply Rmult_lt_0_compat; lra]).
  assert (Y0' : 0 < W' * (X * X)) by (apply Rmult_lt_0_compat; [lra|apply Rmult_lt_0_compat; lra]).
  assert (y0 : w * (X * X) <= W' * (X * X)) by (apply Rmult_le_compat_r; [apply Rmult_le_pos; lra|lra]).
  assert (nY : nu * (W * (X * X)) <= / 4096 * (W * (X * X))) by (apply Rmult_le_compat_r; lra).
  assert (HM0 : Rabs (V * W) <= 4 * (W * (X * X))) by (rewrite Rabs_right; lra).
  assert (Mfb : Rabs Mf <= 5 * (W * (X * X))) by (apply abs_near in IM; lra).
  assert (Mg : Rabs (Mf * gg) <= 5 * (W * (X * X))).
  { rewrite Rabs_mult, (Rabs_right gg) by lra. apply Rle_trans with (Rabs Mf * 1); [|lra].
    apply Rmult_le_compat_l; [apply Rabs_pos|lra]. }
  destruct (fmul_err (fs_M s) (fsub (fint 1) f) FM Fg) as [FQ EQ]; [fold Mf gg; apply (big 740 5); [lia|lra|lra]|]. fold Mf gg in EQ.
  set (fQ := fmul (fs_M s) (fsub (fint 1) f)) in *. set (Q := B2R fQ) in *.
  assert (Qb : Rabs Q <= 6 * (W * (X * X)) + eta) by (apply abs_near in EQ; lra).
  assert (p2b : Rabs p2 <= 22 * (W' * (X * X))) by (apply abs_near in Ep2; lra).
  pose proof (Rabs_triang Q p2) as TQ.
  destruct (fadd_err fQ fp2 FQ Fp2) as [FR ER].
  { fold Q p2. apply (big 740 30); [lia|lra|]. assert (eta <= bpow radix2 740) by (apply bpow_le; lia). lra. }
  fold Q p2 in ER. set (fr := fadd fQ fp2) in *. set (r := B2R fr) in *.
  destruct (M_step W Wf g gg w nu eta W0 g01 w0 nu0 (Rlt_le _ _ e0) Iw Eg m mf x X X0 Hm Hx Im m' (V * W) Mf Hm' HM0 IM
    mf' d d' p1 p2 Q r MN') as (RM & _); auto; [rewrite WE'; auto|].
  rewrite WE', <- EV in RM.
  (* variance *)
  assert (HM0' : Rabs (V' * W') <= 4 * (W' * (X * X))) by (rewrite Rabs_right; lra).
  assert (nY' : (nu + u) * (W' * (X * X)) <= / 4096 * (W' * (X * X))) by (apply Rmult_le_compat_r; lra).
  assert (rb : Rabs r <= 5 * (W' * (X * X))) by (apply abs_near in RM; lra).
  assert (rC : Rabs (r / C) <= 10 * (X * X)).
  { unfold Rdiv. rewrite Rabs_mult, (Rabs_right (/ C)) by (apply Rle_ge, Rlt_le, Rinv_0_lt_compat; lra).
    apply Rmult_le_reg_r with C; auto. rewrite Rmult_assoc, Rinv_l, Rmult_1_r by lra.
    assert (X * X * ((1 - / 500) * W') <= X * X * C) by (apply Rmult_le_compat_l; [apply Rmult_le_pos; lra|lra]). lra. }
  destruct (fdiv_err fr fC FR) as [Fv Ev].
  { fold C. lra. }
  { fold r C. apply (big 600 10); [lia|lra|]. 
    assert (X * X <= bpow radix2 600); [|lra]. change 600%Z with (300 + 300)%Z. rewrite bpow_plus. apply Rmult_le_compat; lra. }
  fold r C in Ev.
  cbn [fscaler_row fs_w fs_mean fs_M fs_var]. fold fE fC fN1 fN2 fN fm' fd fd' fp1 fp2 fQ fr. fold C mf' r.
  repeat (split; [assumption|]).
  assert (XX0 : 0 < X * X) by (apply Rmult_lt_0_compat; lra).
  assert (n200 : 0 <= 200 * (nu + u)) by lra.
  pose proof (quot1 W' C (nu + u) eta W'0 nu1 (Rlt_le _ _ e0) Cw r (V' * W') (B2R (fdiv fr fC)) (200 * (nu + u)) 4 (X * X)
    XX0 n200 ltac:(lra) RM HM0' Ev) as Q1.
  set (Y' := W' * (X * X)) in *.
  assert (Q1' : Rabs (B2R (fdiv fr fC) * C - V' * W') <= 205 * (nu + u) * Y').
  { assert (u * Y' <= (nu + u) * Y') by (apply Rmult_le_compat_r; lra). lra. }
  pose proof (quot2 W' C (nu + u) W'0 nu1 Cw (V' * W') (B2R (fdiv fr fC)) (205 * (nu + u)) 4 (X * X) XX0 ltac:(lra) ltac:(lra) Q1' HM0') as Q2.
  replace (V' * W' / W') with V' in Q2 by (field; lra).
  assert (0 <= (nu + u) * (X * X)) by (apply Rmult_le_pos; lra). lra.
Qed.

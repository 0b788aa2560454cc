(** Error propagation through one row of [update] and through the quotients. *)
From Coq Require Import ZArith Reals List Bool Arith Lia Lra Psatz.
From Flocq Require Import Core BinarySingleNaN.
From Verif Require Import Base L_Float6 L_FloatS.
Open Scope R_scope.

Section Reals.
Variables (W Wf g gg w nu et : R).
Hypotheses (W0 : 0 < W) (g01 : 0 <= g <= 1) (w0 : 0 < w) (n0 : 0 <= nu <= / 4096) (e0 : 0 <= et)
  (HW : Rabs (Wf - W) <= 8 * nu * W) (Hg : Rabs (gg - g) <= u * g).
Let W' := g * W + w.

Lemma Wf_near : Wf <= (1 + / 500) * W /\ (1 - / 500) * W <= Wf.
Proof.
  clear Hg. assert (nu * W <= / 4096 * W) by (apply Rmult_le_compat_r; lra). apply abs_le2 in HW. lra.
Qed.

Lemma eff_step E : Rabs (E - Wf * gg) <= u * Rabs (Wf * gg) + et ->
  Rabs (E - g * W) <= (8 * nu + 21 / 10 * u) * (g * W) + et /\
  Rabs (E - g * Wf) <= 21 / 10 * u * (g * Wf) + et /\ 0 <= g * Wf.
Proof.
  intros HE. destruct Wf_near as [N1 N2].
  pose proof (prod_err W Wf g gg _ _ HW Hg) as P. rewrite (Rabs_right W) in P by lra.
  apply abs_le2 in Hg. assert (u * g <= g) by lra. rewrite (Rabs_right gg) in P by lra.
  assert (A1 : 8 * nu * W * gg <= 8 * nu * W * ((1 + u) * g)).
  { apply Rmult_le_compat_l; [|lra]. apply Rmult_le_pos; lra. }
  assert (gW : 0 <= g * W) by (apply Rmult_le_pos; lra).
  assert (A2 : nu * (g * W) <= / 4096 * (g * W)) by (apply Rmult_le_compat_r; lra).
  apply abs_le2 in P. 
  assert (Q : 0 <= Wf * gg) by (apply Rmult_le_pos; lra). rewrite (Rabs_right (Wf * gg)) in HE by lra. apply abs_le2 in HE.
  assert (R1 : Wf * (gg - g) <= Wf * (u * g)) by (apply Rmult_le_compat_l; lra).
  assert (R2 : Wf * (- (u * g)) <= Wf * (gg - g)) by (apply Rmult_le_compat_l; lra).
  assert (gWf : 0 <= g * Wf) by (apply Rmult_le_pos; lra).
  split; [|split; [|auto]]; apply Rabs_le; lra.
Qed.

Lemma w_step E C : Rabs (E - Wf * gg) <= u * Rabs (Wf * gg) + et -> et <= u / 1024 * W' ->
  Rabs (C - (E + w)) <= u * Rabs (E + w) -> Rabs (C - W') <= 8 * (nu + u) * W'.
Proof.
  intros HE He HC. destruct (eff_step E HE) as [E1 _]. unfold W' in *.
  assert (gW : 0 <= g * W) by (apply Rmult_le_pos; lra).
  assert (A2 : nu * (g * W) <= / 4096 * (g * W)) by (apply Rmult_le_compat_r; lra).
  assert (A3 : 0 <= nu * w) by (apply Rmult_le_pos; lra).
  apply abs_le2 in E1. rewrite (Rabs_right (E + w)) in HC by lra. apply abs_le2 in HC. apply Rabs_le. lra.
Qed.

Variables (m mf x X : R).
Hypotheses (X0 : 0 < X) (Hm : Rabs m <= X) (Hx : Rabs x <= X) (HS : Rabs (mf * Wf - m * W) <= 12 * nu * (W * X)).

Lemma mf_near : Rabs (mf - m) <= 21 * nu * X.
Proof.
  destruct Wf_near as [N1 N2]. clear Hg Hx g01.
  assert (T : Rabs ((mf - m) * Wf) <= 20 * nu * (W * X)).
  { replace ((mf - m) * Wf) with ((mf * Wf - m * W) + m * (W - Wf)) by ring.
    eapply Rle_trans; [apply Rabs_triang|]. rewrite Rabs_mult, (Rabs_minus_sym W).
    assert (Rabs m * Rabs (Wf - W) <= X * (8 * nu * W)) by (apply Rmult_le_compat; auto using Rabs_pos). lra. }
  rewrite Rabs_mult, (Rabs_right Wf) in T by lra.
  apply Rmult_le_reg_r with Wf; [lra|].
  assert (nX : 0 <= nu * X) by (apply Rmult_le_pos; lra).
  assert (A : nu * X * ((1 - / 500) * W) <= nu * X * Wf) by (apply Rmult_le_compat_l; lra). 
  assert (0 <= nu * X * W) by (apply Rmult_le_pos; lra). lra.
Qed.

Lemma m_step E C N1 N2 N q : Rabs (E - Wf * gg) <= u * Rabs (Wf * gg) + et -> et <= u / 1024 * W' ->
  et <= u / 1024 * (W' * X) -> et <= u / 1024 * X ->
  Rabs (C - (E + w)) <= u * Rabs (E + w) ->
  Rabs (N1 - mf * E) <= u * Rabs (mf * E) + et -> Rabs (N2 - x * w) <= u * Rabs (x * w) + et ->
  Rabs (N - (N1 + N2)) <= u * Rabs (N1 + N2) -> Rabs (q - N / C) <= u * Rabs (N / C) + et ->
  0 < C /\ Rabs (mf * E) <= 2 * (g * (W * X)) + W' * X /\ Rabs N1 <= 4 * (W' * X) /\ Rabs N2 <= 4 * (W' * X) /\
  Rabs N <= 8 * (W' * X) /\ Rabs (N / C) <= 16 * X /\
  Rabs (q * C - (g * (m * W) + x * w)) <= 12 * (nu + u) * (W' * X).
Proof.
  intros HE He1 He2 He3 HC H1 H2 H3 H4.
  pose proof (w_step E C HE He1 HC) as CW. destruct (eff_step E HE) as (_ & E2 & E3). unfold W' in *.
  assert (gW : 0 <= g * W) by (apply Rmult_le_pos; lra).
  set (WW := g * W + w) in *. assert (WW0 : 0 < WW) by (unfold WW; lra).
  assert (A2 : (nu + u) * WW <= / 2048 * WW) by (apply Rmult_le_compat_r; lra).
  pose proof CW as CW'. apply abs_le2 in CW'.
  assert (C0 : 0 < C) by lra. split; auto.
  assert (WX : 0 < W * X) by (apply Rmult_lt_0_compat; lra).
  set (P := g * (W * X)). assert (P0 : 0 <= P) by (apply Rmult_le_pos; lra).
  set (B := w * X). assert (B0 : 0 <= B) by (apply Rmult_le_pos; lra).
  assert (WXe : WW * X = P + B) by (unfold WW, P, B; ring).
  assert (nP : nu * P <= / 4096 * P) by (apply Rmult_le_compat_r; lra).
  assert (nB : 0 <= nu * B) by (apply Rmult_le_pos; lra).
  (* the numerator of the mean *)
  assert (S1 : Rabs (g * (mf * Wf) - g * (m * W)) <= 12 * nu * P).
  { rewrite <- Rmult_minus_distr_l, Rabs_mult, (Rabs_right g) by lra.
    replace (12 * nu * P) with (g * (12 * nu * (W * X))) by (unfold P; ring). apply Rmult_le_compat_l; lra. }
  assert (S0 : Rabs (g * (m * W)) <= P).
  { rewrite !Rabs_mult, (Rabs_right g), (Rabs_right W) by lra. unfold P. rewrite (Rmult_comm W X).
    apply Rmult_le_compat_l; [lra|]. apply Rmult_le_compat_r; lra. }
  assert (S2 : Rabs (g * (mf * Wf)) <= (1 + / 300) * P) by (apply abs_near in S1; lra).
  pose proof mf_near as MN.
  assert (nX : nu * X <= / 4096 * X) by (apply Rmult_le_compat_r; lra).
  assert (mfX : Rabs mf <= 2 * X) by (apply abs_near in MN; lra).
  assert (eX : 2 * X * et <= u / 500 * (P + B)).
  { assert (X * et <= X * (u / 1024 * WW)) by (apply Rmult_le_compat_l; lra). rewrite <- WXe. lra. }
  assert (F1 : Rabs (mf * E - g * (mf * Wf)) <= 22 / 10 * u * P + u / 500 * (P + B)).
  { replace (mf * E - g * (mf * Wf)) with (mf * (E - g * Wf)) by ring. rewrite Rabs_mult.
    apply Rle_trans with (Rabs mf * (21 / 10 * u * (g * Wf) + et)); [apply Rmult_le_compat_l; auto using Rabs_pos|].
    rewrite !Rabs_mult, (Rabs_right g), (Rabs_right Wf) in S2 by (destruct Wf_near; lra).
    assert (Rabs mf * et <= 2 * X * et) by (apply Rmult_le_compat_r; lra).
    replace (Rabs mf * (21 / 10 * u * (g * Wf) + et)) with (21 / 10 * u * (g * (Rabs mf * Wf)) + Rabs mf * et) by ring. lra. }
  assert (F0 : Rabs (mf * E) <= (1 + / 200) * P + u / 500 * (P + B)) by (apply abs_near in F1; lra).
  assert (G0 : Rabs (x * w) <= B).
  { rewrite Rabs_mult, (Rabs_right w) by lra. unfold B. rewrite (Rmult_comm w). apply Rmult_le_compat_r; lra. }
  assert (et2 : et <= u / 1024 * (P + B)) by (rewrite <- WXe; auto).
  assert (K1 : Rabs N1 <= (1 + / 100) * P + / 1000 * B) by (apply abs_near in H1; lra).
  assert (K2 : Rabs N2 <= (1 + / 100) * B + / 1000 * P) by (apply abs_near in H2; lra).
  pose proof (Rabs_triang N1 N2) as TT.
  assert (K3 : Rabs N <= (1 + / 50) * (P + B)) by (apply abs_near in H3; lra).
  assert (K4 : Rabs (N - (g * (m * W) + x * w)) <= 12 * nu * P + 45 / 10 * u * P + 35 / 10 * u * B).
  { replace (N - (g * (m * W) + x * w)) with
      ((N - (N1 + N2)) + ((N1 - mf * E) + ((mf * E - g * (mf * Wf)) + ((g * (mf * Wf) - g * (m * W)) + (N2 - x * w))))) by ring.
    pose proof (Rabs_triang (N - (N1 + N2)) ((N1 - mf * E) + ((mf * E - g * (mf * Wf)) + ((g * (mf * Wf) - g * (m * W)) + (N2 - x * w))))).
    pose proof (Rabs_triang (N1 - mf * E) ((mf * E - g * (mf * Wf)) + ((g * (mf * Wf) - g * (m * W)) + (N2 - x * w)))).
    pose proof (Rabs_triang (mf * E - g * (mf * Wf)) ((g * (mf * Wf) - g * (m * W)) + (N2 - x * w))).
    pose proof (Rabs_triang (g * (mf * Wf) - g * (m * W)) (N2 - x * w)). lra. }
  assert (QC : Rabs (q * C - N) <= u * Rabs N + et * C).
  { replace (q * C - N) with ((q - N / C) * C) by (field; lra). rewrite Rabs_mult, (Rabs_right C) by lra.
    replace (u * Rabs N + et * C) with ((u * Rabs (N / C) + et) * C).
    - apply Rmult_le_compat_r; lra.
    - unfold Rdiv. rewrite Rabs_mult, (Rabs_right (/ C)); [field; lra|]. apply Rle_ge, Rlt_le, Rinv_0_lt_compat; lra. }
  assert (eC : et * C <= u / 500 * (P + B)).
  { apply Rle_trans with (u / 1024 * X * C); [apply Rmult_le_compat_r; lra|].
    assert (X * C <= X * ((1 + / 100) * WW)) by (apply Rmult_le_compat_l; lra). rewrite <- WXe. lra. }
  split; [rewrite WXe; lra|]. split; [rewrite WXe; lra|]. split; [rewrite WXe; lra|]. split; [rewrite WXe; lra|]. split.
  { unfold Rdiv. rewrite Rabs_mult, (Rabs_right (/ C)) by (apply Rle_ge, Rlt_le, Rinv_0_lt_compat; lra).
    apply Rmult_le_reg_r with C; auto. rewrite Rmult_assoc, Rinv_l, Rmult_1_r by lra.
    assert (X * ((1 - / 100) * WW) <= X * C) by (apply Rmult_le_compat_l; lra). lra. }
  rewrite WXe.
  pose proof (Rabs_triang (q * C - N) (N - (g * (m * W) + x * w))) as TQ.
  replace (q * C - N + (N - (g * (m * W) + x * w))) with (q * C - (g * (m * W) + x * w)) in TQ by ring. lra.
Qed.

(** The sum of squares; [dold] and [dnew] are the rounded differences. *)
Variables (m' M Mf : R).
Hypotheses (Hm' : Rabs m' <= X) (HM0 : Rabs M <= 4 * (W * (X * X))) (HM : Rabs (Mf - M) <= 200 * nu * (W * (X * X))).

Lemma M_step mf' dold dnew p1 p2 q r : Rabs (mf' - m') <= 21 * (nu + u) * X ->
  et <= u / 1024 * (W' * (X * X)) -> et <= u / 1024 * (w * X) ->
  Rabs (dold - (x - mf)) <= u * Rabs (x - mf) -> Rabs (dnew - (x - mf')) <= u * Rabs (x - mf') ->
  Rabs (p1 - w * dold) <= u * Rabs (w * dold) + et -> Rabs (p2 - p1 * dnew) <= u * Rabs (p1 * dnew) + et ->
  Rabs (q - Mf * gg) <= u * Rabs (Mf * gg) + et -> Rabs (r - (q + p2)) <= u * Rabs (q + p2) ->
  Rabs (r - (g * M + w * (x - m) * (x - m'))) <= 200 * (nu + u) * (W' * (X * X)) /\
  Rabs dold <= 3 * X /\ Rabs dnew <= 3 * X /\ Rabs (w * dold) <= 3 * (w * X) /\ Rabs (p1 * dnew) <= 10 * (w * (X * X)) + 3 * X * et /\
  Rabs (Mf * gg) <= 8 * (W * (X * X)) /\ Rabs (q + p2) <= 20 * (W' * (X * X)).
Proof.
  intros Hmf' He1 He3 H1 H2 H3 H4 H5 H6. pose proof mf_near as MN.
  set (n' := nu + u) in *. assert (n'0 : 0 <= n' <= / 2048) by (unfold n'; lra).
  assert (uX : u * X <= n' * X) by (apply Rmult_le_compat_r; unfold n'; lra).
  assert (nuX : nu * X <= n' * X) by (apply Rmult_le_compat_r; unfold n'; lra).
  assert (nX : n' * X <= / 2048 * X) by (apply Rmult_le_compat_r; lra).
  assert (D1 : Rabs (dold - (x - m)) <= 24 * n' * X).
  { replace (dold - (x - m)) with ((dold - (x - mf)) + - (mf - m)) by ring. eapply Rle_trans; [apply Rabs_triang|].
    rewrite Rabs_Ropp. assert (Rabs (x - mf) <= 3 * X); [|lra].
    replace (x - mf) with (x + (- (mf - m) + - m)) by ring. eapply Rle_trans; [apply Rabs_triang|].
    pose proof (Rabs_triang (- (mf - m)) (- m)). rewrite !Rabs_Ropp in H. lra. }
  assert (D2 : Rabs (dnew - (x - m')) <= 24 * n' * X).
  { replace (dnew - (x - m')) with ((dnew - (x - mf')) + - (mf' - m')) by ring. eapply Rle_trans; [apply Rabs_triang|].
    rewrite Rabs_Ropp. assert (Rabs (x - mf') <= 3 * X); [|lra].
    replace (x - mf') with (x + (- (mf' - m') + - m')) by ring. eapply Rle_trans; [apply Rabs_triang|].
    pose proof (Rabs_triang (- (mf' - m')) (- m')). rewrite !Rabs_Ropp in H. lra. }
  assert (e1 : Rabs (x - m) <= 2 * X).
  { unfold Rminus. eapply Rle_trans; [apply Rabs_triang|]. rewrite Rabs_Ropp. lra. }
  assert (e2 : Rabs (x - m') <= 2 * X).
  { unfold Rminus. eapply Rle_trans; [apply Rabs_triang|]. rewrite Rabs_Ropp. lra. }
  assert (d1 : Rabs dold <= (2 + / 50) * X) by (apply abs_near in D1; lra).
  assert (d2 : Rabs dnew <= (2 + / 50) * X) by (apply abs_near in D2; lra).
  set (XX := X * X) in *. assert (XX0 : 0 < XX) by (apply Rmult_lt_0_compat; auto).
  assert (DD : Rabs (dold * dnew - (x - m) * (x - m')) <= 97 * n' * XX).
  { eapply Rle_trans; [apply prod_err; [exact D1|exact D2]|].
    assert (24 * n' * X * Rabs dnew <= 24 * n' * X * ((2 + / 50) * X)) by (apply Rmult_le_compat_l; [lra|auto]).
    assert (Rabs (x - m) * (24 * n' * X) <= 2 * X * (24 * n' * X)) by (apply Rmult_le_compat_r; [lra|auto]).
    assert (0 <= n' * XX) by (apply Rmult_le_pos; lra).
    unfold XX in *. lra. }
  set (B := w * XX) in *. assert (B0 : 0 <= B) by (apply Rmult_le_pos; lra).
  assert (nB : n' * B <= / 2048 * B) by (apply Rmult_le_compat_r; lra).
  assert (uB : u * B <= n' * B) by (apply Rmult_le_compat_r; unfold n'; lra).
  assert (dd : Rabs (dold * dnew) <= 42 / 10 * XX).
  { rewrite Rabs_mult. apply Rle_trans with (((2 + / 50) * X) * ((2 + / 50) * X)).
    - apply Rmult_le_compat; auto using Rabs_pos.
    - unfold XX. assert (0 <= X * X) by (apply Rmult_le_pos; lra). lra. }
  assert (wdd : Rabs (w * dold * dnew) <= 42 / 10 * B).
  { rewrite Rmult_assoc, Rabs_mult, (Rabs_right w) by lra. unfold B.
    replace (42 / 10 * (w * XX)) with (w * (42 / 10 * XX)) by ring. apply Rmult_le_compat_l; lra. }
  assert (wDD : Rabs (w * dold * dnew - w * (x - m) * (x - m')) <= 97 * (n' * B)).
  { replace (w * dold * dnew - w * (x - m) * (x - m')) with (w * (dold * dnew - (x - m) * (x - m'))) by ring.
    rewrite Rabs_mult, (Rabs_right w) by lra. replace (97 * (n' * B)) with (w * (97 * n' * XX)) by (unfold B; ring).
    apply Rmult_le_compat_l; lra. }
  assert (gWX : 0 <= g * (W * XX)) by (apply Rmult_le_pos; [lra|apply Rmult_le_pos; lra]).
  set (P := g * (W * XX)) in *.
  assert (WXe : W' * XX = P + B) by (unfold W', P, B; ring). rewrite WXe in *.
  assert (etX : X * et <= u / 1024 * B).
  { replace (u / 1024 * B) with (X * (u / 1024 * (w * X))) by (unfold B, XX; ring). apply Rmult_le_compat_l; lra. }
  assert (p1d : Rabs (p1 * dnew - w * dold * dnew) <= u * Rabs (w * dold * dnew) + 3 * X * et).
  { replace (p1 * dnew - w * dold * dnew) with ((p1 - w * dold) * dnew) by ring. rewrite Rabs_mult.
    apply Rle_trans with ((u * Rabs (w * dold) + et) * Rabs dnew); [apply Rmult_le_compat_r; auto using Rabs_pos|].
    rewrite (Rabs_mult (w * dold)). 
    assert (et * Rabs dnew <= et * (3 * X)) by (apply Rmult_le_compat_l; lra). lra. }
  assert (P1D : Rabs (p1 * dnew) <= 43 / 10 * B) by (apply abs_near in p1d; lra).
  assert (P2 : Rabs (p2 - w * (x - m) * (x - m')) <= 97 * (n' * B) + 10 * u * B + et).
  { replace (p2 - w * (x - m) * (x - m')) with
      ((p2 - p1 * dnew) + ((p1 * dnew - w * dold * dnew) + (w * dold * dnew - w * (x - m) * (x - m')))) by ring.
    pose proof (Rabs_triang (p2 - p1 * dnew) ((p1 * dnew - w * dold * dnew) + (w * dold * dnew - w * (x - m) * (x - m')))).
    pose proof (Rabs_triang (p1 * dnew - w * dold * dnew) (w * dold * dnew - w * (x - m) * (x - m'))). lra. }
  assert (p2b : Rabs p2 <= 45 / 10 * B + et) by (apply abs_near in H4; lra).
  set (Y := W * XX) in *. assert (Y0 : 0 <= Y) by (apply Rmult_le_pos; lra).
  assert (nY : nu * Y <= / 4096 * Y) by (apply Rmult_le_compat_r; lra).
  assert (Mb : Rabs Mf <= (4 + / 20) * Y) by (apply abs_near in HM; lra).
  assert (gg0 : 0 <= gg <= (1 + u) * g) by (apply abs_le2 in Hg; lra).
  assert (Q1 : Rabs (Mf * gg - M * g) <= 200 * (nu * P) + 43 / 10 * u * P).
  { eapply Rle_trans; [apply prod_err; [exact HM|exact Hg]|]. rewrite (Rabs_right gg) by lra.
    assert (200 * nu * Y * gg <= 200 * nu * Y * ((1 + u) * g)).
    { apply Rmult_le_compat_l; [|lra]. apply Rmult_le_pos; lra. }
    assert (Rabs M * (u * g) <= 4 * Y * (u * g)) by (apply Rmult_le_compat_r; lra).
    assert (nu * (g * Y) <= / 4096 * (g * Y)) by (apply Rmult_le_compat_r; [apply Rmult_le_pos; lra|lra]).
    assert (0 <= g * Y) by (apply Rmult_le_pos; lra).
    unfold P. lra. }
  assert (nP : nu * P <= / 4096 * P) by (apply Rmult_le_compat_r; lra).
  assert (gM : Rabs (M * g) <= 4 * P).
  { rewrite Rabs_mult, (Rabs_right g) by lra. unfold P. replace (4 * (g * Y)) with (4 * Y * g) by ring. apply Rmult_le_compat_r; lra. }
  assert (Q2 : Rabs (Mf * gg) <= (4 + / 10) * P) by (apply abs_near in Q1; lra).
  assert (Q3 : Rabs (q - M * g) <= 200 * (nu * P) + 9 * u * P + et).
  { replace (q - M * g) with ((q - Mf * gg) + (Mf * gg - M * g)) by ring. eapply Rle_trans; [apply Rabs_triang|]. lra. }
  assert (Q4 : Rabs q <= (4 + / 5) * P + et) by (apply abs_near in H5; lra).
  pose proof (Rabs_triang q p2) as TT.
  assert (n'P : n' * P = nu * P + u * P) by (unfold n'; ring).
  split.
  - replace (r - (g * M + w * (x - m) * (x - m'))) with ((r - (q + p2)) + ((q - M * g) + (p2 - w * (x - m) * (x - m')))) by ring.
    pose proof (Rabs_triang (r - (q + p2)) ((q - M * g) + (p2 - w * (x - m) * (x - m')))).
    pose proof (Rabs_triang (q - M * g) (p2 - w * (x - m) * (x - m'))). lra.
  - split; [lra|]. split; [lra|]. split.
    { rewrite Rabs_mult, (Rabs_right w) by lra. replace (3 * (w * X)) with (w * (3 * X)) by ring. apply Rmult_le_compat_l; lra. }
    assert (0 <= X * et) by (apply Rmult_le_pos; lra).
    split; [lra|]. split; [|lra].
    assert (P <= 1 * Y) by (unfold P; apply Rmult_le_compat_r; lra). lra.
Qed.

(** A quotient by the computed weight. *)
Lemma quot1 Nf N q e b Y : 0 < Y -> 0 <= e -> 0 <= b -> Rabs (Nf - N) <= e * (W * Y) -> Rabs N <= b * (W * Y) ->
  Rabs (q - Nf / Wf) <= u * Rabs (Nf / Wf) + et ->
  Rabs (q * Wf - N) <= (e + u * (b + e)) * (W * Y) + 2 * et * W.
Proof.
  intros Y0 He Hb H1 H2 H3. destruct Wf_near as [N1 N2].
  assert (QC : Rabs (q * Wf - Nf) <= u * Rabs Nf + et * Wf).
  { replace (q * Wf - Nf) with ((q - Nf / Wf) * Wf) by (field; lra). rewrite Rabs_mult, (Rabs_right Wf) by lra.
    replace (u * Rabs Nf + et * Wf) with ((u * Rabs (Nf / Wf) + et) * Wf).
    - apply Rmult_le_compat_r; lra.
    - unfold Rdiv. rewrite Rabs_mult, (Rabs_right (/ Wf)); [field; lra|]. apply Rle_ge, Rlt_le, Rinv_0_lt_compat; lra. }
  assert (et * Wf <= et * (2 * W)) by (apply Rmult_le_compat_l; lra).
  pose proof (abs_near _ _ _ H1) as K.
  replace (q * Wf - N) with ((q * Wf - Nf) + (Nf - N)) by ring. eapply Rle_trans; [apply Rabs_triang|]. lra.
Qed.
Lemma quot2 N q e b Y : 0 < Y -> 0 <= e -> 0 <= b -> Rabs (q * Wf - N) <= e * (W * Y) -> Rabs N <= b * (W * Y) ->
  Rabs (q - N / W) <= (1 + / 400) * (e + 8 * b * nu) * Y.
Proof.
  intros Y0 He Hb H1 H2. destruct Wf_near as [N1 N2].
  assert (T : Rabs ((q - N / W) * Wf) <= (e + 8 * b * nu) * (W * Y)).
  { replace ((q - N / W) * Wf) with ((q * Wf - N) + (N / W) * (W - Wf)) by (field; lra).
    eapply Rle_trans; [apply Rabs_triang|]. rewrite (Rabs_mult (N / W)), (Rabs_minus_sym W).
    assert (K : Rabs (N / W) <= b * Y).
    { unfold Rdiv. rewrite Rabs_mult, (Rabs_right (/ W)) by (apply Rle_ge, Rlt_le, Rinv_0_lt_compat; lra).
      apply Rmult_le_reg_r with W; auto. rewrite Rmult_assoc, Rinv_l, Rmult_1_r by lra. lra. }
    assert (Rabs (N / W) * Rabs (Wf - W) <= b * Y * (8 * nu * W)) by (apply Rmult_le_compat; auto using Rabs_pos). lra. }
  rewrite Rabs_mult, (Rabs_right Wf) in T by lra.
  apply Rmult_le_reg_r with Wf; [lra|].
  assert (k0 : 0 <= (e + 8 * b * nu) * Y).
  { apply Rmult_le_pos; [|lra]. assert (0 <= b * nu) by (apply Rmult_le_pos; lra). lra. }
  assert (A : (e + 8 * b * nu) * Y * ((1 - / 500) * W) <= (e + 8 * b * nu) * Y * Wf) by (apply Rmult_le_compat_l; lra).
  assert (0 <= (e + 8 * b * nu) * Y * W) by (apply Rmult_le_pos; lra).
  replace ((1 + / 400) * (e + 8 * b * nu) * Y * Wf) with ((1 + / 400) * ((e + 8 * b * nu) * Y * Wf)) by ring.
  replace ((e + 8 * b * nu) * (W * Y)) with ((e + 8 * b * nu) * Y * W) in T by ring.
  replace ((e + 8 * b * nu) * Y * ((1 - / 500) * W)) with ((1 - / 500) * ((e + 8 * b * nu) * Y * W)) in A by ring.
  set (a1 := (e + 8 * b * nu) * Y * W) in *. set (a2 := (e + 8 * b * nu) * Y * Wf) in *. lra.
Qed.
End Reals.

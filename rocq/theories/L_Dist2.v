(** Scores of the remaining families. *)
From Coq Require Import Reals List Lra Lia Bool ZArith.
From Coquelicot Require Import Coquelicot.
From Verif Require Import Base M_Links S_Links L_Links L_Links2 M_DistTable M_Dist S_Dist L_Dist1.
Import ListNotations.
Open Scope R_scope.

Lemma is_derive_arcsinh x : is_derive arcsinh x (/ sqrt (x ^ 2 + 1)).
Proof. apply is_derive_Reals. apply derivable_pt_lim_arcsinh. Qed.

Lemma ln_sqrt x : 0 < x -> ln (sqrt x) = ln x / 2.
Proof.
  intros H. assert (Hs := sqrt_lt_R0 x H).
  rewrite <- (sqrt_sqrt x) at 2 by lra. rewrite ln_mult by lra. lra.
Qed.
Lemma ln_sq x : 0 < x -> ln (x ^ 2) = 2 * ln x.
Proof. intros. replace (x ^ 2) with (x * x) by ring. rewrite ln_mult by lra. lra. Qed.

Section Scores.
Variables lgam dg : R -> R.
Hypothesis Hdg : is_digamma lgam dg.

Lemma Derive_lgam x : 0 < x -> Derive lgam x = dg x.
Proof. intros. apply is_derive_unique. now apply Hdg. Qed.
Lemma ex_lgam x : 0 < x -> ex_derive lgam x.
Proof. intros. exists (dg x). now apply Hdg. Qed.

Definition ig_form (y m s : R) : R :=
  - (y - m) ^ 2 / (2 * y * m ^ 2 * s ^ 2) - ln (2 * PI * y ^ 3) / 2 - ln s.

Lemma ig_form_ok y th : 0 < y -> valid_theta InverseGaussian th ->
  g_scipy lgam InverseGaussian y th = ig_form y (th 0%nat) (th 1%nat).
Proof.
  intros Hy Hv. cbn [valid_theta] in Hv. start.
  generalize dependent (th 1%nat); generalize dependent (th 0%nat); intros m s [Hm Hs].
  unfold ig_form. pose proof PI_RGT_0.
  assert (0 < s ^ 2) by nra.
  replace ((y - 0) / (1 / s ^ 2)) with (y * s ^ 2) by (field; lra).
  rewrite ln_sqrt by pos.
  replace (2 * PI * (y * s ^ 2) ^ 3) with ((2 * PI * y ^ 3) * ((s ^ 2) ^ 2 * s ^ 2)) by ring.
  rewrite ln_mult by pos. rewrite (ln_mult ((s ^ 2) ^ 2)) by pos. rewrite !ln_sq by pos.
  replace (1 / s ^ 2) with (/ s ^ 2) by (field; lra). rewrite ln_Rinv by pos. rewrite ln_sq by pos.
  field. nz.
Qed.

Lemma score_invgauss y th p :
  0 < y -> valid_theta InverseGaussian th -> (p < 2)%nat ->
  is_derive (fun v => g_scipy lgam InverseGaussian y (upd th p v)) (th p)
    (score dg InverseGaussian y th p).
Proof.
  intros Hy Hv Hp.
  eapply is_derive_loc; [exact (valid_open InverseGaussian th p Hv Hp)| |].
  - intros v Hv'. now apply ig_form_ok.
  - cbn [valid_theta] in Hv. unfold ig_form. pcases p Hp; upds; cbn [score];
    generalize dependent (th 1%nat); generalize dependent (th 0%nat); intros m s [Hm Hs].
    + auto_derive; [nz|]. field. nz.
    + auto_derive; [nz|]. field. nz.
Qed.

Lemma score_jsu y th p :
  valid_theta JSU th -> (p < 4)%nat ->
  is_derive (fun v => g_scipy lgam JSU y (upd th p v)) (th p) (score dg JSU y th p).
Proof.
  intros Hv Hp. cbn [valid_theta] in Hv.
  assert (HD : forall x, Derive (fun x0 : R => arcsinh x0) x = / sqrt (x ^ 2 + 1))
    by (intros; apply is_derive_unique, is_derive_arcsinh).
  assert (HE : forall x, ex_derive (fun x0 : R => arcsinh x0) x)
    by (intros x; eexists; apply is_derive_arcsinh).
  pcases p Hp; start; cbn [score]; unfold jsu_r, jsu_z;
  generalize dependent (th 3%nat); generalize dependent (th 2%nat);
  generalize dependent (th 1%nat); generalize dependent (th 0%nat); intros m s n t [Hs Ht].
  - pose (z := (y - m) / s). assert (Hz : 0 < z ^ 2 + 1) by nra.
    assert (Hr := sqrt_lt_R0 _ Hz). assert (Hrr := sqrt_sqrt _ (Rlt_le _ _ Hz)).
    auto_derive.
    + repeat split; try apply HE; try lra; change (y + - m) with (y - m);
      change ((y - m) * / s) with z; replace (z * (z * 1) + 1) with (z ^ 2 + 1) by ring; lra.
    + rewrite ?HD. change (y + - m) with (y - m);
      change ((y - m) * / s) with z; replace (z * (z * 1) + 1) with (z ^ 2 + 1) by ring.
      change ((y - m) / s) with z; replace (z * z + 1) with (z ^ 2 + 1) by ring.
      generalize dependent (sqrt (z ^ 2 + 1)). intros r Hr Hrr. rewrite <- Hrr.
      generalize (arcsinh z). intros q. field. nz.
  - pose (z := (y - m) / s). assert (Hz : 0 < z ^ 2 + 1) by nra.
    assert (Hr := sqrt_lt_R0 _ Hz). assert (Hrr := sqrt_sqrt _ (Rlt_le _ _ Hz)).
    assert (Hzz : z * s = y - m) by (unfold z; field; lra).
    auto_derive.
    + repeat split; try apply HE; try lra; change (y + - m) with (y - m);
      change ((y - m) * / s) with z; replace (z * (z * 1) + 1) with (z ^ 2 + 1) by ring; lra.
    + rewrite ?HD. change (y + - m) with (y - m);
      change ((y - m) * / s) with z; replace (z * (z * 1) + 1) with (z ^ 2 + 1) by ring.
      change ((y - m) / s) with z; replace (z * z + 1) with (z ^ 2 + 1) by ring.
      rewrite <- Hzz.
      generalize dependent (sqrt (z ^ 2 + 1)). intros r Hr Hrr.
      generalize (arcsinh z). intros q.
      replace (- 1 / (s * (z ^ 2 + 1))) with (z ^ 2 / (s * (r * r)) - 1 / s)
        by (rewrite Hrr; field; nz).
      field. nz.
  - auto_derive; [exact I|]. generalize (arcsinh ((y - m) / s)). intros q. field.
  - auto_derive; [nz|]. unfold Rminus. generalize (arcsinh ((y + - m) / s)). intros q. field. nz.
Qed.
Definition gamma_form (y m s : R) : R :=
  (1 / s ^ 2 - 1) * ln y - 1 / s ^ 2 * (ln m + 2 * ln s) - y / (m * s ^ 2) - lgam (1 / s ^ 2).

Lemma gamma_form_ok y th : 0 < y -> valid_theta Gamma th ->
  g_scipy lgam Gamma y th = gamma_form y (th 0%nat) (th 1%nat).
Proof.
  intros Hy Hv. cbn [valid_theta] in Hv. start.
  generalize dependent (th 1%nat); generalize dependent (th 0%nat); intros m s [Hm Hs].
  unfold gamma_form. assert (0 < s ^ 2) by nra.
  replace (1 / (1 / (s ^ 2 * m))) with (s ^ 2 * m) by (field; lra).
  rewrite Rminus_0_r. rewrite ln_div by pos. rewrite ln_mult by pos. rewrite ln_sq by pos.
  generalize (lgam (1 / s ^ 2)). intros g. field. nz.
Qed.

Lemma gamma_derive y m s :
  0 < y -> 0 < m -> 0 < s ->
  is_derive (fun v => gamma_form y v s) m (gamma_score dg y m s 0) /\
  is_derive (fun v => gamma_form y m v) s (gamma_score dg y m s 1).
Proof.
  intros Hy Hm Hs. unfold gamma_form, gamma_score. assert (0 < 1 / s ^ 2) by pos. split.
  - auto_derive; [nz|]. field. nz.
  - rewrite ln_sq by lra.
    auto_derive.
    + repeat split; try nz. apply ex_lgam. exact H.
    + change (1 * / (s * (s * 1))) with (1 / s ^ 2). rewrite Derive_lgam by exact H.
      generalize (dg (1 / s ^ 2)). intros g. field. nz.
Qed.

Lemma score_gamma y th p :
  0 < y -> valid_theta Gamma th -> (p < 2)%nat ->
  is_derive (fun v => g_scipy lgam Gamma y (upd th p v)) (th p) (score dg Gamma y th p).
Proof.
  intros Hy Hv Hp.
  eapply is_derive_loc; [exact (valid_open Gamma th p Hv Hp)| |].
  - intros v Hv'. now apply gamma_form_ok.
  - cbn [valid_theta] in Hv. cbn [score]. pcases p Hp; upds;
    now apply gamma_derive.
Qed.

Definition igamma_form (y m s : R) : R :=
  1 / s ^ 2 * (ln m + ln (1 / s ^ 2 + 1)) - (1 / s ^ 2 + 1) * ln y - lgam (1 / s ^ 2)
  - m * (1 / s ^ 2 + 1) / y.

Lemma igamma_form_ok y th : 0 < y -> valid_theta InverseGamma th ->
  g_scipy lgam InverseGamma y th = igamma_form y (th 0%nat) (th 1%nat).
Proof.
  intros Hy Hv. cbn [valid_theta] in Hv. start.
  generalize dependent (th 1%nat); generalize dependent (th 0%nat); intros m s [Hm Hs].
  unfold igamma_form. assert (0 < s ^ 2) by nra. assert (0 < 1 / s ^ 2) by pos.
  replace (m * (1 + s ^ 2) / s ^ 2) with (m * (1 / s ^ 2 + 1)) by (field; lra).
  rewrite Rminus_0_r. rewrite ln_div by pos. rewrite ln_mult by pos.
  generalize (lgam (1 / s ^ 2)). intros g. field. nz.
Qed.

Lemma score_igamma y th p :
  0 < y -> valid_theta InverseGamma th -> (p < 2)%nat ->
  is_derive (fun v => g_scipy lgam InverseGamma y (upd th p v)) (th p)
    (score dg InverseGamma y th p).
Proof.
  intros Hy Hv Hp.
  eapply is_derive_loc; [exact (valid_open InverseGamma th p Hv Hp)| |].
  - intros v Hv'. now apply igamma_form_ok.
  - cbn [valid_theta] in Hv. unfold igamma_form. cbn [score]. cbv zeta. pcases p Hp; upds;
    generalize dependent (th 1%nat); generalize dependent (th 0%nat); intros m s [Hm Hs];
    assert (0 < 1 / s ^ 2) by pos.
    + auto_derive; [nz|]. field. nz.
    + auto_derive.
      * repeat split; try nz; try (apply ex_lgam; exact H).
      * change (1 * / (s * (s * 1))) with (1 / s ^ 2). rewrite Derive_lgam by exact H.
        generalize (dg (1 / s ^ 2)). intros g. generalize (ln (1 / s ^ 2 + 1)). intros l.
        field. repeat split; try lra. nra.
Qed.

Definition beta_form (y m s : R) : R :=
  (beta_a m s - 1) * ln y + (beta_b m s - 1) * ln (1 - y)
  - (lgam (beta_a m s) + lgam (beta_b m s) - lgam ((1 - s ^ 2) / s ^ 2)).

Lemma beta_ab m s : s <> 0 -> beta_a m s + beta_b m s = (1 - s ^ 2) / s ^ 2.
Proof. intros. unfold beta_a, beta_b. field. assumption. Qed.

Lemma beta_form_ok d y th : In d [Beta; BetaInflated; BetaInflatedZero] ->
  0 < y < 1 -> valid_theta d th ->
  g_scipy lgam d y th = beta_form y (th 0%nat) (th 1%nat).
Proof.
  intros Hd Hy Hv.
  assert (0 < th 1%nat) by (cbn [In] in Hd; destruct Hd as [<- | [<- | [<- | []]]];
    cbn [valid_theta] in Hv; lra).
  assert (E : scipy_params d th = (f_beta (beta_a (th 0%nat) (th 1%nat)) (beta_b (th 0%nat) (th 1%nat)), 0, 1)).
  { cbn [In] in Hd; destruct Hd as [<- | [<- | [<- | []]]]; reflexivity. }
  unfold g_scipy. rewrite E. cbn [std_logpdf].
  rewrite ln_1. replace ((y - 0) / 1) with y by (unfold Rdiv; rewrite Rinv_1; ring).
  rewrite beta_ab by lra. unfold beta_form. ring.
Qed.

Lemma beta_derive y m s :
  0 < y < 1 -> 0 < m < 1 -> 0 < s < 1 ->
  is_derive (fun v => beta_form y v s) m (beta_score dg y m s 0) /\
  is_derive (fun v => beta_form y m v) s (beta_score dg y m s 1).
Proof.
  intros Hy Hm Hs. unfold beta_form, beta_score. cbv zeta.
  assert (Ha := beta_a_pos m s Hm Hs). assert (Hb := beta_b_pos m s Hm Hs).
  assert (Hab := beta_ab m s ltac:(lra)). rewrite Hab.
  assert (Hc : 0 < (1 - s ^ 2) / s ^ 2) by lra.
  pose proof (Derive_lgam _ Ha) as Da. pose proof (Derive_lgam _ Hb) as Db.
  pose proof (Derive_lgam _ Hc) as Dc. pose proof (ex_lgam _ Ha) as Ea.
  pose proof (ex_lgam _ Hb) as Eb. pose proof (ex_lgam _ Hc) as Ec.
  revert Da Db Dc Ea Eb Ec. clear Hab Ha Hb Hc. unfold beta_a, beta_b. intros. split.
  - auto_derive.
    + repeat split; try nz; assumption.
    + change (s * (s * 1)) with (s ^ 2). unfold Rdiv in *. unfold Rminus in *. change (fun x : R => lgam x) with lgam. rewrite Da, Db.
      generalize (dg (m * (1 + - s ^ 2) * / s ^ 2)). intros ga.
      generalize (dg ((1 + - m) * (1 + - s ^ 2) * / s ^ 2)). intros gb.
      generalize (ln (1 + - y)). intros l. field. nz.
  - auto_derive.
    + repeat split; try nz; assumption.
    + change (s * (s * 1)) with (s ^ 2). unfold Rdiv in *. unfold Rminus in *. change (fun x : R => lgam x) with lgam. rewrite Da, Db, Dc.
      generalize (dg (m * (1 + - s ^ 2) * / s ^ 2)). intros ga.
      generalize (dg ((1 + - m) * (1 + - s ^ 2) * / s ^ 2)). intros gb.
      generalize (dg ((1 + - s ^ 2) * / s ^ 2)). intros gc.
      generalize (ln (1 + - y)). intros l. field. nz.
Qed.

Lemma score_beta d y th p :
  In d [Beta; BetaInflated; BetaInflatedZero] ->
  0 < y < 1 -> valid_theta d th -> (p < 2)%nat ->
  is_derive (fun v => g_scipy lgam d y (upd th p v)) (th p)
    (beta_score dg y (th 0%nat) (th 1%nat) p).
Proof.
  intros Hd Hy Hv Hp.
  assert (Hp' : (p < n_params d)%nat)
    by (cbn [In] in Hd; destruct Hd as [<- | [<- | [<- | []]]]; cbn; lia).
  eapply is_derive_loc; [exact (valid_open d th p Hv Hp')| |].
  - intros v Hv'. now apply beta_form_ok.
  - assert (0 < th 0%nat < 1 /\ 0 < th 1%nat < 1)
      by (cbn [In] in Hd; destruct Hd as [<- | [<- | [<- | []]]]; cbn [valid_theta] in Hv; tauto).
    destruct p as [|[|p]]; [| |lia]; upds; now apply beta_derive.
Qed.

Lemma score_student y th p :
  valid_theta StudentT th -> (p < 3)%nat ->
  is_derive (fun v => g_scipy lgam StudentT y (upd th p v)) (th p) (score dg StudentT y th p).
Proof.
  intros Hv Hp. cbn [valid_theta] in Hv. pose proof PI_RGT_0 as HPI.
  pcases p Hp; start; cbn [score]; cbv zeta;
  generalize dependent (th 2%nat); generalize dependent (th 1%nat);
  generalize dependent (th 0%nat); intros m s n [Hs Hn].
  - assert (H : 0 <= ((y - m) / s) ^ 2 / n) by (apply Rle_mult_inv_pos; [apply pow2_ge_0|lra]).
    assert (H' : 0 <= (y - m) ^ 2 / s ^ 2) by (apply Rle_mult_inv_pos; [apply pow2_ge_0|nra]).
    auto_derive.
    + change (0 < 1 + ((y - m) / s) ^ 2 / n). lra.
    + assert (0 <= (y - m) ^ 2) by apply pow2_ge_0. assert (0 < n * s ^ 2) by pos.
      field. repeat split; try lra; intros E; nra.
  - assert (H : 0 <= ((y - m) / s) ^ 2 / n) by (apply Rle_mult_inv_pos; [apply pow2_ge_0|lra]).
    auto_derive.
    + repeat split; try lra.
    + assert (0 <= (y - m) ^ 2) by apply pow2_ge_0. assert (0 < n * s ^ 2) by pos.
      field. repeat split; try lra; intros E; nra.
  - assert (H : 0 <= ((y - m) / s) ^ 2 / n) by (apply Rle_mult_inv_pos; [apply pow2_ge_0|lra]).
    replace ((y - m) ^ 2 / s ^ 2) with (((y - m) / s) ^ 2) by (field; lra).
    assert (H2 : 0 <= ((y - m) / s) ^ 2) by apply pow2_ge_0.
    generalize dependent (((y - m) / s) ^ 2). intros z Hz Hz2.
    auto_derive.
    + repeat split; try nz; try (apply ex_lgam; lra).
    + change (n * / 2) with (n / 2). change ((n + 1) * / 2) with ((n + 1) / 2).
      change (z * / n) with (z / n).
      rewrite !Derive_lgam by lra. generalize (ln (1 + z / n)), (dg ((n + 1) / 2)), (dg (n / 2)).
      intros l g1 g2. field. repeat split; try lra.
Qed.
End Scores.

(** Scores of the inflated families; the combined statement; validation. *)
From Coq Require Import Reals List Lra Lia Bool ZArith.
From Coquelicot Require Import Coquelicot.
From Verif Require Import Base M_Links S_Links L_Links L_Links2 M_DistTable M_Dist S_Dist
  L_Dist1 L_Dist2.
Import ListNotations.
Open Scope R_scope.

Lemma Reqb_refl x : Reqb x x = true.
Proof. now apply Reqb_true. Qed.
Lemma Reqb_ne x y : x <> y -> Reqb x y = false.
Proof. now apply Reqb_false. Qed.
Lemma nplog_ok x : 0 < x -> nplog x = Some (ln x).
Proof. intros H. unfold nplog. now rewrite (proj2 (Rltb_true 0 x) H). Qed.
Lemma Rltb_no x y : y <= x -> Rltb x y = false.
Proof. now apply Rltb_false. Qed.
Lemma Rltb_yes x y : x < y -> Rltb x y = true.
Proof. now apply Rltb_true. Qed.

Section Scores.
Variables lgam dg : R -> R.
Hypothesis Hdg : is_digamma lgam dg.

(** BetaInflated *)
Lemma bi_value y th : valid_theta BetaInflated th -> 0 <= y <= 1 ->
  logpdf lgam BetaInflated y th =
  Some ((if Reqb y 0 then ln (th 2%nat) else if Reqb y 1 then ln (th 3%nat)
         else beta_form lgam y (th 0%nat) (th 1%nat)) - ln (1 + th 2%nat + th 3%nat)).
Proof.
  intros Hv Hy. cbn [logpdf]. cbv zeta. pose proof Hv as Hv'. cbn [valid_theta] in Hv.
  rewrite (Rltb_no y 0) by lra. rewrite (Rltb_no 1 y) by lra. cbn [orb].
  rewrite (nplog_ok (1 + th 2%nat + th 3%nat)) by lra.
  destruct (Reqb y 0) eqn:E0; [rewrite nplog_ok by lra; reflexivity|].
  destruct (Reqb y 1) eqn:E1; [rewrite nplog_ok by lra; reflexivity|].
  apply Reqb_false in E0, E1.
  assert (Hy' : 0 < y < 1) by lra.
  rewrite (scipy_value lgam BetaInflated y th Hv' Hy'). cbn [obind omap].
  rewrite (beta_form_ok lgam BetaInflated y th) by (auto; cbn; auto). reflexivity.
Qed.

Lemma score_betainflated y th p :
  valid_theta BetaInflated th -> 0 <= y <= 1 -> (p < 4)%nat ->
  partial (logpdf lgam BetaInflated y) th p (score dg BetaInflated y th p).
Proof.
  intros Hv Hy Hp. unfold partial.
  eapply has_derivative_loc; [exact (valid_open BetaInflated th p Hv Hp)| |].
  - intros v Hv'. now apply bi_value.
  - cbn [valid_theta] in Hv. destruct Hv as [[Hm Hs] [Hn Ht]].
    assert (Hc : Reqb y 0 = false -> Reqb y 1 = false -> 0 < y < 1).
    { intros E0 E1. apply Reqb_false in E0, E1. lra. }
    cbn [score]. cbv zeta. pcases p Hp; upds.
    + destruct (Reqb y 0) eqn:E0; [auto_derive; [exact I|reflexivity]|].
      destruct (Reqb y 1) eqn:E1; [auto_derive; [exact I|reflexivity]|]. cbn [orb].
      replace (beta_score dg y (th 0%nat) (th 1%nat) 0) with
        (minus (beta_score dg y (th 0%nat) (th 1%nat) 0) 0) by apply Rminus_0_r.
      apply (is_derive_minus (fun v => beta_form lgam y v (th 1%nat))).
      * now apply beta_derive; auto.
      * auto_derive; [exact I|reflexivity].
    + destruct (Reqb y 0) eqn:E0; [auto_derive; [exact I|reflexivity]|].
      destruct (Reqb y 1) eqn:E1; [auto_derive; [exact I|reflexivity]|]. cbn [orb].
      replace (beta_score dg y (th 0%nat) (th 1%nat) 1) with
        (minus (beta_score dg y (th 0%nat) (th 1%nat) 1) 0) by apply Rminus_0_r.
      apply (is_derive_minus (fun v => beta_form lgam y (th 0%nat) v)).
      * now apply beta_derive; auto.
      * auto_derive; [exact I|reflexivity].
    + destruct (Reqb y 0); [|destruct (Reqb y 1)]; (auto_derive; [nz|]); field; nz.
    + destruct (Reqb y 0) eqn:E0; destruct (Reqb y 1) eqn:E1; (auto_derive; [nz|]); try (field; nz).
      apply Reqb_true in E0, E1. lra.
Qed.

(** BetaInflatedZero *)
Lemma biz_value y th : valid_theta BetaInflatedZero th -> 0 <= y < 1 ->
  logpdf lgam BetaInflatedZero y th =
  Some ((if Reqb y 0 then ln (th 2%nat)
         else beta_form lgam y (th 0%nat) (th 1%nat)) - ln (1 + th 2%nat)).
Proof.
  intros Hv Hy. cbn [logpdf]. cbv zeta. pose proof Hv as Hv'. cbn [valid_theta] in Hv.
  rewrite (nplog_ok (1 + th 2%nat)) by lra.
  destruct (Reqb y 0) eqn:E0; [rewrite nplog_ok by lra; reflexivity|].
  apply Reqb_false in E0.
  assert (Hy' : 0 < y < 1) by lra. rewrite (Rltb_yes 0 y) by lra.
  rewrite (scipy_value lgam BetaInflatedZero y th Hv' Hy'). cbn [obind omap].
  rewrite (beta_form_ok lgam BetaInflatedZero y th) by (auto; cbn; auto). reflexivity.
Qed.

Lemma score_betainflatedzero y th p :
  valid_theta BetaInflatedZero th -> 0 <= y < 1 -> (p < 3)%nat ->
  partial (logpdf lgam BetaInflatedZero y) th p (score dg BetaInflatedZero y th p).
Proof.
  intros Hv Hy Hp. unfold partial.
  eapply has_derivative_loc; [exact (valid_open BetaInflatedZero th p Hv Hp)| |].
  - intros v Hv'. now apply biz_value.
  - cbn [valid_theta] in Hv. destruct Hv as [[Hm Hs] Hn].
    assert (Hc : Reqb y 0 = false -> 0 < y < 1).
    { intros E0. apply Reqb_false in E0. lra. }
    cbn [score]. cbv zeta. pcases p Hp; upds.
    + destruct (Reqb y 0) eqn:E0; [auto_derive; [exact I|reflexivity]|].
      replace (beta_score dg y (th 0%nat) (th 1%nat) 0) with
        (minus (beta_score dg y (th 0%nat) (th 1%nat) 0) 0) by apply Rminus_0_r.
      apply (is_derive_minus (fun v => beta_form lgam y v (th 1%nat))).
      * now apply beta_derive; auto.
      * auto_derive; [exact I|reflexivity].
    + destruct (Reqb y 0) eqn:E0; [auto_derive; [exact I|reflexivity]|].
      replace (beta_score dg y (th 0%nat) (th 1%nat) 1) with
        (minus (beta_score dg y (th 0%nat) (th 1%nat) 1) 0) by apply Rminus_0_r.
      apply (is_derive_minus (fun v => beta_form lgam y (th 0%nat) v)).
      * now apply beta_derive; auto.
      * auto_derive; [exact I|reflexivity].
    + destruct (Reqb y 0); (auto_derive; [nz|]); field; nz.
Qed.

(** ZeroAdjustedGamma *)
Lemma zaga_value y th : valid_theta ZeroAdjustedGamma th -> 0 <= y ->
  logpdf lgam ZeroAdjustedGamma y th =
  Some (if Reqb y 0 then ln (th 2%nat)
        else gamma_form lgam y (th 0%nat) (th 1%nat) + ln (1 - th 2%nat)).
Proof.
  intros Hv Hy. cbn [logpdf]. cbv zeta. pose proof Hv as Hv'. cbn [valid_theta] in Hv.
  destruct (Reqb y 0) eqn:E0; [rewrite nplog_ok by lra; reflexivity|].
  apply Reqb_false in E0. assert (Hy' : 0 < y) by lra.
  destruct Hv as [[Hm Hs] Hn].
  rewrite !nplog_ok by (pos; lra). cbn [obind omap]. f_equal. unfold gamma_form.
  assert (0 < th 1%nat ^ 2) by nra.
  rewrite ln_div by pos. rewrite ln_mult by pos. rewrite ln_sq by pos.
  generalize (lgam (1 / th 1%nat ^ 2)). intros g. field. nz.
Qed.

Lemma score_zaga y th p :
  valid_theta ZeroAdjustedGamma th -> 0 <= y -> (p < 3)%nat ->
  partial (logpdf lgam ZeroAdjustedGamma y) th p (score dg ZeroAdjustedGamma y th p).
Proof.
  intros Hv Hy Hp. unfold partial.
  eapply has_derivative_loc; [exact (valid_open ZeroAdjustedGamma th p Hv Hp)| |].
  - intros v Hv'. now apply zaga_value.
  - cbn [valid_theta] in Hv. destruct Hv as [[Hm Hs] Hn].
    assert (Hc : Reqb y 0 = false -> 0 < y).
    { intros E0. apply Reqb_false in E0. lra. }
    cbn [score]. cbv zeta. pcases p Hp; upds.
    + destruct (Reqb y 0) eqn:E0; [auto_derive; [exact I|reflexivity]|].
      replace (gamma_score dg y (th 0%nat) (th 1%nat) 0) with
        (plus (gamma_score dg y (th 0%nat) (th 1%nat) 0) 0) by apply Rplus_0_r.
      apply (is_derive_plus (fun v => gamma_form lgam y v (th 1%nat))).
      * now apply gamma_derive; auto.
      * auto_derive; [exact I|reflexivity].
    + destruct (Reqb y 0) eqn:E0; [auto_derive; [exact I|reflexivity]|].
      replace (gamma_score dg y (th 0%nat) (th 1%nat) 1) with
        (plus (gamma_score dg y (th 0%nat) (th 1%nat) 1) 0) by apply Rplus_0_r.
      apply (is_derive_plus (fun v => gamma_form lgam y (th 0%nat) v)).
      * now apply gamma_derive; auto.
      * auto_derive; [exact I|reflexivity].
    + destruct (Reqb y 0); (auto_derive; [nz|]); field; nz.
Qed.
End Scores.

(** The families without gamma functions in their log density. *)
Lemma score_partial lgam dg d y th p :
  (closed_form d = false -> is_digamma lgam dg) ->
  valid_theta d th -> y_support d y -> (p < n_params d)%nat ->
  partial (logpdf lgam d y) th p (score dg d y th p).
Proof.
  intros Hd Hv Hy Hp.
  destruct d; cbn [closed_form] in Hd;
    try (apply score_betainflated; auto);
    try (apply score_betainflatedzero; auto);
    try (apply score_zaga; auto);
    try (apply score_lognormal; auto);
    apply hd_scipy; auto;
    first [ now apply score_normal | now apply score_nmv | now apply score_lognormalmedian
          | now apply score_logistic | now apply score_gumbel | now apply score_reversegumbel
          | now apply score_invgauss | now apply score_exponential | now apply score_jsu
          | apply score_gamma; now auto | apply score_igamma; now auto
          | apply score_beta; cbn [In]; now auto | apply score_student; now auto ].
Qed.

(** The declared parameter support is admissible. *)
Lemma next0_pos : 0 < next0.
Proof. unfold next0. apply powerRZ_lt. lra. Qed.
Lemma prev1_lt : prev1 < 1.
Proof. unfold prev1. assert (0 < powerRZ 2 (-53)) by (apply powerRZ_lt; lra). lra. Qed.

Lemma admissible_lemma d th :
  (forall p s, nth_error (parameter_support d) p = Some s -> in_support s (th p)) ->
  valid_theta d th.
Proof.
  intros H. pose proof next0_pos. pose proof prev1_lt.
  assert (Hpos : forall p, nth_error (parameter_support d) p = Some positive -> 0 < th p).
  { intros p E. apply H in E. destruct E as [E _].
    unfold positive in E. cbn [fst above] in E. lra. }
  assert (Hun : forall p, nth_error (parameter_support d) p = Some unit_open -> 0 < th p < 1).
  { intros p E. apply H in E. destruct E as [E E'].
    unfold unit_open in E, E'. cbn [fst snd above below] in E, E'. lra. }
  clear H. destruct d; cbn [valid_theta parameter_support] in *;
    repeat split; first [ apply Hpos; reflexivity | apply Hun; reflexivity ].
Qed.

(** Valid requests. *)
Lemma dl1_valid dg d y th p :
  (p < n_params d)%nat ->
  dl1_dp1 dg d y th (Z.of_nat p) = Ok (Some (score dg d y th p)).
Proof.
  intros Hp.
  assert (E : (Z.of_nat (n_params d) <=? Z.of_nat p)%Z = false) by (apply Z.leb_gt; lia).
  assert (E0 : (0 <=? Z.of_nat p)%Z = true) by (apply Z.leb_le; lia).
  assert (E2 : n_params d = 2%nat -> (Z.of_nat p <? 2)%Z = true) by (intros; apply Z.ltb_lt; lia).
  unfold dl1_dp1, validate_param. rewrite E, E0, Nat2Z.id.
  destruct d; try reflexivity; rewrite E2 by reflexivity; reflexivity.
Qed.

Lemma C39_score_lemma lgam dg d y th p :
  is_digamma lgam dg -> valid_theta d th -> y_support d y -> (p < n_params d)%nat ->
  exists s, dl1_dp1 dg d y th (Z.of_nat p) = Ok (Some s) /\ partial (logpdf lgam d y) th p s.
Proof.
  intros. exists (score dg d y th p). split; [now apply dl1_valid|]. apply score_partial; auto.
Qed.

Lemma C38_score_lemma lgam dg d y th p :
  closed_form d = true -> valid_theta d th -> y_support d y -> (p < n_params d)%nat ->
  exists s, dl1_dp1 dg d y th (Z.of_nat p) = Ok (Some s) /\ partial (logpdf lgam d y) th p s.
Proof.
  intros Hc **. exists (score dg d y th p). split; [now apply dl1_valid|].
  apply score_partial; auto. intros E. rewrite Hc in E. discriminate.
Qed.

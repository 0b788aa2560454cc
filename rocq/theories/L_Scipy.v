(** Lemmas on the scipy mixin: parameters, means, quantiles, variates. *)
From Coq Require Import Reals List Bool Arith Lia Lra String.
From Verif Require Import Base Lin M_Links M_DistTable M_Dist M_Mixed M_Scipy S_Dist S_Mixed S_Scipy L_Dist1 L_Mixed.
Import ListNotations.
Open Scope R_scope.

Lemma frozen_ok d th : scipy_dist d <> None -> frozen d th = Ok (scipy_params d th).
Proof. destruct d; intros H; try reflexivity; exfalso; apply H; reflexivity. Qed.
Lemma frozen_mixed d th : scipy_dist d = None -> frozen d th = Raise AttributeError.
Proof. intros H. unfold frozen. now rewrite H. Qed.
Lemma mixed_iff d : mixed d <-> scipy_dist d = None.
Proof. unfold mixed. destruct d; split; intros H; try reflexivity; try discriminate; auto; destruct H as [H|[H|H]]; discriminate. Qed.

Lemma frozen_valid d th : scipy_dist d <> None -> valid_theta d th ->
  exists f loc scale, frozen d th = Ok (f, loc, scale) /\ scipy_params d th = (f, loc, scale) /\ 0 < scale /\ shapes_ok f = true.
Proof.
  intros Hs V. rewrite (frozen_ok d th Hs).
  assert (Y : y_cont d (1 / 2)) by (destruct d; cbn; lra).
  pose proof (valid_scipy_ok d (1 / 2) th V Y) as K. unfold scipy_ok in K.
  destruct (scipy_params d th) as [[f loc] scale]. apply andb_true_iff in K. destruct K as [K _].
  apply andb_true_iff in K. destruct K as [K1 K2]. apply Rltb_true in K1. eauto 10.
Qed.
Lemma located_ok f loc scale g : 0 < scale -> shapes_ok f = true -> located (f, loc, scale) g = g f loc scale.
Proof. intros H1 H2. unfold located. now rewrite (proj2 (Rltb_true _ _) H1), H2. Qed.

Lemma C88_values_lemma euler d th : ~ mixed d -> valid_theta d th -> moderate d th ->
  dist_mean euler d th = Ok (expected_mean euler d th).
Proof.
  intros Hm V Mo. rewrite mixed_iff in Hm.
  destruct (frozen_valid d th Hm V) as (f & loc & scale & E & P & Hsc & Hsh).
  unfold dist_mean. rewrite E. cbn [bind]. rewrite (located_ok _ _ _ _ Hsc Hsh). f_equal.
  destruct d; try (exfalso; apply Hm; reflexivity); cbn [scipy_params] in P; injection P as <- <- <-;
    cbn [valid_theta] in V; cbn [std_mean omap expected_mean]; try (f_equal; try lra; try ring; field; nz).
  - f_equal. unfold robust_exp. unfold moderate in Mo. specialize (Mo eq_refl).
    rewrite (proj2 (Rltb_false _ _) Mo), exp_plus. ring.
  - change (th 1%nat * (th 1%nat * 1)) with (th 1%nat ^ 2).
    assert (S2 : 0 < th 1%nat ^ 2) by (apply sq_pos; tauto).
    assert (EQ : Rltb 1 (1 / th 1%nat ^ 2) = Rltb (th 1%nat) 1).
    { destruct (Rltb (th 1%nat) 1) eqn:L.
      - apply Rltb_true in L. apply Rltb_true. apply (Rmult_lt_reg_r (th 1%nat ^ 2)); [exact S2|].
        unfold Rdiv. rewrite !Rmult_1_l, Rinv_l by lra. destruct V. nra.
      - apply Rltb_false in L. apply Rltb_false. apply (Rmult_le_reg_r (th 1%nat ^ 2)); [exact S2|].
        unfold Rdiv. rewrite !Rmult_1_l, Rinv_l by lra. destruct V. nra. }
    rewrite EQ. destruct (Rltb (th 1%nat) 1) eqn:L; [|reflexivity]. apply Rltb_true in L. cbn [omap].
    f_equal. field. destruct V. repeat split; nra.
  - destruct V as [V1 V2]. unfold beta_a, beta_b. f_equal.
    assert (0 < th 1%nat ^ 2) by (apply sq_pos; lra). assert (0 < 1 - th 1%nat ^ 2) by nra.
    field. split; [lra|]. replace (th 0%nat * (1 - th 1%nat ^ 2) + (1 - th 0%nat) * (1 - th 1%nat ^ 2)) with (1 - th 1%nat ^ 2) by ring. lra.
  - destruct (Rltb 1 (th 2%nat)); [|reflexivity]. cbn. f_equal. lra.
Qed.

(** ** Quantiles *)
Section Quantiles.
Variables (std_cdf : family -> R -> R) (std_ppf : family -> R -> option R).
Hypothesis L : scipy_laws std_cdf std_ppf.

Lemma gamma_law a c : 0 < a -> 0 < c -> law_on_positive (gamma_cdf std_cdf a c) (gamma_ppf std_ppf a c).
Proof.
  intros Ha Hc. destruct (sl_gamma _ _ L a Ha) as [Mo Lo Hi Qu]. unfold gamma_cdf, gamma_ppf. constructor.
  - intros x y H. apply Mo. apply Rmult_le_compat_r; [left; now apply Rinv_0_lt_compat|exact H].
  - intros y H. apply Lo. unfold Rdiv. rewrite <- (Rmult_0_l (/ c)). apply Rmult_le_compat_r; [left; now apply Rinv_0_lt_compat|exact H].
  - intros y. apply Hi.
  - intros q Hq. destruct (Qu q Hq) as (x & E & H). rewrite E. exists (c * x). split; [reflexivity|].
    intros y _. rewrite <- (H (y / c) I). split; intros K.
    + apply (Rmult_le_reg_l c); [exact Hc|]. replace (c * (y / c)) with y by (field; lra). exact K.
    + apply (Rmult_le_compat_l c) in K; [|lra]. replace (c * (y / c)) with y in K by (field; lra). exact K.
Qed.

Lemma quantile_of_total F Q f q d : quantile_function (fun _ => True) F Q -> (forall y, f y = Some (F y)) ->
  (forall y, cdf_domain d y) -> 0 < q < 1 ->
  exists x, Q q = Some x /\ is_quantile (cdf_domain d) f q x.
Proof.
  intros H E D Hq. destruct (H q Hq) as (x & EQ & K). exists x. split; [exact EQ|]. split; [apply D|].
  intros y _. exists (F y). split; [apply E|]. exact (K y I).
Qed.

Lemma scipy_quantile d th q : scipy_dist d <> None -> has_own_cdf d = false -> valid_theta d th -> 0 < q < 1 ->
  exists x, dist_ppf std_ppf d q th = Some x /\ is_quantile (cdf_domain d) (fun y => dist_cdf std_cdf d y th) q x.
Proof.
  intros Hs Ho V Hq. destruct (frozen_valid d th Hs V) as (f & loc & scale & E & _ & Hsc & Hsh).
  unfold dist_ppf, dist_cdf. rewrite Ho, E. rewrite (located_ok _ _ _ _ Hsc Hsh).
  destruct (sl_quantile _ _ L f Hsh q Hq) as (z & EQ & K). rewrite EQ. exists (loc + scale * z). split; [reflexivity|].
  split; [destruct d; try discriminate; exact I|].
  intros y _. exists (std_cdf f ((y - loc) / scale)). split; [now rewrite (located_ok _ _ _ _ Hsc Hsh)|].
  rewrite <- (K ((y - loc) / scale) I). split; intros A.
  - apply (Rmult_le_reg_l scale); [exact Hsc|]. replace (scale * ((y - loc) / scale)) with (y - loc) by (field; lra). lra.
  - apply (Rmult_le_compat_l scale) in A; [|lra]. replace (scale * ((y - loc) / scale)) with (y - loc) in A by (field; lra). lra.
Qed.

Lemma C90_quantile_lemma d th q : valid_theta d th -> 0 < q < 1 ->
  exists x, dist_ppf std_ppf d q th = Some x /\ is_quantile (cdf_domain d) (fun y => dist_cdf std_cdf d y th) q x.
Proof.
  intros V Hq. destruct (has_own_cdf d) eqn:O.
  2: { apply scipy_quantile; auto. destruct d; try discriminate O; discriminate. }
  unfold dist_ppf, dist_cdf. rewrite O. destruct d; try discriminate O.
  - destruct (C44_lognormal_lemma (beta_cdf std_cdf) (beta_ppf std_ppf) (gamma_cdf std_cdf) (gamma_ppf std_ppf)
      (std_cdf f_norm) (std_ppf f_norm) (sl_norm _ _ L) th V q Hq) as (x & E & P & K).
    exists x. split; [exact E|]. split; [exact P|exact K].
  - destruct (C44_beta_inflated_lemma (beta_cdf std_cdf) (beta_ppf std_ppf) (gamma_cdf std_cdf) (gamma_ppf std_ppf)
      (std_cdf f_norm) (std_ppf f_norm) (sl_beta _ _ L) th V) as (F & E & _ & _ & _ & _ & K).
    exact (quantile_of_total F _ _ q BetaInflated K E (fun _ => I) Hq).
  - destruct (C44_beta_inflated_zero_lemma (beta_cdf std_cdf) (beta_ppf std_ppf) (gamma_cdf std_cdf) (gamma_ppf std_ppf)
      (std_cdf f_norm) (std_ppf f_norm) (sl_beta _ _ L) th V) as (F & E & _ & _ & _ & _ & K).
    exact (quantile_of_total F _ _ q BetaInflatedZero K E (fun _ => I) Hq).
  - destruct (C44_zaga_lemma (beta_cdf std_cdf) (beta_ppf std_ppf) (gamma_cdf std_cdf) (gamma_ppf std_ppf)
      (std_cdf f_norm) (std_ppf f_norm) gamma_law th V) as (F & E & _ & _ & F0 & K).
    destruct (K q Hq) as (x & EQ & H). exists x. split; [exact EQ|]. split.
    + cbn [cdf_domain]. cbn [mixed_ppf] in EQ.
      destruct (Rleb q (th 2%nat)) eqn:Lq; [injection EQ as <-; lra|]. apply Rleb_false in Lq.
      cbn [valid_theta] in V. destruct V as [[V0 V1] V2].
      assert (A : 0 < 1 / th 1%nat ^ 2) by (apply div_pos; [lra|apply sq_pos; lra]).
      assert (C : 0 < th 0%nat * th 1%nat ^ 2) by (apply Rmult_lt_0_compat; [lra|apply sq_pos; lra]).
      destruct (gamma_law _ _ A C) as [_ Lo _ Qu].
      assert (Hu : 0 < (q - th 2%nat) / (1 - th 2%nat) < 1).
      { split; [apply div_pos; lra|]. apply (Rmult_lt_reg_r (1 - th 2%nat)); [lra|].
        unfold Rdiv. rewrite Rmult_assoc, Rinv_l by lra. lra. }
      destruct (Qu _ Hu) as (z & EZ & KZ). rewrite EZ in EQ. injection EQ as ->.
      destruct (Rle_dec 0 x) as [|N]; [assumption|exfalso].
      assert (B : x <= 0) by lra. apply (KZ 0 I) in B. rewrite (Lo 0) in B by lra. lra.
    + intros y Hy. exists (F y). split; [apply E|]. exact (H y Hy).
Qed.

Lemma C90_monotone_lemma d th q1 q2 : valid_theta d th -> 0 < q1 -> q1 <= q2 -> q2 < 1 ->
  exists x1 x2, dist_ppf std_ppf d q1 th = Some x1 /\ dist_ppf std_ppf d q2 th = Some x2 /\ x1 <= x2.
Proof.
  intros V H1 H2 H3.
  destruct (C90_quantile_lemma d th q1 V) as (x1 & E1 & D1 & K1); [lra|].
  destruct (C90_quantile_lemma d th q2 V) as (x2 & E2 & D2 & K2); [lra|].
  exists x1, x2. split; [exact E1|]. split; [exact E2|].
  destruct (K1 x2 D2) as (v & Ev & B1). destruct (K2 x2 D2) as (v' & Ev' & B2).
  rewrite Ev in Ev'. injection Ev' as <-. apply B1. assert (q2 <= v) by (apply B2; lra). lra.
Qed.
End Quantiles.

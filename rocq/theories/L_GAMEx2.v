(** A concrete overshooting step: Student-t distribution with the default links, one
    observation with residual 1/2, scale 1 and 9/4 degrees of freedom; location with an
    intercept only. One step of iteratively reweighted least squares goes from residual
    1/2 to residual -11/20. *)
From Coq Require Import Reals List Bool Arith ZArith Lra Lia.
From Verif Require Import Base Lin Data M_Gram M_OLS M_Scaler M_Utils M_Links M_DistTable M_Dist M_State M_LM M_Equation M_GAMLSS M_GAMDist S_GAMLSS.
From Verif Require Import L_GAM1 L_GAM2 L_GAM6 L_GAMEx.
Import ListNotations.
Open Scope R_scope.

Definition t_dist : dist_ops :=
  shipped_default (fun _ => 0) (fun _ => 0) (fun _ => 0) (fun _ => (0, 1, 1)) (fun _ => (0, 1, 0, 1)) false
    (fun _ _ _ => None) (fun _ _ _ _ => Raise ValueError) StudentT.
Definition t_cfg : gam_cfg unit :=
  mk_gcfg unit t_dist true (Some [(0%nat, EqIntercept); (1%nat, EqIntercept); (2%nat, EqIntercept)]) (fun _ => Ok tt) (Scalar 0) (Scalar aic) (Scalar true)
    (Scalar false) (Scalar 1) None ScaleNone false 0 0 3 1 1 (1 / 1000) (1 / 1000) (1 / 1000) (1 / 1000)
    false false false.
Definition t_prep : prep :=
  mk_prep (fun _ => EqIntercept) (fun _ => 0) (fun _ => aic) (fun _ => true) (fun _ => false)
    [(0%nat, 1); (1%nat, 1); (2%nat, 1)] [0%nat; 1%nat; 2%nat].
Definition t_env : env unit :=
  mk_env t_cfg t_prep 1 (fun _ => 1) (gam_isreg t_prep) (fun _ => (1%nat, [fun _ => 1])) [1 / 2] [1].
Definition t_theta (mu : R) : vec := fun j => nth j [mu; 1; 9 / 4] 0.
(** Location [mu], so far weight [1/n] at zero. *)
Definition t_work (n : R) : work unit :=
  mk_work (fun _ => Some tt) [t_theta 0] (fun _ => Some (fun _ _ => n)) (fun _ => Some (fun _ => 0)) (fun _ => Some 0) (fun _ => None)
    (fun _ _ => 0) (fun _ => None) (fun _ => Some 1) (fun _ => Some 1) [1%nat; 1%nat; 1%nat] (fun _ _ _ => 1) (fun _ => O) 1
    (fun _ => None) (fun _ => None) (fun _ => None) (fun _ => Some (fun _ _ => n)) (fun _ => Some (fun _ => 0)) (fun _ => Some 1) (fun _ => Some 1)
    (fun _ => Some 0) (fun _ => None).

Definition t_dev (r : R) : R := (9 / 4 + 1) * ln (1 + r ^ 2 / (9 / 4)) + ln (9 / 4 * PI).
Lemma t_logpdf th r : th 1%nat = 1 -> th 2%nat = 9 / 4 -> 1 / 2 - th 0%nat = r ->
  d_logpdf t_dist (1 / 2) th = Some (- t_dev r / 2).
Proof.
  intros H1 H2 H0. cbn [t_dist shipped_default shipped d_logpdf logpdf]. unfold scipy_logpdf_of, scipy_params, scipy_logpdf.
  rewrite H1, H2, H0. cbn [family_support shapes_ok]. rewrite !ltb_t by lra. cbn [andb]. f_equal.
  cbn [std_logpdf]. unfold t_dev. replace (r / 1) with r by field. rewrite ln_1. lra.
Qed.
Lemma t_deviance th r : th 1%nat = 1 -> th 2%nat = 9 / 4 -> 1 / 2 - th 0%nat = r -> deviance t_env [th] = Ok (t_dev r).
Proof.
  intros H1 H2 H0. unfold deviance. cbn [t_env e_cfg o_dist t_cfg e_y map2]. rewrite (t_logpdf th r H1 H2 H0). cbn [all_some bind].
  f_equal. cbn. lra.
Qed.
Lemma t_dev_lt a b : 0 <= a -> a < b -> t_dev a < t_dev b.
Proof.
  intros Ha Hb. unfold t_dev. assert (ln (1 + a ^ 2 / (9 / 4)) < ln (1 + b ^ 2 / (9 / 4))); [|lra].
  apply ln_increasing; nra.
Qed.
Lemma t_dev_even a : t_dev (- a) = t_dev a.
Proof. unfold t_dev. replace ((- a) ^ 2) with (a ^ 2) by ring. reflexivity. Qed.

Lemma t_weight (u : bool) : (if u then update_weight else fit_weight) (- (9 / 4 + 1) / ((9 / 4 + 3) * 1 ^ 2)) 1 = 13 / 21.
Proof.
  assert (E : raw_weight (- (9 / 4 + 1) / ((9 / 4 + 3) * 1 ^ 2)) 1 = 13 / 21).
  { unfold raw_weight. rewrite eqb_f by lra. field. }
  assert (1 <= 10 ^ 10) by (apply pow_R1_Rle; lra).
  assert (1 / 10 ^ 10 <= 13 / 21).
  { apply Rmult_le_reg_r with (10 ^ 10); [lra|]. unfold Rdiv at 1. rewrite Rmult_assoc, Rinv_l by lra. lra. }
  destruct u; unfold update_weight, fit_weight, clip; rewrite E; rewrite Rmax_right by lra; apply Rmin_right; lra.
Qed.
Lemma t_working u : exists g, working t_env u 0 [t_theta 0] = Ok ([0], g) /\ g_wt g = [13 / 21] /\ g_wv g = [21 / 20].
Proof.
  assert (E1 : d_dl1 t_dist 0 (1 / 2) (t_theta 0) = Some ((9 / 4 + 1) / (9 / 4 + (1 / 2 - 0) ^ 2 / 1 ^ 2) * (1 / 2 - 0) / 1 ^ 2)).
  { cbn [t_dist shipped_default shipped d_dl1]. unfold guarded, theta_ok. change (t_theta 0 1%nat) with 1. change (t_theta 0 2%nat) with (9 / 4).
    rewrite !ltb_t by lra. reflexivity. }
  assert (E2 : d_dl2 t_dist 0 (1 / 2) (t_theta 0) = Some (- (9 / 4 + 1) / ((9 / 4 + 3) * 1 ^ 2))).
  { cbn [t_dist shipped_default shipped d_dl2]. unfold guarded, theta_ok. change (t_theta 0 1%nat) with 1. change (t_theta 0 2%nat) with (9 / 4).
    rewrite !ltb_t by lra. reflexivity. }
  unfold working. cbn [t_env e_cfg o_dist t_cfg e_y e_w map2 map col]. rewrite E1, E2.
  change (d_link t_dist 0 (t_theta 0 0%nat)) with (Some 0). cbn [all_some bind map map2].
  change (d_dinv t_dist 0 0) with 1.
  rewrite t_weight. cbn [combine map2 fst snd length Nat.eqb].
  assert (E : working_response 0 ((9 / 4 + 1) / (9 / 4 + (1 / 2 - 0) ^ 2 / 1 ^ 2) * (1 / 2 - 0) / 1 ^ 2) 1 (13 / 21) = Some (21 / 20)).
  { unfold working_response. rewrite eqb_f by lra. unfold npdiv. rewrite eqb_f by lra. cbn [omap option_map]. f_equal. field. }
  rewrite E. cbn [all_some bind].
  assert (Ef : forget_vector t_env 0 = [1]) by (unfold forget_vector, init_forget_vector; rewrite eqb_t by (cbn; lra); reflexivity).
  change (mk_env t_cfg _ _ _ _ _ _ _) with t_env. rewrite Ef. cbn [repeat map2 forallb]. rewrite leb_t by lra.
  rewrite orb_true_r. eexists. split; [reflexivity|]. split; reflexivity.
Qed.

(** One candidate of fit: the location goes to 21/20. *)
Lemma t_fit_candidate io n : exists q, fit_candidate ex_ops t_env 0 io 0 1 (t_dev (1 / 2)) [t_theta 0] None (t_work n) = (put_method 0 tt (t_work n), Ok q) /\
  c_beta q 0%nat = 21 / 20 /\ c_dv q = t_dev (11 / 20).
Proof.
  destruct (t_working false) as (g & Hwk & Hwt & Hwv).
  set (X := [fun _ => 1] : list vec).
  set (xg := (fun _ _ : nat => / init_gram X (gram_weights t_env g) 0 0%nat 0%nat) : mat).
  set (yg := init_y_gram X (g_wv g) (gram_weights t_env g) 0).
  assert (R2 : sqrt (13 / 21) * sqrt (13 / 21) = 13 / 21) by (apply sqrt_sqrt; lra).
  assert (Ew : root_weights (gram_weights t_env g) (init_forget_vector 0 (length X)) = [sqrt (13 / 21)]).
  { unfold root_weights, gram_weights, init_forget_vector. rewrite Hwt, eqb_t by lra. cbn. do 2 f_equal. lra. }
  assert (Hxg : xg 0%nat 0%nat = 21 / 13).
  { unfold xg, init_gram, mat_tmul, scale_rows. rewrite Ew. cbn. replace (1 * sqrt (13 / 21) * (1 * sqrt (13 / 21)) + 0) with (13 / 21) by (rewrite <- R2 at 1; ring). field. }
  assert (Hyg : yg 0%nat = 13 / 20).
  { unfold yg, init_y_gram, vec_tmul, scale_rows. rewrite Ew, Hwv. cbn. nra. }
  assert (Hx : op_init_x ex_ops 1 X (gram_weights t_env g) 0 = Ok xg).
  { cbn [ex_ops ols_ops op_init_x]. unfold init_inverted_gram. rewrite ex_inv_one; [reflexivity|].
    unfold xg in Hxg. intros E0. rewrite E0, Rinv_0 in Hxg. lra. }
  set (beta := ols_beta 1 xg yg).
  assert (Hb : beta 0%nat = 21 / 20) by (unfold beta, ols_beta, mvec; cbn [bsum]; rewrite Hxg, Hyg; field).
  set (pred := map2 (fun x et => 1 * dot 1 x beta + (1 - 1) * et) X [0]).
  assert (Hp : pred = [21 / 20]).
  { unfold pred, X. cbn [map2]. unfold dot. cbn [bsum]. rewrite Hb. f_equal. lra. }
  set (fv' := set_col [t_theta 0] 0 (map (d_inv t_dist 0) pred)).
  assert (Hdv : deviance t_env fv' = Ok (t_dev (11 / 20))).
  { unfold fv'. rewrite Hp. cbn [map2 map set_col]. rewrite (t_deviance _ (- (11 / 20))); [rewrite t_dev_even; reflexivity|reflexivity|reflexivity|].
    cbn. lra. }
  eexists. split; [exact (fit_candidate_run ex_ops t_env 0 io 0 1 (t_dev (1 / 2)) [t_theta 0] None (t_work n) [0] g 1 X xg tt tt beta (t_dev (11 / 20))
    eq_refl eq_refl eq_refl Hwk Hx eq_refl eq_refl Hdv)|]. split; [exact Hb|reflexivity].
Qed.

(** In the first outer cycle the worse value is kept, later it is not. *)
Lemma t_fit_first : exists s', inner_fit ex_ops t_env 0 1 (t_work 1) = (s', Ok (t_dev (11 / 20), [(1, t_dev (1 / 2), t_dev (11 / 20))])) /\
  w_coef s' 0%nat 0%nat = 21 / 20.
Proof.
  destruct (t_fit_candidate 1 1) as (q & Hq & Hb & Hd).
  eexists. split.
  - rewrite <- Hd. eapply (inner_fit_run1 ex_ops t_env 0 1 (t_work 1) (t_dev (1 / 2)) [t_theta 0] q tt); try reflexivity; try (cbn; lia).
    + apply t_deviance; try reflexivity. cbn. lra.
    + exact Hq.
  - exact Hb.
Qed.
Lemma t_fit_later : exists s', inner_fit ex_ops t_env 0 2 (t_work 1) = (s', Ok (t_dev (11 / 20), [(1, t_dev (1 / 2), t_dev (11 / 20))])) /\
  w_coef s' 0%nat 0%nat = 0 /\ w_fv s' = [t_theta 0].
Proof.
  destruct (t_fit_candidate 2 1) as (q & Hq & Hb & Hd).
  eexists. split; [|split].
  - rewrite <- Hd. eapply (inner_fit_run1_rejected ex_ops t_env 0 2 (t_work 1) (t_dev (1 / 2)) [t_theta 0] q tt); try reflexivity; try (cbn; lia).
    + apply t_deviance; try reflexivity. cbn. lra.
    + exact Hq.
    + rewrite Hd. apply t_dev_lt; lra.
  - reflexivity.
  - reflexivity.
Qed.

(** The candidate of update with a weak prior (weight 1/100 at zero). *)
Lemma t_update_candidate io : exists q, update_candidate ex_ops t_env 7 0 io 0 [t_theta 0] (t_work 100) = (put_method 0 tt (t_work 100), Ok q) /\
  c_beta q 0%nat = 1365 / 1321 /\ c_dv q = t_dev (1365 / 1321 - 1 / 2) + 7.
Proof.
  destruct (t_working true) as (g & Hwk & Hwt & Hwv).
  set (X := [fun _ => 1] : list vec).
  assert (Egw : gram_weights t_env g = [1 * (13 / 21)]) by (unfold gram_weights; rewrite Hwt; reflexivity).
  set (xg := update_inverted_gram1 1 (fun _ _ => 100) (fun _ => 1) 0 (1 * (13 / 21))).
  set (yg := update_y_gram (fun _ => 0) X (g_wv g) 0 (gram_weights t_env g)).
  assert (Hx : op_update_x ex_ops 1 (fun _ _ => 100) X 0 (gram_weights t_env g) = Ok xg) by (rewrite Egw; reflexivity).
  assert (Hxg : xg 0%nat 0%nat = 2100 / 1321).
  { unfold xg, update_inverted_gram1, mmul, dot, outer. cbn [bsum]. field. }
  assert (Hyg : yg 0%nat = 13 / 20).
  { unfold yg. rewrite Egw, Hwv. cbn. lra. }
  set (beta := ols_beta 1 xg yg).
  assert (Hb : beta 0%nat = 1365 / 1321) by (unfold beta, ols_beta, mvec; cbn [bsum]; rewrite Hxg, Hyg; field).
  set (pred := map (fun x => dot 1 x beta) X).
  assert (Hp : pred = [1365 / 1321]).
  { unfold pred, X. cbn [map]. unfold dot. cbn [bsum]. rewrite Hb. f_equal. lra. }
  set (fv' := set_col [t_theta 0] 0 (map (d_inv t_dist 0) pred)).
  assert (Hdv : deviance t_env fv' = Ok (t_dev (1365 / 1321 - 1 / 2))).
  { unfold fv'. rewrite Hp. cbn [map2 map set_col]. rewrite (t_deviance _ (- (1365 / 1321 - 1 / 2))); [rewrite t_dev_even; reflexivity|reflexivity|reflexivity|].
    cbn. lra. }
  eexists. split; [exact (update_candidate_run ex_ops t_env 7 0 io 0 [t_theta 0] (t_work 100) [0] g 1 X (fun _ _ => 100) xg (fun _ => 0) tt tt beta 1 _
    eq_refl eq_refl eq_refl Hwk eq_refl eq_refl eq_refl eq_refl Hx eq_refl Hdv)|]. split; [exact Hb|].
  cbn [c_dv]. cbn [t_env e_prep t_prep p_forget e_y length pow]. lra.
Qed.
Lemma t_update : exists s', inner_update ex_ops t_env 7 0 1 (t_work 100) = (s', Ok (t_dev (1365 / 1321 - 1 / 2) + 7)).
Proof.
  destruct (t_update_candidate 1) as (q & Hq & Hb & Hd).
  eexists. rewrite <- Hd. eapply (inner_update_run1 ex_ops t_env 7 0 1 (t_work 100) (t_dev (1 / 2)) [t_theta 0] q tt 1); try reflexivity; try (cbn; lia).
  - apply t_deviance; try reflexivity. cbn. lra.
  - exact Hq.
Qed.

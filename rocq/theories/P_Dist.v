(** Properties C38-C46 and C69: the distributions. *)
From Coq Require Import Reals List Bool Arith ZArith Lra Lia Psatz.
From Coquelicot Require Import Coquelicot.
From Verif Require Import Base M_Links S_Links M_DistTable M_Dist S_Dist M_Mixed S_Mixed M_Init S_Init
  L_Links2 L_Dist1 L_Dist2 L_Dist3 L_Dist4 L_Dist5 L_Dist6 L_Mixed L_Init.
Import ListNotations.
Open Scope R_scope.

(** C38. *)
Theorem C38_admissible : forall d th,
  (forall p s, nth_error (parameter_support d) p = Some s -> in_support s (th p)) ->
  valid_theta d th.
Proof. exact admissible_lemma. Qed.
Print Assumptions C38_admissible.
Theorem C38_score : forall lgam dg d y th p,
  closed_form d = true -> valid_theta d th -> y_support d y -> (p < n_params d)%nat ->
  exists s, dl1_dp1 dg d y th (Z.of_nat p) = Ok (Some s) /\ partial (logpdf lgam d y) th p s.
Proof. exact C38_score_lemma. Qed.
Print Assumptions C38_score.
Example C38_example : forall lgam dg,
  dl1_dp1 dg Normal 3 (rowl [0; 2]) 0 = Ok (Some (3 / 4)) /\
  partial (logpdf lgam Normal 3) (rowl [0; 2]) 0 (3 / 4).
Proof.
  intros. assert (E : score dg Normal 3 (rowl [0; 2]) 0 = 3 / 4).
  { cbn [score rowl nth]. cbv zeta. unfold rowl. cbn [nth]. field. }
  rewrite <- E. split; [apply (dl1_valid dg Normal 3 (rowl [0; 2]) 0); cbn; lia|].
  apply score_partial; [discriminate|cbn; lra|exact I|cbn; lia].
Qed.

(** C39. *)
Theorem C39_score : forall lgam dg d y th p,
  is_digamma lgam dg -> valid_theta d th -> y_support d y -> (p < n_params d)%nat ->
  exists s, dl1_dp1 dg d y th (Z.of_nat p) = Ok (Some s) /\ partial (logpdf lgam d y) th p s.
Proof. exact C39_score_lemma. Qed.
Print Assumptions C39_score.
Definition lgam0 (x : R) : R := x * ln x - x.
Definition tg0 (x : R) : R := 1 / x + 3 / (4 * x ^ 2).
Example C39_example : is_digamma lgam0 ln /\ valid_theta Gamma (rowl [2; 1]) /\ y_support Gamma 3 /\
  dl1_dp1 ln Gamma 3 (rowl [2; 1]) 0 = Ok (Some (1 / 4)) /\
  partial (logpdf lgam0 Gamma 3) (rowl [2; 1]) 0 (1 / 4).
Proof.
  assert (D : is_digamma lgam0 ln).
  { intros x Hx. unfold lgam0. auto_derive; [exact Hx|]. field. lra. }
  assert (V : valid_theta Gamma (rowl [2; 1])) by (cbn; lra).
  assert (Y : y_support Gamma 3) by (cbn; lra).
  assert (E : score ln Gamma 3 (rowl [2; 1]) 0 = 1 / 4).
  { cbn [score]. cbv zeta. unfold gamma_score, rowl. cbn [nth]. field. }
  repeat (split; [assumption|]). rewrite <- E.
  split; [apply (dl1_valid ln Gamma 3 (rowl [2; 1]) 0); cbn; lia|].
  apply score_partial; [intros _; exact D|exact V|exact Y|cbn; lia].
Qed.

(** C40. *)
Theorem C40_diagonal : forall lgam dg tg d th p,
  is_digamma lgam dg -> is_trigamma dg tg -> exact_hessian d = true ->
  valid_theta d th -> (p < n_params d)%nat -> unclipped tg d th p ->
  exists h : R -> R,
    (forall y, y_support d y -> partial2 (logpdf lgam d y) th p p (h y)) /\
    forall E k,
      expectation (y_support d) E -> has_moments E (moments dg d th) ->
      (forall y, dl2_dp2 dg tg d y th (Z.of_nat p) = Ok (Some (k y))) ->
      exists v, E h v /\ E k v.
Proof. exact C40_diagonal_lemma. Qed.
Print Assumptions C40_diagonal.
Theorem C40_cross : forall lgam dg tg d th p q,
  is_digamma lgam dg -> is_trigamma dg tg -> exact_hessian d = true ->
  valid_theta d th -> (p < n_params d)%nat -> (q < n_params d)%nat -> p <> q ->
  exists h : R -> R,
    (forall y, y_support d y -> partial2 (logpdf lgam d y) th p q (h y)) /\
    forall E k,
      expectation (y_support d) E -> has_moments E (moments dg d th) ->
      (forall y, dl2_dpp dg tg d y th (Z.of_nat p) (Z.of_nat q) = Ok (Some (k y))) ->
      exists v, E h v /\ E k v.
Proof. exact C40_cross_lemma. Qed.
Print Assumptions C40_cross.
Theorem C40_gumbel : forall lgam dg tg th,
  valid_theta Gumbel th ->
  exists h00 h11 h01 : R -> R,
    (forall y, partial2 (logpdf lgam Gumbel y) th 0 0 (h00 y)) /\
    (forall y, partial2 (logpdf lgam Gumbel y) th 1 1 (h11 y)) /\
    (forall y, partial2 (logpdf lgam Gumbel y) th 0 1 (h01 y)) /\
    forall E m1 m2, let z y := (y - th 0%nat) / th 1%nat in
      expectation (fun _ => True) E ->
      E (fun y => exp (z y)) 1 -> E (fun y => z y * (exp (z y) - 1)) 1 ->
      E (fun y => z y * exp (z y)) m1 -> E (fun y => z y ^ 2 * exp (z y)) m2 ->
      exists v00 v11 v01,
        E h00 v00 /\ E h11 v11 /\ E h01 v01 /\
        forall y,
          dl2_dp2 dg tg Gumbel y th 0 = Ok (Some v00) /\
          dl2_dp2 dg tg Gumbel y th 1 = Ok (Some (v11 + (m2 - 82368 / 100000) / th 1%nat ^ 2)) /\
          dl2_dpp dg tg Gumbel y th 0 1 = Ok (Some (v01 + (m1 - 422784 / 1000000) / th 1%nat ^ 2)).
Proof. exact C40_gumbel_lemma. Qed.
Print Assumptions C40_gumbel.
Theorem C40_jsu : forall dg tg y th p q a b,
  dl1_dp1 dg JSU y th (Z.of_nat p) = Ok (Some a) ->
  dl1_dp1 dg JSU y th (Z.of_nat q) = Ok (Some b) ->
  dl2_dp2 dg tg JSU y th (Z.of_nat p) = Ok (Some (- (a * a))) /\
  (p <> q -> dl2_dpp dg tg JSU y th (Z.of_nat p) (Z.of_nat q) = Ok (Some (- (a * b)))).
Proof. exact C40_jsu_lemma. Qed.
Print Assumptions C40_jsu.
(** A two-point distribution on -1, 1 has the moments of the standard normal that
    matter; the expected second derivative in the scale is -2 under it. *)
Definition two_point (f : R -> R) (v : R) : Prop := v = (f (- 1) + f 1) / 2.
Example C40_example :
  expectation (y_support Normal) two_point /\
  has_moments two_point (moments ln Normal (rowl [0; 1])) /\
  exists h, (forall y, partial2 (logpdf lgam0 Normal y) (rowl [0; 1]) 1 1 (h y)) /\
            two_point h (- 2) /\ dl2_dp2 ln tg0 Normal 7 (rowl [0; 1]) 1 = Ok (Some (- 2)).
Proof.
  assert (EX : expectation (y_support Normal) two_point).
  { constructor; unfold two_point.
    - intros; field.
    - intros; subst; field.
    - intros; subst; field.
    - intros f g a H ->. now rewrite !H by exact I.
    - intros f a H ->. pose proof (H (- 1) I). pose proof (H 1 I). lra. }
  assert (HM : has_moments two_point (moments ln Normal (rowl [0; 1]))).
  { unfold has_moments, moments, rowl. cbn [nth]. constructor; [|constructor; [|constructor]];
      cbn [fst snd]; unfold two_point; field. }
  split; [exact EX|]. split; [exact HM|].
  assert (D : is_digamma lgam0 ln).
  { intros x Hx. unfold lgam0. auto_derive; [exact Hx|]. field. lra. }
  assert (Dv : is_trigamma ln (fun x => / x)).
  { intros x Hx. auto_derive; [exact Hx|]. field. lra. }
  assert (HV : valid_theta Normal (rowl [0; 1])) by (cbn; lra).
  destruct (C40_diagonal lgam0 ln (fun x => / x) Normal (rowl [0; 1]) 1 D Dv eq_refl HV
              ltac:(cbn; lia) ltac:(intros K; discriminate)) as [h [Hh HE]].
  assert (Eh : hess ln (fun x => / x) Normal 7 (rowl [0; 1]) 1 = - 2).
  { unfold hess, rowl. cbn [nth]. field. }
  exists h. split; [intros y; apply Hh; exact I|].
  destruct (HE two_point (fun _ => - 2) EX HM) as [v [A B]].
  { intros y. rewrite dl2_valid by (cbn; lia). do 2 f_equal. rewrite <- Eh. reflexivity. }
  unfold two_point in B. replace v with (- 2) in A by (rewrite B; field). split; [exact A|].
  pose proof (dl2_valid ln tg0 Normal 7 (rowl [0; 1]) 1 ltac:(cbn; lia)) as K.
  change (Z.of_nat 1) with 1%Z in K. rewrite K. do 2 f_equal. rewrite <- Eh. reflexivity.
Qed.

(** C41. *)
Theorem C41_cross_sign : forall lgam dg tg th,
  valid_theta ReverseGumbel th ->
  (exists h : R -> R,
    (forall y, partial2 (logpdf lgam ReverseGumbel y) th 0 1 (h y)) /\
    forall E v, expectation (fun _ => True) E ->
      E (fun y => exp (- ((y - th 0%nat) / th 1%nat))) 1 -> E h v -> 0 <= v) /\
  forall y, exists c, dl2_dpp dg tg ReverseGumbel y th 0 1 = Ok (Some c) /\ c < 0.
Proof. exact C41_lemma. Qed.
Print Assumptions C41_cross_sign.
(** The point mass at y = mu is an expectation with E exp(-z) = 1. *)
Example C41_example : valid_theta ReverseGumbel (rowl [3; 2]) /\
  expectation (fun _ => True) (fun f v => v = f 3) /\
  1 = exp (- ((3 - 3) / 2)).
Proof.
  split; [cbn; lra|]. split.
  - constructor; intros; subst; auto.
  - replace (- ((3 - 3) / 2)) with 0 by field. now rewrite exp_0.
Qed.

(** C42. *)
Theorem C42_positive : forall dg tg d y th p,
  d <> JSU -> (needs_trigamma d = true -> trigamma_bounds tg) ->
  valid_theta d th -> (p < n_params d)%nat -> ~ inflated_point d y p ->
  exists h, dl2_dp2 dg tg d y th (Z.of_nat p) = Ok (Some h) /\ 0 < - h.
Proof. exact C42_positive_lemma. Qed.
Print Assumptions C42_positive.
Theorem C42_jsu : forall dg tg y th p,
  (p < 4)%nat ->
  exists s h, dl1_dp1 dg JSU y th (Z.of_nat p) = Ok (Some s) /\
    dl2_dp2 dg tg JSU y th (Z.of_nat p) = Ok (Some h) /\ 0 <= - h /\ (h = 0 <-> s = 0).
Proof. exact C42_jsu_lemma. Qed.
Print Assumptions C42_jsu.
Theorem C42_inflated : forall dg tg d y th p,
  inflated_point d y p -> dl2_dp2 dg tg d y th (Z.of_nat p) = Ok (Some 0).
Proof. exact C42_inflated_lemma. Qed.
Print Assumptions C42_inflated.
Example C42_example : trigamma_bounds tg0 /\
  (exists h, dl2_dp2 ln tg0 Beta (1 / 3) (rowl [1 / 2; 1 / 2]) 1 = Ok (Some h) /\ 0 < - h) /\
  inflated_point ZeroAdjustedGamma 0 1.
Proof.
  assert (B : trigamma_bounds tg0).
  { intros x Hx. unfold tg0. assert (0 < / x ^ 2) by (apply Rinv_0_lt_compat; nra).
    replace (3 / (4 * x ^ 2)) with (3 / 4 * / x ^ 2) by (field; lra).
    replace (1 / (2 * x ^ 2)) with (1 / 2 * / x ^ 2) by (field; lra).
    replace (1 / x ^ 2) with (/ x ^ 2) by (field; lra). lra. }
  split; [exact B|]. split; [|split; [lia|reflexivity]].
  apply (C42_positive ln tg0 Beta (1 / 3) (rowl [1 / 2; 1 / 2]) 1);
    [discriminate|intros _; exact B|cbn; lra|cbn; lia|intros [_ []]].
Qed.

(** C43. *)
Theorem C43_beta_inflated : forall lgam bpdf gam y th,
  beta_density lgam bpdf -> valid_theta BetaInflated th -> 0 <= y <= 1 ->
  strictly_inside (mixed_pdf bpdf gam BetaInflated y th) (logpdf lgam BetaInflated y th).
Proof. exact C43_beta_inflated_lemma. Qed.
Print Assumptions C43_beta_inflated.
Theorem C43_beta_inflated_zero : forall lgam bpdf gam y th,
  beta_density lgam bpdf -> valid_theta BetaInflatedZero th -> 0 <= y < 1 ->
  strictly_inside (mixed_pdf bpdf gam BetaInflatedZero y th) (logpdf lgam BetaInflatedZero y th).
Proof. exact C43_beta_inflated_zero_lemma. Qed.
Print Assumptions C43_beta_inflated_zero.
Theorem C43_zero_adjusted_gamma : forall lgam bpdf gam y th,
  (forall x, 0 < x -> gam x = exp (lgam x)) -> valid_theta ZeroAdjustedGamma th -> 0 <= y ->
  strictly_inside (mixed_pdf bpdf gam ZeroAdjustedGamma y th) (logpdf lgam ZeroAdjustedGamma y th).
Proof. exact C43_zaga_lemma. Qed.
Print Assumptions C43_zero_adjusted_gamma.
Theorem C43_lognormal : forall lgam bpdf gam y th,
  valid_theta LogNormal th -> 0 < y ->
  strictly_inside (mixed_pdf bpdf gam LogNormal y th) (logpdf lgam LogNormal y th).
Proof. exact C43_lognormal_lemma. Qed.
Print Assumptions C43_lognormal.
Theorem C43_logcdf : forall bcdf gcdf ncdf d y th,
  In d [BetaInflated; BetaInflatedZero; ZeroAdjustedGamma; LogNormal] ->
  valid_theta d th -> y_support d y ->
  (forall a b x, 0 <= bcdf a b x) -> (forall a b x, 0 <= gcdf a b x) -> (forall x, 0 < ncdf x) ->
  strictly_inside (mixed_cdf bcdf gcdf ncdf d y th) (mixed_logcdf bcdf gcdf ncdf d y th).
Proof. exact C43_logcdf_lemma. Qed.
Print Assumptions C43_logcdf.
Theorem C43_off_support : forall lgam bpdf gam y th,
  (valid_theta BetaInflated th -> y < 0 \/ 1 < y ->
     mixed_pdf bpdf gam BetaInflated y th = Some 0 /\ logpdf lgam BetaInflated y th = Some 0) /\
  (valid_theta BetaInflatedZero th -> y < 0 ->
     mixed_pdf bpdf gam BetaInflatedZero y th = Some 0 /\
     logpdf lgam BetaInflatedZero y th = Some (- ln (1 + th 2%nat))) /\
  (valid_theta ZeroAdjustedGamma th -> (forall x, 0 < x -> 0 < gam x) -> y < 0 -> th 1%nat = 1 ->
     (exists v, mixed_pdf bpdf gam ZeroAdjustedGamma y th = Some v /\ 0 < v) /\
     logpdf lgam ZeroAdjustedGamma y th = None).
Proof. exact C43_off_support_lemma. Qed.
Print Assumptions C43_off_support.
Definition bpdf0 (a b y : R) : R :=
  exp ((a - 1) * ln y + (b - 1) * ln (1 - y) - (lgam0 a + lgam0 b - lgam0 (a + b))).
Example C43_example : beta_density lgam0 bpdf0 /\
  valid_theta BetaInflated (rowl [1 / 2; 1 / 2; 1; 2]) /\
  mixed_pdf bpdf0 (fun _ => 1) BetaInflated 1 (rowl [1 / 2; 1 / 2; 1; 2]) = Some (2 / 4) /\
  logpdf lgam0 BetaInflated 1 (rowl [1 / 2; 1 / 2; 1; 2]) = Some (ln (2 / 4)).
Proof.
  assert (B : beta_density lgam0 bpdf0).
  { intros a b y Ha Hb Hy. unfold bpdf0. split; [apply exp_pos|apply ln_exp]. }
  assert (V : valid_theta BetaInflated (rowl [1 / 2; 1 / 2; 1; 2])) by (cbn; lra).
  assert (P : mixed_pdf bpdf0 (fun _ => 1) BetaInflated 1 (rowl [1 / 2; 1 / 2; 1; 2]) = Some (2 / 4)).
  { unfold mixed_pdf, rowl. cbn [nth]. decide_tests. rewrite npdiv_some by lra. f_equal. field. }
  repeat (split; [assumption|]).
  destruct (C43_beta_inflated lgam0 bpdf0 (fun _ => 1) 1 _ B V ltac:(lra)) as [v [E [_ L]]].
  rewrite P in E. injection E as <-. exact L.
Qed.

(** C44. *)
Theorem C44_beta_inflated : forall bcdf bppf gcdf gppf ncdf nppf,
  (forall a b, 0 < a -> 0 < b -> law_on_unit (bcdf a b) (bppf a b)) ->
  forall th, valid_theta BetaInflated th ->
  exists F : R -> R,
    (forall y, mixed_cdf bcdf gcdf ncdf BetaInflated y th = Some (F y)) /\
    nondecreasing F /\ (forall y, 0 <= F y <= 1) /\
    jump F 0 (th 2%nat / (1 + th 2%nat + th 3%nat)) /\
    jump F 1 (th 3%nat / (1 + th 2%nat + th 3%nat)) /\
    quantile_function (fun _ => True) F (fun q => mixed_ppf bppf gppf nppf BetaInflated q th).
Proof. exact C44_beta_inflated_lemma. Qed.
Print Assumptions C44_beta_inflated.
Theorem C44_beta_inflated_zero : forall bcdf bppf gcdf gppf ncdf nppf,
  (forall a b, 0 < a -> 0 < b -> law_on_unit (bcdf a b) (bppf a b)) ->
  forall th, valid_theta BetaInflatedZero th ->
  exists F : R -> R,
    (forall y, mixed_cdf bcdf gcdf ncdf BetaInflatedZero y th = Some (F y)) /\
    nondecreasing F /\ (forall y, 0 <= F y <= 1) /\
    jump F 0 (th 2%nat / (1 + th 2%nat)) /\ jump F 1 0 /\
    quantile_function (fun _ => True) F (fun q => mixed_ppf bppf gppf nppf BetaInflatedZero q th).
Proof. exact C44_beta_inflated_zero_lemma. Qed.
Print Assumptions C44_beta_inflated_zero.
Theorem C44_zero_adjusted_gamma : forall bcdf bppf gcdf gppf ncdf nppf,
  (forall a c, 0 < a -> 0 < c -> law_on_positive (gcdf a c) (gppf a c)) ->
  forall th, valid_theta ZeroAdjustedGamma th ->
  exists F : R -> R,
    (forall y, mixed_cdf bcdf gcdf ncdf ZeroAdjustedGamma y th = Some (F y)) /\
    nondecreasing F /\ (forall y, 0 <= F y <= 1) /\ F 0 = th 2%nat /\
    quantile_function (fun y => 0 <= y) F (fun q => mixed_ppf bppf gppf nppf ZeroAdjustedGamma q th).
Proof. exact C44_zaga_lemma. Qed.
Print Assumptions C44_zero_adjusted_gamma.
Theorem C44_lognormal : forall bcdf bppf gcdf gppf ncdf nppf,
  law_on_line ncdf nppf ->
  forall th, valid_theta LogNormal th ->
  forall q, 0 < q < 1 ->
    exists x, mixed_ppf bppf gppf nppf LogNormal q th = Some x /\ 0 < x /\
      forall y, 0 < y ->
        exists v, mixed_cdf bcdf gcdf ncdf LogNormal y th = Some v /\ (x <= y <-> q <= v).
Proof. exact C44_lognormal_lemma. Qed.
Print Assumptions C44_lognormal.
(** The laws are satisfiable: the uniform distribution, F(y) = y/(1+y) and the
    logistic distribution. *)
Definition unif (y : R) : R := Rmax 0 (Rmin 1 y).
Definition halfline (y : R) : R := if Rleb y 0 then 0 else y / (1 + y).
Example C44_example_unit : law_on_unit unif Some.
Proof.
  assert (U : forall y, (y <= 0 -> unif y = 0) /\ (1 <= y -> unif y = 1) /\ (0 <= y <= 1 -> unif y = y)).
  { intros y. unfold unif, Rmax, Rmin. destruct (Rle_dec 1 y); destruct (Rle_dec 0 _); repeat split; intros; lra. }
  assert (N : forall x y, x <= y -> unif x <= unif y).
  { intros x y H. unfold unif. apply Rle_max_compat_l. unfold Rmin.
    destruct (Rle_dec 1 x), (Rle_dec 1 y); lra. }
  constructor.
  - exact N.
  - intros y H. now apply U.
  - intros y H. now apply U.
  - intros y H. destruct (Rle_dec y 0); [rewrite (proj1 (U y)); lra|].
    rewrite (proj2 (proj2 (U y))) by lra. lra.
  - intros eps He. exists (Rmin eps 1). split; [apply Rmin_pos; lra|]. intros y Hy.
    pose proof (Rmin_l eps 1). pose proof (Rmin_r eps 1).
    rewrite (proj1 (proj2 (U 1))) by lra. rewrite (proj2 (proj2 (U y))) by lra.
    rewrite Rabs_right by lra. lra.
  - intros q Hq. exists q. split; [reflexivity|]. intros y _.
    destruct (Rle_dec y 0); [rewrite (proj1 (U y)) by lra; split; intros; lra|].
    destruct (Rle_dec 1 y); [rewrite (proj1 (proj2 (U y))) by lra; split; intros; lra|].
    rewrite (proj2 (proj2 (U y))) by lra. tauto.
Qed.
Example C44_example_positive : law_on_positive halfline (fun q => Some (q / (1 - q))).
Proof.
  assert (E : forall y, 0 < y -> y / (1 + y) = 1 - / (1 + y)) by (intros; field; lra).
  constructor.
  - intros x y H. unfold halfline. destruct (Rleb x 0) eqn:Ex; destruct (Rleb y 0) eqn:Ey;
      rewrite ?Rleb_true, ?Rleb_false in *; try lra.
    + apply Rle_mult_inv_pos; lra.
    + rewrite !E by lra. assert (/ (1 + y) <= / (1 + x)) by (apply Rinv_le_contravar; lra). lra.
  - intros y H. unfold halfline. now rewrite (proj2 (Rleb_true y 0)).
  - intros y. unfold halfline. destruct (Rleb y 0) eqn:Ey; rewrite ?Rleb_true, ?Rleb_false in *; [lra|].
    rewrite E by lra. assert (0 < / (1 + y)) by (apply Rinv_0_lt_compat; lra). lra.
  - intros q Hq. eexists; split; [reflexivity|]. intros y _. unfold halfline.
    assert (0 < q / (1 - q)) by (apply Rdiv_lt_0_compat; lra).
    destruct (Rleb y 0) eqn:Ey; rewrite ?Rleb_true, ?Rleb_false in *; [split; intros; lra|].
    rewrite div_lt_iff by lra. split; intros K.
    + apply (Rmult_le_compat_r (1 - q)) in K; [|lra]. unfold Rdiv in K.
      rewrite Rmult_assoc, Rinv_l in K by lra. lra.
    + apply (Rmult_le_reg_r (1 - q)); [lra|]. unfold Rdiv. rewrite Rmult_assoc, Rinv_l by lra. lra.
Qed.
Example C44_example_line : law_on_line logistic_cdf (fun q => Some (ln (q / (1 - q)))).
Proof.
  assert (E : forall y, logistic_cdf y = 1 - / (1 + exp y)).
  { intros y. unfold logistic_cdf. pose proof (exp_pos y). field. lra. }
  constructor.
  - intros x y H. rewrite !E. pose proof (exp_pos x).
    assert (exp x <= exp y) by (destruct H as [H | ->]; [left; now apply exp_increasing|lra]).
    assert (/ (1 + exp y) <= / (1 + exp x)) by (apply Rinv_le_contravar; lra). lra.
  - intros y. pose proof (exp_pos y). unfold logistic_cdf. apply Rdiv_lt_0_compat; lra.
  - intros y. pose proof (exp_pos y). rewrite E. assert (0 < / (1 + exp y)) by (apply Rinv_0_lt_compat; lra). lra.
  - intros q Hq. eexists; split; [reflexivity|]. intros y _. unfold logistic_cdf. pose proof (exp_pos y).
    assert (Hr : 0 < q / (1 - q)) by (apply Rdiv_lt_0_compat; lra).
    rewrite div_lt_iff by lra.
    assert (X : ln (q / (1 - q)) <= y <-> q / (1 - q) <= exp y).
    { split; intros K.
      - rewrite <- (exp_ln _ Hr). destruct K as [K | K]; [left; now apply exp_increasing|right; now rewrite K].
      - rewrite <- (ln_exp y). destruct K as [K | K]; [left; now apply ln_increasing|right; now rewrite K]. }
    rewrite X. split; intros K.
    + apply (Rmult_le_compat_r (1 - q)) in K; [|lra]. unfold Rdiv in K.
      rewrite Rmult_assoc, Rinv_l in K by lra. lra.
    + apply (Rmult_le_reg_r (1 - q)); [lra|]. unfold Rdiv. rewrite Rmult_assoc, Rinv_l by lra. lra.
Qed.

(** C45. *)
Theorem C45_off_support : forall bcdf gcdf gppf ncdf,
  (forall a c, 0 < a -> 0 < c -> law_on_positive (gcdf a c) (gppf a c)) ->
  forall th y,
  (valid_theta ZeroAdjustedGamma th -> y < 0 ->
     mixed_cdf bcdf gcdf ncdf ZeroAdjustedGamma y th = Some (th 2%nat) /\ 0 < th 2%nat) /\
  (y < 0 -> mixed_cdf bcdf gcdf ncdf BetaInflated y th = Some 0 /\
            mixed_cdf bcdf gcdf ncdf BetaInflatedZero y th = Some 0) /\
  (1 < y -> mixed_cdf bcdf gcdf ncdf BetaInflated y th = Some 1 /\
            mixed_cdf bcdf gcdf ncdf BetaInflatedZero y th = Some 1).
Proof. exact C45_below_lemma. Qed.
Print Assumptions C45_off_support.
Theorem C45_bad_level : forall bppf gppf nppf th q,
  (q < 0 -> valid_theta ZeroAdjustedGamma th -> mixed_ppf bppf gppf nppf ZeroAdjustedGamma q th = Some 0) /\
  (q < 0 \/ 1 < q -> mixed_ppf bppf gppf nppf BetaInflated q th = None /\
                     mixed_ppf bppf gppf nppf BetaInflatedZero q th = None).
Proof. exact C45_bad_level_lemma. Qed.
Print Assumptions C45_bad_level.
Example C45_example :
  mixed_cdf (fun _ _ => unif) (fun _ _ => halfline) logistic_cdf ZeroAdjustedGamma (- 5) (rowl [1; 1; 1 / 4])
  = Some (1 / 4).
Proof.
  destruct (C45_off_support (fun _ _ => unif) (fun _ _ => halfline) (fun _ _ q => Some (q / (1 - q)))
             logistic_cdf (fun _ _ _ _ => C44_example_positive) (rowl [1; 1; 1 / 4]) (- 5)) as [K _].
  apply K; [cbn; lra|lra].
Qed.

(** C46. *)
Theorem C46_single : forall dg tg d y th param,
  (0 <= param)%Z ->
  ((param < Z.of_nat (n_params d))%Z ->
     (exists v, dl1_dp1 dg d y th param = Ok (Some v)) /\
     (exists v, dl2_dp2 dg tg d y th param = Ok (Some v))) /\
  ((Z.of_nat (n_params d) <= param)%Z ->
     dl1_dp1 dg d y th param = Raise ValueError /\ dl2_dp2 dg tg d y th param = Raise ValueError).
Proof. exact C46_first_lemma. Qed.
Print Assumptions C46_single.
Theorem C46_pair : forall dg tg d y th a b,
  d <> InverseGaussian -> (0 <= a)%Z -> (0 <= b)%Z ->
  let n := Z.of_nat (n_params d) in
  ((a < n)%Z /\ (b < n)%Z /\ a <> b -> exists v, dl2_dpp dg tg d y th a b = Ok (Some v)) /\
  ((n <= a)%Z \/ (n <= b)%Z \/ a = b -> dl2_dpp dg tg d y th a b = Raise ValueError).
Proof. exact C46_cross_lemma. Qed.
Print Assumptions C46_pair.
Theorem C46_inverse_gaussian : forall dg tg y th a b,
  dl2_dpp dg tg InverseGaussian y th a b = if (a =? b)%Z then Raise ValueError else Ok (Some 0).
Proof. exact C46_inverse_gaussian_lemma. Qed.
Print Assumptions C46_inverse_gaussian.
Theorem C46_negative : forall dg tg d y th param,
  (param < 0)%Z ->
  match d with
  | Gumbel | InverseGaussian => dl1_dp1 dg d y th param = Raise ValueError
  | Exponential => exists v, dl1_dp1 dg d y th param = Ok (Some v)
  | _ => dl1_dp1 dg d y th param = Ok None
  end /\
  match d with
  | Gumbel | InverseGaussian | InverseGamma => dl2_dp2 dg tg d y th param = Raise ValueError
  | Exponential => exists v, dl2_dp2 dg tg d y th param = Ok (Some v)
  | _ => dl2_dp2 dg tg d y th param = Ok None
  end.
Proof. exact C46_negative_lemma. Qed.
Print Assumptions C46_negative.
Example C46_example :
  dl1_dp1 ln Normal 1 (rowl [0; 1]) 2 = Raise ValueError /\
  dl2_dpp ln tg0 Gamma 1 (rowl [1; 1]) 1 1 = Raise ValueError /\
  dl2_dpp ln tg0 Gamma 1 (rowl [1; 1]) 1 0 = Ok (Some 0) /\
  dl2_dpp ln tg0 InverseGaussian 1 (rowl [1; 1]) 0 17 = Ok (Some 0).
Proof. repeat split. Qed.

(** C69. *)
Theorem C69_initial_values : forall fit_t fit_jsu gamlss d ys y,
  (d = StudentT -> 0 < snd (fit_t ys) /\ 0 < fst (fst (fit_t ys))) ->
  (d = JSU -> gamlss = false -> 0 < snd (fit_jsu ys) /\ 0 < snd (fst (fst (fit_jsu ys)))) ->
  good_sample d ys ->
  exists th, finite_row d (initial_values fit_t fit_jsu gamlss d ys y) th /\ valid_theta d th.
Proof. exact C69_lemma. Qed.
Print Assumptions C69_initial_values.
Theorem C69_constant_sample : forall fit_t fit_jsu gamlss d c n y,
  In d [Normal; Logistic; Gumbel; ReverseGumbel] -> (2 <= n)%nat ->
  exists a, initial_values fit_t fit_jsu gamlss d (repeat c n) y = [a; Some 0].
Proof. exact C69_constant_lemma. Qed.
Print Assumptions C69_constant_sample.
Theorem C69_reverse_gumbel : forall fit_t fit_jsu gamlss ys y mu sigma,
  0 < sigma ->
  np_mean ys = Some (mu + 5772157 / 10000000 * sigma) ->
  np_std 0 ys = Some (PI * sigma / sqrt 6) ->
  initial_values fit_t fit_jsu gamlss ReverseGumbel ys y =
    [Some (mu + 2 * (5772157 / 10000000) * sigma); Some sigma].
Proof. exact C69_reverse_gumbel_lemma. Qed.
Print Assumptions C69_reverse_gumbel.
Theorem C69_logistic : forall fit_t fit_jsu gamlss ys y mu sigma,
  0 < sigma ->
  np_mean ys = Some mu -> np_std 1 ys = Some (PI * sigma / sqrt 3) ->
  initial_values fit_t fit_jsu gamlss Logistic ys y = [Some mu; Some (sqrt PI * sigma)].
Proof. exact C69_logistic_lemma. Qed.
Print Assumptions C69_logistic.
Example C69_example : good_sample ZeroAdjustedGamma [0; 4] /\ good_sample Normal [1; 3] /\
  np_mean [0; 4] = Some 2 /\ np_var 1 [1; 3] = Some 2 /\ np_median [3; 1; 2] = Some 2.
Proof.
  split; [|split; [|split; [|split]]].
  - split; [discriminate|]. split; [repeat constructor; lra|]. exists 4. split; [cbn; auto|lra].
  - split; [discriminate|]. split; [repeat constructor|]. exists 1, 3. cbn. repeat split; auto. lra.
  - unfold np_mean, total. cbn [fold_right length INR]. rewrite npdiv_some by lra. f_equal. field.
  - unfold np_var, np_mean, total. cbn [fold_right length INR map Nat.leb Nat.sub].
    rewrite npdiv_some by lra. cbn [obind]. rewrite npdiv_some by (cbn; lra). f_equal. field.
  - unfold np_median, sorted. cbn [length fold_right insert]. decide_tests. cbn [insert].
    decide_tests. cbn [Nat.sub Nat.div Nat.divmod fst nth]. f_equal. field.
Qed.

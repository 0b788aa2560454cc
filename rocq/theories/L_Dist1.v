(** Scores are derivatives of the log density. *)
From Coq Require Import Reals List Lra Lia Bool ZArith.
From Coquelicot Require Import Coquelicot.
From Verif Require Import Base M_Links S_Links L_Links L_Links2 M_DistTable M_Dist S_Dist.
Import ListNotations.
Open Scope R_scope.

Lemma loc_true x : locally x (fun _ : R => True).
Proof. now exists (mkposreal 1 Rlt_0_1). Qed.

Ltac pcases p Hp :=
  destruct p as [|[|[|[|p]]]];
  cbn [n_params parameter_support length] in Hp; try (exfalso; lia).

Ltac upds := cbn [upd Nat.eqb] in *.

(** Admissible parameters form an open set in every coordinate. *)
Lemma valid_open d th p :
  valid_theta d th -> (p < n_params d)%nat ->
  locally (th p) (fun v => valid_theta d (upd th p v)).
Proof.
  intros H Hp.
  destruct d; pcases p Hp; unfold valid_theta in *; upds;
    repeat match goal with H : _ /\ _ |- _ => destruct H end;
    repeat apply filter_and;
    first [ now apply loc_gt | now apply loc_lt | now apply filter_forall ].
Qed.

Lemma valid_upd_id d th p : valid_theta d (upd th p (th p)) <-> valid_theta d th.
Proof.
  destruct p as [|[|[|[|p]]]]; destruct d; unfold valid_theta; upds; tauto.
Qed.

Definition scipy_ok (d : dist) (y : R) (th : theta) : bool :=
  let '(f, loc, scale) := scipy_params d th in
  Rltb 0 scale && shapes_ok f && family_support f ((y - loc) / scale).

Lemma sq_pos x : 0 < x -> 0 < x ^ 2.
Proof. intros. nra. Qed.
Lemma beta_a_pos m s : 0 < m < 1 -> 0 < s < 1 -> 0 < beta_a m s.
Proof.
  intros. unfold beta_a. apply Rdiv_lt_0_compat; [|nra].
  apply Rmult_lt_0_compat; nra.
Qed.
Lemma beta_b_pos m s : 0 < m < 1 -> 0 < s < 1 -> 0 < beta_b m s.
Proof.
  intros. unfold beta_b. apply Rdiv_lt_0_compat; [|nra].
  apply Rmult_lt_0_compat; nra.
Qed.

(** Observations handled by the continuous part. *)
Definition y_cont (d : dist) (y : R) : Prop :=
  match d with
  | BetaInflated | BetaInflatedZero => 0 < y < 1
  | ZeroAdjustedGamma => 0 < y
  | _ => y_support d y
  end.

Lemma div_pos a b : 0 < a -> 0 < b -> 0 < a / b.
Proof. intros. now apply Rdiv_lt_0_compat. Qed.

Lemma valid_scipy_ok d y th : valid_theta d th -> y_cont d y -> scipy_ok d y th = true.
Proof.
  intros Hv Hy. unfold scipy_ok.
  destruct d; unfold valid_theta, y_cont, y_support in *;
    cbn [scipy_params shapes_ok family_support];
    repeat match goal with H : _ /\ _ |- _ => destruct H end;
    repeat (apply andb_true_intro; split); try reflexivity;
    try (apply Rltb_true); try (apply Rleb_true); try assumption;
    unfold Rdiv; rewrite ?Rminus_0_r, ?Rinv_1, ?Rmult_1_r; fold (Rdiv y);
    try lra;
    try (apply sqrt_lt_R0; assumption); try (apply robust_exp_pos);
    try (apply beta_a_pos; lra); try (apply beta_b_pos; lra);
    repeat (first [ assumption | apply Rmult_lt_0_compat | apply Rinv_0_lt_compat
                  | apply sq_pos | apply robust_exp_pos | lra | nra ]).
  apply Rmult_le_pos; [assumption|]. left. now apply Rinv_0_lt_compat.
Qed.

Ltac pos := repeat first [ assumption | lra | apply Rmult_lt_0_compat
  | apply Rinv_0_lt_compat | apply Rdiv_lt_0_compat | apply exp_pos | apply pow_lt
  | apply Rplus_lt_0_compat | apply sq_pos ].
(** Side conditions of auto_derive and field. *)
Ltac nz := repeat match goal with |- _ /\ _ => split end;
  first [ exact I | lra | solve [pos] | (apply Rgt_not_eq; solve [pos]) | nra ].

Definition g_scipy (lgam : R -> R) (d : dist) (y : R) (th : theta) : R :=
  let '(f, loc, scale) := scipy_params d th in
  std_logpdf lgam f ((y - loc) / scale) - ln scale.

Ltac start := unfold g_scipy; cbn [scipy_params std_logpdf upd Nat.eqb].

Section Scores.
Variables lgam dg : R -> R.
Local Notation g_scipy := (g_scipy lgam).

Lemma scipy_value d y th :
  valid_theta d th -> y_cont d y -> scipy_logpdf_of lgam d y th = Some (g_scipy d y th).
Proof.
  intros Hv Hy. pose proof (valid_scipy_ok d y th Hv Hy) as H.
  unfold scipy_ok in H. unfold scipy_logpdf_of, g_scipy, scipy_logpdf.
  destruct (scipy_params d th) as [[f loc] scale]. now rewrite H.
Qed.

Lemma hd_scipy d y th p s :
  valid_theta d th -> (p < n_params d)%nat -> y_cont d y ->
  is_derive (fun v => g_scipy d y (upd th p v)) (th p) s ->
  partial (scipy_logpdf_of lgam d y) th p s.
Proof.
  intros Hv Hp Hy Hd. unfold partial.
  eapply has_derivative_loc; [exact (valid_open d th p Hv Hp)| |exact Hd].
  intros v Hv'. now apply scipy_value.
Qed.

Lemma score_normal y th p :
  valid_theta Normal th -> (p < 2)%nat ->
  is_derive (fun v => g_scipy Normal y (upd th p v)) (th p) (score dg Normal y th p).
Proof.
  intros Hv Hp. cbn [valid_theta] in Hv. pcases p Hp; start; cbn [score];
  generalize dependent (th 1%nat); generalize (th 0%nat); intros m s Hs.
  - auto_derive; [lra|]. field. lra.
  - auto_derive; [repeat split; lra|]. field. lra.
Qed.

Lemma score_nmv y th p :
  valid_theta NormalMeanVariance th -> (p < 2)%nat ->
  is_derive (fun v => g_scipy NormalMeanVariance y (upd th p v)) (th p)
    (score dg NormalMeanVariance y th p).
Proof.
  intros Hv Hp. cbn [valid_theta] in Hv. pcases p Hp; start; cbn [score];
  generalize dependent (th 1%nat); generalize (th 0%nat); intros m s Hs;
  pose proof (sqrt_lt_R0 s Hs) as Hr; pose proof (sqrt_sqrt s (Rlt_le _ _ Hs)) as Hrr.
  - auto_derive; [lra|].
    generalize dependent (sqrt s). intros r Hr Hrr. rewrite <- Hrr. field. lra.
  - auto_derive; [repeat split; lra|].
    generalize dependent (sqrt s). intros r Hr Hrr. rewrite <- Hrr. field. lra.
Qed.

Lemma score_lognormal y th p :
  0 < y -> valid_theta LogNormal th -> (p < 2)%nat ->
  partial (logpdf lgam LogNormal y) th p (score dg LogNormal y th p).
Proof.
  intros Hy Hv Hp. unfold partial.
  assert (H2 : 0 < sqrt (2 * PI)) by (apply sqrt_lt_R0; pose proof PI_RGT_0; lra).
  eapply (has_derivative_loc _ (fun v => ln (1 / (y * upd th p v 1%nat * sqrt (2 * PI))) +
     - (ln y - upd th p v 0%nat) ^ 2 / (2 * upd th p v 1%nat ^ 2)));
    [exact (valid_open LogNormal th p Hv Hp)| |].
  - intros v Hv'. cbn [logpdf valid_theta] in *. cbv zeta.
    rewrite (proj2 (Rltb_true 0 y) Hy), (proj2 (Rltb_true _ _) Hv'). reflexivity.
  - cbn [valid_theta] in Hv. pcases p Hp; upds; cbn [score];
    generalize dependent (th 1%nat); generalize (th 0%nat); intros m s Hs.
    + auto_derive; [exact I|]. field. lra.
    + auto_derive; [nz|]. field. nz.
Qed.

Lemma score_lognormalmedian y th p :
  0 < y -> valid_theta LogNormalMedian th -> (p < 2)%nat ->
  is_derive (fun v => g_scipy LogNormalMedian y (upd th p v)) (th p)
    (score dg LogNormalMedian y th p).
Proof.
  intros Hy Hv Hp. cbn [valid_theta] in Hv.
  assert (H2 : 0 < sqrt (2 * PI)) by (apply sqrt_lt_R0; pose proof PI_RGT_0; lra).
  pcases p Hp; start; cbn [score];
  generalize dependent (th 1%nat); generalize dependent (th 0%nat); intros m s [Hm Hs].
  - assert (0 < (y - 0) / m) by (rewrite Rminus_0_r; now apply div_pos).
    rewrite Rminus_0_r in H. auto_derive; rewrite ?Rminus_0_r; [nz|].
    replace (y + - 0) with y by ring. replace (ln (y * / m)) with (ln y - ln m).
    field. nz. symmetry. now apply ln_div.
  - assert (0 < (y - 0) / m) by (rewrite Rminus_0_r; now apply div_pos).
    replace (ln y - ln m) with (ln ((y - 0) / m)) by (rewrite Rminus_0_r; now apply ln_div).
    generalize dependent ((y - 0) / m). intros x Hx.
    auto_derive; [nz|]. field. nz.
Qed.

Lemma score_logistic y th p :
  valid_theta Logistic th -> (p < 2)%nat ->
  is_derive (fun v => g_scipy Logistic y (upd th p v)) (th p) (score dg Logistic y th p).
Proof.
  intros Hv Hp. cbn [valid_theta] in Hv. pcases p Hp; start; cbn [score]; cbv zeta;
  generalize dependent (th 1%nat); generalize (th 0%nat); intros m s Hs;
  pose proof (exp_pos ((y - m) / s)) as He; pose proof (exp_pos (- ((y - m) / s))) as He';
  pose proof (exp_Ropp ((y - m) / s)) as Hee;
  (auto_derive; [repeat split; try lra;
     change (0 < 1 + exp (- ((y - m) / s))); lra|]);
  change (y + - m) with (y - m); change ((y - m) * / s) with ((y - m) / s); rewrite Hee; field; repeat split; lra.
Qed.

Lemma score_gumbel y th p :
  valid_theta Gumbel th -> (p < 2)%nat ->
  is_derive (fun v => g_scipy Gumbel y (upd th p v)) (th p) (score dg Gumbel y th p).
Proof.
  intros Hv Hp. cbn [valid_theta] in Hv. pcases p Hp; start; cbn [score]; cbv zeta;
  generalize dependent (th 1%nat); generalize (th 0%nat); intros m s Hs;
  (auto_derive; [repeat split; lra|]);
  change (y + - m) with (y - m); change ((y - m) * / s) with ((y - m) / s); generalize (exp ((y - m) / s)); intros e;
  field; lra.
Qed.

Lemma score_reversegumbel y th p :
  valid_theta ReverseGumbel th -> (p < 2)%nat ->
  is_derive (fun v => g_scipy ReverseGumbel y (upd th p v)) (th p) (score dg ReverseGumbel y th p).
Proof.
  intros Hv Hp. cbn [valid_theta] in Hv. pcases p Hp; start; cbn [score]; cbv zeta;
  generalize dependent (th 1%nat); generalize (th 0%nat); intros m s Hs;
  (auto_derive; [repeat split; lra|]);
  change (y + - m) with (y - m); change ((y - m) * / s) with ((y - m) / s); generalize (exp (- ((y - m) / s))); intros e;
  field; lra.
Qed.

Lemma score_exponential y th p :
  valid_theta Exponential th -> (p < 1)%nat ->
  is_derive (fun v => g_scipy Exponential y (upd th p v)) (th p) (score dg Exponential y th p).
Proof.
  intros Hv Hp. cbn [valid_theta] in Hv. pcases p Hp; start; cbn [score];
  generalize dependent (th 0%nat); intros m Hm.
  auto_derive; [repeat split; lra|]. field. lra.
Qed.

End Scores.

(** C115: iterations of the inner loop and the log-likelihood. *)
From Coq Require Import Reals List Bool Arith Lra Lia.
From Coquelicot Require Import Coquelicot.
From Verif Require Import Base Lin S_Gram M_OLS M_Links S_Links M_DistTable M_Dist S_Dist M_State M_LM M_GAMLSS M_GAMDist S_Newton L_GAMEx L_GAMEx3 L_FittedEx L_Newton L_NewtonEx.
Import ListNotations.
Open Scope R_scope.

(** An iteration of [fit] from the coefficients [b] (least squares, shipped distribution):
    it returns [b] exactly at the stationary points of the log-likelihood, and elsewhere
    the log-likelihood rises from [b] towards its result. *)
Theorem C115_direction inv (e : env unit) lgam dg tg ft fj gi pf cd D links p io it step dvo fv pth s s' q b : matinv_spec inv ->
  o_dist (e_cfg e) = shipped lgam dg tg ft fj gi pf cd D links -> is_digamma lgam dg ->
  length (e_w e) = length (e_y e) -> List.Forall (fun a => 0 <= a) (e_w e) ->
  (p < n_params D)%nat -> 0 <= p_forget (e_prep e) p < 1 ->
  fit_candidate (ols_ops inv) e p io it step dvo fv pth s = (s', Ok q) ->
  length fv = length (e_y e) -> length (snd (e_X e p)) = length (e_y e) ->
  let k := fst (e_X e p) in let l := nth p links Identity in
  from_coefs D l p k (snd (e_X e p)) fv (e_y e) b ->
  exists sl : vec -> R,
    (forall v, slope (loglik lgam D l p (1 - p_forget (e_prep e) p) k (snd (e_X e p)) fv (e_w e) (e_y e)) b v (sl v)) /\
    (eqv k (c_beta q) b <-> forall v, sl v = 0) /\
    (~ eqv k (c_beta q) b -> 0 < sl (fun j => c_beta q j - b j)).
Proof.
  exact (fun Hi Hd Hg Hl Hw => step_slopes inv e lgam dg tg ft fj gi pf cd D links Hi Hd Hg Hl Hw p io it step dvo fv pth s s' q b).
Qed.
Print Assumptions C115_direction.

(** Without forgetting every iteration with a small enough step size lowers the deviance,
    unless it stands still. *)
Theorem C115_small_steps inv (e : env unit) lgam dg tg ft fj gi pf cd D links p io it step dvo fv pth s s' q b dv : matinv_spec inv ->
  o_dist (e_cfg e) = shipped lgam dg tg ft fj gi pf cd D links -> is_digamma lgam dg ->
  length (e_w e) = length (e_y e) -> List.Forall (fun a => 0 <= a) (e_w e) ->
  (p < n_params D)%nat -> p_forget (e_prep e) p = 0 ->
  fit_candidate (ols_ops inv) e p io it step dvo fv pth s = (s', Ok q) ->
  length fv = length (e_y e) -> length (snd (e_X e p)) = length (e_y e) ->
  from_coefs D (nth p links Identity) p (fst (e_X e p)) (snd (e_X e p)) fv (e_y e) b ->
  deviance e fv = Ok dv -> ~ eqv (fst (e_X e p)) (c_beta q) b ->
  exists delta, 0 < delta /\ forall io' it' step' dvo' pth' t t' q', 0 < step' < delta -> w_fv t = fv ->
    fit_candidate (ols_ops inv) e p io' it' step' dvo' fv pth' t = (t', Ok q') -> c_dv q' < dv.
Proof.
  exact (fun Hi Hd Hg Hl Hw => uphill_lemma inv e lgam dg tg ft fj gi pf cd D links Hi Hd Hg Hl Hw p io it step dvo fv pth s s' q b dv).
Qed.
Print Assumptions C115_small_steps.

(** The working weight of a row: minus the expected second derivative of the log density
    in the parameter that is being estimated, times the squared derivative of the inverse
    link, within the limits ... *)
Theorem C115_weights {M} (e : env M) lgam dg tg ft fj gi pf cd D links u p fv eta g i :
  o_dist (e_cfg e) = shipped lgam dg tg ft fj gi pf cd D links ->
  working e u p fv = Ok (eta, g) -> length fv = length (e_y e) -> (i < length (e_y e))%nat ->
  let th := nth i fv (fun _ => 0) in
  is_digamma lgam dg -> is_trigamma dg tg -> exact_hessian D = true -> (p < n_params D)%nat -> valid_theta D th -> unclipped tg D th p ->
  (forall z, ~ inflated_point D z p) ->
  exists (h : R -> R) (c : R),
    (forall y, y_support D y -> partial2 (logpdf lgam D y) th p p (h y)) /\
    (forall E, expectation (y_support D) E -> has_moments E (moments dg D th) -> E h c) /\
    nth i (g_wt g) 0 = Rmin (10 ^ 10) (Rmax (if u then - 10 ^ 10 else 1 / 10 ^ 10) (- c * (link_inv_d (nth p links Identity) (nth i eta 0)) ^ 2)).
Proof. exact (fun Hd => expected_weight_lemma e lgam dg tg ft fj gi pf cd D links Hd u p fv eta g i). Qed.
Print Assumptions C115_weights.

(** ... and for Johnson's SU distribution the squared derivative in the predictor. *)
Theorem C115_weights_jsu {M} (e : env M) lgam dg tg ft fj gi pf cd links u p fv eta g i :
  o_dist (e_cfg e) = shipped lgam dg tg ft fj gi pf cd JSU links ->
  working e u p fv = Ok (eta, g) -> length fv = length (e_y e) -> (i < length (e_y e))%nat ->
  let th := nth i fv (fun _ => 0) in (p < 4)%nat -> valid_theta JSU th ->
  exists s, partial (logpdf lgam JSU (nth i (e_y e) 0)) th p s /\
    nth i (g_wt g) 0 = Rmin (10 ^ 10) (Rmax (if u then - 10 ^ 10 else 1 / 10 ^ 10) ((s * link_inv_d (nth p links Identity) (nth i eta 0)) ^ 2)).
Proof.
  exact (fun Hd H Hl Hi => jsu_weight_lemma e lgam dg tg ft fj gi pf cd JSU links Hd u p fv eta g i H Hl Hi eq_refl).
Qed.
Print Assumptions C115_weights_jsu.

(** Exponential distribution, observations 1/2 and 3/2 with weights 1 and 3 at mean 1: the
    log-likelihood rises with slope 1, the iteration returns 5/4, and the deviance falls. *)
Example C115_example : exists s s' q, w_fv s = half_start /\
  fit_candidate (ols_ops ex_inv) (half_env 1) 0 1 0 1 (half_dev 1) half_start None s = (s', Ok q) /\ (forall i, c_beta q i = 5 / 4) /\
  from_coefs Exponential Identity 0 (fst (e_X (half_env 1) 0)) (snd (e_X (half_env 1) 0)) half_start (e_y (half_env 1)) (fun _ => 1) /\
  slope (loglik (fun _ => 0) Exponential Identity 0 1 1 (snd (e_X (half_env 1) 0)) half_start (e_w (half_env 1)) (e_y (half_env 1))) (fun _ => 1) (fun _ => 1) 1 /\
  deviance (half_env 1) half_start = Ok (half_dev 1) /\ c_dv q < half_dev 1.
Proof.
  destruct (half_candidate 1 ltac:(lra)) as (s & s' & q & H1 & H2 & H3 & H4). exists s, s', q.
  split; [exact H2|]. split; [exact H1|]. split; [exact H3|]. split; [apply half_from_coefs|]. split; [apply half_slope|].
  split; [apply half_deviance; [lra|reflexivity|reflexivity]|]. rewrite H4. replace (1 + 1 / 4) with (5 / 4) by lra. exact half_dev_first.
Qed.
(** Normal distribution at mean 0 and standard deviation 1: weights 1 for the mean and 2 for
    the logarithm of the standard deviation. *)
Example C115_weights_example : exists eta0 g0 eta1 g1,
  working n_env false 0 n_start = Ok (eta0, g0) /\ working n_env false 1 n_start = Ok (eta1, g1) /\ g_wt g0 = [1; 1] /\ g_wt g1 = [2; 2].
Proof. exact n_weights. Qed.

(** C112: the order of the rows of a batch in distributional regression. *)
From Coq Require Import Reals List Bool Arith Permutation Lra Lia.
From Verif Require Import Base Lin Data M_Gram M_OLS M_CD M_Path M_Ridge M_Scaler M_Utils M_Links M_DistTable M_Dist M_Init M_State M_LM M_Equation M_GAMLSS M_GAMDist.
From Verif Require Import S_LM S_Rows S_Units S_Order L_GAMEx L_FittedEx L_Order4 L_OrderEx.
Import ListNotations.
Open Scope R_scope.

(** Without forgetting, reordering the rows of every batch changes nothing that was learned
    and no prediction: every distribution with exchangeable start values, ridge, elastic net
    and lasso, any sequence of [fit] and [update]. *)
Theorem C112_history : forall M (ops : method_ops M) c b bs b' bs' s, keeps_gramian ops ->
  never_forgets c -> o_cond_start c = false -> exchangeable_start (o_dist c) ->
  Forall2 reordered (b :: bs) (b' :: bs') -> Forall (fun d => weights_nonneg (b_rows d)) (b :: bs) -> Forall (selection_ok ops c) bs ->
  gam_history ops c (b :: bs) new_gam = Ok s ->
  exists s', gam_history ops c (b' :: bs') new_gam = Ok s' /\ learned_same s s' /\
    forall r p X, snd (predict_parameters c r p X s') = snd (predict_parameters c r p X s).
Proof. exact @C112_history_lemma. Qed.
Print Assumptions C112_history.
(** OLS: the first fit (its updates go through the inverse row by row). *)
Theorem C112_ols_fit : forall inv c b b' s, never_forgets c -> o_cond_start c = false -> exchangeable_start (o_dist c) ->
  reordered b b' -> weights_nonneg (b_rows b) -> gam_history (ols_ops inv) c [b] new_gam = Ok s ->
  exists s', gam_history (ols_ops inv) c [b'] new_gam = Ok s' /\ learned_same s s' /\
    forall r p X, snd (predict_parameters c r p X s') = snd (predict_parameters c r p X s).
Proof. exact C112_ols_fit_lemma. Qed.
Print Assumptions C112_ols_fit.
(** The methods that the first theorem is about, and when the other conditions hold: scipy's
    fits (Student t, Johnson SU) are assumed not to look at the order of the responses. *)
Theorem C112_methods : (forall inv perms, keeps_gramian (ridge_ops inv perms)) /\ (forall perms, keeps_gramian (en_ops perms)).
Proof. split; intros; split; reflexivity. Qed.
Print Assumptions C112_methods.
Theorem C112_shipped : forall lgam dg tg ft fj gi pf cd D links,
  (forall a b, Permutation a b -> ft a = ft b) -> (forall a b, Permutation a b -> fj a = fj b) ->
  exchangeable_start (shipped lgam dg tg ft fj gi pf cd D links).
Proof. exact shipped_exchangeable. Qed.
Print Assumptions C112_shipped.
Theorem C112_default_forget : forall M (c : gam_cfg M), o_forget c = Scalar 0 -> never_forgets c.
Proof. exact @scalar_never_forgets. Qed.
Print Assumptions C112_default_forget.
(** The running mean of the working weights, by which residual sums are divided for model
    selection: positive as long as the weight seen is no less than the rows of the batch, ... *)
Theorem C112_denominator : forall l a n, 0 < a -> Forall (fun v => 0 < v) l -> INR (length l) <= n -> 0 < online_mean_update a l 0 n.
Proof. exact C112_denominator_ok_lemma. Qed.
Print Assumptions C112_denominator.
(** ... but with small sample weights it can be a negative number. *)
Theorem C112_small_weights : forall n v, 0 < n < 1 -> 0 < v -> exists a, 0 < a /\ online_mean_update a [v] 0 n < 0.
Proof. exact C112_denominator_lemma. Qed.
Print Assumptions C112_small_weights.

(** Ridge, exponential distribution: rows 1/2, 3/2 in a fit and in an update, and turned
    around in both. *)
Definition turned : batch := mk_batch 1 [ex_row (3 / 2); ex_row (1 / 2)].
Lemma turned_reordered : reordered ex_b0 turned.
Proof. split; [reflexivity|]. cbn. constructor. Qed.
Lemma ex_nonneg : weights_nonneg (b_rows ex_b0).
Proof. repeat constructor; cbn; lra. Qed.
Lemma ex_start : exchangeable_start ex_dist.
Proof. apply shipped_exchangeable; reflexivity. Qed.
Example C112_example : ex_b0 <> turned /\ exists s s', gam_history rx_ops rx_cfg [ex_b0; ex_b0] new_gam = Ok s /\
  gam_history rx_ops rx_cfg [turned; turned] new_gam = Ok s' /\ learned_same s s' /\ rx_state 4 8 1 s.
Proof.
  split.
  { intros H. assert (E : 1 / 2 = 3 / 2) by (pose proof (f_equal (fun b => oy (nth 0 (b_rows b) (ex_row 0))) H) as K; exact K). lra. }
  destruct rx_fit as (s0 & F & S0). destruct (rx_update 2 4 1 s0 ltac:(lra) S0) as (s & U & S1).
  replace (2 + 2) with 4 in S1 by lra. replace (4 + 4) with 8 in S1 by lra.
  assert (H : gam_history rx_ops rx_cfg [ex_b0; ex_b0] new_gam = Ok s).
  { cbn [gam_history]. unfold gpartial_fit at 1. cbn [gis_fitted s_nobs new_gam]. rewrite F.
    unfold gpartial_fit. destruct S0 as (w & nt & _ & ->). cbn [gis_fitted s_nobs]. rewrite U. reflexivity. }
  destruct (C112_history _ rx_ops rx_cfg ex_b0 [ex_b0] turned [turned] s) as (s' & H' & L & _).
  - apply C112_methods.
  - apply C112_default_forget. reflexivity.
  - reflexivity.
  - exact ex_start.
  - repeat constructor.
  - constructor; [exact ex_nonneg|]. constructor; [exact ex_nonneg|constructor].
  - constructor; [left; reflexivity|constructor].
  - exact H.
  - exists s, s'. auto.
Qed.
Example C112_ols_example : exists s s', gam_history ex_ops ex_cfg [ex_b0] new_gam = Ok s /\
  gam_history ex_ops ex_cfg [turned] new_gam = Ok s' /\ learned_same s s' /\ ex_state 2 4 1 s.
Proof.
  destruct ex_fit as (s & F & S0).
  assert (H : gam_history ex_ops ex_cfg [ex_b0] new_gam = Ok s).
  { cbn [gam_history]. unfold gpartial_fit at 1. cbn [gis_fitted s_nobs new_gam]. rewrite F. reflexivity. }
  destruct (C112_ols_fit ex_inv ex_cfg ex_b0 turned s) as (s' & H' & L & _).
  - apply C112_default_forget. reflexivity.
  - reflexivity.
  - exact ex_start.
  - exact turned_reordered.
  - exact ex_nonneg.
  - exact H.
  - exists s, s'. auto.
Qed.
(** Weights of 1/4 each: two rows before, working weight 3 then; a new row of working weight
    1/3 gives the denominator -5/9. *)
Example C112_small_example : online_mean_update 3 [1 / 3] 0 (3 / 4) = - 5 / 9.
Proof. cbn [online_mean_update length INR]. unfold online_mean_update1. rewrite Rmult_0_l. unfold Rltb. destruct (Rlt_dec 0 0); [lra|]. field. Qed.

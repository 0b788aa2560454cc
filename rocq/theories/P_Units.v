(** Properties C95-C97: units of the covariates, a second fit, predictions row by row. *)
From Coq Require Import Reals List Bool Arith Lra Lia.
From Verif Require Import Base Lin Data M_Gram S_Gram M_Scaler S_Scaler M_OLS M_Utils M_State M_LM S_LM M_Equation M_GAMLSS S_GAMLSS S_Units L_Units L_Units2.
From Verif Require Import L_LM4 P_LM L_GAM2 L_GAM6 L_GAMEx.
Import ListNotations.
Open Scope R_scope.

(** C95. The units of scaled covariates do not matter. *)
Theorem C95_linear_model : forall {M} (ops : method_ops M) c a b d ds s,
  0 <= c_forget c < 1 -> change_of_units (c_scale c) (b_p d) a b -> scaled_columns_vary (c_scale c) d ->
  Forall (fun e => weights_nonneg (b_rows e)) (d :: ds) ->
  lm_history ops c (d :: ds) new_lm = Ok s ->
  exists s', lm_history ops c (map (rescale_batch a b) (d :: ds)) new_lm = Ok s' /\
    a_coef s' = a_coef s /\ a_path s' = a_path s /\
    forall p X, snd (lm_predict c p (map (rescale a b) X) s') = snd (lm_predict c p X s) /\
                snd (lm_predict_path c p (map (rescale a b) X) s') = snd (lm_predict_path c p X s).
Proof. exact @C95_lm_lemma. Qed.
Print Assumptions C95_linear_model.
Theorem C95_distributional : forall {M} (ops : method_ops M) c a b d ds s,
  (forall pr, s_prep s = Some pr -> 0 <= p_forget pr O < 1) ->
  change_of_units (o_scale c) (b_p d) a b -> scaled_columns_vary (o_scale c) d ->
  Forall (fun e => weights_nonneg (b_rows e)) (d :: ds) ->
  gam_history ops c (d :: ds) new_gam = Ok s ->
  exists s', gam_history ops c (map (rescale_batch a b) (d :: ds)) new_gam = Ok s' /\
    s_work s' = s_work s /\ s_dev s' = s_dev s /\
    forall r p X, snd (predict_parameters c r p (map (rescale a b) X) s') = snd (predict_parameters c r p X s).
Proof. exact @C95_gam_lemma. Qed.
Print Assumptions C95_distributional.
(** Degrees Celsius and Fahrenheit: a fit and an update with one scaled column. *)
Definition fahrenheit_a : vec := fun j => match j with O => 9 / 5 | _ => 1 end.
Definition fahrenheit_b : vec := fun j => match j with O => 32 | _ => 0 end.
Example C95_example : forall inv, matinv_spec inv ->
  exists s s', lm_history (ols_ops inv) w48_c [w48_b0; w48_b1] new_lm = Ok s /\
    lm_history (ols_ops inv) w48_c (map (rescale_batch fahrenheit_a fahrenheit_b) [w48_b0; w48_b1]) new_lm = Ok s' /\
    a_coef s' = a_coef s /\
    snd (lm_predict w48_c 1 [fun _ => 1] s) = snd (lm_predict w48_c 1 [rescale fahrenheit_a fahrenheit_b (fun _ => 1)] s').
Proof.
  intros inv HI. destruct (C48_scaling_breaks_equality inv HI) as (s & _ & Hh & _).
  destruct (C95_linear_model (ols_ops inv) w48_c fahrenheit_a fahrenheit_b w48_b0 [w48_b1] s) as (s' & E & E1 & _ & E2).
  - cbn; lra.
  - split; [intros [|j]; cbn; lra|]. intros [|j] Hj; [destruct Hj; cbn; lia|cbn; auto].
  - intros [|j] Hj; [|cbn in Hj; lia]. exists (row1 (-1) (-1)), (row1 1 1). cbn. repeat split; auto; lra.
  - repeat constructor; cbn; lra.
  - exact Hh.
  - exists s, s'. repeat (split; [assumption|]). symmetry. apply (E2 1%nat [fun _ => 1]).
Qed.

(** C96. A second fit starts from scratch. *)
Theorem C96_distributional : forall {M} (ops : method_ops M) c b s s' s0,
  gam_fit ops c b s = (s', Ok tt) -> gam_fit ops c b s0 = (s', Ok tt).
Proof. exact @C96_gam_ok_lemma. Qed.
Print Assumptions C96_distributional.
Theorem C96_same_outcome : forall {M} (ops : method_ops M) c c' b (s s0 : lm M) (g g0 : gam M),
  snd (lm_fit ops c b s0) = snd (lm_fit ops c b s) /\ snd (gam_fit ops c' b g0) = snd (gam_fit ops c' b g).
Proof. exact @C96_outcome_lemma. Qed.
Print Assumptions C96_same_outcome.
(** Fit, update, fit again: the update has left no trace. *)
Example C96_example : exists s1 s2, gam_fit ex_ops ex_cfg ex_b0 new_gam = (s1, Ok tt) /\
    gam_update ex_ops ex_cfg ex_b1 s1 = (s2, Ok tt) /\ s_nobs s2 = Some 3 /\ s_nobs s1 = Some 2 /\
    gam_fit ex_ops ex_cfg ex_b0 s2 = (s1, Ok tt).
Proof.
  destruct ex_fit as (s1 & E1 & S1). destruct (ex_update 2 4 1 s1 ltac:(lra) S1) as (s2 & E2 & S2).
  exists s1, s2. split; [exact E1|]. split; [exact E2|].
  destruct S2 as (w2 & nt2 & _ & ->). destruct S1 as (w1 & nt1 & _ & ->). cbn [s_nobs].
  split; [f_equal; lra|]. split; [reflexivity|]. exact (C96_distributional _ _ _ _ _ _ E1).
Qed.

(** C97. The prediction for a row does not depend on the other rows. *)
Theorem C97_linear_model : forall {M} (c : lm_cfg M) p s X out, X <> [] ->
  (snd (lm_predict c p X s) = Ok out <-> Forall2 (fun x o => snd (lm_predict c p [x] s) = Ok [o]) X out).
Proof. exact @C97_lm_lemma. Qed.
Print Assumptions C97_linear_model.
Theorem C97_distributional : forall {M} (c : gam_cfg M) r p s X out, X <> [] ->
  (snd (predict_parameters c r p X s) = Ok out <-> Forall2 (fun x o => snd (predict_parameters c r p [x] s) = Ok [o]) X out).
Proof. exact @C97_gam_lemma. Qed.
Print Assumptions C97_distributional.
Theorem C97_exceptions : forall {M} (c : lm_cfg M) (c' : gam_cfg M) p s r g X x e, In x X ->
  (snd (lm_predict c p X s) = Raise e <-> snd (lm_predict c p [x] s) = Raise e) /\
    (snd (predict_parameters c' r p X g) = Raise e <-> snd (predict_parameters c' r p [x] g) = Raise e).
Proof. exact @C97_raise_lemma. Qed.
Print Assumptions C97_exceptions.
Example C97_example : forall inv, matinv_spec inv -> exists s,
  lm_history (ols_ops inv) ex47_c [ex47_b0; ex47_b1] new_lm = Ok s /\
    snd (lm_predict ex47_c 1 [fun _ => 3; fun _ => 3] s) = Ok [114 / 7; 114 / 7].
Proof.
  intros inv HI. destruct (C47_example inv HI) as (s & E & P). exists s. split; [exact E|].
  apply C97_linear_model; [discriminate|]. repeat constructor; exact P.
Qed.

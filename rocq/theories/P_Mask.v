(** C133: masking a row with weight zero. *)
From Coq Require Import Reals List.
From Verif Require Import Base Lin Data M_Gram S_Gram M_OLS M_CD M_Path M_Ridge M_Scaler M_Utils S_Utils M_State M_LM S_LM S_Learn S_Windup S_RidgeLM S_Mask L_Mask.
Import ListNotations.
Open Scope R_scope.

(** Rows of weight zero never change a prediction of least squares, whatever their features and targets
    and whatever the forgetting rate. *)
Theorem C133_unchanged : forall inv c b0 bs qs s,
  matinv_spec inv -> 0 <= c_forget c < 1 -> ols_config c -> good_calls (b_p b0) (b0 :: bs ++ qs) ->
  lm_history (ols_ops inv) c (b0 :: bs) new_lm = Ok s -> masked (stream qs) ->
  exists s', lm_history (ols_ops inv) c qs s = Ok s' /\
    forall X, X <> [] -> exists v, snd (lm_predict c (b_p b0) X s) = Ok v /\ snd (lm_predict c (b_p b0) X s') = Ok v.
Proof. exact C133_unchanged_lemma. Qed.
Print Assumptions C133_unchanged.

(** They do age what was learnt before: the error left by the next real row is bounded by
    the evidence discounted once per masked row. *)
Theorem C133_ages : forall inv c b0 bs qs b s x y w u,
  matinv_spec inv -> 0 <= c_forget c < 1 -> ols_config c -> good_calls (b_p b0) (b0 :: bs ++ qs ++ [b]) ->
  lm_history (ols_ops inv) c (b0 :: bs) new_lm = Ok s -> b_rows b = [mkobs x y w] -> masked (stream qs) ->
  exists s1 s2 v v', lm_history (ols_ops inv) c qs s = Ok s1 /\ partial_fit (ols_ops inv) c b s1 = (s2, Ok tt) /\
    snd (lm_predict c (b_p b0) [x] s) = Ok [v] /\ snd (lm_predict c (b_p b0) [x] s2) = Ok [v'] /\
    w * (dot (n_cols (c_icpt c) (b_p b0)) (ox (regressors (c_icpt c) (mkobs x y w))) u) ^ 2 * Rabs (y - v')
    <= (1 - c_forget c) ^ S (length (stream qs))
       * evidence (c_forget c) (c_icpt c) (n_cols (c_icpt c) (b_p b0)) u (stream (b0 :: bs)) * Rabs (y - v).
Proof. exact C133_ages_lemma. Qed.
Print Assumptions C133_ages.

(** After enough masked rows the next real row is reproduced to any accuracy. *)
Theorem C133_long_mask : forall inv c b0 bs s x y w eps,
  matinv_spec inv -> 0 < c_forget c < 1 -> ols_config c -> good_calls (b_p b0) (b0 :: bs) ->
  lm_history (ols_ops inv) c (b0 :: bs) new_lm = Ok s ->
  0 < w -> c_icpt c = true \/ (exists j, (j < b_p b0)%nat /\ x j <> 0) -> 0 < eps ->
  exists N, forall qs b, good_calls (b_p b0) (qs ++ [b]) -> masked (stream qs) -> (N <= length (stream qs))%nat ->
    b_rows b = [mkobs x y w] ->
    exists s1 s2 v', lm_history (ols_ops inv) c qs s = Ok s1 /\ partial_fit (ols_ops inv) c b s1 = (s2, Ok tt) /\
      snd (lm_predict c (b_p b0) [x] s2) = Ok [v'] /\ Rabs (y - v') <= eps.
Proof. exact C133_limit_lemma. Qed.
Print Assumptions C133_long_mask.

(** Hence masking a row is not the same as leaving it out. *)
Theorem C133_not_dropped : forall inv, matinv_spec inv ->
  exists s1 s2, lm_history (ols_ops inv) w133_c [w133_b0; w133_next] new_lm = Ok s1 /\
    lm_history (ols_ops inv) w133_c [w133_b0; w133_mask; w133_next] new_lm = Ok s2 /\
    snd (lm_predict w133_c 1 [fun _ => 1] s1) = Ok [4 / 7] /\
    snd (lm_predict w133_c 1 [fun _ => 1] s2) = Ok [8 / 11].
Proof. exact C133_not_dropped_lemma. Qed.
Print Assumptions C133_not_dropped.

(** Under a fixed ridge penalty masked rows do move the coefficients: that of a column disjoint from the
    others shrinks by a factor which depends only on the number of masked rows. *)
Theorem C133_ridge : forall inv perms c m b0 bs qs k,
  ridge_config c m -> first_call c m b0 -> c_icpt c = false -> orders perms (b_p b0) ->
  good_calls (b_p b0) (b0 :: bs ++ qs) -> (k < b_p b0)%nat -> disjoint_column (b_p b0) k (stream (b0 :: bs ++ qs)) ->
  masked (stream qs) ->
  exists s s' beta beta', lm_history (ridge_ops inv perms) c (b0 :: bs) new_lm = Ok s /\
    lm_history (ridge_ops inv perms) c qs s = Ok s' /\ a_coef s = Some beta /\ a_coef s' = Some beta' /\
    let g := (1 - c_forget c) ^ length (stream qs) in
    let D := column_weight (c_forget c) k (stream (b0 :: bs)) in
    let lam := penalty_of c m b0 in
    beta' k = beta k * (g * (D + lam) / (g * D + lam)) /\
    (0 < c_forget c -> qs <> [] -> beta k <> 0 -> Rabs (beta' k) < Rabs (beta k)).
Proof. exact C133_ridge_lemma. Qed.
Print Assumptions C133_ridge.

(** The counters do not see any of this: for every estimation method, masked rows leave n_observations_ as it
    was and n_training_ at the effective length of that number, whereas the Gramian is discounted. *)
Theorem C133_counters : forall M (ops : method_ops M) c qs s s' n, qs <> [] ->
  lm_history ops c qs s = Ok s' -> masked (stream qs) -> a_nobs s = Some n ->
  a_nobs s' = Some n /\ a_ntrain s' = Some (effective_training_length (c_forget c) n).
Proof. exact @C133_counts_lemma. Qed.
Print Assumptions C133_counters.

(** The witness run meets the hypotheses of [C133_unchanged]; the masked target is 50. *)
Example C133_example : forall inv, matinv_spec inv ->
  good_calls 1 ([w133_b0] ++ [w133_mask]) /\ masked (stream [w133_mask]) /\ ols_config w133_c /\
  exists s s', lm_history (ols_ops inv) w133_c [w133_b0] new_lm = Ok s /\
    lm_history (ols_ops inv) w133_c [w133_mask] s = Ok s' /\
    snd (lm_predict w133_c 1 [fun _ => 1] s) = Ok [0] /\ snd (lm_predict w133_c 1 [fun _ => 1] s') = Ok [0].
Proof. exact C133_example_lemma. Qed.

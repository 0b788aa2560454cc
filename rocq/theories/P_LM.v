(** Properties C47-C53, C71 and C72: the online linear model. *)
From Coq Require Import Reals List Bool Arith Lia Lra.
From Verif Require Import Base Lin Data M_Gram S_Gram L_Gram M_OLS L_OLS M_Scaler M_Utils S_Utils M_State M_LM S_LM
  L_LM L_LM2 L_LM3 L_LM4 L_LM5.
Import ListNotations.
Open Scope R_scope.

(** C47. Least squares without scaling: the result depends on the rows only. *)
Theorem C47_chunking : forall inv c b0 bs s0,
  matinv_spec inv -> 0 <= c_forget c < 1 -> ols_config c -> good_calls (b_p b0) (b0 :: bs) ->
  partial_fit (ols_ops inv) c b0 new_lm = (s0, Ok tt) ->
  let cols := n_cols (c_icpt c) (b_p b0) in
  exists s sb beta betab,
    lm_history (ols_ops inv) c (b0 :: bs) new_lm = Ok s /\
    lm_fit (ols_ops inv) c (mk_batch (b_p b0) (stream (b0 :: bs))) new_lm = (sb, Ok tt) /\
    a_coef s = Some beta /\ a_coef sb = Some betab /\ eqv cols beta betab /\
    a_nobs s = a_nobs sb /\ a_ntrain s = a_ntrain sb /\
    forall X, X <> [] -> snd (lm_predict c (b_p b0) X s) = snd (lm_predict c (b_p b0) X sb).
Proof. exact C47_batch_lemma. Qed.
Print Assumptions C47_chunking.
Theorem C47_least_squares : forall inv c b0 bs s0,
  matinv_spec inv -> 0 <= c_forget c < 1 -> ols_config c -> good_calls (b_p b0) (b0 :: bs) ->
  partial_fit (ols_ops inv) c b0 new_lm = (s0, Ok tt) ->
  let cols := n_cols (c_icpt c) (b_p b0) in
  let data := map (regressors (c_icpt c)) (stream (b0 :: bs)) in
  exists s beta,
    lm_history (ols_ops inv) c (b0 :: bs) new_lm = Ok s /\ a_coef s = Some beta /\
    (forall b, wls_loss cols (c_forget c) data beta <= wls_loss cols (c_forget c) data b /\
       (wls_loss cols (c_forget c) data b = wls_loss cols (c_forget c) data beta -> eqv cols b beta)) /\
    forall X, X <> [] -> snd (lm_predict c (b_p b0) X s)
      = Ok (map (fun x => dot cols (ox (regressors (c_icpt c) (mkobs x 0 0))) beta) X).
Proof. exact C47_optimal_lemma. Qed.
Print Assumptions C47_least_squares.
(** Responses 2, 2 (fit) and 8 (update) at x = 1 with forget 1/2: the prediction at 3 is
    three times the discounted mean 38/7. *)
Definition ex47_c : lm_cfg unit := mk_lmc unit (Ok tt) true (1 / 2) ScaleNone false false bic.
Definition ex47_b0 : batch := mk_batch 1 [row1 1 2; row1 1 2].
Definition ex47_b1 : batch := mk_batch 1 [row1 1 8].
Example C47_example : forall inv, matinv_spec inv -> exists s,
  lm_history (ols_ops inv) ex47_c [ex47_b0; ex47_b1] new_lm = Ok s /\
  snd (lm_predict ex47_c 1 [fun _ => 3] s) = Ok [114 / 7].
Proof.
  intros inv HI.
  assert (Wg : weights_nonneg (b_rows ex47_b0)) by (repeat constructor; cbn; lra).
  assert (Wg' : weights_nonneg (b_rows ex47_b1)) by (repeat constructor; cbn; lra).
  assert (Ex : exists o, ols_fit inv 1 (1 / 2) (map (regressors false) (b_rows ex47_b0)) = Ok o).
  { unfold ols_fit, init_inverted_gram. pose proof (proj2 HI) as HI2.
    set (l := map (regressors false) (b_rows ex47_b0)).
    destruct (HI2 1%nat (init_gram (Xs l) (ws l) (1 / 2))) as (B & ->); [|cbn [bind]; eauto].
    apply inverse_one. rewrite init_gram_spec; [|lra|].
    - unfold gram_spec. cbn. lra.
    - apply regressors_nonneg, Wg. }
  destruct Ex as (o & Ho).
  destruct (ols_lm_fit_intro inv ex47_c ex47_b0 new_lm o) as (s0 & F & _); auto; try (cbn; lia); try (cbn; lra).
  { repeat split. }
  destruct (C47_least_squares inv ex47_c ex47_b0 [ex47_b1] s0 HI) as (s & beta & E & _ & O & P); auto.
  { cbn; lra. } { repeat split. }
  { constructor; [repeat split; auto; discriminate|]. constructor; [repeat split; auto; discriminate|constructor]. }
  exists s. split; [exact E|]. refine (eq_trans (P [fun _ => 3] ltac:(discriminate)) _).
  destruct (O (fun _ => 38 / 7)) as [M1 M2].
  assert (Q : eqv 1 (fun _ => 38 / 7) beta).
  { apply M2. apply Rle_antisym; [|exact M1].
    unfold wls_loss, stream, dot; cbn. pose proof (pow2_ge_0 (beta 0%nat - 38 / 7)). nra. }
  cbn. rewrite <- (Q 0%nat) by lia. f_equal. f_equal. lra.
Qed.

(** C48. Scaling: a run of fits and updates minimises the discounted loss of the rows in
    the units of the time they came in, which is not the loss of the data in one unit. *)
Theorem C48_units_of_arrival : forall inv c tr s,
  matinv_spec inv -> 0 <= c_forget c < 1 -> run (ols_ops inv) c tr s ->
  Forall (fun x => weights_nonneg (b_rows (fst x))) tr ->
  exists beta p, a_coef s = Some beta /\ a_nfin s = Some p /\
    let cols := n_cols (c_icpt c) p in
    let data := concat (map (scaled_rows (c_icpt c)) tr) in
    forall b, wls_loss cols (c_forget c) data beta <= wls_loss cols (c_forget c) data b /\
      (wls_loss cols (c_forget c) data b = wls_loss cols (c_forget c) data beta -> eqv cols b beta).
Proof. exact C48_history_lemma. Qed.
Print Assumptions C48_units_of_arrival.
Theorem C48_scaling_breaks_equality : forall inv, matinv_spec inv -> exists s sb,
  lm_history (ols_ops inv) w48_c [w48_b0; w48_b1] new_lm = Ok s /\
  lm_fit (ols_ops inv) w48_c (mk_batch 1 (stream [w48_b0; w48_b1])) new_lm = (sb, Ok tt) /\
  snd (lm_predict w48_c 1 [fun _ => 5] s) = Ok [25 / 74] /\
  snd (lm_predict w48_c 1 [fun _ => 5] sb) = Ok [1 / 10].
Proof. exact C48_witness_lemma. Qed.
Print Assumptions C48_scaling_breaks_equality.
(** The witness is a run in the sense of the first theorem. *)
Example C48_example : forall inv, matinv_spec inv -> exists s0 s,
  run (ols_ops inv) w48_c [(w48_b0, s0); (w48_b1, s)] s.
Proof.
  intros inv HI. destruct (C48_scaling_breaks_equality inv HI) as (s & _ & H & _).
  cbn [lm_history] in H.
  destruct (partial_fit (ols_ops inv) w48_c w48_b0 new_lm) as [s0 [[]|e]] eqn:E0; [|discriminate H].
  destruct (partial_fit (ols_ops inv) w48_c w48_b1 s0) as [s1 [[]|e]] eqn:E1; [|discriminate H].
  injection H as ->. exists s0, s. apply (run_step _ _ [(w48_b0, s0)] s0); [constructor; exact E0|exact E1].
Qed.

(** C49. The sum of squares that selects the row: one discount per call, weights squared
    in [fit] and ignored in [update]. *)
Theorem C49_discount_per_call : forall M (ops : method_ops M) c tr s,
  op_path_based ops = true -> run ops c tr s ->
  exists path rss, a_path s = Some path /\ a_rss s = Some rss /\ length rss = length path /\
    forall k, (k < length rss)%nat ->
      nth k rss 0 = dsum (1 - c_forget c) (fun v => v) (contributions c k tr).
Proof. exact @C49_formula_lemma. Qed.
Print Assumptions C49_discount_per_call.
Theorem C49_plain_sum : forall M (ops : method_ops M) c tr s,
  op_path_based ops = true -> run ops c tr s -> c_forget c = 0 ->
  Forall (fun x => unit_weights (b_rows (fst x))) tr ->
  exists rss, a_rss s = Some rss /\
    forall k, (k < length rss)%nat -> nth k rss 0 = lsum (map (call_errors c false k) tr).
Proof. exact @C49_plain_lemma. Qed.
Print Assumptions C49_plain_sum.
(** The same rows, cut differently, select different coefficients. *)
Theorem C49_depends_on_chunking :
  stream [w49_b0; w49_b1; w49_b2] = stream [w49_b0; w49_b12] /\
  exists s s', lm_history (fixed_ops w49_path) w49_c [w49_b0; w49_b1; w49_b2] new_lm = Ok s /\
    lm_history (fixed_ops w49_path) w49_c [w49_b0; w49_b12] new_lm = Ok s' /\
    a_rss s = Some [19 / 8; 23 / 8] /\ a_rss s' = Some [9 / 2; 7 / 2] /\
    a_coef s = Some (fun _ => 0) /\ a_coef s' = Some (fun _ => 1).
Proof. exact C49_witness_lemma. Qed.
Print Assumptions C49_depends_on_chunking.
(** Weights all equal to [w]: the first call counts them squared, later calls not at all. *)
Theorem C49_weights : forall M (c : lm_cfg M) b s w k, 0 < w ->
  Forall (fun o => ow o = w) (b_rows b) ->
  call_errors c true k (b, s) = w ^ 2 * call_errors c false k (b, s).
Proof. exact @C49_weights_lemma. Qed.
Print Assumptions C49_weights.
(** Row 0 (the zero vector) of the path above: errors 1/2, 4 and 1/4 in the three calls. *)
Example C49_example : exists s,
  lm_history (fixed_ops w49_path) w49_c [w49_b0; w49_b1; w49_b2] new_lm = Ok s /\
  a_rss s = Some [dsum (1 / 2) (fun v => v) [1 / 2; 4; 1 / 4]; dsum (1 / 2) (fun v => v) [1 / 2; 1; 9 / 4]].
Proof.
  destruct C49_depends_on_chunking as (_ & s & _ & H & _ & R & _). exists s. split; [exact H|].
  rewrite R. cbn. f_equal. f_equal; [lra|]. f_equal. lra.
Qed.

(** C50. *)
Theorem C50_fit_selects : forall M (ops : method_ops M) c b s s',
  op_path_based ops = true -> lm_fit ops c b s = (s', Ok tt) ->
  selected_row (c_ic c) (n_cols (c_icpt c) (b_p b)) s'.
Proof. exact @C50_fit_lemma. Qed.
Print Assumptions C50_fit_selects.
Theorem C50_update_selects : forall M (ops : method_ops M) c b s s',
  op_path_based ops = true -> lm_update ops c b s = (s', Ok tt) ->
  selected_row (c_ic c) (n_cols (c_icpt c) (b_p b)) s'.
Proof. exact @C50_update_lemma. Qed.
Print Assumptions C50_update_selects.
(** Sums of squares 9/2 and 7/2 of the rows 0 and 1: the second row is taken. *)
Example C50_example : exists s,
  lm_history (fixed_ops w49_path) w49_c [w49_b0; w49_b12] new_lm = Ok s /\
  a_rss s = Some [9 / 2; 7 / 2] /\ a_coef s = Some (fun _ => 1) /\ selected_row max_ll 1 s.
Proof.
  destruct C49_depends_on_chunking as (_ & _ & s & _ & H & _ & R & _ & C).
  exists s. repeat (split; [assumption|]). cbn [lm_history] in H.
  destruct (partial_fit (fixed_ops w49_path) w49_c w49_b0 new_lm) as [s0 [[]|e]] eqn:E0; [|discriminate H].
  destruct (partial_fit (fixed_ops w49_path) w49_c w49_b12 s0) as [s1 [[]|e]] eqn:E1; [|discriminate H].
  injection H as ->.
  unfold partial_fit in E1. destruct (is_fitted s0).
  - exact (C50_update_selects _ (fixed_ops w49_path) _ _ _ _ eq_refl E1).
  - exact (C50_fit_selects _ (fixed_ops w49_path) _ _ _ _ eq_refl E1).
Qed.

(** C51. A first call that fails after validation makes every later [partial_fit] fail. *)
Theorem C51_poisoned : forall M (ops : method_ops M) c b0 s e,
  c_ic c <> aicc -> nonempty_paths ops c ->
  partial_fit ops c b0 new_lm = (s, Raise e) -> is_fitted s = true ->
  forall bs b, exists e', snd (partial_fit ops c b (partial_fits ops c bs s)) = Raise e'.
Proof. exact @C51_poisoned_lemma. Qed.
Print Assumptions C51_poisoned.
(** Exactly the failures that are not input or configuration errors do this. *)
Theorem C51_when : forall M (ops : method_ops M) c b s e,
  partial_fit ops c b new_lm = (s, Raise e) ->
  (is_fitted s = true <-> config_ok c /\ data_ok b).
Proof. exact @C51_when_lemma. Qed.
Print Assumptions C51_when.
Theorem C51_single_row : forall M (ops : method_ops M) c x y p,
  config_ok c -> (1 <= p)%nat ->
  exists s, partial_fit ops c (mk_batch p [mkobs x y 1]) new_lm = (s, Raise ValueError) /\
    is_fitted s = true.
Proof. exact @C51_one_lemma. Qed.
Print Assumptions C51_single_row.
Theorem C51_never_refits : forall M (ops : method_ops M) c b0 s,
  partial_fit ops c b0 new_lm = (s, Ok tt) ->
  forall bs b, partial_fit ops c b (partial_fits ops c bs s) = lm_update ops c b (partial_fits ops c bs s).
Proof. exact @C51_never_refits_lemma. Qed.
Print Assumptions C51_never_refits.
(** [fit] itself starts afresh. *)
Theorem C51_fit_forgets : forall M (ops : method_ops M) c b s s',
  lm_fit ops c b s = (s', Ok tt) ->
  exists s2, lm_fit ops c b new_lm = (s2, Ok tt) /\
    a_method s' = a_method s2 /\ a_scaler s' = a_scaler s2 /\ a_nfin s' = a_nfin s2 /\
    a_nobs s' = a_nobs s2 /\ a_ntrain s' = a_ntrain s2 /\ a_x s' = a_x s2 /\ a_y s' = a_y s2 /\
    a_coef s' = a_coef s2 /\
    (op_path_based ops = true -> a_path s' = a_path s2 /\ a_rss s' = a_rss s2).
Proof. exact @C51_fit_fresh_lemma. Qed.
Print Assumptions C51_fit_forgets.
(** The batch [w48_b0] can be fitted by a new object, but not after a single row. *)
Example C51_example : forall inv, matinv_spec inv ->
  (exists s, partial_fit (ols_ops inv) w48_c w48_b0 new_lm = (s, Ok tt)) /\
  (exists s e, partial_fit (ols_ops inv) w48_c (mk_batch 1 [row1 1 1]) new_lm = (s, Raise ValueError) /\
     snd (partial_fit (ols_ops inv) w48_c w48_b0 s) = Raise e).
Proof.
  intros inv HI. split.
  - destruct (C48_example inv HI) as (s0 & s & H). inversion H as [|tr s1 b s2 H1 H2 E]; subst.
    change [(w48_b0, s0); (w48_b1, s)] with ([(w48_b0, s0)] ++ [(w48_b1, s)]) in E.
    apply app_inj_tail in E. destruct E as [-> E]. inversion H1 as [b3 s3 H3 E3|tr s3 b3 s4 H3 H4 E3]; subst.
    + eauto.
    + destruct tr as [|? [|? ?]]; try discriminate E3. inversion H3; destruct tr; discriminate.
  - destruct (C51_single_row unit (ols_ops inv) w48_c (fun _ => 1) 1 1%nat) as (s & E & F).
    { split; [exists tt; reflexivity|]. intros [K _]. discriminate K. } { lia. }
    destruct (C51_poisoned unit (ols_ops inv) w48_c _ s ValueError ltac:(discriminate)
      ltac:(intros ? ? ? ? ? ? ? _ K; discriminate K) E F [] w48_b0) as (e & H).
    exists s, e. split; [exact E|exact H].
Qed.

(** C52. *)
Theorem C52_counts_failed_calls : forall M (ops : method_ops M) c b0 bs,
  config_ok c -> data_ok b0 ->
  a_nobs (partial_fits ops c (b0 :: bs) new_lm)
  = Some (total_weight (b_rows b0) + total_weight (stream (filter (acceptedb (b_p b0)) bs))).
Proof. exact @C52_counts_lemma. Qed.
Print Assumptions C52_counts_failed_calls.
Theorem C52_accounting : forall M (ops : method_ops M) c tr s,
  run ops c tr s -> 0 <= c_forget c < 1 ->
  exists nt, a_nobs s = Some (total_weight (stream (map fst tr))) /\ a_ntrain s = Some nt /\
    (c_forget c = 0 -> nt = total_weight (stream (map fst tr))) /\
    (0 < c_forget c -> nt < 1 / c_forget c) /\
    (forall k, total_weight (stream (map fst tr)) = INR k -> nt = bsum k (fun j => (1 - c_forget c) ^ j)).
Proof. exact @C52_success_lemma. Qed.
Print Assumptions C52_accounting.
(** A failing first call of weight 1, an invalid batch and a batch of weight 2: the object
    reports 3 observations although nothing was ever estimated. *)
Example C52_example : forall inv,
  let s := partial_fits (ols_ops inv) w48_c
             [mk_batch 1 [row1 1 1]; mk_batch 2 [row1 1 1]; w48_b0] new_lm in
  a_nobs s = Some 3.
Proof.
  intros inv s. unfold s. rewrite C52_counts_failed_calls.
  - cbn. unfold total_weight. cbn. f_equal. lra.
  - split; [exists tt; reflexivity|]. intros [K _]. discriminate K.
  - split; cbn; lia.
Qed.

(** C53. *)
Theorem C53_at_most_one : forall y pred v,
  length pred = length y -> r2 y pred = Some v -> v <= 1 /\ (v = 1 <-> pred = y).
Proof. exact C53_range_lemma. Qed.
Print Assumptions C53_at_most_one.
Theorem C53_mean_predictor : forall y,
  r2 y (repeat (lsum y / INR (length y)) (length y))
  = if Reqb (lsum (map (fun a => (a - lsum y / INR (length y)) ^ 2) y)) 0 then None else Some 0.
Proof. exact C53_mean_lemma. Qed.
Print Assumptions C53_mean_predictor.
Theorem C53_undefined_iff_constant : forall y pred,
  r2 y pred = None <-> exists c, y = repeat c (length y).
Proof. exact C53_undefined_lemma. Qed.
Print Assumptions C53_undefined_iff_constant.
Theorem C53_score_of_predictions : forall M (c : lm_cfg M) b s preds,
  snd (lm_predict c (b_p b) (Xs (b_rows b)) s) = Ok preds ->
  snd (lm_score c b s) = Ok (r2 (ys (b_rows b)) preds).
Proof. exact @C53_score_lemma. Qed.
Print Assumptions C53_score_of_predictions.
Theorem C53_ignores_weights : forall M (c : lm_cfg M) b w s,
  length w = length (b_rows b) ->
  lm_score c (mk_batch (b_p b) (map2 (fun o v => mkobs (ox o) (oy o) v) (b_rows b) w)) s = lm_score c b s.
Proof. exact @C53_weights_lemma. Qed.
Print Assumptions C53_ignores_weights.
Example C53_example : r2 [1; 3] [1; 2] = Some (1 / 2).
Proof.
  unfold r2. cbn [lsum map map2 length INR]. destruct (Reqb _ 0) eqn:E.
  - apply Reqb_true in E. exfalso. lra.
  - f_equal. field.
Qed.

(** C71. A failed refit spoils a fitted object: the coefficients are kept, but neither
    [predict] nor [partial_fit] works any more. *)
Theorem C71_failed_refit : forall M (ops : method_ops M) c b s,
  (exists m, c_method c = Ok m) -> is_fitted s = true -> b_rows b = [] \/ b_p b = 0%nat ->
  exists s', lm_fit ops c b s = (s', Raise ValueError) /\
    is_fitted s' = true /\ a_coef s' = a_coef s /\
    (forall p X, exists e, snd (lm_predict c p X s') = Raise e) /\
    (forall b2, exists e, snd (partial_fit ops c b2 s') = Raise e).
Proof. exact @C71_lemma. Qed.
Print Assumptions C71_failed_refit.
(** An object that predicts 25/74, and predicts nothing after a fit on no rows. *)
Example C71_example : forall inv, matinv_spec inv -> exists s s' e,
  snd (lm_predict w48_c 1 [fun _ => 5] s) = Ok [25 / 74] /\
  lm_fit (ols_ops inv) w48_c (mk_batch 1 []) s = (s', Raise ValueError) /\
  snd (lm_predict w48_c 1 [fun _ => 5] s') = Raise e.
Proof.
  intros inv HI. destruct (C48_scaling_breaks_equality inv HI) as (s & _ & H & _ & P & _).
  assert (F : is_fitted s = true).
  { cbn [lm_history] in H.
    destruct (partial_fit (ols_ops inv) w48_c w48_b0 new_lm) as [s0 [[]|e]] eqn:E0; [|discriminate H].
    destruct (partial_fit (ols_ops inv) w48_c w48_b1 s0) as [s1 [[]|e]] eqn:E1; [|discriminate H].
    injection H as ->.
    assert (R0 : run (ols_ops inv) w48_c ([(w48_b0, s0)] ++ [(w48_b1, s)]) s).
    { eapply run_step; [constructor; exact E0|exact E1]. }
    destruct (C52_accounting _ _ _ _ _ R0) as (nt & N & _); [cbn; lra|].
    unfold is_fitted. rewrite N. reflexivity. }
  destruct (C71_failed_refit _ (ols_ops inv) w48_c (mk_batch 1 []) s) as (s' & E & _ & _ & Q & _); auto.
  { exists tt; reflexivity. }
  destruct (Q 1%nat [fun _ => 5]) as (e & Qe). exists s, s', e. auto.
Qed.

(** C72. A batch that input validation rejects leaves the object as it was. *)
Theorem C72_rejected_batch : forall M (ops : method_ops M) c b s p,
  a_nfin s = Some p -> (b_p b <> p \/ b_rows b = []) ->
  lm_update ops c b s = (s, Raise ValueError).
Proof. exact @C72_lemma. Qed.
Print Assumptions C72_rejected_batch.
Example C72_example : exists s,
  lm_history (fixed_ops w49_path) w49_c [w49_b0; w49_b12] new_lm = Ok s /\
  lm_update (fixed_ops w49_path) w49_c (mk_batch 3 [row1 1 1]) s = (s, Raise ValueError) /\
  a_coef s = Some (fun _ => 1).
Proof.
  destruct C49_depends_on_chunking as (_ & _ & s & _ & H & _ & _ & _ & C).
  exists s. split; [exact H|]. split; [|exact C].
  assert (N : a_nfin s = Some 1%nat).
  { cbn [lm_history] in H.
    destruct (partial_fit (fixed_ops w49_path) w49_c w49_b0 new_lm) as [s0 [[]|e]] eqn:E0; [|discriminate H].
    destruct (partial_fit (fixed_ops w49_path) w49_c w49_b12 s0) as [s1 [[]|e]] eqn:E1; [|discriminate H].
    injection H as ->.
    assert (R0 : run (fixed_ops w49_path) w49_c ([(w49_b0, s0)] ++ [(w49_b12, s)]) s).
    { eapply run_step; [constructor; exact E0|exact E1]. }
    destruct (run_shape _ _ _ _ R0) as (b0' & s0' & tr0' & p & sc' & Et & Ep & _ & F & _).
    injection Et as <- <- <-. rewrite F. cbn in Ep. congruence. }
  apply (C72_rejected_batch _ _ _ _ _ 1%nat N). left. cbn. lia.
Qed.

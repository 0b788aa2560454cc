(** C118: what the model selection of distributional regression compares. *)
From Coq Require Import Reals List Bool Arith ZArith Lra Lia.
From Verif Require Import Base Lin Data M_Gram S_Gram M_Scaler M_Utils M_Links M_DistTable M_Dist M_State M_LM M_Equation S_Equation M_GAMLSS M_GAMDist S_GAMLSS S_GAMSelect.
From Verif Require Import L_GAMEx L_GAMEx5 L_GAM15 L_GAM18 L_GAM19 L_GAM20.
Import ListNotations.
Open Scope R_scope.

(** Residual sums: the working observations [V] of the last inner iteration, whose moments
    are stored, give the data of every candidate of the stored path. *)
Theorem C118_fit_residuals {M} (ops : method_ops M) (c : gam_cfg M) b s s' pr p :
  op_path_based ops = true -> o_global_ll c = false -> gam_fit ops c b s = (s', Ok tt) -> cycles s' <> Some O ->
  rowwise (o_dist c) -> o_cond_start c = false -> weights_nonneg (b_rows b) ->
  s_prep s' = Some pr -> (p < d_n (o_dist c))%nat -> p_forget pr p <= 1 ->
  exists V sc w path data h, s_scaler s' = Some (Some sc) /\ s_work s' = Some w /\
    List.Forall2 (working_row (o_dist c) p weight_floor pr (b_p b) sc) (b_rows b) V /\
    w_path w p = Some path /\ w_msd w p = Some data /\
    data = map (relative_loss (design_width pr (b_p b) p) (p_forget pr p) V) path /\
    w_y w p = Some h /\ (forall i, h i = ygram_spec (p_forget pr p) V i) /\
    w_sum w p = Some (lsum (ws V)) /\ w_mean w p = Some (lsum (ws V) / INR (length V)) /\
    dsum (1 - p_forget pr p) ow V / INR (length V) <> 0.
Proof. intros Hb Hg. exact (C118_fit_rss_lemma ops c Hb b s s' pr p Hg). Qed.
Print Assumptions C118_fit_residuals.

(** Log-likelihoods: discounted, without the sample weights, at the values [TH] which the
    other parameters had. *)
Theorem C118_fit_likelihoods {M} (ops : method_ops M) (c : gam_cfg M) b s s' pr p :
  op_path_based ops = true -> o_global_ll c = true -> gam_fit ops c b s = (s', Ok tt) -> cycles s' <> Some O ->
  rowwise (o_dist c) -> o_cond_start c = false -> s_prep s' = Some pr -> (p < d_n (o_dist c))%nat ->
  exists V TH sc w path data, s_scaler s' = Some (Some sc) /\ s_work s' = Some w /\
    List.Forall2 (design_row (fun _ => 1) pr (b_p b) p sc) (b_rows b) V /\ length TH = length V /\
    w_path w p = Some path /\ w_msd w p = Some data /\
    List.Forall2 (candidate_ll (o_dist c) p (design_width pr (b_p b) p) (p_forget pr p) V TH) path data.
Proof. intros Hb. exact (C118_fit_ll_lemma ops c Hb b s s' pr p). Qed.
Print Assumptions C118_fit_likelihoods.

(** Update: the new data from the old data and the new rows. *)
Theorem C118_update {M} (ops : method_ops M) (c : gam_cfg M) b s s' pr p :
  op_path_based ops = true -> gam_update ops c b s = (s', Ok tt) -> cycles s' <> Some O ->
  s_prep s = Some pr -> In p (p_order pr) -> (p < d_n (o_dist c))%nat ->
  exists w0 w n sc old mean path data,
    s_work s = Some w0 /\ w_msd w0 p = Some old /\ w_mean w0 p = Some mean /\ s_nobs s' = Some n /\ s_scaler s' = Some (Some sc) /\
    s_work s' = Some w /\ w_path w p = Some path /\ w_msd w p = Some data /\
    let k := design_width pr (b_p b) p in let f := p_forget pr p in let m := length (b_rows b) in
    if o_global_ll c then
      exists V TH ll, List.Forall2 (design_row ow pr (b_p b) p sc) (b_rows b) V /\ length TH = length V /\
        List.Forall2 (candidate_ll (o_dist c) p k f V TH) path ll /\ length old = length ll /\
        data = map2 (fun l o => l + (1 - f) ^ m * o) ll old
    else
      exists V wts, List.Forall2 (working_row (o_dist c) p (- weight_ceiling) pr (b_p b) sc) (b_rows b) V /\
        ws V = map2 Rmult (ws (b_rows b)) wts /\ length wts = m /\ length old = length path /\
        data = map2 (fun b o => (wls_loss k f V b + (1 - f) ^ m * (o * mean)) / online_mean_update mean wts f n) path old /\
        online_mean_update mean wts f n <> 0 /\
        (exists S, w_sum w0 p = Some S /\ w_sum w p = Some (lsum (ws V) + (1 - f) * S) /\
             w_mean w p = npdiv (lsum (ws V) + (1 - f) * S) (effective_training_length f n)).
Proof. intros Hb. exact (C118_update_lemma ops c Hb b s s' pr p). Qed.
Print Assumptions C118_update.

(** Without forgetting and with unit sample weights: after any number of updates the data
    are the total squared errors of the candidates, relative to the mean working weight. *)
Theorem C118_stream {M} (ops : method_ops M) (c : gam_cfg M) b bs s s1 s' pr p :
  op_path_based ops = true -> o_global_ll c = false -> gam_fit ops c b s = (s1, Ok tt) -> cycles s1 <> Some O ->
  rowwise (o_dist c) -> o_cond_start c = false -> List.Forall unit_sample_weights (b :: bs) ->
  s_prep s1 = Some pr -> (p < d_n (o_dist c))%nat -> p_forget pr p = 0 -> updates_run ops c s1 bs s' ->
  exists V0 path0 calls, List.Forall2 (some_row (o_dist c) pr (b_p b) p weight_floor) (b_rows b) V0 /\
    List.Forall2 (fun b' call => List.Forall2 (some_row (o_dist c) pr (b_p b) p (- weight_ceiling)) (b_rows b') (fst call)) bs calls /\
    selection_data (design_width pr (b_p b) p) p ((V0, path0) :: calls) s'.
Proof. intros Hb Hg. exact (C118_stream_lemma ops c Hb Hg b bs s s1 s' pr p). Qed.
Print Assumptions C118_stream.

(** The intercepts 2 and 1 for the responses 1/2 and 3/2. *)
Example C118_example : exists s w V, gam_fit toy_ops ex_cfg ex_b0 new_gam = (s, Ok tt) /\ s_work s = Some w /\
  op_path_based toy_ops = true /\ o_global_ll ex_cfg = false /\ cycles s = Some 1%nat /\ rowwise ex_dist /\ unit_sample_weights ex_b0 /\
  V = [mkobs (fun _ => 1) (1 / 2) 1; mkobs (fun _ => 1) (3 / 2) 1] /\
  relative_loss 1 0 V (fun _ => 2) = 5 / 2 /\ relative_loss 1 0 V (fun _ => 1) = 1 / 2 /\
  (exists a b, w_msd w 0%nat = Some [a; b] /\ a = 5 / 2 /\ b = 1 / 2).
Proof.
  destruct toy_fit as (s & w & H1 & H2 & H3 & H4 & H5 & H6). exists s, w, [mkobs (fun _ => 1) (1 / 2) 1; mkobs (fun _ => 1) (3 / 2) 1].
  do 5 (split; [first [assumption|reflexivity]|]). split; [apply shipped_rowwise|]. split; [repeat constructor|]. split; [reflexivity|].
  unfold relative_loss, wls_loss. cbn [dsum length ow oy ox]. unfold dot, bsum. cbn [INR pow].
  split; [field|]. split; [field|]. exact H5.
Qed.

(** Property theorems: the distributional regression (online_gamlss.py), part 1. *)
From Coq Require Import Reals List Bool Arith ZArith Lra Lia.
From Verif Require Import Base Lin Data M_Gram M_OLS M_CD M_Path M_Ridge M_Scaler M_Utils S_Utils M_Links S_Links M_DistTable M_Dist S_Dist
  M_State M_LM S_LM M_Equation S_Equation M_GAMLSS M_GAMDist S_GAMLSS.
From Verif Require Import L_GAM2 L_GAM3 L_GAM4 L_GAM5 L_GAM6 L_GAM7 L_GAM10 L_GAM11 L_GAM12 L_GAM14 L_GAM15 L_GAM17 L_GAM21 L_GAMEx L_GAMEx2 L_GAMEx4 L_GAMEx5.
Import ListNotations.
Open Scope R_scope.

(** ** C57: observations outside the support are rejected before anything changes *)

Theorem C57_rejected_without_effect {M} (ops : method_ops M) (c : gam_cfg M) b s :
  shape_ok s b -> some_outside (o_dist c) b -> gam_update ops c b s = (s, Raise OutOfSupportErr).
Proof. exact (C57_rejects_lemma ops c b s). Qed.
Print Assumptions C57_rejected_without_effect.

Theorem C57_rejected_only_then {M} (ops : method_ops M) (c : gam_cfg M) b s : method_never OutOfSupportErr ops ->
  snd (gam_update ops c b s) = Raise OutOfSupportErr -> some_outside (o_dist c) b.
Proof. exact (fun Q => C57_only_lemma ops Q c b s). Qed.
Print Assumptions C57_rejected_only_then.

(** The estimation methods of the package never raise this exception. *)
Theorem C57_methods_never inv perms perms1 :
  method_never OutOfSupportErr (ols_ops inv) /\ method_never OutOfSupportErr (en_ops perms) /\
  method_never OutOfSupportErr (ridge_ops inv perms1).
Proof. exact (conj (ols_quiet inv) (conj (en_quiet perms) (ridge_quiet inv perms1))). Qed.
Print Assumptions C57_methods_never.

Lemma ex_bad_outside : some_outside (o_dist ex_cfg) ex_bad.
Proof.
  exists (ex_row (- 1)). split; [cbn; auto|]. left. change (-1 < next0). unfold next0.
  assert (0 < powerRZ 2 (-1074)) by (apply powerRZ_lt; lra). lra.
Qed.
Example C57_example : exists s, gam_fit ex_ops ex_cfg ex_b0 new_gam = (s, Ok tt) /\
  gam_update ex_ops ex_cfg ex_bad s = (s, Raise OutOfSupportErr).
Proof.
  destruct ex_fit as (s & Hf & w & nt & _ & ->). eexists. split; [exact Hf|].
  apply C57_rejected_without_effect; [|exact ex_bad_outside].
  split; [split; cbn; lia|right; reflexivity].
Qed.

(** ** C58: the outer loops *)

Theorem C58_fit_cycles {M} (ops : method_ops M) (c : gam_cfg M) b s s' :
  (1 <= d_n (o_dist c))%nat -> gam_fit ops c b s = (s', Ok tt) ->
  exists dv n, s_dev s' = Some (dv, n) /\ (fit_minimum c <= n <= o_max_outer c)%nat.
Proof. exact (C58_fit_lemma ops c b s s'). Qed.
Print Assumptions C58_fit_cycles.

Theorem C58_update_cycles {M} (ops : method_ops M) (c : gam_cfg M) b s s' :
  has_order s -> gam_update ops c b s = (s', Ok tt) ->
  exists dv n w, s_dev s' = Some (dv, n) /\ s_work s' = Some w /\ (w_min w <= n <= o_max_outer c)%nat.
Proof. exact (C58_update_lemma ops c b s s'). Qed.
Print Assumptions C58_update_cycles.

(** The minimum demanded is more than the maximum: every fit fails. *)
Theorem C58_contradictory_limits {M} (ops : method_ops M) (c : gam_cfg M) b s :
  (1 <= d_n (o_dist c))%nat -> (o_max_outer c < fit_minimum c)%nat ->
  exists x, snd (gam_fit ops c b s) = Raise x.
Proof. exact (C58_fit_raises_lemma ops c b s). Qed.
Print Assumptions C58_contradictory_limits.

(** The loops end by themselves: more fuel than [enough_fuel] changes nothing ... *)
Theorem C58_fuel_is_enough {M} (ops : method_ops M) (e : env M) g fuel s :
  p_order (e_prep e) <> [] -> length (w_iter s) = o_max_outer (e_cfg e) -> (enough_fuel (e_cfg e) <= fuel)%nat ->
  outer_fit ops e fuel s = outer_fit ops e (enough_fuel (e_cfg e)) s /\
  outer_update ops e g fuel s = outer_update ops e g (enough_fuel (e_cfg e)) s.
Proof. exact (C58_fuel_lemma ops e g fuel s). Qed.
Print Assumptions C58_fuel_is_enough.

(** ... and if no inner fit raises, fit returns. *)
Theorem C58_returns {M} (ops : method_ops M) (e : env M) : p_order (e_prep e) <> [] -> forall fuel s,
  length (w_iter s) = o_max_outer (e_cfg e) -> (w_min s <= o_max_outer (e_cfg e))%nat -> (enough_fuel (e_cfg e) <= fuel)%nat ->
  (exists dv, deviance e (w_fv s) = Ok dv) ->
  (forall p io s1, In p (p_order (e_prep e)) -> (1 <= io <= o_max_outer (e_cfg e))%nat ->
     w_iter s1 = w_iter s -> exists r, snd (inner_fit ops e p io s1) = Ok r) ->
  exists dv n, snd (outer_fit ops e fuel s) = Ok (dv, n).
Proof. exact (C58_returns_lemma ops e). Qed.
Print Assumptions C58_returns.

Example C58_example : exists s, gam_fit ex_ops ex_cfg ex_b0 new_gam = (s, Ok tt) /\
  s_dev s = Some (4, 1%nat) /\ fit_minimum ex_cfg = 1%nat /\ o_max_outer ex_cfg = 3%nat.
Proof. destruct ex_fit as (s & Hf & w & nt & _ & ->). eexists. split; [exact Hf|]. repeat split. Qed.

(** ** C59: the inner loops of fit *)

(** The trace lists for each iteration the step size, the deviance before it and the
    deviance of its candidate. *)
Theorem C59_inner_fit {M} (ops : method_ops M) (e : env M) p io s s' dv tr :
  (1 <= io)%nat -> inner_fit ops e p io s = (s', Ok (dv, tr)) ->
  exists n dv0 pre st old,
    nth_error (w_iter s) (io - 1) = Some n /\ deviance e (w_fv s) = Ok dv0 /\
    (1 <= length tr <= n)%nat /\ w_itinner s' p = (length tr - 1)%nat /\ (increases tr <= 6)%nat /\
    inner_history (fun j => w_step s (io - 1) j p) 0 dv0 (w_step s (io - 1) O p) tr /\
    tr = pre ++ [(st, old, dv)] /\
    ((length tr < n)%nat -> increases tr = 6%nat /\ old < dv \/ inner_tolerance (e_cfg e) io (length tr) (st, old, dv)) /\
    (increases pre <= 5)%nat /\ (forall i x, nth_error pre i = Some x -> ~ inner_tolerance (e_cfg e) io (i + 1) x).
Proof. exact (C59_lemma ops e p io s s' dv tr). Qed.
Print Assumptions C59_inner_fit.
(** The cycles before [prefit_initial] and [prefit_update] have one inner iteration, the
    later ones at most [max_it_inner]: seen from the last cycle of the call. *)
Theorem C59_prefit {M} (ops : method_ops M) (c : gam_cfg M) b s s' p :
  (p < d_n (o_dist c))%nat -> gam_fit ops c b s = (s', Ok tt) -> cycles s' <> Some O ->
  exists w dv n, s_work s' = Some w /\ s_dev s' = Some (dv, n) /\
    (w_itinner w p + 1 <= if (n <=? o_prefit_initial c)%nat then 1 else o_max_inner c)%nat.
Proof. exact (C59_prefit_lemma ops c b s s' p). Qed.
Print Assumptions C59_prefit.
Theorem C59_prefit_update {M} (ops : method_ops M) (c : gam_cfg M) b s s' pr p :
  s_prep s = Some pr -> In p (p_order pr) -> o_cautious c = false ->
  gam_update ops c b s = (s', Ok tt) -> cycles s' <> Some O ->
  exists w dv n, s_work s' = Some w /\ s_dev s' = Some (dv, n) /\
    (w_itinner w p + 1 <= if (n <=? o_prefit_update c)%nat then 1 else o_max_inner c)%nat.
Proof. exact (C59_prefit_update_lemma ops c b s s' pr p). Qed.
Print Assumptions C59_prefit_update.

(** A Student t likelihood at location 0 with one observation 1/2: the full step goes to
    21/20, past the observation, and the deviance increases. *)
Example C59_example : exists s', inner_fit ex_ops t_env 0 1 (t_work 1) =
    (s', Ok (t_dev (11 / 20), [(1, t_dev (1 / 2), t_dev (11 / 20))])) /\
  increases [(1, t_dev (1 / 2), t_dev (11 / 20))] = 1%nat.
Proof.
  destruct t_fit_first as (s' & H & _). exists s'. split; [exact H|].
  unfold increases, worse. cbn [filter fst snd]. rewrite ltb_t; [reflexivity|]. apply t_dev_lt; lra.
Qed.

(** ** C60: from the second cycle on the stored fit never gets worse *)

Theorem C60_inner_fit_never_worse {M} (ops : method_ops M) (e : env M) p io s s' r :
  (2 <= io)%nat -> inner_fit ops e p io s = (s', Ok r) ->
  exists d0 d1, deviance e (w_fv s) = Ok d0 /\ deviance e (w_fv s') = Ok d1 /\ d1 <= d0 /\
    (d1 = fst r \/ (d0 < fst r /\ w_fv s' = w_fv s)).
Proof. exact (C60_inner_lemma ops e p io s s' r). Qed.
Print Assumptions C60_inner_fit_never_worse.

(** A fit that made a cycle ends with a fit that is not worse than after its first cycle. *)
Theorem C60_fit_never_worse_than_first_cycle {M} (ops : method_ops M) (e : env M) fuel s s' r :
  p_order (e_prep e) <> [] -> outer_fit ops e fuel s = (s', Ok r) ->
  (s' = s /\ snd r = O) \/
  exists dev s1 d1 d2, deviance e (w_fv s) = Ok dev /\ fit_cycle ops e (p_order (e_prep e)) 1 dev s = (s1, Ok d1) /\
    deviance e (w_fv s1) = Ok d1 /\ deviance e (w_fv s') = Ok d2 /\ d2 <= d1.
Proof. exact (C60_outer_lemma ops e fuel s s' r). Qed.
Print Assumptions C60_fit_never_worse_than_first_cycle.

(** In the first cycle the last candidate is stored whatever its deviance. *)
Theorem C60_first_cycle_stores_last {M} (ops : method_ops M) (e : env M) p s s' r :
  inner_fit ops e p 1 s = (s', Ok r) -> deviance e (w_fv s') = Ok (fst r).
Proof. exact (C60_first_lemma ops e p s s' r). Qed.
Print Assumptions C60_first_cycle_stores_last.

(** The same inner fit: in the first cycle the worse coefficient is stored, later it is
    not, but its deviance is returned in both. *)
Example C60_example : t_dev (1 / 2) < t_dev (11 / 20) /\
  exists s1 s2 tr, inner_fit ex_ops t_env 0 1 (t_work 1) = (s1, Ok (t_dev (11 / 20), tr)) /\
    inner_fit ex_ops t_env 0 2 (t_work 1) = (s2, Ok (t_dev (11 / 20), tr)) /\
    w_coef s1 0%nat 0%nat = 21 / 20 /\ w_coef s2 0%nat 0%nat = 0.
Proof.
  split; [apply t_dev_lt; lra|]. destruct t_fit_first as (s1 & H1 & C1). destruct t_fit_later as (s2 & H2 & C2 & _).
  exists s1, s2. eexists. split; [exact H1|]. split; [exact H2|]. auto.
Qed.

(** ** C61: updates ignore the step size *)

Theorem C61_update_ignores_steps {M} (ops : method_ops M) (c : gam_cfg M) b s1 s2 :
  without_steps s1 = without_steps s2 -> has_steps (d_n (o_dist c)) s1 -> has_steps (d_n (o_dist c)) s2 ->
  snd (gam_update ops c b s1) = snd (gam_update ops c b s2) /\
  without_steps (fst (gam_update ops c b s1)) = without_steps (fst (gam_update ops c b s2)) /\
  has_steps (d_n (o_dist c)) (fst (gam_update ops c b s1)) /\ has_steps (d_n (o_dist c)) (fst (gam_update ops c b s2)).
Proof. exact (C61_lemma ops c b s1 s2). Qed.
Print Assumptions C61_update_ignores_steps.

Theorem C61_predictions_ignore_steps {M} (ops : method_ops M) (c : gam_cfg M) bs s1 s2 :
  without_steps s1 = without_steps s2 -> has_steps (d_n (o_dist c)) s1 -> has_steps (d_n (o_dist c)) s2 ->
  forall r p X, snd (predict_parameters c r p X (gam_updates ops c bs s1)) = snd (predict_parameters c r p X (gam_updates ops c bs s2)).
Proof. exact (C61_stream_lemma ops c bs s1 s2). Qed.
Print Assumptions C61_predictions_ignore_steps.

(** Every fitted object has its step sizes. *)
Theorem C61_fit_has_steps {M} (ops : method_ops M) (c : gam_cfg M) b s s' :
  gam_fit ops c b s = (s', Ok tt) -> has_steps (d_n (o_dist c)) s'.
Proof. exact (fit_has_steps ops c b s s'). Qed.
Print Assumptions C61_fit_has_steps.

(** The fitted example object, and the same object with step size 1/8. *)
Definition ex_other_steps (s : gam unit) : gam unit :=
  mk_gam (Some (mk_prep (p_eq ex_prep) (p_forget ex_prep) (p_ic ex_prep) (p_icpt ex_prep) (p_regicpt ex_prep) [(0%nat, 1 / 8)] (p_order ex_prep)))
    (s_scaler s) (s_nfin s) (s_nobs s) (s_ntrain s) (s_J s) (s_isreg s) (s_work s) (s_dev s).
Example C61_example : exists s s' s2', gam_fit ex_ops ex_cfg ex_b0 new_gam = (s, Ok tt) /\
  gam_update ex_ops ex_cfg ex_b1 s = (s', Ok tt) /\
  gam_update ex_ops ex_cfg ex_b1 (ex_other_steps s) = (s2', Ok tt) /\ without_steps s' = without_steps s2'.
Proof.
  destruct ex_fit as (s & Hf & Hs). destruct (ex_update 2 4 1 s ltac:(lra) Hs) as (s' & Hu & _).
  destruct Hs as (w & nt & _ & ->).
  set (s := mk_gam _ _ _ _ _ _ _ _ _) in *.
  assert (A : without_steps s = without_steps (ex_other_steps s)) by reflexivity.
  assert (B : has_steps (d_n (o_dist ex_cfg)) s) by (intros pr E; injection E as <-; cbn; lia).
  assert (C : has_steps (d_n (o_dist ex_cfg)) (ex_other_steps s)) by (intros pr E; injection E as <-; cbn; lia).
  destruct (C61_update_ignores_steps ex_ops ex_cfg ex_b1 s (ex_other_steps s) A B C) as (R1 & R2 & _).
  rewrite Hu in R1, R2. cbn [fst snd] in R1, R2.
  destruct (gam_update ex_ops ex_cfg ex_b1 (ex_other_steps s)) as [s2' r] eqn:E. cbn [fst snd] in R1, R2. subst r.
  exists s, s', s2'. auto.
Qed.

(** ** C62: working weights *)

Theorem C62_fit_weights {M} (e : env M) p fv eta g : working e false p fv = Ok (eta, g) ->
  Forall (fun v => weight_floor <= v <= weight_ceiling) (g_wt g).
Proof. exact (C62_fit_lemma e p fv eta g). Qed.
Print Assumptions C62_fit_weights.

Theorem C62_update_weights {M} (e : env M) p fv eta g : working e true p fv = Ok (eta, g) ->
  Forall (fun v => - weight_ceiling <= v <= weight_ceiling) (g_wt g).
Proof. exact (C62_update_lemma e p fv eta g). Qed.
Print Assumptions C62_update_weights.

(** An observation at a point mass of a zero-adjusted or inflated distribution: no cycle of
    update can be completed, whatever the state, method, links and other observations. *)
Theorem C62_point_masses_break_update {M} (ops : method_ops M) (c : gam_cfg M) lgam dg tg ft fj gi ppf cond D links b s s' p y :
  o_dist c = shipped lgam dg tg ft fj gi ppf cond D links ->
  inflated_point D y p -> observes y b -> (forall pr, s_prep s = Some pr -> In p (p_order pr)) ->
  gam_update ops c b s = (s', Ok tt) -> cycles s' = Some O.
Proof.
  exact (fun Ec Hi => C62_nan_lemma ops c b s s' p y
    (eq_ind_r (fun d => forall th h, d_dl2 d p y th = Some h -> h = 0) (inflated_dl2 lgam dg tg ft fj gi ppf cond D links y p Hi) Ec)).
Qed.
Print Assumptions C62_point_masses_break_update.

Example C62_example :
  fit_weight 0 1 = weight_floor /\ update_weight 0 1 = 0 /\ working_response 3 0 1 (update_weight 0 1) = None /\
  update_weight 2 1 = - 2 /\ inflated_point ZeroAdjustedGamma 0 0.
Proof.
  assert (P : 1 <= 10 ^ 10) by (apply pow_R1_Rle; lra).
  assert (P2 : 10 <= 10 ^ 10) by (rewrite <- (pow_1 10) at 1; apply Rle_pow; [lra|lia]).
  assert (W : update_weight 0 1 = 0).
  { unfold update_weight, raw_weight, clip. rewrite eqb_f by lra. replace (- (0 / (1 / 1 * (1 / 1)))) with 0 by field.
    rewrite Rmax_right by lra. apply Rmin_right. lra. }
  split.
  { unfold fit_weight, raw_weight, clip, weight_floor. rewrite eqb_f by lra. replace (- (0 / (1 / 1 * (1 / 1)))) with 0 by field.
    assert (0 < 1 / 10 ^ 10 <= 1).
    { split; [apply Rdiv_lt_0_compat; lra|]. apply Rmult_le_reg_r with (10 ^ 10); [lra|]. field_simplify; lra. }
    rewrite Rmax_left by lra. apply Rmin_right. lra. }
  split; [exact W|]. split; [|split].
  - rewrite W. unfold working_response. rewrite eqb_f by lra. unfold npdiv. rewrite eqb_t by lra. reflexivity.
  - unfold update_weight, raw_weight, clip. rewrite eqb_f by lra. replace (- (2 / (1 / 1 * (1 / 1)))) with (- 2) by field.
    rewrite Rmax_right by lra. apply Rmin_right. lra.
  - split; [lia|reflexivity].
Qed.

(** ** C63: weight sums and forgetting *)

(** Fit: the weighted sum of the working weights of its rows, without any discount. *)
Theorem C63_after_fit {M} (ops : method_ops M) (c : gam_cfg M) b s s' pr p :
  gam_fit ops c b s = (s', Ok tt) -> cycles s' <> Some O -> rowwise (o_dist c) -> o_cond_start c = false ->
  s_prep s' = Some pr -> (p < d_n (o_dist c))%nat ->
  exists wts, List.Forall2 (working_weight (o_dist c) p weight_floor) (b_rows b) wts /\
    weight_sum s' p = Some (lsum (map2 Rmult (ws (b_rows b)) wts)).
Proof. exact (C63_fit_lemma ops c b s s' pr p). Qed.
Print Assumptions C63_after_fit.

(** One call of update: the old sum is discounted once, whatever the number of rows. *)
Theorem C63_one_discount_per_call {M} (ops : method_ops M) (c : gam_cfg M) b s s' pr p :
  gam_update ops c b s = (s', Ok tt) -> cycles s' <> Some O -> s_prep s = Some pr -> In p (p_order pr) ->
  exists W wts, weight_sum s p = Some W /\
    List.Forall2 (working_weight (o_dist c) p (- 10 ^ 10)) (b_rows b) wts /\
    weight_sum s' p = Some (lsum (map2 Rmult (ws (b_rows b)) wts) + (1 - p_forget pr p) * W).
Proof. exact (C63_weights_lemma ops c b s s' pr p). Qed.
Print Assumptions C63_one_discount_per_call.

(** Working weights one: the sum of a whole stream. *)
Theorem C63_stream {M} (ops : method_ops M) (c : gam_cfg M) bs pr p s s' W :
  unit_weights (o_dist c) p -> In p (p_order pr) ->
  updates_run ops c s bs s' -> s_prep s = Some pr -> weight_sum s p = Some W ->
  weight_sum s' p = Some (per_call (p_forget pr p) W bs).
Proof. exact (fun U I => C63_stream_lemma ops c bs pr p U I s s' W). Qed.
Print Assumptions C63_stream.

(** Without forgetting it is the sum of all weights, and so independent of the chunking;
    with forgetting, two calls and one call on the same rows differ. *)
Theorem C63_chunking f W bs r1 r2 q p1 p2 :
  per_call 0 W bs = W + lsum (ws (stream bs)) /\
  per_call f W [mk_batch p1 r1; mk_batch p2 r2] - per_call f W [mk_batch q (r1 ++ r2)] = - f * (lsum (ws r1) + (1 - f) * W).
Proof. exact (conj (per_call_no_forget bs W) (per_call_split f W r1 r2 q p1 p2)). Qed.
Print Assumptions C63_chunking.

Example C63_example : exists s s1 s2 : gam unit,
  gam_fit ex_ops u_cfg (u_b true) new_gam = (s, Ok tt) /\
  updates_run ex_ops u_cfg s [u_b false; u_b false]%list s1 /\ updates_run ex_ops u_cfg s [u_b true] s2 /\
  stream [u_b false; u_b false] = stream [u_b true] /\
  weight_sum s1 0 = Some 2 /\ weight_sum s2 0 = Some 3.
Proof. destruct u_split as (s & s1 & s2 & H1 & H2 & H3 & H4 & H5). exists s, s1, s2. repeat split; assumption. Qed.

(** ** C64: predicted distribution parameters *)

Theorem C64_prediction_formula {M} (c : gam_cfg M) response ncol X (s s' : gam M) out :
  predict_parameters c response ncol X s = (s', Ok out) ->
  s' = s /\ length out = length X /\
  exists sc pr w, s_scaler s = Some (Some sc) /\ s_prep s = Some pr /\ s_work s = Some w /\
    forall i p, (i < length X)%nat -> (p < d_n (o_dist c))%nat -> selects (p_eq pr p) (p_icpt pr p) ncol ->
      let row := model_row (p_eq pr p) (p_icpt pr p) ncol (scaler_transform sc (nth i X (fun _ => 0))) in
      let eta := lsum (map2 Rmult row (row_of (length row) (w_coef w p))) in
      nth i out (fun _ => 0) p = if response then d_inv (o_dist c) p eta else eta.
Proof. exact (C64_formula_lemma c response ncol X s s' out). Qed.
Print Assumptions C64_prediction_formula.

Theorem C64_prediction_in_link_range {M} lgam dg tg fit_t fit_jsu gi ppf cond D links (c : gam_cfg M) ncol X (s s' : gam M) out :
  o_dist c = shipped lgam dg tg fit_t fit_jsu gi ppf cond D links ->
  predict_parameters c true ncol X s = (s', Ok out) ->
  forall i p, (i < length X)%nat -> link_range (nth p links Identity) (nth i out (fun _ => 0) p).
Proof. exact (C64_range_lemma lgam dg tg fit_t fit_jsu gi ppf cond D links c ncol X s s' out). Qed.
Print Assumptions C64_prediction_in_link_range.

(** With the default links the predicted parameters are parameters of the distribution. *)
Theorem C64_prediction_is_valid {M} lgam dg tg fit_t fit_jsu gi ppf cond D (c : gam_cfg M) ncol X (s s' : gam M) out :
  o_dist c = shipped_default lgam dg tg fit_t fit_jsu gi ppf cond D ->
  predict_parameters c true ncol X s = (s', Ok out) ->
  forall th, In th out -> valid_theta D th.
Proof. exact (C64_valid_lemma lgam dg tg fit_t fit_jsu gi ppf cond D c ncol X s s' out). Qed.
Print Assumptions C64_prediction_is_valid.

Example C64_example : exists s out, gam_fit ex_ops ex_cfg ex_b0 new_gam = (s, Ok tt) /\
  predict_parameters ex_cfg true 1 [fun _ => 5; fun _ => 7] s = (s, Ok out) /\ length out = 2%nat /\
  nth 0 out (fun _ => 0) 0%nat = 1 /\ nth 1 out (fun _ => 0) 0%nat = 1.
Proof.
  destruct ex_fit as (s & Hf & w & nt & Hw & ->). destruct Hw as (_ & _ & _ & Hb & _).
  eexists. eexists. split; [exact Hf|]. split; [|split; [|split]].
  - apply (predict_parameters_run ex_cfg true 1 [fun _ => 5; fun _ => 7] _ (ex_scaler 2) ex_prep (ex_X 2) w); try reflexivity.
    + cbn; lia.
    + intros q E. injection E as <-. reflexivity.
  - reflexivity.
  - cbn. unfold dot. cbn. rewrite Hb. lra.
  - cbn. unfold dot. cbn. rewrite Hb. lra.
Qed.

(** ** C65: model selection *)

Theorem C65_fit_selection {M} (ops : method_ops M) (c : gam_cfg M) b s s' p : op_path_based ops = true ->
  gam_fit ops c b s = (s', Ok tt) -> cycles s' <> Some O -> (p < d_n (o_dist c))%nat ->
  exists pr n w, s_prep s' = Some pr /\ s_ntrain s' = Some n /\ s_work s' = Some w /\
    n p = effective_training_length (p_forget pr p) (lsum (ws (b_rows b))) /\
    chosen (o_global_ll c) (p_ic pr p) (n p) (design_width pr (b_p b) p) w p.
Proof. exact (C65_fit_lemma ops c b s s' p). Qed.
Print Assumptions C65_fit_selection.

Theorem C65_update_selection {M} (ops : method_ops M) (c : gam_cfg M) b s s' p pr : op_path_based ops = true ->
  gam_update ops c b s = (s', Ok tt) -> cycles s' <> Some O -> s_prep s = Some pr -> In p (p_order pr) -> (p < d_n (o_dist c))%nat ->
  exists N n w, s_nobs s = Some N /\ s_ntrain s' = Some n /\ s_work s' = Some w /\
    n p = effective_training_length (p_forget pr p) (N + lsum (ws (b_rows b))) /\
    chosen (o_global_ll c) (p_ic pr p) (n p) (design_width pr (b_p b) p) w p.
Proof. exact (C65_update_lemma ops c b s s' p pr). Qed.
Print Assumptions C65_update_selection.

(** A path with the intercepts 2 and 1 for the mean 1: the second is chosen. *)
Example C65_example : exists s w, gam_fit toy_ops ex_cfg ex_b0 new_gam = (s, Ok tt) /\ s_work s = Some w /\
  op_path_based toy_ops = true /\ cycles s = Some 1%nat /\ w_path w 0%nat = Some [fun _ => 2; fun _ => 1] /\
  (exists a b, w_msd w 0%nat = Some [a; b] /\ a = 5 / 2 /\ b = 1 / 2) /\ w_coef w 0%nat 0%nat = 1.
Proof. destruct toy_fit as (s & w & H1 & H2 & H3 & H4 & H5 & H6). exists s, w. repeat split; assumption. Qed.

(** ** C68: debug information is off by one *)

Theorem C68_reads_the_next_record {M A} (c : gam_cfg M) (f : work M -> key -> option A) param io it s w :
  o_debug c = true -> s_work s = Some w ->
  get_debug c f param io it s = (s, match f w (param, io, S it) with Some a => Ok a | None => Raise KeyError end).
Proof. exact (C68_lemma c f param io it s w). Qed.
Print Assumptions C68_reads_the_next_record.

(** Inner iteration number [j] (from 0) of an inner fit is recorded under the key [j]. *)
Theorem C68_records_of_inner_fit {M} (ops : method_ops M) (e : env M) p io s s' dv tr : o_debug (e_cfg e) = true ->
  inner_fit ops e p io s = (s', Ok (dv, tr)) ->
  (forall j step old new, nth_error tr j = Some (step, old, new) -> w_dbg_dv s' (p, io, j) = Some old) /\
  (forall p' io' j, p' <> p \/ io' <> io \/ (length tr <= j)%nat -> w_dbg_dv s' (p', io', j) = w_dbg_dv s (p', io', j)).
Proof. exact (fun Hd => C68_records_lemma ops e Hd p io s s' dv tr). Qed.
Print Assumptions C68_records_of_inner_fit.

(** So asking for the deviance of iteration [it] gives that of iteration [it + 1], and an
    error for the last iteration. *)
Theorem C68_deviance_of_the_next_iteration {M} (ops : method_ops M) (e : env M) p io s s' dv tr (g : gam M) it :
  o_debug (e_cfg e) = true -> inner_fit ops e p io s = (s', Ok (dv, tr)) -> s_work g = Some s' ->
  (forall step old new, nth_error tr (S it) = Some (step, old, new) ->
     get_debug (e_cfg e) w_dbg_dv p io it g = (g, Ok old)) /\
  ((length tr <= S it)%nat -> w_dbg_dv s (p, io, S it) = None -> get_debug (e_cfg e) w_dbg_dv p io it g = (g, Raise KeyError)).
Proof. exact (C68_next_lemma ops e p io s s' dv tr g it). Qed.
Print Assumptions C68_deviance_of_the_next_iteration.

(** Two recorded iterations, with deviances 10 and 9: asking for the first gives the
    second, asking for the second fails. *)
Definition dbg_cfg : gam_cfg unit :=
  mk_gcfg unit ex_dist true (Some [(0%nat, EqIntercept)]) (fun _ => Ok tt) (Scalar 0) (Scalar aic) (Scalar true)
    (Scalar false) (Scalar 1) None ScaleNone false 0 0 3 1 1 (1 / 1000) (1 / 1000) (1 / 1000) (1 / 1000)
    false false true.
Definition dbg_state : gam unit :=
  let w := start_work dbg_cfg ex_prep (fun _ => Some tt) [] in
  mk_gam None None None None None None None
    (Some (mk_work (w_method w) (w_fv w) (w_x w) (w_y w) (w_rss w) (w_msd w) (w_coef w) (w_path w) (w_sum w) (w_mean w) (w_iter w)
      (w_step w) (w_itinner w) (w_min w) (w_dbg w) (put (put (w_dbg_dv w) (0, 1, 0)%nat 10) (0, 1, 1)%nat 9) (w_dbg_coef w)
      (w_xn w) (w_yn w) (w_sumn w) (w_meann w) (w_rss_old w) (w_msd_old w))) None.
Example C68_example :
  snd (get_debug dbg_cfg w_dbg_dv 0 1 0 dbg_state) = Ok 9 /\ snd (get_debug dbg_cfg w_dbg_dv 0 1 1 dbg_state) = Raise KeyError.
Proof. split; reflexivity. Qed.

(** Specifications for the distributional regression. *)
From Coq Require Import Reals List Bool Arith.
From Verif Require Import Base Lin Data S_Gram M_Scaler M_Utils S_Utils M_Links M_LM S_LM M_Equation S_Equation M_GAMLSS.
Import ListNotations.
Open Scope R_scope.

(** The observation is below or above the support of the distribution. *)
Definition outside (d : dist_ops) (y : R) : Prop :=
  match d_lo d with NegInf => False | Fin r => y < r | PosInf => True end \/
  match d_hi d with NegInf => True | Fin r => r < y | PosInf => False end.
Definition some_outside (d : dist_ops) (b : batch) : Prop := exists o, In o (b_rows b) /\ outside d (oy o).

(** The input validation of update accepts the shape of the data. *)
Definition shape_ok {M} (s : gam M) (b : batch) : Prop :=
  data_ok b /\ (s_nfin s = None \/ s_nfin s = Some (b_p b)).

(** The method never raises [x]. *)
Definition method_never {M} (x : exn) (ops : method_ops M) : Prop :=
  (forall p X w f, op_init_x ops p X w f <> Raise x) /\
  (forall p g X f w, op_update_x ops p g X f w <> Raise x) /\
  (forall m p g h r, op_fit_path ops m p g h r <> Raise x) /\
  (forall m p g h q r, op_update_path ops m p g h q r <> Raise x) /\
  (forall m p g h r, op_fit_beta ops m p g h r <> Raise x) /\
  (forall m p g h q r, op_update_beta ops m p g h q r <> Raise x).

(** Least number of outer cycles demanded by the options for fit. *)
Definition fit_minimum {M} (c : gam_cfg M) : nat :=
  if (0 <? o_prefit_initial c)%nat then o_prefit_initial c else o_min_outer c.

(** The object can be used: a call of fit or update has completed. *)
Definition completed {M} (s : gam M) : Prop := s_dev s <> None.

(** There is at least one parameter in the order of the last fit (as fit leaves it). *)
Definition has_order {M} (s : gam M) : Prop := forall pr, s_prep s = Some pr -> p_order pr <> [].

(** * Inner iterations *)

(** The record of one inner fit is a list of iterations (step size, deviance before the
    iteration, deviance of its candidate). [increases]: how often the candidate was worse. *)
Definition worse (q : R * R * R) : bool := Rltb (snd (fst q)) (snd q).
Definition increases (tr : list (R * R * R)) : nat := length (filter worse tr).
(** The iterations from number [i] on, the first starting at deviance [old] with step size
    [step]. A worse candidate is followed by half the step size from the same deviance;
    any other candidate is accepted and followed by the step size [sched (i + 1)]. *)
Fixpoint inner_history (sched : nat -> R) (i : nat) (old step : R) (tr : list (R * R * R)) : Prop :=
  match tr with
  | [] => True
  | (s, o, v) :: tr' =>
      s = step /\ o = old /\
      (old < v -> inner_history sched (S i) old (step / 2) tr') /\
      (v <= old -> inner_history sched (S i) v (sched (S i)) tr')
  end.
(** The tolerances allow to stop after [i] iterations in outer cycle [io]. *)
Definition inner_tolerance {M} (c : gam_cfg M) (io i : nat) (q : R * R * R) : Prop :=
  let old := snd (fst q) in let v := snd q in
  (2 <= io \/ 2 <= i)%nat /\
  (Rabs (old - v) <= o_abs_inner c \/ (old <> 0 /\ Rabs (old - v) / Rabs old < o_rel_inner c) \/ i = o_max_inner c).

(** * Step sizes *)

(** The object with every step size removed. *)
Definition work_without_steps {M} (w : work M) : work M :=
  mk_work (w_method w) (w_fv w) (w_x w) (w_y w) (w_rss w) (w_msd w) (w_coef w) (w_path w) (w_sum w) (w_mean w)
    (w_iter w) (fun _ _ _ => 0) (w_itinner w) (w_min w) (w_dbg w) (w_dbg_dv w) (w_dbg_coef w)
    (w_xn w) (w_yn w) (w_sumn w) (w_meann w) (w_rss_old w) (w_msd_old w).
Definition prep_without_steps (pr : prep) : prep :=
  mk_prep (p_eq pr) (p_forget pr) (p_ic pr) (p_icpt pr) (p_regicpt pr) [] (p_order pr).
Definition without_steps {M} (s : gam M) : gam M :=
  mk_gam (option_map prep_without_steps (s_prep s)) (s_scaler s) (s_nfin s) (s_nobs s) (s_ntrain s) (s_J s) (s_isreg s)
    (option_map work_without_steps (s_work s)) (s_dev s).
(** There is a step size for each of the [n] parameters. *)
Definition has_steps {M} (n : nat) (s : gam M) : Prop :=
  forall pr, s_prep s = Some pr -> (n <= length (values (p_steps pr)))%nat.
(** A sequence of calls of update, successful or not. *)
Fixpoint gam_updates {M} (ops : method_ops M) (c : gam_cfg M) (bs : list batch) (s : gam M) : gam M :=
  match bs with [] => s | b :: bs' => gam_updates ops c bs' (fst (gam_update ops c b s)) end.

(** * Working weights *)
Definition weight_floor : R := 1 / 10 ^ 10.
Definition weight_ceiling : R := 10 ^ 10.

(** * Failed calls *)
(** Everything that update accumulates over the stream: Gramians and weight sums. *)
Definition accumulated {M} (s : gam M) :=
  option_map (fun w => (w_x w, w_y w, w_sum w, w_mean w)) (s_work s).
(** A call of fit has begun, none has been completed. *)
Definition incomplete {M} (s : gam M) : Prop := s_nobs s <> None /\ s_dev s = None.
(** Every call of partial_fit from here on fails. *)
Fixpoint all_fail {M} (ops : method_ops M) (c : gam_cfg M) (bs : list batch) (s : gam M) : Prop :=
  match bs with
  | [] => True
  | b :: bs' => (exists x, snd (gpartial_fit ops c b s) = Raise x) /\ all_fail ops c bs' (fst (gpartial_fit ops c b s))
  end.

(** Number of outer cycles that the last completed call made. *)
Definition cycles {M} (s : gam M) : option nat := option_map snd (s_dev s).
(** The observation [y] is one of the batch. *)
Definition observes (y : R) (b : batch) : Prop := exists o, In o (b_rows b) /\ oy o = y.

(** * Weight sums *)
Definition weight_sum {M} (s : gam M) (p : nat) : option R :=
  match s_work s with Some w => w_sum w p | None => None end.
(** The working weights of parameter [p] are one, whatever the fitted values. *)
Definition unit_weights (d : dist_ops) (p : nat) : Prop :=
  forall y th eta h, d_link d p (th p) = Some eta -> d_dl2 d p y th = Some h -> update_weight h (d_dinv d p eta) = 1.
(** [wt] is the working weight of parameter [p] for the observation [o] at some values of
    the parameters: minus the second derivative times the squared derivative of the
    inverse link, cut off at [floor] and at 10^10. *)
Definition working_weight (d : dist_ops) (p : nat) (floor : R) (o : obs) (wt : R) : Prop :=
  exists th eta h, d_link d p (th p) = Some eta /\ d_dl2 d p (oy o) th = Some h /\
    wt = Rmin (10 ^ 10) (Rmax floor (- h * (d_dinv d p eta) ^ 2)).
(** Weight sum of the calls so far, newest last, each call discounting once. *)
Fixpoint per_call (forget W : R) (bs : list batch) : R :=
  match bs with [] => W | b :: bs' => per_call forget (lsum (ws (b_rows b)) + (1 - forget) * W) bs' end.
(** A run of completed calls of update, each with at least one outer cycle. *)
Inductive updates_run {M} (ops : method_ops M) (c : gam_cfg M) : gam M -> list batch -> gam M -> Prop :=
| ur_nil s : updates_run ops c s [] s
| ur_cons s b s1 bs s' : gam_update ops c b s = (s1, Ok tt) -> cycles s1 <> Some O ->
    updates_run ops c s1 bs s' -> updates_run ops c s (b :: bs) s'.

(** * Model selection *)
(** Number of columns of the model matrix of parameter [p] for [ncol] columns of X (C56). *)
Definition design_width (pr : prep) (ncol p : nat) : nat :=
  match make_model_array (p_eq pr p) (p_icpt pr p) ncol [] with Ok q => fst q | Raise _ => O end.
(** A deviance with the penalty of the criterion for [k] parameters and [n] observations. *)
Definition penalised (c : criterion) (n k dev : R) : R :=
  match c with
  | aic => dev + 2 * k
  | aicc => dev + 2 * k * n / (n - k - 1)
  | bic => dev + ln n * k
  | hqc => dev + 2 * ln (ln n) * k
  | max_ll => dev / 2
  end.
(** The coefficients of parameter [p] are the row of the stored path with the first
    minimal value of the criterion. [data] are the log-likelihoods of the rows, or sums of
    squares with the Gaussian deviance; [others] is the number of nonzero coefficients of
    the other parameters when the choice was made. *)
Definition chosen {M} (global_ll : bool) (crit : criterion) (n : R) (k : nat) (w : work M) (p : nat) : Prop :=
  exists path data i others,
    w_path w p = Some path /\ w_msd w p = Some data /\ length data = length path /\ (i < length path)%nat /\
    w_coef w p = nth i path (fun _ => 0) /\
    let value := fun b v => penalised crit n (INR (length (filter (fun j => negb (Reqb (b j) 0)) (seq 0 k))) + INR others)
                   (if global_ll then - 2 * v else n * (ln (2 * PI) + ln (v / n) + 1)) in
    (global_ll = true \/ 0 < n /\ Forall (fun v => 0 < v) data -> first_min (map2 value path data) i).

(** The same call with other sample weights. *)
Definition with_weights {M} (e : env M) (w : list R) : env M :=
  mk_env (e_cfg e) (e_prep e) (e_nobs e) (e_ntrain e) (e_isreg e) (e_X e) (e_y e) w.

(** * Iteratively reweighted least squares *)
(** The starting values have one row per observation. *)
Definition rowwise (d : dist_ops) : Prop := forall y fv, d_init d y = Ok fv -> length fv = length y.
(** The log-likelihood is concave in parameter [p] wherever it can be evaluated. *)
Definition concave_in (d : dist_ops) (p : nat) : Prop := forall y th h, d_dl2 d p y th = Some h -> h <= 0.
(** [v] is a working observation for parameter [p] and the observation [o] at the current
    parameters [th]: the weight is minus the second derivative times the squared
    derivative of the inverse link, cut off at [floor] and at 10^10; the response is the
    linear predictor plus score over weight. *)
Definition working_obs (d : dist_ops) (p : nat) (floor : R) (th : vec) (o v : obs) : Prop :=
  exists eta a h,
    d_link d p (th p) = Some eta /\ d_dl1 d p (oy o) th = Some a /\ d_dl2 d p (oy o) th = Some h /\
    let di := d_dinv d p eta in
    let wt := Rmin (10 ^ 10) (Rmax floor (- h * di ^ 2)) in
    ow v = ow o * wt /\ wt * (oy v - eta) = a * di.
(** ... and its covariates are the row of the model matrix. *)
Definition working_row (d : dist_ops) (p : nat) (floor : R) (pr : prep) (ncol : nat) (sc : scaler) (o v : obs) : Prop :=
  (exists th, working_obs d p floor th o v) /\
  (selects (p_eq pr p) (p_icpt pr p) ncol ->
     row_of (design_width pr ncol p) (ox v) = model_row (p_eq pr p) (p_icpt pr p) ncol (scaler_transform sc (ox o))).
(** ... for some state of the scaler. *)
Definition some_row (d : dist_ops) (pr : prep) (ncol p : nat) (floor : R) (o v : obs) : Prop :=
  exists sc, working_row d p floor pr ncol sc o v.
(** The moments of the working observations [V] are stored for parameter [p], and its
    coefficients are the unique minimiser of their discounted weighted squared error. *)
Definition solved_by {M} (k : nat) (forget : R) (w : work M) (p : nat) (V : list obs) : Prop :=
  weights_nonneg V /\
  (exists G h, w_x w p = Some G /\ w_y w p = Some h /\ is_inverse k (gram_spec forget V) G /\ forall i, h i = ygram_spec forget V i) /\
  forall b, wls_loss k forget V (w_coef w p) <= wls_loss k forget V b /\
            (wls_loss k forget V b = wls_loss k forget V (w_coef w p) -> eqv k b (w_coef w p)).
Definition least_squares_state {M} (s : gam M) (pr : prep) (ncol p : nat) (V : list obs) : Prop :=
  s_prep s = Some pr /\ s_nfin s = Some ncol /\
  exists w, s_work s = Some w /\ solved_by (design_width pr ncol p) (p_forget pr p) w p V.
(** [v] is the observation [o] itself with its weight divided by a variance inside
    [10^-10, 10^10], and with the row of the model matrix as covariates. *)
Definition normal_row (pr : prep) (ncol p : nat) (o v : obs) : Prop :=
  exists variance sc, 0 < variance /\
    (1 / 10 ^ 10 <= variance <= 10 ^ 10 -> oy v = oy o /\ ow v = ow o / variance) /\
    (selects (p_eq pr p) (p_icpt pr p) ncol ->
       row_of (design_width pr ncol p) (ox v) = model_row (p_eq pr p) (p_icpt pr p) ncol (scaler_transform sc (ox o))).

(** Specifications for the online linear model. *)
From Coq Require Import Reals List Bool Arith.
From Verif Require Import Base Lin Data S_Gram M_Scaler M_Utils S_Utils M_LM.
Import ListNotations.
Open Scope R_scope.

(** All rows of a list of calls, in order. *)
Definition stream (bs : list batch) : list obs := concat (map b_rows bs).
Definition total_weight (l : list obs) : R := lsum (ws l).

(** The regression data: the covariates with a leading one if an intercept is fitted. *)
Definition regressors (icpt : bool) (o : obs) : obs :=
  mkobs (if icpt then fun j => match j with O => 1 | S k => ox o k end else ox o) (oy o) (ow o).

(** Value of the criterion for a least-squares fit with [k] parameters, residual sum of
    squares [rss] and [n] observations (the maximised Gaussian log-likelihood is
    [- n / 2 * (ln (2 * PI * rss / n) + 1)]). *)
Definition ic_value (c : criterion) (n k rss : R) : R :=
  let deviance := n * (ln (2 * PI) + ln (rss / n) + 1) in
  match c with
  | aic => deviance + 2 * k
  | aicc => deviance + 2 * k * n / (n - k - 1)
  | bic => deviance + ln n * k
  | hqc => deviance + 2 * ln (ln n) * k
  | max_ll => deviance / 2
  end.

(** Coefficients that [np.isclose(., 0)] does not take for zero. *)
Definition active (p : nat) (b : vec) : list nat :=
  filter (fun j => Rltb (1 / 100000000) (Rabs (b j))) (seq 0 p).

(** The object holds a path and its selected row is the first minimum of the criterion
    (a zero sum of squares gives an infinite criterion in the code and is left out). *)
Definition selected_row {M} (c : criterion) (p : nat) (s : lm M) : Prop :=
  exists path rss n k,
    a_path s = Some path /\ a_rss s = Some rss /\ a_ntrain s = Some n /\
    length rss = length path /\
    a_coef s = Some (nth k path (fun _ => 0)) /\
    (0 < n -> Forall (fun r => 0 < r) rss ->
     first_min (map2 (fun b r => ic_value c n (INR (length (active p b))) r) path rss) k).

(** Squared prediction errors of the object on a batch, for each row of its path: with
    the residuals multiplied by the weights, and without. *)
Definition sq_errors (weighted : bool) (l : list obs) (k : nat) (preds : list (list R)) : R :=
  lsum (map2 (fun o pr => ((if weighted then ow o else 1) * (oy o - nth k pr 0)) ^ 2) l preds).

(** A run of successful calls: the object after each call. *)
Inductive run {M} (ops : method_ops M) (c : lm_cfg M) : list (batch * lm M) -> lm M -> Prop :=
| run_fit b s : partial_fit ops c b new_lm = (s, Ok tt) -> run ops c [(b, s)] s
| run_step tr s b s' : run ops c tr s -> partial_fit ops c b s = (s', Ok tt) ->
    run ops c (tr ++ [(b, s')]) s'.

(** Contribution of every call to the sum of squares of row [k], by the predictions
    that the object made right after that call. *)
Definition call_errors {M} (c : lm_cfg M) (weighted : bool) (k : nat) (bs : batch * lm M) : R :=
  let (b, s) := bs in
  match snd (lm_predict_path c (b_p b) (Xs (b_rows b)) s) with
  | Ok preds => sq_errors weighted (b_rows b) k preds
  | Raise _ => 0
  end.

(** The rows of a call as they entered the estimation: scaled by the scaler as it was
    right after that call, with an intercept column if wanted. *)
Definition scaled_rows {M} (icpt : bool) (bs : batch * lm M) : list obs :=
  let (b, s) := bs in
  match a_scaler s with
  | Some (Some sc) => map (fun o => regressors icpt (mkobs (scaler_transform sc (ox o)) (oy o) (ow o))) (b_rows b)
  | _ => []
  end.

(** A path based method that always returns the same path. *)
Definition fixed_ops (path : list vec) : method_ops unit :=
  {| op_path_based := true;
     op_init_x := fun _ _ _ _ => Ok (fun _ _ => 0);
     op_update_x := fun _ g _ _ _ => Ok g;
     op_fit_path := fun m _ _ _ _ => Ok (m, path);
     op_update_path := fun m _ _ _ _ _ => Ok (m, path);
     op_fit_beta := fun _ _ _ _ _ => Raise NotImplementedErr;
     op_update_beta := fun _ _ _ _ _ _ => Raise NotImplementedErr |}.

(** The method returns a path with at least one row. *)
Definition nonempty_paths {M} (ops : method_ops M) (c : lm_cfg M) : Prop :=
  forall m p x y isreg m' path, c_method c = Ok m ->
    op_fit_path ops m p x y isreg = Ok (m', path) -> path <> [].

(** Data accepted by the input validation; a configuration accepted by [_prepare_fit]. *)
Definition data_ok (b : batch) : Prop := (1 <= length (b_rows b))%nat /\ (1 <= b_p b)%nat.

Definition config_ok {M} (c : lm_cfg M) : Prop :=
  (exists m, c_method c = Ok m) /\ ~ (c_regicpt c = true /\ c_icpt c = false).

(** A batch that a model of [p] columns does not reject by validation. *)
Definition acceptedb (p : nat) (b : batch) : bool :=
  (1 <=? length (b_rows b))%nat && (Nat.eqb (b_p b) p).

(** [method="ols"], [scale_inputs=False]. *)
Definition ols_config (c : lm_cfg unit) : Prop :=
  c_method c = Ok tt /\ c_ols_name c = true /\ c_scale c = ScaleNone.

(** The calls of a history: rows present, as many columns as the first batch, weights
    non-negative. *)
Definition good_calls (p : nat) (bs : list batch) : Prop :=
  Forall (fun b => weights_nonneg (b_rows b) /\ b_rows b <> [] /\ b_p b = p) bs.

(** Contributions of the calls of a run to the sum of squares of row [k]: squared weights
    in the first call, no weights later. *)
Definition contributions {M} (c : lm_cfg M) (k : nat) (tr : list (batch * lm M)) : list R :=
  match tr with
  | [] => []
  | first :: later => call_errors c true k first :: map (call_errors c false k) later
  end.

Definition unit_weights (l : list obs) : Prop := Forall (fun o => ow o = 1) l.

(** Concrete data: a scaled least-squares model. *)
Definition w48_c : lm_cfg unit := mk_lmc unit (Ok tt) true 0 ScaleAll false false bic.
Definition row1 (x y : R) : obs := mkobs (fun _ => x) y 1.
Definition w48_b0 : batch := mk_batch 1 [row1 (-1) (-1); row1 1 1].
Definition w48_b1 : batch := mk_batch 1 [row1 (-7) 0; row1 7 0].

(** Concrete data: selection between the coefficients 0 and 1 with forget 1/2; the rows of
    [w49_b1] and [w49_b2] are those of [w49_b12]. *)
Definition w49_path : list vec := [(fun _ => 0); (fun _ => 1)].
Definition w49_c : lm_cfg unit := mk_lmc unit (Ok tt) false (1 / 2) ScaleNone false false max_ll.
Definition w49_b0 : batch := mk_batch 1 [row1 1 (1 / 2); row1 1 (1 / 2)].
Definition w49_b1 : batch := mk_batch 1 [row1 1 2].
Definition w49_b2 : batch := mk_batch 1 [row1 1 (- (1 / 2))].
Definition w49_b12 : batch := mk_batch 1 [row1 1 2; row1 1 (- (1 / 2))].


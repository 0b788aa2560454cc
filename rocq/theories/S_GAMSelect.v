(** Specification of the numbers which the model selection of distributional regression
    compares. *)
From Coq Require Import Reals List Bool Arith.
From Verif Require Import Base Lin Data S_Gram M_Scaler M_Utils M_LM M_GAMLSS S_Equation S_GAMLSS.
Import ListNotations.
Open Scope R_scope.

(** Discounted weighted squared error of a candidate, relative to the average discounted
    weight. *)
Definition relative_loss (k : nat) (forget : R) (V : list obs) (b : vec) : R :=
  wls_loss k forget V b / (dsum (1 - forget) ow V / INR (length V)).

(** [v] is the observation [o] with the row of the model matrix as covariates and with
    weight [weight o]. *)
Definition design_row (weight : obs -> R) (pr : prep) (ncol p : nat) (sc : scaler) (o v : obs) : Prop :=
  oy v = oy o /\ ow v = weight o /\
  (selects (p_eq pr p) (p_icpt pr p) ncol ->
     row_of (design_width pr ncol p) (ox v) = model_row (p_eq pr p) (p_icpt pr p) ncol (scaler_transform sc (ox o))).

(** [l] is the log-density of the observation [v] when parameter [p] is the inverse link
    of the linear predictor of the candidate [b] and the other parameters are as in [th]. *)
Definition candidate_logpdf (d : dist_ops) (p k : nat) (b : vec) (vt : obs * vec) (l : R) : Prop :=
  let (v, th) := vt in
  d_logpdf d (oy v) (fun q => if Nat.eqb q p then d_inv d p (dot k (ox v) b) else th q) = Some l.
(** [value] is the discounted weighted log-likelihood of the candidate [b]. *)
Definition candidate_ll (d : dist_ops) (p k : nat) (forget : R) (V : list obs) (TH : list vec) (b : vec) (value : R) : Prop :=
  exists L, List.Forall2 (candidate_logpdf d p k b) (combine V TH) L /\
    value = dsum (1 - forget) (fun vl => ow (fst vl) * snd vl) (combine V L).

(** Total squared error of candidate number [i] over several calls; each call has its own
    working observations and its own list of candidates. *)
Definition total_loss (k i : nat) (calls : list (list obs * list vec)) : R :=
  lsum (map (fun call => wls_loss k 0 (fst call) (nth i (snd call) (fun _ => 0))) calls).
Definition unit_sample_weights (b : batch) : Prop := List.Forall (fun o => ow o = 1) (b_rows b).
(** The model selection data after these calls: times the average of all working weights
    they are the total squared errors of the candidates. *)
Definition selection_data {M} (k p : nat) (calls : list (list obs * list vec)) (s : gam M) : Prop :=
  exists w data path, s_work s = Some w /\ w_msd w p = Some data /\ w_path w p = Some path /\ length data = length path /\
    path = snd (last calls ([], [])) /\
    let all := concat (map fst calls) in
    let mean := lsum (ws all) / INR (length all) in
    mean <> 0 /\ forall i, (i < length data)%nat -> nth i data 0 = total_loss k i calls / mean.

(** Specification for C132: online ridge regression without scaling. *)
From Coq Require Import Reals List Bool Permutation.
From Verif Require Import Base Lin Data S_Gram M_CD M_Path M_Ridge M_Scaler M_Utils M_LM S_LM S_Penal.
Import ListNotations.
Open Scope R_scope.

(** [OnlineLinearModel(method=Ridge(...), scale_inputs=False)] with unbounded coefficients. *)
Definition ridge_config (c : lm_cfg (ridge_cfg * nat)) (m : ridge_cfg) : Prop :=
  (exists k, c_method c = Ok (m, k)) /\ c_ols_name c = false /\ c_scale c = ScaleNone /\
  0 <= c_forget c < 1 /\ c_regicpt c && negb (c_icpt c) = false /\ ri_lower m = None /\ ri_upper m = None.
(** The penalty in force: the constructor argument, or the default of the first call. *)
Definition penalty_of (c : lm_cfg (ridge_cfg * nat)) (m : ridge_cfg) (b0 : batch) : R :=
  ridge_penalty m (n_cols (c_icpt c) (b_p b0)) (c_forget c) (map (regressors (c_icpt c)) (b_rows b0)).
(** A first call that a ridge model accepts: two rows, a column, weights that do not sum to 0 or 1. *)
Definition first_call (c : lm_cfg (ridge_cfg * nat)) (m : ridge_cfg) (b0 : batch) : Prop :=
  (2 <= length (b_rows b0))%nat /\ (1 <= b_p b0)%nat /\ 0 < total_weight (b_rows b0) /\ total_weight (b_rows b0) <> 1 /\
  0 < penalty_of c m b0.
(** The draws of random visiting orders are orders. *)
Definition orders (perms : nat -> nat -> list nat) (cols : nat) : Prop := forall k i, Permutation (perms k i) (seq 0 cols).

(** Discounted weight and response of the column [k]. *)
Definition column_weight (f : R) (k : nat) (l : list obs) : R := dsum (1 - f) (fun o => ow o * ox o k ^ 2) l.
Definition column_response (f : R) (k : nat) (l : list obs) : R := dsum (1 - f) (fun o => ow o * ox o k * oy o) l.
(** No other column is active where the column [k] is. *)
Definition disjoint_column (p k : nat) (l : list obs) : Prop :=
  Forall (fun o => forall j, (j < p)%nat -> j <> k -> ox o k * ox o j = 0) l.

(** * Witnesses *)
(** Default penalty, no forgetting, one column without intercept. *)
Definition w132_c : lm_cfg (ridge_cfg * nat) :=
  mk_lmc _ (Ok (mk_ridge None None false None None (1 / 10000) 1000, 0%nat)) false 0 ScaleNone false false bic.
Definition w132_row : obs := row1 1 1.
(** Penalty 1, forget 1/2, two categories. *)
Definition w132_d : lm_cfg (ridge_cfg * nat) :=
  mk_lmc _ (Ok (mk_ridge (Some 1) None false None None (1 / 10000) 1000, 0%nat)) false (1 / 2) ScaleNone false false bic.
Definition cat_row (k : nat) (y : R) : obs := mkobs (fun j => if Nat.eqb j k then 1 else 0) y 1.

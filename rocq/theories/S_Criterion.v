(** Specifications: the information criterion of the linear model. *)
From Coq Require Import Reals List.
From Verif Require Import Base Lin Data M_Utils M_LM.
Open Scope R_scope.

(** The same constructor arguments with another criterion. *)
Definition with_ic {M} (k : criterion) (c : lm_cfg M) : lm_cfg M :=
  mk_lmc M (c_method c) (c_ols_name c) (c_forget c) (c_scale c) (c_icpt c) (c_regicpt c) k.
(** All attributes but [coef_] are equal. *)
Definition same_but_coef {M} (s s' : lm M) : Prop :=
  s' = mk_lm (a_method s) (a_scaler s) (a_nfin s) (a_nobs s) (a_nfeat s) (a_ntrain s)
         (a_isreg s) (a_x s) (a_y s) (a_path s) (a_rss s) (a_coef s').
(** What a criterion charges for one parameter on the scale of -2 log-likelihood, with [n]
    observations. *)
Definition charge (k : criterion) (n : R) : R :=
  match k with aic => 2 | bic => ln n | hqc => 2 * ln (ln n) | max_ll | aicc => 0 end.

(** Specifications: recoding of the columns, nested models, a common factor of the weights. *)
From Coq Require Import Reals List.
From Verif Require Import Base Lin Data S_Gram M_LM S_LM.
Import ListNotations.
Open Scope R_scope.

(** Every new column is a linear combination of the [p] old ones plus a constant. *)
Definition recode (p : nat) (A : mat) (a : vec) (x : vec) : vec := fun i => mvec p A x i + a i.
Definition recode_batch (A : mat) (a : vec) (b : batch) : batch :=
  mk_batch (b_p b) (map (fun o => mkobs (recode (b_p b) A a (ox o)) (oy o) (ow o)) (b_rows b)).

(** The same rows with [p] columns in use. *)
Definition with_columns (p : nat) (b : batch) : batch := mk_batch p (b_rows b).

(** Discounted weighted sum of the residuals. *)
Definition residual_sum (forget : R) (l : list obs) (pred : list R) : R :=
  dsum (1 - forget) (fun ov => ow (fst ov) * (oy (fst ov) - snd ov)) (combine l pred).

(** All sample weights times [t]. *)
Definition weight_factor (t : R) (b : batch) : batch :=
  mk_batch (b_p b) (map (fun o => mkobs (ox o) (oy o) (t * ow o)) (b_rows b)).

(** The factor [t] is positive and the total weight of the first call is still one that [fit]
    accepts: not exactly one and, with [method="ols"], larger than the number of columns. *)
Definition accepted_factor {M} (c : lm_cfg M) (t : R) (d : batch) : Prop :=
  0 < t /\ t * total_weight (b_rows d) <> 1 /\ (c_ols_name c = true -> INR (n_cols (c_icpt c) (b_p d)) < t * total_weight (b_rows d)).

(** Specifications for a change of the units of measurement of the covariates. *)
From Coq Require Import Reals List.
From Verif Require Import Base Lin Data S_Scaler M_Scaler M_LM M_GAMLSS.
Import ListNotations.
Open Scope R_scope.

(** The row [x] in other units: column [j] becomes [a j * x j + b j]. *)
Definition rescale (a b : vec) (x : vec) : vec := fun j => a j * x j + b j.
Definition rescale_batch (a b : vec) (d : batch) : batch := mk_batch (b_p d) (map_rows (rescale a b) (b_rows d)).

(** Column [j] of data with [p] columns is scaled under the option [scale_inputs = t]. *)
Definition scaled_column (t : to_scale) (p j : nat) : Prop :=
  match t with ScaleAll => (j < p)%nat | ScaleNone => False | ScaleCols sel => In j sel end.
(** Units with a positive factor, changed in scaled columns only. *)
Definition change_of_units (t : to_scale) (p : nat) (a b : vec) : Prop :=
  (forall j, 0 < a j) /\ forall j, ~ scaled_column t p j -> a j = 1 /\ b j = 0.
(** Column [j] is not constant on the rows that count. *)
Definition varies (d : batch) (j : nat) : Prop :=
  exists o1 o2, In o1 (b_rows d) /\ In o2 (b_rows d) /\ 0 < ow o1 /\ 0 < ow o2 /\ ox o1 j <> ox o2 j.
Definition scaled_columns_vary (t : to_scale) (d : batch) : Prop :=
  forall j, scaled_column t (b_p d) j -> varies d j.

(** Calls of partial_fit that stop at the first exception. *)
Fixpoint gam_history {M} (ops : method_ops M) (c : gam_cfg M) (bs : list batch) (s : gam M) : res (gam M) :=
  match bs with
  | [] => Ok s
  | b :: bs' => match gpartial_fit ops c b s with
                | (s', Ok _) => gam_history ops c bs' s'
                | (_, Raise e) => Raise e
                end
  end.

(** Specifications for a change of the units of measurement of the target. *)
From Coq Require Import Reals List.
From Verif Require Import Base Lin Data M_CD M_Path M_Ridge M_Scaler M_Utils M_LM S_LM.
Import ListNotations.
Open Scope R_scope.

(** All entries multiplied by [t]. *)
Definition vscale (t : R) (v : vec) : vec := fun j => t * v j.
(** The rows [l] with the target [y] replaced by [g y]. *)
Definition retarget (g : R -> R) (l : list obs) : list obs := map (fun o => mkobs (ox o) (g (oy o)) (ow o)) l.
(** The target of a batch in other units: [y] becomes [t * y]. *)
Definition target_units (t : R) (d : batch) : batch := mk_batch (b_p d) (retarget (Rmult t) (b_rows d)).
(** The result of a computation with a function applied to it; exceptions stay. *)
Definition res_map {A B} (f : A -> B) (r : res A) : res B := match r with Ok v => Ok (f v) | Raise e => Raise e end.
(** Bounds that mean the same in all units: absent (infinite) or zero. *)
Definition unitless_bound (b : option (list (option R))) : Prop :=
  forall l o, b = Some l -> In o l -> o = None \/ o = Some 0.
(** [np.isclose(v, 0)] with the default absolute tolerance. *)
Definition counts_as_zero (v : R) : Prop := Rabs v <= 1 / 100000000.
(** The coefficients that count as zero are the same in both units. *)
Definition same_zeros (t : R) (p : nat) (path : list vec) : Prop :=
  forall v j, In v path -> (j < p)%nat -> (counts_as_zero (t * v j) <-> counts_as_zero (v j)).
(** The target of a batch in units with another origin: [y] becomes [t * y + u]. *)
Definition affine_target (t u : R) (d : batch) : batch := mk_batch (b_p d) (retarget (fun y => t * y + u) (b_rows d)).

(** Witnesses: a lasso path with two penalties for one column and the rows (1, 1), (1, 3). *)
Definition t_en : en_cfg := mk_en 1 2 (1 / 2) 0 previous_lambda previous_lambda false None None 0 10.
Definition t_c : lm_cfg (en_cfg * nat) := mk_lmc _ (Ok (t_en, 0%nat)) false 0 ScaleNone false false aic.
Definition t_b : batch := mk_batch 1 [row1 1 1; row1 1 3].
(** Ridge for the same rows; the penalty is the default. *)
Definition t_rc : lm_cfg (ridge_cfg * nat) :=
  mk_lmc _ (Ok (mk_ridge None None false None None 0 10, 0%nat)) false 0 ScaleNone false false aic.
(** OLS with an intercept; temperatures in degrees Celsius at the hours -1, 0, 1. *)
Definition t_ic : lm_cfg unit := mk_lmc unit (Ok tt) true 0 ScaleNone true false aic.
Definition t_ib : batch := mk_batch 1 [row1 (-1) 10; row1 0 16; row1 1 19].

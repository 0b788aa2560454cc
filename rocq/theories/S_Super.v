(** Specification for C130: rows with two responses; noise-free responses. *)
From Coq Require Import Reals List.
From Verif Require Import Base Lin Data S_Gram M_LM S_LM.
Import ListNotations.
Open Scope R_scope.

(** Covariates, two responses, weight. *)
Record row2 := mk_row2 { t_x : vec; t_y1 : R; t_y2 : R; t_w : R }.
(** The batch with the response [g]. *)
Definition respond (p : nat) (g : row2 -> R) (rows : list row2) : batch :=
  mk_batch p (map (fun r => mkobs (t_x r) (g r) (t_w r)) rows).
(** The response of every row is exactly the linear combination [b] of its regressors. *)
Definition noise_free (icpt : bool) (p : nat) (b : vec) (l : list obs) : Prop :=
  Forall (fun o => oy o = dot (n_cols icpt p) (ox (regressors icpt o)) b) l.

(** Second batch of the witness: with [w48_b0], responses equal to the covariate. *)
Definition w130_b1 : batch := mk_batch 1 [row1 (-7) (-7); row1 7 7].

(** Specification: lasso paths in distributional regression. *)
From Coq Require Import Reals List Bool Arith.
From Verif Require Import Base Lin Data M_Links M_DistTable M_CD M_Path M_Scaler M_Utils M_LM M_Equation M_GAMLSS.
Import ListNotations.
Open Scope R_scope.

(** The lasso as [LassoPath] sets it up by default: no bounds, cyclic visiting order. *)
Definition plain_lasso (m : en_cfg) : Prop :=
  en_alpha m = 1 /\ en_lower m = None /\ en_upper m = None /\ en_early_stop m <> 1%nat /\ en_random m = false /\
  0 < en_eps m /\ (1 <= en_n m)%nat.

(** * Witnesses *)
(** One parameter, unit variance, started at 1; lasso with the single largest penalty. *)
Definition l_dist : dist_ops :=
  mk_dist 1 NegInf PosInf (fun _ x => Some x) (fun _ x => x) (fun _ _ => 1)
    (fun _ y th => Some (y - th 0%nat)) (fun _ _ _ => Some (- 1)) (fun y th => Some (- (y - th 0%nat) ^ 2 / 2))
    (fun ys => Ok (map (fun _ => (fun _ => 1) : vec) ys)) (fun _ _ _ => Raise ValueError) (fun _ _ => None).
Definition l_en : en_cfg := mk_en 1 1 (1 / 5) 0 previous_lambda previous_fit false None None 0 10.
Definition l_cfg (eq : eqn) : gam_cfg (en_cfg * nat) :=
  mk_gcfg _ l_dist true (Some [(0%nat, eq)]) (fun _ => Ok (l_en, 0%nat)) (Scalar 0) (Scalar aic) (Scalar true)
    (Scalar false) (Scalar 1) None ScaleNone true 0 0 1 1 1 (1 / 1000) (1 / 1000) (1 / 1000) (1 / 1000) false false false.
(** Two rows with the feature -1 and 1. *)
Definition l_batch (y1 y2 : R) : batch := mk_batch 1 [mkobs (fun _ => -1) y1 1; mkobs (fun _ => 1) y2 1].
(** Cyclic visiting orders of [k] columns. *)
Definition l_perms (k : nat) : nat -> nat -> nat -> list nat := fun _ _ _ => seq 0 k.

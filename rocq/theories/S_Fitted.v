(** Specifications: predictions for the rows just learned from. *)
From Coq Require Import Reals List Bool Arith.
From Verif Require Import Base Lin Data M_Equation M_Utils M_LM M_GAMLSS.
Import ListNotations.
Open Scope R_scope.

(** [v] is the weighted deviance of the observations [l] under the parameters [th], row by row. *)
Definition has_deviance (d : dist_ops) (l : list obs) (th : list vec) (v : R) : Prop :=
  length th = length l /\
  exists ll, length ll = length l /\
    (forall i o, nth_error l i = Some o -> d_logpdf d (oy o) (nth i th (fun _ => 0)) = Some (nth i ll 0)) /\
    v = - 2 * lsum (map2 (fun o q => ow o * q) l ll).
(** Parameter [p] has the same value in each row. *)
Definition same_values (p : nat) (th th' : list vec) : Prop :=
  length th = length th' /\ forall i, nth i th (fun _ => 0) p = nth i th' (fun _ => 0) p.
(** The fitted values of the last call, [_fv]. *)
Definition fitted_values {M} (s : gam M) : option (list vec) := option_map w_fv (s_work s).
(** The step size of parameter [p] is one, and no step was halved during the last call. *)
Definition undamped {M} (s : gam M) (p : nat) : Prop :=
  exists pr w, s_prep s = Some pr /\ s_work s = Some w /\
    nth p (values (p_steps pr)) 0 = 1 /\ forall i j, w_step w i j p = 1.
(** The log-density only depends on the parameters of the distribution. *)
Definition reads_parameters (d : dist_ops) : Prop :=
  forall y th th', (forall p, (p < d_n d)%nat -> th p = th' p) -> d_logpdf d y th = d_logpdf d y th'.

(** Specifications: the order of rows in distributional regression. *)
From Coq Require Import Reals List Bool Permutation.
From Verif Require Import Base Lin Data M_Utils M_State M_LM M_GAMLSS.
Import ListNotations.
Open Scope R_scope.

(** The start value of a row depends on its response and on the collection of responses. *)
Definition exchangeable_start (d : dist_ops) : Prop :=
  exists f : list R -> R -> option vec, (forall l l' y, Permutation l l' -> f l y = f l' y) /\
    forall l, d_init d l = all_some (map (f l) l).
(** No parameter forgets. *)
Definition never_forgets {M} (c : gam_cfg M) : Prop :=
  forall pr ms, prepare c = Ok (pr, ms) -> forall p, p_forget pr p = 0.

(** What the object has learned: everything but the fitted values of the last batch
    ([_fv], one per row), the residual sum that is only reported ([_rss]) and the debug records. *)
Definition learned_work {M} (w w' : work M) : Prop :=
  w_method w = w_method w' /\ w_x w = w_x w' /\ w_y w = w_y w' /\ w_msd w = w_msd w' /\
  w_coef w = w_coef w' /\ w_path w = w_path w' /\ w_sum w = w_sum w' /\ w_mean w = w_mean w' /\
  w_iter w = w_iter w' /\ w_step w = w_step w' /\ w_itinner w = w_itinner w' /\ w_min w = w_min w'.
Definition learned_same {M} (s s' : gam M) : Prop :=
  s_prep s = s_prep s' /\ s_scaler s = s_scaler s' /\ s_nfin s = s_nfin s' /\ s_nobs s = s_nobs s' /\
  s_ntrain s = s_ntrain s' /\ s_J s = s_J s' /\ s_isreg s = s_isreg s' /\ s_dev s = s_dev s' /\
  match s_work s, s_work s' with Some w, Some w' => learned_work w w' | None, None => True | _, _ => False end.
(** Model selection by residual sums uses a running mean of the working weights, which
    divides by the weight seen minus the rows to come. *)
Definition selection_ok {M} (ops : method_ops M) (c : gam_cfg M) (b : batch) : Prop :=
  op_path_based ops = false \/ o_global_ll c = true \/ Forall (fun o => 1 <= ow o) (b_rows b).

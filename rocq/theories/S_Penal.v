(** Specifications: what penalised regression minimises, over all rows seen. *)
From Coq Require Import Reals List Bool Arith.
From Verif Require Import Base Lin Data S_Gram S_CD M_CD M_Path M_Ridge M_Scaler M_Utils M_LM S_LM.
Import ListNotations.
Open Scope R_scope.

(** Half the discounted weighted squared error plus the elastic-net penalty. The intercept
    (column 0 if there is one) is penalised only if [regularised]. *)
Definition penalised_error (icpt regularised : bool) (cols : nat) (forget : R) (data : list obs) (alpha lambda : R) (b : vec) : R :=
  1 / 2 * wls_loss cols forget data b +
  lambda * bsum cols (fun j => if icpt && negb regularised && Nat.eqb j 0 then 0
                               else alpha * Rabs (b j) + (1 - alpha) / 2 * b j ^ 2).
Definition least_penalised (icpt regularised : bool) (cols : nat) (forget : R) (data : list obs) (alpha lambda : R)
    (lo up : nat -> option R) (b : vec) : Prop :=
  in_box cols lo up b /\ forall b', in_box cols lo up b' ->
    penalised_error icpt regularised cols forget data alpha lambda b <= penalised_error icpt regularised cols forget data alpha lambda b'.

(** Discounted weighted mean of the responses; discounted weighted cross product of a column
    with the deviations from it; the largest of these. *)
Definition target_mean (forget : R) (data : list obs) : R :=
  dsum (1 - forget) (fun o => ow o * oy o) data / dsum (1 - forget) ow data.
Definition excess (forget : R) (data : list obs) (j : nat) : R :=
  dsum (1 - forget) (fun o => ow o * ox o j * (oy o - target_mean forget data)) data.
Definition largest_excess (cols : nat) (forget : R) (data : list obs) (l : R) : Prop :=
  (forall j, (j < cols)%nat -> Rabs (excess forget data j) <= l) /\ exists j, (j < cols)%nat /\ Rabs (excess forget data j) = l.

(** All rows of a run, as they entered the estimation. *)
Definition all_rows {M} (icpt : bool) (tr : list (batch * lm M)) : list obs := concat (map (scaled_rows icpt) tr).

(** The penalty of ridge: as given, or the mean diagonal entry of the Gramian of the first call. *)
Definition ridge_penalty (m : ridge_cfg) (cols : nat) (forget : R) (first : list obs) : R :=
  match ri_lambda m with Some l => l | None => bsum cols (fun j => gram_spec forget first j j) / INR cols end.
(** The [k]-th of [n] penalties from [l] down to [l * eps], equidistant on the log scale. *)
Definition penalty (l eps : R) (n k : nat) : R := l * Rpower eps (INR k / INR (n - 1)).

(** * Witnesses *)
(** Lasso with two penalties, intercept and forget = 1/2; two batches. *)
Definition q_en : en_cfg := mk_en 1 2 (1 / 5) 0 previous_lambda previous_fit false None None 0 10.
Definition q_c : lm_cfg (en_cfg * nat) := mk_lmc _ (Ok (q_en, 0%nat)) false (1 / 2) ScaleNone true false aic.
Definition q_b0 : batch := mk_batch 1 [mkobs (fun _ => -1) 10 1; mkobs (fun _ => 1) 20 1].
Definition q_b1 : batch := mk_batch 1 [mkobs (fun _ => 2) 4 1].
(** Third row for the ridge regression of [t_b] (S_Target). *)
Definition q_b2 : batch := mk_batch 1 [mkobs (fun _ => 1) 7 1].

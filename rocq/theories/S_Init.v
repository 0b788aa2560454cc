(** Specifications for the initial values. *)
From Coq Require Import Reals List.
From Verif Require Import Base M_Links M_DistTable M_Dist S_Dist.
Import ListNotations.
Open Scope R_scope.

(** The sample has at least two different values. *)
Definition varied (ys : list R) : Prop := exists a b, In a ys /\ In b ys /\ a <> b.

(** Samples for which the initial values are defined: every observation is possible
    under the distribution; a sample that estimates a scale must vary; a sample of
    non-negative observations must not be all zero, nor one of [0,1] all one. *)
Definition good_sample (d : dist) (ys : list R) : Prop :=
  ys <> [] /\ List.Forall (y_support d) ys /\
  match d with
  | Normal | NormalMeanVariance | LogNormal | LogNormalMedian | Logistic | Gumbel
  | ReverseGumbel | InverseGaussian | InverseGamma => varied ys
  | Exponential | BetaInflatedZero | ZeroAdjustedGamma => exists a, In a ys /\ a <> 0
  | BetaInflated => (exists a, In a ys /\ a <> 0) /\ (exists b, In b ys /\ b <> 1)
  | _ => True
  end.

(** A list of finite numbers read as a parameter vector of [d]. *)
Definition finite_row (d : dist) (row : list (option R)) (th : theta) : Prop :=
  length row = n_params d /\ forall p, (p < n_params d)%nat -> nth p row None = Some (th p).

(** Specifications for the distributions: admissible parameters, supports,
    partial derivatives, expectation operators and moments. *)
From Coq Require Import Reals List ZArith Bool.
From Coquelicot Require Import Coquelicot.
From Verif Require Import Base M_Links S_Links M_DistTable M_Dist.
Import ListNotations.
Open Scope R_scope.

(** Admissible parameters.  (Every vector in the declared parameter_support is
    admissible, see [C38_admissible].) *)
Definition valid_theta (d : dist) (th : theta) : Prop :=
  match d with
  | Normal | NormalMeanVariance | LogNormal | Logistic | Gumbel | ReverseGumbel =>
      0 < th 1%nat
  | LogNormalMedian | InverseGaussian | Gamma | InverseGamma =>
      0 < th 0%nat /\ 0 < th 1%nat
  | Exponential => 0 < th 0%nat
  | JSU => 0 < th 1%nat /\ 0 < th 3%nat
  | Beta => 0 < th 0%nat < 1 /\ 0 < th 1%nat < 1
  | StudentT => 0 < th 1%nat /\ 0 < th 2%nat
  | BetaInflated => (0 < th 0%nat < 1 /\ 0 < th 1%nat < 1) /\ 0 < th 2%nat /\ 0 < th 3%nat
  | BetaInflatedZero => (0 < th 0%nat < 1 /\ 0 < th 1%nat < 1) /\ 0 < th 2%nat
  | ZeroAdjustedGamma => (0 < th 0%nat /\ 0 < th 1%nat) /\ 0 < th 2%nat < 1
  end.

(** Observations the distribution can produce. *)
Definition y_support (d : dist) (y : R) : Prop :=
  match d with
  | LogNormal | LogNormalMedian | InverseGaussian | Gamma | InverseGamma => 0 < y
  | Exponential | ZeroAdjustedGamma => 0 <= y
  | Beta => 0 < y < 1
  | BetaInflated => 0 <= y <= 1
  | BetaInflatedZero => 0 <= y < 1
  | _ => True
  end.

(** [f] is differentiable in coordinate [p] at [th], with derivative [s]. *)
Definition partial (f : theta -> option R) (th : theta) (p : nat) (s : R) : Prop :=
  has_derivative (fun v => f (upd th p v)) (th p) s.

(** Second partial derivative of [f], first in [p], then in [q]. *)
Definition partial2 (f : theta -> option R) (th : theta) (p q : nat) (h : R) : Prop :=
  exists g : R -> R,
    locally (th q) (fun v => partial f (upd th q v) p (g v)) /\ is_derive g (th q) h.

(** An expectation operator on functions of an observation: [E f a] says that
    the expectation of [f] exists and is [a]. *)
Record expectation (supp : R -> Prop) (E : (R -> R) -> R -> Prop) : Prop := {
  E_const : forall c, E (fun _ => c) c;
  E_plus : forall f g a b, E f a -> E g b -> E (fun y => f y + g y) (a + b);
  E_scal : forall c f a, E f a -> E (fun y => c * f y) (c * a);
  E_ext : forall f g a, (forall y, supp y -> f y = g y) -> E f a -> E g a;
  E_pos : forall f a, (forall y, supp y -> 0 <= f y) -> E f a -> 0 <= a
}.

Definition has_moments (E : (R -> R) -> R -> Prop) (l : list ((R -> R) * R)) : Prop :=
  List.Forall (fun m => E (fst m) (snd m)) l.

Definition logistic_cdf (z : R) : R := exp z / (1 + exp z).
Definition indicator (b : bool) : R := if b then 1 else 0.

(** The moments of each distribution which its expected Hessian depends on.
    [dg] is the digamma function. *)
Definition moments (dg : R -> R) (d : dist) (th : theta) : list ((R -> R) * R) :=
  let mu := th 0%nat in let sigma := th 1%nat in
  let nu := th 2%nat in let tau := th 3%nat in
  let z y := (y - mu) / sigma in
  let P y := logistic_cdf (z y) in
  let alpha := mu * (1 - sigma ^ 2) / sigma ^ 2 in
  let beta := (1 - mu) * (1 - sigma ^ 2) / sigma ^ 2 in
  match d with
  | Normal => [(fun y => y - mu, 0); (fun y => (y - mu) ^ 2, sigma ^ 2)]
  | NormalMeanVariance => [(fun y => y - mu, 0); (fun y => (y - mu) ^ 2, sigma)]
  | LogNormal => [(fun y => ln y - mu, 0); (fun y => (ln y - mu) ^ 2, sigma ^ 2)]
  | LogNormalMedian => [(fun y => ln y - ln mu, 0); (fun y => (ln y - ln mu) ^ 2, sigma ^ 2)]
  | Logistic =>
      [(P, 1 / 2); (fun y => P y * (1 - P y), 1 / 6);
       (fun y => z y * (2 * P y - 1), 1);
       (fun y => z y * (P y * (1 - P y)), 0);
       (fun y => z y ^ 2 * (P y * (1 - P y)), (PI ^ 2 - 6) / 18)]
  | InverseGaussian =>
      [(fun y => y - mu, 0); (fun y => (y - mu) ^ 2 / y, sigma ^ 2 * mu ^ 2)]
  | Exponential => [(fun y => y, mu)]
  | Gamma => [(fun y => y, mu); (fun y => ln y, dg (1 / sigma ^ 2) + ln (mu * sigma ^ 2))]
  | InverseGamma =>
      [(fun y => 1 / y, 1 / (mu * (1 + sigma ^ 2)));
       (fun y => ln y, ln (mu * (1 + sigma ^ 2) / sigma ^ 2) - dg (1 / sigma ^ 2))]
  | Beta =>
      [(fun y => ln y, dg alpha - dg (alpha + beta));
       (fun y => ln (1 - y), dg beta - dg (alpha + beta))]
  | StudentT =>
      [(fun y => z y ^ 2 / (nu + z y ^ 2), 1 / (nu + 1));
       (fun y => (z y ^ 2 / (nu + z y ^ 2)) ^ 2, 3 / ((nu + 1) * (nu + 3)));
       (fun y => z y / (nu + z y ^ 2), 0);
       (fun y => z y / (nu + z y ^ 2) ^ 2, 0)]
  | BetaInflated =>
      let t := 1 + nu + tau in
      [(fun y => indicator (Reqb y 0), nu / t); (fun y => indicator (Reqb y 1), tau / t);
       (fun y => if Reqb y 0 || Reqb y 1 then 0 else ln y, (dg alpha - dg (alpha + beta)) / t);
       (fun y => if Reqb y 0 || Reqb y 1 then 0 else ln (1 - y), (dg beta - dg (alpha + beta)) / t)]
  | BetaInflatedZero =>
      let t := 1 + nu in
      [(fun y => indicator (Reqb y 0), nu / t);
       (fun y => if Reqb y 0 then 0 else ln y, (dg alpha - dg (alpha + beta)) / t);
       (fun y => if Reqb y 0 then 0 else ln (1 - y), (dg beta - dg (alpha + beta)) / t)]
  | ZeroAdjustedGamma =>
      [(fun y => indicator (Reqb y 0), nu);
       (fun y => if Reqb y 0 then 0 else y, (1 - nu) * mu);
       (fun y => if Reqb y 0 then 0 else ln y,
        (1 - nu) * (dg (1 / sigma ^ 2) + ln (mu * sigma ^ 2)))]
  | Gumbel | ReverseGumbel | JSU => []
  end.

(** The special functions: digamma is the derivative of log-gamma and trigamma
    the derivative of digamma. *)
Definition is_digamma (lgam dg : R -> R) : Prop := forall x, 0 < x -> is_derive lgam x (dg x).
Definition is_trigamma (dg tg : R -> R) : Prop := forall x, 0 < x -> is_derive dg x (tg x).

(** Elementary bounds of the trigamma function. *)
Definition trigamma_bounds (tg : R -> R) : Prop :=
  forall x, 0 < x -> 1 / x + 1 / (2 * x ^ 2) < tg x < 1 / x + 1 / x ^ 2.

(** Families whose log density does not involve the gamma function. *)
Definition closed_form (d : dist) : bool :=
  match d with
  | Gamma | InverseGamma | Beta | StudentT
  | BetaInflated | BetaInflatedZero | ZeroAdjustedGamma => false
  | _ => true
  end.

(** The clipping in StudentT.dl2_dp2 for the degrees of freedom is inactive. *)
Definition unclipped (tg : R -> R) (d : dist) (th : theta) (p : nat) : Prop :=
  d = StudentT -> p = 2%nat ->
  let n := th 2%nat in
  n <= LARGE /\
  (tg ((n + 1) / 2) - tg (n / 2) + 2 * (n + 5) / (n * (n + 1) * (n + 3))) / 4 <= - / LARGE.

(** Families for which the code returns the exact expected Hessian. *)
Definition exact_hessian (d : dist) : bool :=
  match d with JSU | Gumbel | ReverseGumbel => false | _ => true end.

(** Observations carrying a point mass; mu and sigma do not matter there. *)
Definition inflated_point (d : dist) (y : R) (p : nat) : Prop :=
  (p < 2)%nat /\
  match d with
  | BetaInflated => y = 0 \/ y = 1
  | BetaInflatedZero | ZeroAdjustedGamma => y = 0
  | _ => False
  end.

(** Families whose second derivatives involve the trigamma function. *)
Definition needs_trigamma (d : dist) : bool :=
  match d with
  | Gamma | InverseGamma | Beta | BetaInflated | BetaInflatedZero | ZeroAdjustedGamma => true
  | _ => false
  end.

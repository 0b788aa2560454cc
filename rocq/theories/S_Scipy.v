(** Specifications for means, quantile functions, random variates and conditional start
    values of the distributions. *)
From Coq Require Import Reals List.
From Verif Require Import Base Lin M_Links M_DistTable M_Dist S_Dist S_Mixed.
Import ListNotations.
Open Scope R_scope.

(** The mean in terms of the parameters of the class ([None]: it does not exist). *)
Definition expected_mean (euler : R) (d : dist) (th : theta) : option R :=
  let mu := th 0%nat in let sigma := th 1%nat in let nu := th 2%nat in let tau := th 3%nat in
  match d with
  | Normal | NormalMeanVariance | Logistic | InverseGaussian | Exponential | Gamma | Beta => Some mu
  | LogNormal => Some (exp (mu + sigma ^ 2 / 2))
  | LogNormalMedian => Some (mu * exp (sigma ^ 2 / 2))
  | Gumbel => Some (mu - euler * sigma)
  | ReverseGumbel => Some (mu + euler * sigma)
  | JSU => Some (mu - sigma * (exp (1 / (2 * tau ^ 2)) * sinh (nu / tau)))
  | InverseGamma => if Rltb sigma 1 then Some (mu * (1 + sigma ^ 2) / (1 - sigma ^ 2)) else None
  | StudentT => if Rltb 1 nu then Some mu else None
  | BetaInflated | BetaInflatedZero | ZeroAdjustedGamma => None
  end.

(** What is assumed about scipy's standardised families with admissible shapes. *)
Record scipy_laws (std_cdf : family -> R -> R) (std_ppf : family -> R -> option R) : Prop := {
  sl_mono : forall f, shapes_ok f = true -> nondecreasing (std_cdf f);
  sl_quantile : forall f, shapes_ok f = true -> quantile_function (fun _ => True) (std_cdf f) (std_ppf f);
  sl_norm : law_on_line (std_cdf f_norm) (std_ppf f_norm);
  sl_beta : forall a b, 0 < a -> 0 < b -> law_on_unit (std_cdf (f_beta a b)) (std_ppf (f_beta a b));
  sl_gamma : forall a, 0 < a -> law_on_positive (std_cdf (f_gamma a)) (std_ppf (f_gamma a))
}.

(** Where [cdf] is meant to be evaluated. *)
Definition cdf_domain (d : dist) (y : R) : Prop :=
  match d with LogNormal => 0 < y | ZeroAdjustedGamma => 0 <= y | _ => True end.

(** [x] is the [q]-quantile of the distribution function [F] on the domain [P]. *)
Definition is_quantile (P : R -> Prop) (F : R -> option R) (q x : R) : Prop :=
  P x /\ forall y, P y -> exists v, F y = Some v /\ (x <= y <-> q <= v).

(** The mixed families. *)
Definition mixed (d : dist) : Prop := d = BetaInflated \/ d = BetaInflatedZero \/ d = ZeroAdjustedGamma.

(** The parameters from number [p] on are the numbers [x] in every row. *)
Definition with_columns (n p : nat) (x : list R) (th : theta) : theta :=
  fun k => if (p <=? k)%nat then if (k <? n)%nat then nth (k - p) x 0 else th k else th k.

(** The sum of the log densities ([None] if one of them is not finite). *)
Fixpoint loglik (lgam : R -> R) (d : dist) (ys : list R) (fv : list theta) : option R :=
  match ys, fv with
  | y :: ys', th :: fv' =>
      match logpdf lgam d y th, loglik lgam d ys' fv' with Some a, Some b => Some (a + b) | _, _ => None end
  | _, _ => Some 0
  end.

(** Families whose parameters are scipy's own, from parameter number [p] on. *)
Definition own_names (d : dist) (p : nat) : Prop :=
  match d with
  | Normal | LogNormalMedian | Logistic | Gumbel | ReverseGumbel | Exponential | JSU | StudentT => True
  | LogNormal => p = 1%nat
  | _ => False
  end.

(** [th] is the same parameter vector with nonfinite values excluded: robust_exp is exp. *)
Definition moderate (d : dist) (th : theta) : Prop := d = LogNormal -> th 0%nat <= LOG_LARGE.

(** [x] respects the bounds given by the links. *)
Definition within (b : support) (v : R) : Prop :=
  match fst b with Fin l => l <= v | NegInf => True | PosInf => False end /\
  match snd b with Fin u => v <= u | PosInf => True | NegInf => False end.

(** An optimiser that tells the truth: when it reports success, its result respects the
    bounds and no other admissible point with a finite value has a smaller value. *)
Definition honest (minimise : (list R -> option R) -> list R -> list support -> res (bool * list R)) : Prop :=
  forall f start bounds x, minimise f start bounds = Ok (true, x) ->
    List.Forall2 within bounds x /\
    exists v, f x = Some v /\
      forall x' v', List.Forall2 within bounds x' -> f x' = Some v' -> v <= v'.

(** Two lists of parameter rows with the same values. *)
Definition same_rows (f g : list theta) : Prop := List.Forall2 (fun a b : theta => forall k, a k = b k) f g.
(** The bounds of the parameters from number [p] on. *)
Definition link_bounds (n p : nat) (links : list link) : list support :=
  map (fun k => link_support (nth k links Identity)) (seq p (n - p)).

(** The parameters whose likelihood the start value search evaluates at the number [x] for
    the second parameter, where these are not [(mu, x)]. *)
Definition misread (d : dist) (x : R) (th : theta) : theta :=
  let mu := th 0%nat in let sigma := th 1%nat in
  fun k => match d, k with
           | NormalMeanVariance, 1%nat => x ^ 2
           | InverseGamma, 0%nat => mu * (1 + sigma ^ 2) / sigma ^ 2 / (x + 1)
           | InverseGamma, 1%nat => 1 / sqrt x
           | InverseGaussian, 0%nat => mu * sigma ^ 2 * x
           | InverseGaussian, 1%nat => 1 / sqrt x
           | _, _ => th k
           end.

(** The sum of squares about the first parameter. *)
Fixpoint squares (ys : list R) (fv : list theta) : R :=
  match ys, fv with
  | y :: ys', th :: fv' => (y - th 0%nat) ^ 2 + squares ys' fv'
  | _, _ => 0
  end.

(** An expectation: linear, one on constants, determined by the values. *)
Record expectation (E : (R -> R) -> R) : Prop := {
  ex_ext : forall f g, (forall y, f y = g y) -> E f = E g;
  ex_lin : forall a b f, E (fun y => a * f y + b) = a * E f + b
}.
(** Families whose first score is a multiple of [y - mu]. *)
Definition linear_score (d : dist) : Prop :=
  d = Normal \/ d = NormalMeanVariance \/ d = InverseGaussian \/ d = Exponential \/ d = Gamma.
(** Families that are symmetric about their first parameter. *)
Definition symmetric_family (d : dist) : Prop :=
  d = Normal \/ d = NormalMeanVariance \/ d = Logistic \/ d = StudentT.
(** The second parameter goes by a name scipy uses for something else. *)
Definition odd (d : dist) : Prop := d = NormalMeanVariance \/ d = InverseGamma \/ d = InverseGaussian.
(** No conditional start values can be computed. *)
Definition no_start (d : dist) : Prop := d = Gamma \/ d = Beta \/ mixed d.

(** The distributions of /repo/src/ondil/distributions/: number of parameters,
    parameter supports and default links (class attributes and constructors). *)
From Coq Require Import Reals List.
From Verif Require Import Base M_Links.
Import ListNotations.
Open Scope R_scope.

Inductive dist : Type :=
| Normal | NormalMeanVariance | LogNormal | LogNormalMedian | Logistic
| Gumbel | ReverseGumbel | InverseGaussian | Exponential | JSU
| Gamma | InverseGamma | Beta | StudentT
| BetaInflated | BetaInflatedZero | ZeroAdjustedGamma.

(** [parameter_support]: normal.py L29, L104; lognormal.py L39; lognormalmedian.py
    L27-30; logistic.py L24; gumbel.py L24-27; reversegumbel.py L27;
    inversegaussian.py L43-46; exponential.py L24; johnsonsu.py L24-29; gamma.py
    L49-52; inversegamma.py L28-31; beta.py L58-61; studentt.py L17-21;
    betainflated.py L41-46; betainflatedzero.py L29-33; zeroadjustedgamma.py
    L34-38. *)
Definition parameter_support (d : dist) : list support :=
  match d with
  | Normal | NormalMeanVariance | LogNormal | Logistic | Gumbel | ReverseGumbel =>
      [whole; positive]
  | LogNormalMedian | InverseGaussian | Gamma | InverseGamma => [positive; positive]
  | Exponential => [positive]
  | JSU => [whole; positive; whole; positive]
  | Beta => [unit_open; unit_open]
  | StudentT => [whole; positive; positive]
  | BetaInflated => [unit_open; unit_open; positive; positive]
  | BetaInflatedZero => [unit_open; unit_open; positive]
  | ZeroAdjustedGamma => [positive; positive; unit_open]
  end.

(** base/distribution.py L30-33: [n_params], the number of parameter names. *)
Definition n_params (d : dist) : nat := length (parameter_support d).

(** Default links in the constructors: normal.py L38-39, L113-114; lognormal.py
    L46-47; lognormalmedian.py L37-38; logistic.py L31-32; gumbel.py L34-35;
    reversegumbel.py L34-35; inversegaussian.py L53-54; exponential.py L29;
    johnsonsu.py L38-41; gamma.py L62-63; inversegamma.py L38-39; beta.py L71-72;
    studentt.py L30-32; betainflated.py L51-54; betainflatedzero.py L38-40;
    zeroadjustedgamma.py L43-45. *)
Definition default_links (d : dist) : list link :=
  match d with
  | Normal | NormalMeanVariance | LogNormal | Logistic | Gumbel | ReverseGumbel =>
      [Identity; Log]
  | LogNormalMedian | InverseGaussian | Gamma | InverseGamma => [Log; Log]
  | Exponential => [Log]
  | JSU => [Identity; Log; Identity; Log]
  | Beta => [Logit; Logit]
  | StudentT => [Identity; Log; LogShiftTwo]
  | BetaInflated => [Logit; Logit; Log; Log]
  | BetaInflatedZero => [Logit; Logit; Log]
  | ZeroAdjustedGamma => [Log; Log; Logit]
  end.

(** Warnings emitted when constructing a distribution with the given links:
    constructors (super().__init__(links={0: ..., 1: ...})) and
    base/distribution.py L13-15, L67-78. *)
Fixpoint number {A} (k : nat) (l : list A) : list (nat * A) :=
  match l with [] => [] | a :: t => (k, a) :: number (S k) t end.

Definition construct_with (ls : list support) (d : dist) : list warning :=
  validate_links (number 0 (combine ls (parameter_support d))).

Definition construct (links : list link) (d : dist) : list warning :=
  construct_with (map link_support links) d.

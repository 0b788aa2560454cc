(** The distributions of /repo/src/ondil/distributions/ as arguments of the
    distributional regression ([M_GAMLSS]), put together from the tables in [M_DistTable],
    [M_Links], [M_Dist] and [M_Init].

    Simplification: the derivative formulas are evaluated for parameters inside their
    range only (for the others the model stops with NaN, where numpy may give a number).
    Every link of the tables maps into that range, so this concerns initial values and
    links chosen by the user only. Quantiles ([ppf], used by cautious_updates) and the
    optimiser behind [calculate_conditional_initial_values] are parameters. *)
From Coq Require Import Reals List Bool Arith.
From Verif Require Import Base Lin M_Links M_DistTable M_Dist M_Init M_GAMLSS.
Import ListNotations.
Open Scope R_scope.

(** [distribution_support]: normal.py L30, L105; lognormal.py L40; lognormalmedian.py L31;
    logistic.py L25; gumbel.py L28; reversegumbel.py L28; inversegaussian.py L47;
    exponential.py L25; johnsonsu.py L30; gamma.py L53; inversegamma.py L32; beta.py L62;
    studentt.py L22; betainflated.py L47; betainflatedzero.py L34; zeroadjustedgamma.py
    L39. *)
Definition distribution_support (d : dist) : support :=
  match d with
  | Normal | NormalMeanVariance | Logistic | Gumbel | ReverseGumbel | JSU | StudentT => whole
  | LogNormal | LogNormalMedian | InverseGamma | ZeroAdjustedGamma => (Fin 0, PosInf)
  | InverseGaussian | Exponential | Gamma => positive
  | Beta => unit_open
  | BetaInflated => (Fin 0, Fin 1)
  | BetaInflatedZero => (Fin 0, Fin prev1)
  end.

(** The parameters are inside the range the formulas are written for. *)
Definition between (a v b : R) : bool := Rltb a v && Rltb v b.
Definition theta_ok (d : dist) (th : vec) : bool :=
  match d with
  | Normal | NormalMeanVariance | LogNormal | Logistic | Gumbel | ReverseGumbel => Rltb 0 (th 1%nat)
  | LogNormalMedian | InverseGaussian | Gamma | InverseGamma => Rltb 0 (th 0%nat) && Rltb 0 (th 1%nat)
  | Exponential => Rltb 0 (th 0%nat)
  | JSU => Rltb 0 (th 1%nat) && Rltb 0 (th 3%nat)
  | Beta => between 0 (th 0%nat) 1 && between 0 (th 1%nat) 1
  | StudentT => Rltb 0 (th 1%nat) && Rltb 0 (th 2%nat)
  | BetaInflated =>
      between 0 (th 0%nat) 1 && between 0 (th 1%nat) 1 && Rltb 0 (th 2%nat) && Rltb 0 (th 3%nat)
  | BetaInflatedZero => between 0 (th 0%nat) 1 && between 0 (th 1%nat) 1 && Rltb 0 (th 2%nat)
  | ZeroAdjustedGamma => Rltb 0 (th 0%nat) && Rltb 0 (th 1%nat) && between 0 (th 2%nat) 1
  end.
Definition guarded {A} (b : bool) (a : A) : option A := if b then Some a else None.

Section Shipped.
Variables (lgam dg tg : R -> R) (fit_t : list R -> R * R * R) (fit_jsu : list R -> R * R * R * R).
Variable gamlss_init : bool.
Variables (ppf : dist -> R -> vec -> option R) (cond : dist -> list R -> list vec -> nat -> res (list vec)).

(** base/distribution.py L17-231 for the class [d] constructed with the given links. *)
Definition shipped (d : dist) (links : list link) : dist_ops :=
  mk_dist (n_params d)
    (fst (distribution_support d)) (snd (distribution_support d))
    (fun p => link_fun (nth p links Identity))
    (fun p => link_inv (nth p links Identity))
    (fun p => link_inv_d (nth p links Identity))
    (fun p y th => guarded (theta_ok d th) (score dg d y th p))
    (fun p y th => guarded (theta_ok d th) (hess dg tg d y th p))
    (logpdf lgam d)
    (fun ys => all_some (map (fun y =>
       match all_some (initial_values fit_t fit_jsu gamlss_init d ys y) with
       | Ok row => Some (fun k => nth k row 0)
       | Raise _ => None
       end) ys))
    (cond d) (ppf d).
(** ... with the default links. *)
Definition shipped_default (d : dist) : dist_ops := shipped d (default_links d).
End Shipped.

(** Model of [initial_values] of every distribution,
    /repo/src/ondil/distributions/.  [None] is a result that is not a finite number.
    The two maximum-likelihood fits of scipy (st.t.fit, st.johnsonsu.fit) are
    parameters of the model. *)
From Coq Require Import Reals List Bool Arith.
From Verif Require Import Base M_Links M_DistTable M_Dist.
Import ListNotations.
Open Scope R_scope.

(** np.mean, np.var and np.std of a one-dimensional array. *)
Definition total (l : list R) : R := fold_right Rplus 0 l.
Definition np_mean (l : list R) : option R := npdiv (total l) (INR (length l)).
Definition np_var (ddof : nat) (l : list R) : option R :=
  obind (np_mean l) (fun m =>
    if (length l <=? ddof)%nat then None
    else npdiv (total (map (fun x => (x - m) ^ 2) l)) (INR (length l - ddof))).
Definition np_std (ddof : nat) (l : list R) : option R := obind (np_var ddof l) npsqrt.

(** np.log of an array: every element must be positive to get finite numbers. *)
Fixpoint np_logs (l : list R) : option (list R) :=
  match l with
  | [] => Some []
  | x :: l' => obind (nplog x) (fun a => omap (cons a) (np_logs l'))
  end.

(** np.median: the middle of the sorted array, or the mean of the two middle ones. *)
Fixpoint insert (x : R) (l : list R) : list R :=
  match l with
  | [] => [x]
  | y :: l' => if Rleb x y then x :: l else y :: insert x l'
  end.
Definition sorted (l : list R) : list R := fold_right insert [] l.
Definition np_median (l : list R) : option R :=
  let n := length l in
  match n with
  | O => None
  | _ => Some ((nth ((n - 1) / 2) (sorted l) 0 + nth (n / 2) (sorted l) 0) / 2)
  end.

Section Init.
(** [fit_t ys] is (df, loc, scale); [fit_jsu ys] is (a, b, loc, scale). *)
Variables (fit_t : list R -> R * R * R) (fit_jsu : list R -> R * R * R * R).
(** johnsonsu.py L50, [use_gamlss_init_values]. *)
Variable gamlss_init : bool.

(** The row of the result that belongs to observation [y] of the sample [ys].
    normal.py L82-84, L171-173; lognormal.py L87-90; lognormalmedian.py L73-78;
    logistic.py L73-75; gumbel.py L71-75; reversegumbel.py L81-86;
    inversegaussian.py L94-98; exponential.py L53-54; johnsonsu.py L192-205;
    gamma.py L117-119; inversegamma.py L100-111 (default arguments); beta.py
    L151-153; studentt.py L112-114; betainflated.py L158-159; betainflatedzero.py
    L125-126; zeroadjustedgamma.py L104-105. *)
Definition initial_values (d : dist) (ys : list R) (y : R) : list (option R) :=
  match d with
  | Normal => [np_mean ys; np_std 1 ys]
  | NormalMeanVariance => [np_mean ys; np_var 1 ys]
  | LogNormal => [obind (np_logs ys) np_mean; obind (np_logs ys) (np_std 1)]
  | LogNormalMedian =>
      [omap exp (obind (np_logs ys) np_median); obind (np_logs ys) (np_std 0)]
  | Logistic => [np_mean ys; omap (fun s => sqrt 3 * s / sqrt PI) (np_std 1 ys)]
  | Gumbel => [np_mean ys; omap (fun s => sqrt 6 * s / PI) (np_std 0 ys)]
  | ReverseGumbel =>
      let sigma := omap (fun s => sqrt 6 * s / PI) (np_std 0 ys) in
      [obind (np_mean ys) (fun m => omap (fun s => m + 5772157 / 10000000 * s) sigma); sigma]
  | InverseGaussian =>
      [np_mean ys;
       obind (np_std 0 ys) (fun s => obind (np_mean ys) (fun m => obind (npsqrt m) (fun r => npdiv s r)))]
  | Exponential => [np_mean ys]
  | JSU =>
      if gamlss_init then [omap (fun m => (m + y) / 2) (np_mean ys); Some (1 / 10); Some 0; Some (1 / 2)]
      else let '(a, b, loc, scale) := fit_jsu ys in [Some loc; Some scale; Some a; Some b]
  | Gamma => [np_mean ys; Some 1]
  | InverseGamma =>
      [np_mean ys;
       obind (np_std 1 ys) (fun s => obind (np_mean ys) (fun m => obind (npsqrt m) (fun r => npdiv s r)))]
  | Beta => [np_mean ys; Some (1 / 2)]
  | StudentT => let '(df, loc, scale) := fit_t ys in [Some loc; Some scale; Some df]
  | BetaInflated => [np_mean ys; Some (1 / 2); Some 5; Some 5]
  | BetaInflatedZero => [np_mean ys; Some (1 / 2); np_mean ys]
  | ZeroAdjustedGamma => [np_mean ys; Some 1; Some (1 / 2)]
  end.
End Init.

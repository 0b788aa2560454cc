(** Model of the distributions, /repo/src/ondil/distributions/ and
    /repo/src/ondil/base/distribution.py.
    One observation at a time (all methods are element-wise); a row of theta is
    [th : nat -> R].  Floats are reals.  The special functions of scipy are
    parameters: [lgam] (gammaln), [dg] (digamma), [tg] (polygamma(1, .)).
    scipy.stats densities are the documented standard densities, shifted and
    scaled as rv_continuous.logpdf does; [None] stands for a non-finite value
    (outside the support or invalid parameters; for gamma, invgamma and beta the
    end points of the support are treated as outside).
    The derivative formulas are plain real expressions: for parameters outside
    their support (where numpy yields nan or inf) they carry no meaning and no
    theorem speaks about them. *)
From Coq Require Import Reals List Bool ZArith Lra Lia.
From Verif Require Import Base M_Links M_DistTable.
Import ListNotations.
Open Scope R_scope.

Definition theta : Type := nat -> R.
Definition upd (th : theta) (p : nat) (v : R) : theta :=
  fun k => if Nat.eqb k p then v else th k.

(** The scipy.stats families used as [scipy_dist], with their shape parameters. *)
Inductive family : Type :=
| f_norm | f_lognorm (s : R) | f_logistic | f_gumbel_l | f_gumbel_r
| f_invgauss (m : R) | f_expon | f_johnsonsu (a b : R) | f_gamma (a : R)
| f_invgamma (a : R) | f_beta (a b : R) | f_t (df : R).

Definition shapes_ok (f : family) : bool :=
  match f with
  | f_lognorm s => Rltb 0 s
  | f_invgauss m => Rltb 0 m
  | f_johnsonsu _ b => Rltb 0 b
  | f_gamma a | f_invgamma a => Rltb 0 a
  | f_beta a b => Rltb 0 a && Rltb 0 b
  | f_t df => Rltb 0 df
  | _ => true
  end.

Definition family_support (f : family) (x : R) : bool :=
  match f with
  | f_lognorm _ | f_invgauss _ | f_gamma _ | f_invgamma _ => Rltb 0 x
  | f_expon => Rleb 0 x
  | f_beta _ _ => Rltb 0 x && Rltb x 1
  | _ => true
  end.

Section Dist.
Variables lgam dg tg : R -> R.

(** scipy.stats standard log densities (documented formulas). *)
Definition std_logpdf (f : family) (x : R) : R :=
  match f with
  | f_norm => - x ^ 2 / 2 - ln (sqrt (2 * PI))
  | f_lognorm s => - (ln x) ^ 2 / (2 * s ^ 2) - ln (s * x * sqrt (2 * PI))
  | f_logistic => - x - 2 * ln (1 + exp (- x))
  | f_gumbel_l => x - exp x
  | f_gumbel_r => - x - exp (- x)
  | f_invgauss m => - (x - m) ^ 2 / (2 * x * m ^ 2) - ln (sqrt (2 * PI * x ^ 3))
  | f_expon => - x
  | f_johnsonsu a b =>
      ln b - ln (sqrt (x ^ 2 + 1)) - (a + b * arcsinh x) ^ 2 / 2 - ln (sqrt (2 * PI))
  | f_gamma a => (a - 1) * ln x - x - lgam a
  | f_invgamma a => - (a + 1) * ln x - lgam a - 1 / x
  | f_beta a b => (a - 1) * ln x + (b - 1) * ln (1 - x) - (lgam a + lgam b - lgam (a + b))
  | f_t df =>
      lgam ((df + 1) / 2) - lgam (df / 2) - ln (df * PI) / 2
      - (df + 1) / 2 * ln (1 + x ^ 2 / df)
  end.

(** scipy rv_continuous.logpdf(x, *shapes, loc, scale). *)
Definition scipy_logpdf (f : family) (loc scale x : R) : option R :=
  if Rltb 0 scale && shapes_ok f && family_support f ((x - loc) / scale)
  then Some (std_logpdf f ((x - loc) / scale) - ln scale) else None.

(** [theta_to_scipy_params]: base/distribution.py L253-273 with the name tables;
    normal.py L33-34, L129-141; lognormal.py L56-59; lognormalmedian.py L47-49;
    logistic.py L36-39; gumbel.py L29-30; reversegumbel.py L44-50;
    inversegaussian.py L63-65; exponential.py L33-35; johnsonsu.py L33-34;
    gamma.py L67-80; inversegamma.py L48-52; beta.py L76-90; studentt.py L25-26.
    The result is (family with shapes, loc, scale); the inflated families do not
    use scipy this way and get the continuous part. *)
Definition beta_a (mu sigma : R) : R := mu * (1 - sigma ^ 2) / sigma ^ 2.
Definition beta_b (mu sigma : R) : R := (1 - mu) * (1 - sigma ^ 2) / sigma ^ 2.

Definition scipy_params (d : dist) (th : theta) : family * R * R :=
  let mu := th 0%nat in let sigma := th 1%nat in
  match d with
  | Normal => (f_norm, mu, sigma)
  | NormalMeanVariance => (f_norm, mu, sqrt sigma)
  | LogNormal => (f_lognorm sigma, 0, robust_exp mu)
  | LogNormalMedian => (f_lognorm sigma, 0, mu)
  | Logistic => (f_logistic, mu, sigma)
  | Gumbel => (f_gumbel_l, mu, sigma)
  | ReverseGumbel => (f_gumbel_r, mu, sigma)
  | InverseGaussian => (f_invgauss (mu * sigma ^ 2), 0, 1 / sigma ^ 2)
  | Exponential => (f_expon, 0, mu)
  | JSU => (f_johnsonsu (th 2%nat) (th 3%nat), mu, sigma)
  | Gamma => (f_gamma (1 / sigma ^ 2), 0, 1 / (1 / (sigma ^ 2 * mu)))
  | InverseGamma => (f_invgamma (1 / sigma ^ 2), 0, mu * (1 + sigma ^ 2) / sigma ^ 2)
  | Beta | BetaInflated | BetaInflatedZero => (f_beta (beta_a mu sigma) (beta_b mu sigma), 0, 1)
  | StudentT => (f_t (th 2%nat), mu, sigma)
  | ZeroAdjustedGamma => (f_gamma (1 / sigma ^ 2), 0, mu * sigma ^ 2)
  end.

Definition scipy_logpdf_of (d : dist) (y : R) (th : theta) : option R :=
  let '(f, loc, scale) := scipy_params d th in scipy_logpdf f loc scale y.

(** numpy log: non-finite for non-positive arguments. *)
Definition nplog (x : R) : option R := if Rltb 0 x then Some (ln x) else None.

(** [logpdf]: base/distribution.py L301-311 for the scipy families;
    lognormal.py L117-124; betainflated.py L227-247; betainflatedzero.py
    L187-199; zeroadjustedgamma.py L149-160. *)
Definition logpdf (d : dist) (y : R) (th : theta) : option R :=
  let mu := th 0%nat in let sigma := th 1%nat in
  let nu := th 2%nat in let tau := th 3%nat in
  match d with
  | LogNormal =>
      if Rltb 0 y && Rltb 0 sigma then
        Some (ln (1 / (y * sigma * sqrt (2 * PI))) + - (ln y - mu) ^ 2 / (2 * sigma ^ 2))
      else None
  | BetaInflated =>
      if Rltb y 0 || Rltb 1 y then Some 0
      else if Reqb y 0 then obind (nplog nu) (fun a => omap (fun b => a - b) (nplog (1 + nu + tau)))
      else if Reqb y 1 then obind (nplog tau) (fun a => omap (fun b => a - b) (nplog (1 + nu + tau)))
      else obind (scipy_logpdf_of d y th) (fun a => omap (fun b => a - b) (nplog (1 + nu + tau)))
  | BetaInflatedZero =>
      obind (if Reqb y 0 then nplog nu else if Rltb 0 y then scipy_logpdf_of d y th else Some 0)
        (fun a => omap (fun b => a - b) (nplog (1 + nu)))
  | ZeroAdjustedGamma =>
      if Reqb y 0 then nplog nu
      else
        obind (nplog (1 - nu)) (fun a =>
        obind (nplog (y / (mu * sigma ^ 2))) (fun b =>
        omap (fun c => a + 1 / sigma ^ 2 * b - y / (mu * sigma ^ 2) - c - lgam (1 / sigma ^ 2))
          (nplog y)))
  | _ => scipy_logpdf_of d y th
  end.

(** Bodies of [dl1_dp1] for valid parameter indices (the branches [if param == k]).
    normal.py L58-62, L147-151; lognormal.py L65-69; lognormalmedian.py L54-57;
    logistic.py L44-55; gumbel.py L41-49; reversegumbel.py L55-62;
    inversegaussian.py L69-74; exponential.py L40; johnsonsu.py L58-88;
    gamma.py L86-97; inversegamma.py L57-70; beta.py L96-112; studentt.py L46-71;
    betainflated.py L62-92; betainflatedzero.py L48-71; zeroadjustedgamma.py L53-71. *)
Definition jsu_z (y : R) (th : theta) : R := (y - th 0%nat) / th 1%nat.
Definition jsu_r (y : R) (th : theta) : R := th 2%nat + th 3%nat * arcsinh (jsu_z y th).

Definition beta_score (y mu sigma : R) (p : nat) : R :=
  let alpha := beta_a mu sigma in let beta := beta_b mu sigma in
  match p with
  | O => (1 - sigma ^ 2) / sigma ^ 2 * (- dg alpha + dg beta + ln y - ln (1 - y))
  | _ => - (2 / sigma ^ 3) *
         (mu * (- dg alpha + dg (alpha + beta) + ln y)
          + (1 - mu) * (- dg beta + dg (alpha + beta) + ln (1 - y)))
  end.

Definition gamma_score (y mu sigma : R) (p : nat) : R :=
  match p with
  | O => (y - mu) / (sigma ^ 2 * mu ^ 2)
  | _ => 2 / sigma ^ 3 *
         (y / mu - ln y + ln mu + ln (sigma ^ 2) - 1 + dg (1 / sigma ^ 2))
  end.

Definition score (d : dist) (y : R) (th : theta) (p : nat) : R :=
  let mu := th 0%nat in let sigma := th 1%nat in
  let nu := th 2%nat in let tau := th 3%nat in
  match d with
  | Normal =>
      match p with
      | O => 1 / sigma ^ 2 * (y - mu)
      | _ => ((y - mu) ^ 2 - sigma ^ 2) / sigma ^ 3
      end
  | NormalMeanVariance =>
      match p with
      | O => 1 / sigma * (y - mu)
      | _ => 1 / 2 * ((y - mu) ^ 2 - sigma) / sigma ^ 2
      end
  | LogNormal =>
      match p with
      | O => (ln y - mu) / sigma ^ 2
      | _ => ((ln y - mu) ^ 2 - sigma ^ 2) / sigma ^ 3
      end
  | LogNormalMedian =>
      match p with
      | O => (ln y - ln mu) / (mu * sigma ^ 2)
      | _ => ((ln y - ln mu) ^ 2 - sigma ^ 2) / sigma ^ 3
      end
  | Logistic =>
      let expz := exp ((y - mu) / sigma) in
      match p with
      | O => 1 / sigma * (expz - 1) / (1 + expz)
      | _ => - 1 / sigma - (y - mu) / sigma ^ 2
             + 2 * ((y - mu) / sigma ^ 2) * expz / (1 + expz)
      end
  | Gumbel =>
      let z := (y - mu) / sigma in
      match p with
      | O => (exp z - 1) / sigma
      | _ => - (1 / sigma) + z / sigma * (exp z - 1)
      end
  | ReverseGumbel =>
      let z := (y - mu) / sigma in let ez := exp (- z) in
      match p with
      | O => (1 - ez) / sigma
      | _ => - (1 / sigma) * (1 - z) - z / sigma * ez
      end
  | InverseGaussian =>
      match p with
      | O => (y - mu) / (sigma ^ 2 * mu ^ 3)
      | _ => - 1 / sigma + (y - mu) ^ 2 / (sigma ^ 3 * mu ^ 2 * y)
      end
  | Exponential => (y - mu) / mu ^ 2
  | JSU =>
      let z := jsu_z y th in let r := jsu_r y th in
      match p with
      | O => z / (sigma * (z * z + 1)) + r * tau / (sigma * sqrt (z * z + 1))
      | 1%nat => - 1 / (sigma * (z * z + 1)) + r * tau * z / (sigma * sqrt (z * z + 1))
      | 2%nat => - r
      | _ => (1 + r * nu - r * r) / tau
      end
  | Gamma => gamma_score y mu sigma p
  | InverseGamma =>
      let alpha := 1 / sigma ^ 2 in
      match p with
      | O => alpha / mu - (alpha + 1) / y
      | _ => - 2 / sigma ^ 3 *
             (ln mu + alpha / (alpha + 1) + ln (alpha + 1) - dg alpha - ln y - mu / y)
      end
  | Beta => beta_score y mu sigma p
  | StudentT =>
      let dsq := (y - mu) ^ 2 / sigma ^ 2 in
      let omega := (nu + 1) / (nu + dsq) in
      match p with
      | O => omega * (y - mu) / sigma ^ 2
      | 1%nat => (omega * dsq - 1) / sigma
      | _ => (- ln (1 + dsq / nu) + (omega * dsq - 1) / nu
              + dg ((nu + 1) / 2) - dg (nu / 2)) / 2
      end
  | BetaInflated =>
      match p with
      | O | 1%nat => if Reqb y 0 || Reqb y 1 then 0 else beta_score y mu sigma p
      | 2%nat => if Reqb y 0 then 1 / nu - 1 / (1 + nu + tau) else 0 - 1 / (1 + nu + tau)
      | _ => if Reqb y 1 then 1 / tau - 1 / (1 + nu + tau) else 0 - 1 / (1 + nu + tau)
      end
  | BetaInflatedZero =>
      match p with
      | O | 1%nat => if Reqb y 0 then 0 else beta_score y mu sigma p
      | _ => (if Reqb y 0 then 1 / nu else 0) - 1 / (1 + nu)
      end
  | ZeroAdjustedGamma =>
      match p with
      | O | 1%nat => if Reqb y 0 then 0 else gamma_score y mu sigma p
      | _ => if Reqb y 0 then 1 / nu else - 1 / (1 - nu)
      end
  end.

(** Bodies of [dl2_dp2]: normal.py L67-73, L156-162; lognormal.py L74-78;
    lognormalmedian.py L62-65; logistic.py L61-65; gumbel.py L54-59;
    reversegumbel.py L68-72; inversegaussian.py L79-84; exponential.py L45;
    johnsonsu.py L93-125; gamma.py L102-108; inversegamma.py L75-82; beta.py
    L117-135; studentt.py L76-93; betainflated.py L97-125; betainflatedzero.py
    L76-101; zeroadjustedgamma.py L76-87. *)
Definition beta_hess (mu sigma : R) (p : nat) : R :=
  let alpha := beta_a mu sigma in let beta := beta_b mu sigma in
  match p with
  | O => - ((1 - sigma ^ 2) ^ 2 / sigma ^ 4) * (tg alpha + tg beta)
  | _ => - (4 / sigma ^ 6) *
         (mu ^ 2 * tg alpha + (1 - mu) ^ 2 * tg beta - tg (alpha + beta))
  end.

Definition gamma_hess (mu sigma : R) (p : nat) : R :=
  match p with
  | O => - 1 / (sigma ^ 2 * mu ^ 2)
  | _ => 4 / sigma ^ 4 - 4 / sigma ^ 6 * tg (1 / sigma ^ 2)
  end.

Definition hess (d : dist) (y : R) (th : theta) (p : nat) : R :=
  let mu := th 0%nat in let sigma := th 1%nat in
  let nu := th 2%nat in let tau := th 3%nat in
  match d with
  | Normal => match p with O => - (1 / sigma ^ 2) | _ => - (2 / sigma ^ 2) end
  | NormalMeanVariance => match p with O => - (1 / sigma) | _ => - (1 / (2 * sigma ^ 2)) end
  | LogNormal => match p with O => - 1 / sigma ^ 2 | _ => - 2 / sigma ^ 2 end
  | LogNormalMedian => match p with O => - 1 / (mu ^ 2 * sigma ^ 2) | _ => - 2 / sigma ^ 2 end
  | Logistic =>
      match p with
      | O => - 1 / (3 * sigma ^ 2)
      | _ => - (1 / (3 * sigma ^ 2)) * (1 + PI ^ 2 / 3)
      end
  | Gumbel | ReverseGumbel =>
      match p with O => - 1 / sigma ^ 2 | _ => - (182368 / 100000) / sigma ^ 2 end
  | InverseGaussian => match p with O => - 1 / (mu ^ 3 * sigma ^ 2) | _ => - 2 / sigma ^ 2 end
  | Exponential => - 1 / mu ^ 2
  | JSU => - (score JSU y th p * score JSU y th p)
  | Gamma => gamma_hess mu sigma p
  | InverseGamma =>
      let alpha := 1 / sigma ^ 2 in
      match p with
      | O => - 1 / (sigma ^ 2 * mu ^ 2)
      | _ => - 4 * (tg alpha - sigma ^ 2 * (1 + 2 * sigma ^ 2) / (1 + sigma ^ 2) ^ 2) / sigma ^ 6
      end
  | Beta => beta_hess mu sigma p
  | StudentT =>
      match p with
      | O => - (nu + 1) / ((nu + 3) * sigma ^ 2)
      | 1%nat => - (2 * nu) / ((nu + 3) * sigma ^ 2)
      | _ =>
          let n := Rmin nu LARGE in
          Rmin ((tg ((n + 1) / 2) - tg (n / 2) + 2 * (n + 5) / (n * (n + 1) * (n + 3))) / 4)
               (- / LARGE)
      end
  | BetaInflated =>
      match p with
      | O | 1%nat => if Reqb y 0 || Reqb y 1 then 0 else beta_hess mu sigma p
      | 2%nat => - (1 + tau) / (nu * (1 + nu + tau) ^ 2)
      | _ => - (1 + nu) / (tau * (1 + nu + tau) ^ 2)
      end
  | BetaInflatedZero =>
      match p with
      | O | 1%nat => if Reqb y 0 then 0 else beta_hess mu sigma p
      | _ => - 1 / (nu * (1 + nu) ^ 2)
      end
  | ZeroAdjustedGamma =>
      match p with
      | O | 1%nat => if Reqb y 0 then 0 else gamma_hess mu sigma p
      | _ => - 1 / (nu * (1 - nu))
      end
  end.

(** Bodies of [dl2_dpp] for the sorted pair (p, q), p < q: normal.py L79-80,
    L168-169; lognormal.py L84-85; lognormalmedian.py L71; logistic.py L71;
    gumbel.py L65-68; reversegumbel.py L78-79; inversegaussian.py L92;
    exponential.py L51; johnsonsu.py L131-190; gamma.py L114-115;
    inversegamma.py L97-98; beta.py L143-149; studentt.py L99-110;
    betainflated.py L133-156; betainflatedzero.py L109-123;
    zeroadjustedgamma.py L95-102. *)
Definition beta_cross (mu sigma : R) : R :=
  2 * (1 - sigma ^ 2) / sigma ^ 5 *
  (mu * tg (beta_a mu sigma) - (1 - mu) * tg (beta_b mu sigma)).

Definition cross (d : dist) (y : R) (th : theta) (p q : nat) : R :=
  let mu := th 0%nat in let sigma := th 1%nat in
  let nu := th 2%nat in let tau := th 3%nat in
  match d with
  | Gumbel | ReverseGumbel => - (422784 / 1000000) / sigma ^ 2
  | JSU => - (score JSU y th p * score JSU y th q)
  | InverseGamma => - (2 / (mu * sigma * (1 + sigma ^ 2)))
  | Beta => beta_cross mu sigma
  | StudentT =>
      match p, q with
      | 1%nat, 2%nat => 2 / (sigma * (nu + 3) * (nu + 1))
      | _, _ => 0
      end
  | BetaInflated =>
      match p, q with
      | O, 1%nat => if Reqb y 0 || Reqb y 1 then 0 else beta_cross mu sigma
      | 2%nat, 3%nat => 1 / (1 + nu + tau) ^ 2
      | _, _ => 0
      end
  | BetaInflatedZero =>
      match p, q with
      | O, 1%nat => if Reqb y 0 then 0 else beta_cross mu sigma
      | _, _ => 0
      end
  | _ => 0
  end.

(** Validation, base/distribution.py L80-86. Indices are python integers. *)
Definition validate_param (d : dist) (param : Z) : res unit :=
  if (Z.of_nat (n_params d) <=? param)%Z then Raise ValueError else Ok tt.

(** base/distribution.py L88-96. *)
Definition validate_params (d : dist) (a b : Z) : res unit :=
  if (Z.of_nat (n_params d) <=? Z.max a b)%Z then Raise ValueError
  else if (a =? b)%Z then Raise ValueError else Ok tt.

(** [dl1_dp1] with its checks.  [Ok None] is a python [None]: no branch of the
    method matches a negative index, except for Exponential, which has no
    branches.  Gumbel (gumbel.py L39-50) and InverseGaussian (inversegaussian.py
    L67-75) do not validate but raise ValueError when no branch matches. *)
Definition dl1_dp1 (d : dist) (y : R) (th : theta) (param : Z) : res (option R) :=
  match d with
  | Gumbel | InverseGaussian =>
      if (0 <=? param)%Z && (param <? 2)%Z then Ok (Some (score d y th (Z.to_nat param)))
      else Raise ValueError
  | _ =>
      do _ <- validate_param d param;
      if (0 <=? param)%Z then Ok (Some (score d y th (Z.to_nat param)))
      else match d with Exponential => Ok (Some (score d y th 0)) | _ => Ok None end
  end.

(** [dl2_dp2] with its checks; gumbel.py L52-60, inversegaussian.py L77-85 and
    inversegamma.py L72-84 raise ValueError when no branch matches. *)
Definition dl2_dp2 (d : dist) (y : R) (th : theta) (param : Z) : res (option R) :=
  match d with
  | Gumbel | InverseGaussian =>
      if (0 <=? param)%Z && (param <? 2)%Z then Ok (Some (hess d y th (Z.to_nat param)))
      else Raise ValueError
  | _ =>
      do _ <- validate_param d param;
      if (0 <=? param)%Z then Ok (Some (hess d y th (Z.to_nat param)))
      else match d with
           | Exponential => Ok (Some (hess d y th 0))
           | InverseGamma => Raise ValueError
           | _ => Ok None
           end
  end.

(** [dl2_dpp] with its checks.  InverseGaussian (inversegaussian.py L87-92) only
    compares the indices with each other.  LogNormalMedian, Logistic,
    ReverseGumbel and Exponential do not look at the pair after validation;
    Gumbel (gumbel.py L69) raises when the pair is not (0, 1). *)
Definition dl2_dpp (d : dist) (y : R) (th : theta) (a b : Z) : res (option R) :=
  let p := Z.min a b in let q := Z.max a b in
  let value := cross d y th (Z.to_nat p) (Z.to_nat q) in
  match d with
  | InverseGaussian => if (a =? b)%Z then Raise ValueError else Ok (Some 0)
  | LogNormalMedian | Logistic | ReverseGumbel | Exponential =>
      do _ <- validate_params d a b; Ok (Some (cross d y th 0 1))
  | Gumbel =>
      do _ <- validate_params d a b;
      if (0 <=? p)%Z then Ok (Some value) else Raise ValueError
  | _ =>
      do _ <- validate_params d a b;
      if (0 <=? p)%Z then Ok (Some value) else Ok None
  end.
End Dist.

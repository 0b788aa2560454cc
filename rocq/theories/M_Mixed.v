(** Model of [pdf], [cdf], [ppf] and [logcdf] of the three mixed families,
    /repo/src/ondil/distributions/betainflated.py, betainflatedzero.py and
    zeroadjustedgamma.py, and of the own methods of lognormal.py.
    One observation at a time.  scipy's continuous distributions are parameters of
    the model:
    - [bpdf a b y], [bcdf a b y] and [bppf a b q]: st.beta(a, b).pdf/.cdf/.ppf;
    - [gcdf a c y] and [gppf a c q]: st.gamma(a=a, loc=0, scale=c).cdf/.ppf;
    - [ncdf z] and [nppf q]: st.norm.cdf/.ppf;
    - [gam x]: spc.gamma.
    [None] is a result that is not a finite number; LogNormal is only meant for
    [y > 0] (numpy's log(0) = -inf is [None] here). *)
From Coq Require Import Reals List Bool Arith ZArith.
From Verif Require Import Base M_Links M_DistTable M_Dist.
Import ListNotations.
Open Scope R_scope.

(** numpy float power: a negative base is only defined for whole exponents. *)
Definition nppow (x a : R) : option R :=
  if Rltb 0 x then Some (Rpower x a)
  else if Reqb x 0 then
    if Rltb 0 a then Some 0 else if Reqb a 0 then Some 1 else None
  else if Reqb a (IZR (Int_part a)) then Some (powerRZ x (Int_part a)) else None.

Section Mixed.
Variables (bpdf bcdf : R -> R -> R -> R) (bppf : R -> R -> R -> option R).
Variables (gcdf : R -> R -> R -> R) (gppf : R -> R -> R -> option R).
Variables (ncdf : R -> R) (nppf : R -> option R) (gam : R -> R).

(** betainflated.py L181-197; betainflatedzero.py L144-157;
    zeroadjustedgamma.py L118-131 (the unused [pdf_gamma] is left out);
    lognormal.py L92-101. *)
Definition mixed_pdf (d : dist) (y : R) (th : theta) : option R :=
  let mu := th 0%nat in let sigma := th 1%nat in let nu := th 2%nat in let tau := th 3%nat in
  let a := mu * (1 - sigma ^ 2) / sigma ^ 2 in
  let b := (1 - mu) * (1 - sigma ^ 2) / sigma ^ 2 in
  match d with
  | BetaInflated =>
      if Rltb y 0 || Rltb 1 y then Some 0
      else if Reqb y 0 then npdiv nu (1 + nu + tau)
      else if Reqb y 1 then npdiv tau (1 + nu + tau)
      else npdiv (bpdf a b y) (1 + nu + tau)
  | BetaInflatedZero =>
      if Rltb y 0 || Rleb 1 y then Some 0
      else if Reqb y 0 then npdiv nu (1 + nu) else npdiv (bpdf a b y) (1 + nu)
  | ZeroAdjustedGamma =>
      if Reqb y 0 then Some nu
      else
        obind (nppow (y / (mu * sigma ^ 2)) (1 / sigma ^ 2)) (fun w =>
        npdiv ((1 - nu) * w * exp (- y / (mu * sigma ^ 2))) (y * gam (1 / sigma ^ 2)))
  | LogNormal =>
      obind (nplog y) (fun l =>
      omap (fun c => c * exp (- (l - mu) ^ 2 / (2 * sigma ^ 2))) (npdiv 1 (y * sigma * sqrt (2 * PI))))
  | _ => None
  end.

(** betainflated.py L161-179; betainflatedzero.py L128-142; zeroadjustedgamma.py
    L107-116; lognormal.py L103-108. *)
Definition mixed_cdf (d : dist) (y : R) (th : theta) : option R :=
  let mu := th 0%nat in let sigma := th 1%nat in let nu := th 2%nat in let tau := th 3%nat in
  let a := mu * (1 - sigma ^ 2) / sigma ^ 2 in
  let b := a * (1 - mu) / mu in
  match d with
  | BetaInflated =>
      let raw :=
        if Rltb 0 y && Rltb y 1 then nu + bcdf a b y
        else if Reqb y 0 then nu else if Reqb y 1 then 1 + nu + tau else 0 in
      if Rltb 1 y then Some 1 else if Rltb y 0 then Some 0 else npdiv raw (1 + nu + tau)
  | BetaInflatedZero =>
      let raw := if Reqb y 0 then nu else nu + bcdf a b y in
      if Rleb 1 y then Some 1 else if Rltb y 0 then Some 0 else npdiv raw (1 + nu)
  | ZeroAdjustedGamma =>
      if Reqb y 0 then Some nu
      else Some (nu + (1 - nu) * gcdf (1 / sigma ^ 2) (mu * sigma ^ 2) y)
  | LogNormal => omap (fun l => ncdf ((l - mu) / sigma)) (nplog y)
  | _ => None
  end.

(** betainflated.py L199-218; betainflatedzero.py L159-178; zeroadjustedgamma.py
    L133-140; lognormal.py L110-115. *)
Definition mixed_ppf (d : dist) (q : R) (th : theta) : option R :=
  let mu := th 0%nat in let sigma := th 1%nat in let nu := th 2%nat in let tau := th 3%nat in
  let a := mu * (1 - sigma ^ 2) / sigma ^ 2 in
  let b := (1 - mu) * (1 - sigma ^ 2) / sigma ^ 2 in
  match d with
  | BetaInflated =>
      let denom := 1 + nu + tau in let lower := nu / denom in let upper := (1 + nu) / denom in
      if Rltb q 0 || Rltb 1 q then None
      else if Reqb q 0 || Rleb q lower then Some 0
      else if Reqb q 1 || Rleb upper q then Some 1
      else bppf a b ((q - lower) * denom)
  | BetaInflatedZero =>
      let denom := 1 + nu in let lower := nu / denom in
      if Rltb q 0 || Rltb 1 q then None
      else if Reqb q 1 then Some prev1
      else if Reqb q 0 then Some 0
      else if Rleb q lower then Some 0
      else bppf a b ((q - lower) * denom)
  | ZeroAdjustedGamma =>
      if Rleb q nu then Some 0 else gppf (1 / sigma ^ 2) (mu * sigma ^ 2) ((q - nu) / (1 - nu))
  | LogNormal => omap (fun z => exp (mu + sigma * z)) (nppf q)
  | _ => None
  end.

(** betainflated.py L249-271; betainflatedzero.py L201-219; zeroadjustedgamma.py
    L162-171; lognormal.py L126-131.  Minus infinity is [None]. *)
Definition mixed_logcdf (d : dist) (y : R) (th : theta) : option R :=
  let mu := th 0%nat in let sigma := th 1%nat in let nu := th 2%nat in let tau := th 3%nat in
  let a := mu * (1 - sigma ^ 2) / sigma ^ 2 in
  let b := (1 - mu) * (1 - sigma ^ 2) / sigma ^ 2 in
  match d with
  | BetaInflated =>
      let denom := 1 + nu + tau in
      let raw :=
        if Rltb 0 y && Rltb y 1 then nu + bcdf a b y
        else if Reqb y 0 then nu else if Reqb y 1 then denom else 0 in
      if Rltb 1 y then Some 0 else if Rltb y 0 then None else obind (npdiv raw denom) nplog
  | BetaInflatedZero =>
      let denom := 1 + nu in
      let raw := if Rltb 0 y && Rleb y 1 then nu + bcdf a b y else if Reqb y 0 then nu else 0 in
      if Rleb 1 y then Some 0 else if Rltb y 0 then None else obind (npdiv raw denom) nplog
  | ZeroAdjustedGamma =>
      if Reqb y 0 then nplog nu
      else nplog (nu + (1 - nu) * gcdf (1 / sigma ^ 2) (mu * sigma ^ 2) y)
  | LogNormal => obind (omap (fun l => ncdf ((l - mu) / sigma)) (nplog y)) nplog
  | _ => None
  end.
End Mixed.

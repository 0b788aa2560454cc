(** Specifications: shifting the response and recoding the columns in distributional regression. *)
From Coq Require Import Reals List Bool Arith.
From Verif Require Import Base Lin Data M_Utils M_Links M_DistTable M_State M_LM M_Equation M_GAMLSS S_GAMLSS S_Units.
Import ListNotations.
Open Scope R_scope.

(** The first parameter moved by [a], the others as they are. *)
Definition location (a : R) (p : nat) : R := match p with O => a | S _ => 0 end.
Definition moved (a : R) (th : vec) : vec := fun p => th p + location a p.
(** The same call with all responses moved by [a]. *)
Definition shift_batch (a : R) (b : batch) : batch :=
  mk_batch (b_p b) (map (fun o => mkobs (ox o) (oy o + a) (ow o)) (b_rows b)).

(** The first parameter is a location parameter on its own scale: moving the response and
    the location by [a] changes nothing, and the starting values move with the sample. *)
Definition location_family (d : dist_ops) (a : R) : Prop :=
  (0 < d_n d)%nat /\
  (forall x, d_link d 0 (x + a) = omap (fun v => v + a) (d_link d 0 x)) /\
  (forall x, d_inv d 0 (x + a) = d_inv d 0 x + a) /\
  (forall x, d_dinv d 0 (x + a) = d_dinv d 0 x) /\
  (forall p y th, d_dl1 d p (y + a) (moved a th) = d_dl1 d p y th) /\
  (forall p y th, d_dl2 d p (y + a) (moved a th) = d_dl2 d p y th) /\
  (forall y th, d_logpdf d (y + a) (moved a th) = d_logpdf d y th) /\
  (forall q th, d_ppf d q (moved a th) = omap (fun v => v + a) (d_ppf d q th)) /\
  (forall y, below (y + a) (d_lo d) = below y (d_lo d) /\ above (y + a) (d_hi d) = above y (d_hi d)) /\
  (forall l fv, d_init d l = Ok fv -> d_init d (map (fun y => y + a) l) = Ok (map (moved a) fv)).

(** The row of the model matrix of parameter [p] for the row [x] of the (scaled) covariates. *)
Definition design_row (pr : prep) (ncol p : nat) (x : vec) : vec :=
  match make_model_array (p_eq pr p) (p_icpt pr p) ncol [x] with Ok (_, [r]) => r | _ => fun _ => 0 end.

(** The coefficients of parameter [p]. *)
Definition coefs {M} (s : gam M) (p : nat) : vec := match s_work s with Some w => w_coef w p | None => fun _ => 0 end.
(** The object after a fit that made at least one cycle and further calls of update. *)
Definition after_calls {M} (ops : method_ops M) (c : gam_cfg M) (b : batch) (bs : list batch) (s : gam M) : Prop :=
  exists s0, gam_fit ops c b new_gam = (s0, Ok tt) /\ cycles s0 <> Some O /\ gam_history ops c bs s0 = Ok s.
(** The equation of each parameter is the intercept alone or all columns, the latter with
    an intercept unless the recoding [x -> A x + b] has no constant part. *)
Definition recodable (pr : prep) (ncol n : nat) (b : vec) : Prop :=
  forall p, (p < n)%nat -> p_eq pr p = EqIntercept \/
    p_eq pr p = EqAll /\ (p_icpt pr p = true \/ forall j, (j < ncol)%nat -> b j = 0).

(** The shipped classes whose first parameter moves the density along the line. *)
Definition location_dist (D : dist) : Prop :=
  In D [Normal; NormalMeanVariance; Logistic; Gumbel; ReverseGumbel; JSU; StudentT].
(** What is asked of scipy: the quantile function moves with the location and, for the two
    classes that start from a maximum-likelihood fit, so does that fit. *)
Definition scipy_moves (fit_t : list R -> R * R * R) (fit_jsu : list R -> R * R * R * R) (gi : bool)
  (ppf : dist -> R -> vec -> option R) (D : dist) (a : R) : Prop :=
  (forall q th, ppf D q (moved a th) = omap (fun v => v + a) (ppf D q th)) /\
  (D = StudentT -> forall l, fit_t (map (fun y => y + a) l) = let '(df, loc, scale) := fit_t l in (df, loc + a, scale)) /\
  (D = JSU -> gi = false -> forall l, fit_jsu (map (fun y => y + a) l) = let '(u, v, loc, scale) := fit_jsu l in (u, v, loc + a, scale)).

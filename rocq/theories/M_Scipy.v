(** Model of [ScipyMixin], /repo/src/ondil/base/distribution.py 234-383: keyword
    arguments for the scipy.stats distributions, [cdf], [ppf], [mean], [rvs] and the
    conditional start values. One row of [theta] at a time; where the code passes arrays
    to scipy, the model calls scipy for each row.

    Parameters of the model: [std_cdf f], [std_ppf f]: distribution and quantile function
    of scipy's standardised family [f] ([None]: NaN or infinite); [euler]: np.euler_gamma;
    [minimise]: scipy.optimize.minimize, which gets the objective ([None]: NaN or infinite),
    the start and the bounds, and returns [success] and [x]. *)
From Coq Require Import Reals List Bool Arith String.
From Verif Require Import Base Lin M_Links M_DistTable M_Dist M_Mixed.
Import ListNotations.
Open Scope R_scope.

(** [scipy_dist]: normal.py 33, 108; lognormal.py 41; lognormalmedian.py 32; logistic.py 26;
    gumbel.py 29; reversegumbel.py 29; inversegaussian.py 48; exponential.py 26;
    johnsonsu.py 33; gamma.py 55; inversegamma.py 33; beta.py 64; studentt.py 25. [None]: the
    class does not inherit from [ScipyMixin]. *)
Inductive scipy_class : Type :=
| st_norm | st_lognorm | st_logistic | st_gumbel_l | st_gumbel_r | st_invgauss | st_expon
| st_johnsonsu | st_gamma | st_invgamma | st_beta | st_t.

Definition scipy_dist (d : dist) : option scipy_class :=
  match d with
  | Normal | NormalMeanVariance => Some st_norm
  | LogNormal | LogNormalMedian => Some st_lognorm
  | Logistic => Some st_logistic
  | Gumbel => Some st_gumbel_l
  | ReverseGumbel => Some st_gumbel_r
  | InverseGaussian => Some st_invgauss
  | Exponential => Some st_expon
  | JSU => Some st_johnsonsu
  | Gamma => Some st_gamma
  | InverseGamma => Some st_invgamma
  | Beta => Some st_beta
  | StudentT => Some st_t
  | BetaInflated | BetaInflatedZero | ZeroAdjustedGamma => None
  end.

(** [parameter_names] (normal.py 28 and so on): the same names in all classes. *)
Definition parameter_names (d : dist) : list string :=
  firstn (n_params d) ["mu"; "sigma"; "nu"; "tau"]%string.

(** [scipy_names]: normal.py 34, 109; lognormal.py 42; lognormalmedian.py 33; logistic.py 27;
    gumbel.py 30; reversegumbel.py 30; inversegaussian.py 49; exponential.py 27;
    johnsonsu.py 34; gamma.py 58; inversegamma.py 34; beta.py 67; studentt.py 26. *)
Definition scipy_names (d : dist) : list (string * string) :=
  match d with
  | Normal | NormalMeanVariance | Logistic | Gumbel | ReverseGumbel =>
      [("mu", "loc"); ("sigma", "scale")]%string
  | LogNormal | LogNormalMedian => [("mu", "scale"); ("sigma", "s")]%string
  | InverseGaussian => [("mu", "mu"); ("sigma", "scale")]%string
  | Exponential => [("mu", "scale")]%string
  | JSU => [("mu", "loc"); ("sigma", "scale"); ("nu", "a"); ("tau", "b")]%string
  | InverseGamma => [("mu", "scale"); ("sigma", "a")]%string
  | StudentT => [("mu", "loc"); ("sigma", "scale"); ("nu", "df")]%string
  | _ => []
  end.

(** Keyword arguments: a python dict, in insertion order. *)
Definition kwargs : Type := list (string * R).
Fixpoint get {A} (k : list (string * A)) (name : string) : option A :=
  match k with
  | [] => None
  | (n, a) :: k' => if String.eqb n name then Some a else get k' name
  end.
(** [del k[name]] *)
Fixpoint del (k : kwargs) (name : string) : res kwargs :=
  match k with
  | [] => Raise KeyError
  | (n, a) :: k' => if String.eqb n name then Ok k' else do r <- del k' name; Ok ((n, a) :: r)
  end.

(** scipy's frozen distribution: unknown, repeated and missing arguments raise TypeError;
    [loc] and [scale] have defaults. *)
Definition shape_names (c : scipy_class) : list string :=
  match c with
  | st_lognorm => ["s"]
  | st_invgauss => ["mu"]
  | st_johnsonsu | st_beta => ["a"; "b"]
  | st_gamma | st_invgamma => ["a"]
  | st_t => ["df"]
  | _ => []
  end%string.
Fixpoint distinct (l : list string) : bool :=
  match l with [] => true | n :: l' => negb (existsb (String.eqb n) l') && distinct l' end.
Definition make_family (c : scipy_class) (shapes : list R) : option family :=
  match c, shapes with
  | st_norm, [] => Some f_norm
  | st_lognorm, [s] => Some (f_lognorm s)
  | st_logistic, [] => Some f_logistic
  | st_gumbel_l, [] => Some f_gumbel_l
  | st_gumbel_r, [] => Some f_gumbel_r
  | st_invgauss, [m] => Some (f_invgauss m)
  | st_expon, [] => Some f_expon
  | st_johnsonsu, [a; b] => Some (f_johnsonsu a b)
  | st_gamma, [a] => Some (f_gamma a)
  | st_invgamma, [a] => Some (f_invgamma a)
  | st_beta, [a; b] => Some (f_beta a b)
  | st_t, [df] => Some (f_t df)
  | _, _ => None
  end.
Fixpoint present {A} (l : list (option A)) : list A :=
  match l with [] => [] | Some a :: l' => a :: present l' | None :: l' => present l' end.
Definition freeze (c : scipy_class) (k : kwargs) : res (family * R * R) :=
  let known := (shape_names c ++ ["loc"; "scale"]%string)%list in
  if distinct (map fst k) && forallb (fun n => existsb (String.eqb n) known) (map fst k)
  then match make_family c (present (map (get k) (shape_names c))) with
       | Some f => Ok (f, match get k "loc" with Some a => a | None => 0 end,
                       match get k "scale" with Some a => a | None => 1 end)
       | None => Raise TypeError
       end
  else Raise TypeError.

(** 268-271: the columns of [theta] under their scipy names. *)
Fixpoint named_columns (names : list (string * string)) (params : list string) (i : nat) (th : theta) : res kwargs :=
  match params with
  | [] => Ok []
  | n :: params' =>
      match get names n with
      | Some s => do r <- named_columns names params' (S i) th; Ok ((s, th i) :: r)
      | None => Raise KeyError
      end
  end.
(** 253-271 [theta_to_scipy_params], and the classes that override it: normal.py 129-141;
    lognormal.py 56-59; lognormalmedian.py 47-49; logistic.py 36-39; reversegumbel.py 44-50;
    inversegaussian.py 63-65; exponential.py 33-35; gamma.py 67-80; inversegamma.py 48-52;
    beta.py 76-90. *)
Definition theta_to_scipy_params (d : dist) (th : theta) : res kwargs :=
  let mu := th 0%nat in let sigma := th 1%nat in
  match d with
  | NormalMeanVariance => Ok [("loc", mu); ("scale", sqrt sigma)]%string
  | LogNormal => Ok [("s", sigma); ("scale", robust_exp mu); ("loc", 0)]%string
  | LogNormalMedian => Ok [("s", sigma); ("scale", mu); ("loc", 0)]%string
  | Logistic | ReverseGumbel => Ok [("loc", mu); ("scale", sigma)]%string
  | InverseGaussian => Ok [("mu", mu * sigma ^ 2); ("loc", 0); ("scale", 1 / sigma ^ 2)]%string
  | Exponential => Ok [("scale", mu)]%string
  | Gamma => Ok [("a", 1 / sigma ^ 2); ("loc", 0); ("scale", 1 / (1 / (sigma ^ 2 * mu)))]%string
  | InverseGamma =>
      Ok [("a", 1 / sigma ^ 2); ("scale", mu * (1 + sigma ^ 2) / sigma ^ 2); ("loc", 0)]%string
  | Beta =>
      Ok [("a", mu * (1 - sigma ^ 2) / sigma ^ 2); ("b", (1 - mu) * (1 - sigma ^ 2) / sigma ^ 2);
          ("loc", 0); ("scale", 1)]%string
  | _ =>
      match scipy_names d with
      | [] => Raise ValueError
      | names => named_columns names (parameter_names d) 0 th
      end
  end.
(** [self.scipy_dist( **self.theta_to_scipy_params(theta))]; the classes without the mixin
    have no such attribute. *)
Definition frozen (d : dist) (th : theta) : res (family * R * R) :=
  match scipy_dist d with
  | None => Raise AttributeError
  | Some c => do k <- theta_to_scipy_params d th; freeze c k
  end.

Section Scipy.
Variables (lgam : R -> R) (euler : R).
Variables (std_cdf : family -> R -> R) (std_ppf : family -> R -> option R).

(** scipy's [mean] of the standardised family (documented formulas). *)
Definition std_mean (f : family) : option R :=
  match f with
  | f_norm | f_logistic => Some 0
  | f_lognorm s => Some (exp (s ^ 2 / 2))
  | f_gumbel_l => Some (- euler)
  | f_gumbel_r => Some euler
  | f_invgauss m => Some m
  | f_expon => Some 1
  | f_johnsonsu a b => Some (- exp (1 / (2 * b ^ 2)) * sinh (a / b))
  | f_gamma a => Some a
  | f_invgamma a => if Rltb 1 a then Some (1 / (a - 1)) else None
  | f_beta a b => Some (a / (a + b))
  | f_t df => if Rltb 1 df then Some 0 else None
  end.
Definition located (x : family * R * R) (g : family -> R -> R -> option R) : option R :=
  let '(f, loc, scale) := x in if Rltb 0 scale && shapes_ok f then g f loc scale else None.
(** 320-329 [mean]; the mixed classes do not define it. *)
Definition dist_mean (d : dist) (th : theta) : res (option R) :=
  do x <- frozen d th; Ok (located x (fun f loc scale => omap (fun m => loc + scale * m) (std_mean f))).

(** [cdf]: 273-274, or the method of the class (betainflated.py 161-179, betainflatedzero.py
    128-142, zeroadjustedgamma.py 107-116, lognormal.py 103-108). *)
Definition beta_cdf (a b y : R) : R := std_cdf (f_beta a b) y.
Definition beta_ppf (a b q : R) : option R := std_ppf (f_beta a b) q.
Definition gamma_cdf (a c y : R) : R := std_cdf (f_gamma a) (y / c).
Definition gamma_ppf (a c q : R) : option R := omap (fun x => c * x) (std_ppf (f_gamma a) q).
Definition has_own_cdf (d : dist) : bool :=
  match d with BetaInflated | BetaInflatedZero | ZeroAdjustedGamma | LogNormal => true | _ => false end.
Definition dist_cdf (d : dist) (y : R) (th : theta) : option R :=
  if has_own_cdf d then mixed_cdf beta_cdf gamma_cdf (std_cdf f_norm) d y th
  else match frozen d th with
       | Ok x => located x (fun f loc scale => Some (std_cdf f ((y - loc) / scale)))
       | Raise _ => None
       end.
(** [ppf]: 284-285, or the method of the class (betainflated.py 199-218, betainflatedzero.py
    159-178, zeroadjustedgamma.py 133-140, lognormal.py 110-115). *)
Definition dist_ppf (d : dist) (q : R) (th : theta) : option R :=
  if has_own_cdf d then mixed_ppf beta_ppf gamma_ppf (std_ppf f_norm) d q th
  else match frozen d th with
       | Ok x => located x (fun f loc scale => omap (fun z => loc + scale * z) (std_ppf f q))
       | Raise _ => None
       end.

(** 313-318 [rvs] of the scipy families: scipy draws an array of shape (size, n) whose
    column [i] belongs to row [i] of theta, and transposes it. [draw f k i]: the
    standardised variate number [k] for row [i]. *)
Variable draw : family -> nat -> nat -> R.
Definition scipy_rvs (d : dist) (size : nat) (fv : list theta) : res (list (list (option R))) :=
  match scipy_dist d with
  | None => Raise AttributeError
  | Some _ =>
      Ok (map2 (fun i th => map (fun k =>
        match frozen d th with
        | Ok x => located x (fun f loc scale => Some (loc + scale * draw f k i))
        | Raise _ => None
        end) (seq 0 size)) (seq 0 (List.length fv)) fv)
  end.
(** numpy's elementwise operation of two one-dimensional arrays. *)
Definition broadcast {A B C} (f : A -> B -> C) (l : list A) (m : list B) : res (list C) :=
  if Nat.eqb (List.length l) (List.length m) then Ok (map2 f l m)
  else match l, m with
       | [a], _ => Ok (map (f a) m)
       | _, [b] => Ok (map (fun a => f a b) l)
       | _, _ => Raise ValueError
       end.
(** [rvs] of the mixed families (betainflated.py 223-225, betainflatedzero.py 183-185,
    zeroadjustedgamma.py 145-147): [size] uniform numbers [u], and the quantile function. *)
Definition mixed_rvs (d : dist) (u : list R) (fv : list theta) : res (list (option R)) :=
  broadcast (dist_ppf d) u fv.

(** 331-342: [decision], the dict built in [_scipy_mle_objective]. *)
Definition unknown (d : dist) (p : nat) : list nat := seq p (n_params d - p).
Definition scipy_name (d : dist) (i : nat) : res string :=
  match nth_error (parameter_names d) i with
  | Some n => match get (scipy_names d) n with Some s => Ok s | None => Raise KeyError end
  | None => Raise KeyError
  end.
Fixpoint decision (d : dist) (is : list nat) (x : list R) : res kwargs :=
  match is, x with
  | i :: is', v :: x' => do s <- scipy_name d i; do r <- decision d is' x'; Ok ((s, v) :: r)
  | _, _ => Ok []
  end.
(** 362-366: [fixed], for one row of theta. *)
Fixpoint delete_names (d : dist) (is : list nat) (k : kwargs) : res kwargs :=
  match is with
  | [] => Ok k
  | i :: is' => do s <- scipy_name d i; do k' <- del k s; delete_names d is' k'
  end.
Definition fixed_params (d : dist) (p : nat) (th : theta) : res kwargs :=
  do k <- theta_to_scipy_params d th; delete_names d (unknown d p) k.
Fixpoint map_res {A B} (f : A -> res B) (l : list A) : res (list B) :=
  match l with
  | [] => Ok []
  | a :: l' => do b <- f a; do r <- map_res f l'; Ok (b :: r)
  end.
Fixpoint sum_option (l : list (option R)) : option R :=
  match l with
  | [] => Some 0
  | o :: l' => obind o (fun a => omap (fun b => a + b) (sum_option l'))
  end.
(** 331-342 [_scipy_mle_objective]. *)
Definition mle_objective (d : dist) (c : scipy_class) (ys : list R) (fixed : list kwargs) (p : nat) (x : list R) : res (option R) :=
  do dec <- decision d (unknown d p) x;
  do fs <- map_res (fun k => freeze c (dec ++ k)%list) fixed;
  Ok (omap Ropp (sum_option (map2 (fun y f => let '(g, loc, scale) := f in scipy_logpdf lgam g loc scale y) ys fs))).

Variable minimise : (list R -> option R) -> list R -> list support -> res (bool * list R).
(** 344-383 [calculate_conditional_initial_values]. The mixed classes call the abstract
    method (betainflated.py 276-277, betainflatedzero.py 224-225, zeroadjustedgamma.py
    176-177), which returns None; the caller subscripts it (online_gamlss.py 1025). An
    exception in the objective is met in the first evaluation. *)
Definition replace_from (d : dist) (p : nat) (x : list R) (th : theta) : theta :=
  fun k => if (p <=? k)%nat && (k <? n_params d)%nat then nth (k - p) x 0 else th k.
Definition conditional_start (d : dist) (links : list link) (ys : list R) (fv : list theta) (p : nat) : res (list theta) :=
  match scipy_dist d, fv with
  | None, _ => Raise TypeError
  | Some _, [] => Raise IndexError
  | Some c, th0 :: _ =>
      let start := map th0 (unknown d p) in
      do fixed <- map_res (fixed_params d p) fv;
      let bounds := map (fun i => link_support (nth i links Identity)) (unknown d p) in
      do _ <- mle_objective d c ys fixed p start;
      do r <- minimise (fun x => match mle_objective d c ys fixed p x with Ok v => v | Raise _ => None end) start bounds;
      let (success, x) := r in
      Ok (if success then map (replace_from d p x) fv else fv)
  end.
End Scipy.

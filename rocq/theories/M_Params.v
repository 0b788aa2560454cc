(** Model of the parameter validation that runs before every [fit] and [update]:
    the [_parameter_constraints] of the estimators
    (src/ondil/estimators/online_linear_model.py:26-33, online_gamlss.py:37-60,
    scaler.py:18-21), the constructors as far as they assign attributes
    (online_linear_model.py:36-62, online_lasso.py:10-68, online_gamlss.py:62-210,
    scaler.py:23-40), and sklearn's decorator [_fit_context(prefer_skip_nested_validation=True)]
    with [BaseEstimator.get_params] and [validate_parameter_constraints] (sklearn is outside
    the repository; modelled as documented, with the default configuration
    [skip_parameter_validation=False]). sklearn's [InvalidParameterError] is a [ValueError]. *)
From Coq Require Import Reals List Bool Arith ZArith String.
From Verif Require Import Base M_State M_LM.
Import ListNotations.
Open Scope R_scope.
Open Scope st_scope.
Open Scope string_scope.

(** Python values as far as the constraints distinguish them. [VFloat] is a finite float,
    [VInf true] is +inf; [VMethod m]: an [EstimationMethod] object, [VCallable]: an object
    with [__call__] (every [Distribution]: base/distribution.py:19), [VOther]: anything
    else (lists, tuples, numpy booleans, ...). *)
Inductive pyval : Type :=
| VBool (b : bool) | VInt (z : Z) | VFloat (x : R) | VInf (positive : bool) | VNan
| VStr (s : string) | VNone | VDict (d : list (nat * pyval)) | VArray
| VMethod (m : nat) | VCallable | VOther.

(** The constraints in use. *)
Inductive constraint : Type :=
| IntervalReal (lo : R) (hi : option R)  (* Interval(numbers.Real, lo, hi, closed="left") *)
| IntervalInt (lo : Z)                   (* Interval(numbers.Integral, lo, None, closed="left") *)
| AnyReal                                (* numbers.Real *)
| IsBool | IsStr | IsDict | IsArray | IsMethod | IsNone
| StrOptions (l : list string)
| IsCallable.

(** [bool] is a subclass of [int], [int] and [float] are registered as [numbers.Real]. *)
Definition as_number (v : pyval) : option R :=
  match v with
  | VBool b => Some (if b then 1 else 0)
  | VInt z => Some (IZR z)
  | VFloat x => Some x
  | _ => None
  end.
Definition as_integer (v : pyval) : option Z :=
  match v with
  | VBool b => Some (if b then 1 else 0)%Z
  | VInt z => Some z
  | _ => None
  end.

(** sklearn/utils/_param_validation.py, [is_satisfied_by]; an interval that is open at the
    right does not contain infinity, and no interval contains NaN. *)
Definition satisfies (v : pyval) (c : constraint) : bool :=
  match c with
  | IntervalReal lo hi =>
      match as_number v with
      | Some x => Rleb lo x && match hi with Some h => Rltb x h | None => true end
      | None => false
      end
  | IntervalInt lo => match as_integer v with Some z => Z.leb lo z | None => false end
  | AnyReal => match v with VBool _ | VInt _ | VFloat _ | VInf _ | VNan => true | _ => false end
  | IsBool => match v with VBool _ => true | _ => false end
  | IsStr => match v with VStr _ => true | _ => false end
  | IsDict => match v with VDict _ => true | _ => false end
  | IsArray => match v with VArray => true | _ => false end
  | IsMethod => match v with VMethod _ => true | _ => false end
  | IsNone => match v with VNone => true | _ => false end
  | StrOptions l => match v with VStr s => existsb (String.eqb s) l | _ => false end
  | IsCallable => match v with VCallable => true | _ => false end
  end.

Definition constraints : Type := list (string * list constraint).
Fixpoint constraints_for (cs : constraints) (name : string) : option (list constraint) :=
  match cs with
  | [] => None
  | (n, l) :: cs' => if String.eqb n name then Some l else constraints_for cs' name
  end.
(** [validate_parameter_constraints]: a parameter without an entry is not checked. *)
Definition acceptable (cs : constraints) (name : string) (v : pyval) : bool :=
  match constraints_for cs name with
  | None => true
  | Some l => existsb (satisfies v) l
  end.
Definition all_acceptable (cs : constraints) (ps : list (string * pyval)) : bool :=
  forallb (fun p => acceptable cs (fst p) (snd p)) ps.

(** The attributes of an object that hold constructor arguments; [None]: not set. *)
Definition attributes : Type := string -> option pyval.

(** [BaseEstimator.get_params(deep=False)]: [getattr(self, name)] for every parameter of
    [__init__]. *)
Fixpoint get_params (names : list string) (self : attributes) : res (list (string * pyval)) :=
  match names with
  | [] => Ok []
  | n :: names' =>
      match self n with
      | None => Raise AttributeError
      | Some v => do r <- get_params names' self; Ok ((n, v) :: r)
      end
  end.

(** A method with [_fit_context]: validation, then the body. *)
Definition fit_context {S A} (names : list string) (cs : constraints) (self : attributes)
    (body : st S A) : st S A :=
  fun s =>
  match get_params names self with
  | Raise e => (s, Raise e)
  | Ok ps => if all_acceptable cs ps then body s else (s, Raise ValueError)
  end.

(** [self.n = a(n)] for the given names. *)
Definition assign_all (names : list string) (a : string -> pyval) : attributes :=
  fun n => if existsb (String.eqb n) names then Some (a n) else None.

Definition forget_constraint := IntervalReal 0 (Some 1).

(** ** OnlineScaler: scaler.py:18-40 *)
Definition scaler_names := ["forget"; "to_scale"].
Definition scaler_constraints : constraints :=
  [("forget", [forget_constraint]); ("to_scale", [IsBool; IsArray])].
Definition scaler_init (a : string -> pyval) : attributes := assign_all scaler_names a.

(** ** OnlineLinearModel: online_linear_model.py:26-62 *)
Definition lm_names := ["forget"; "scale_inputs"; "fit_intercept"; "regularize_intercept"; "method"; "ic"].
Definition lm_constraints : constraints :=
  [("forget", [forget_constraint]); ("fit_intercept", [IsBool]); ("scale_inputs", [IsBool; IsArray]);
   ("regularize_intercept", [IsBool]); ("method", [IsMethod; IsStr]);
   ("ic", [StrOptions ["aic"; "bic"; "hqc"; "max"]])].
Definition lm_init (a : string -> pyval) : attributes := assign_all lm_names a.

(** ** OnlineLasso: online_lasso.py:10-68. The constructor builds a [LassoPath] object and
    calls the constructor of the base class; it assigns nothing itself. The constraints are
    inherited. *)
Definition lasso_names :=
  ["forget"; "scale_inputs"; "fit_intercept"; "regularize_intercept"; "ic"; "early_stop";
   "beta_lower_bound"; "beta_upper_bound"; "lambda_n"; "lambda_eps"; "start_value"; "tolerance";
   "max_iterations"; "selection"].
Definition lasso_init (a : string -> pyval) (method : nat) : attributes :=
  lm_init (fun n => if String.eqb n "method" then VMethod method else a n).

(** ** OnlineDistributionalRegression: online_gamlss.py:37-92, 186-210 *)
Definition gam_names :=
  ["distribution"; "equation"; "forget"; "method"; "scale_inputs"; "fit_intercept";
   "regularize_intercept"; "ic"; "model_selection"; "prefit_initial"; "prefit_update"; "step_size";
   "verbose"; "debug"; "param_order"; "cautious_updates"; "cond_start_val"; "max_it_outer";
   "max_it_inner"; "abs_tol_outer"; "abs_tol_inner"; "rel_tol_outer"; "rel_tol_inner"; "min_it_outer"].
Definition gam_constraints : constraints :=
  [("forget", [forget_constraint]); ("fit_intercept", [IsBool]); ("scale_inputs", [IsBool; IsArray]);
   ("regularize_intercept", [IsBool]); ("method", [IsMethod; IsStr]);
   ("ic", [StrOptions ["aic"; "bic"; "hqc"; "max"]]);
   ("distribution", [IsCallable]); ("equation", [IsDict; IsNone]);
   ("model_selection", [StrOptions ["local_rss"; "global_ll"]]);
   ("prefit_initial", [IntervalInt 0]); ("prefit_update", [IntervalInt 0]);
   ("cautious_updates", [IsBool]);
   ("max_it_outer", [IntervalInt 1]); ("max_it_inner", [IntervalInt 1]);
   ("abs_tol_outer", [IntervalReal 0 None]); ("abs_tol_inner", [IntervalReal 0 None]);
   ("rel_tol_outer", [IntervalReal 0 None]); ("rel_tol_inner", [IntervalReal 0 None]);
   ("step_size", [AnyReal; IsDict]); ("verbose", [IntervalInt 0]); ("debug", [IsBool]);
   ("param_order", [IsArray; IsNone])].
Definition gam_init (a : string -> pyval) : attributes := assign_all gam_names a.

(** The calls [fit] and [update] of the three classes with validation (the decorator stands
    at online_linear_model.py:99 and 176, online_gamlss.py:640 and 775, scaler.py:69 and
    114); [partial_fit] (base/estimator.py:19-46) calls one of the two. *)
Definition scaler_call {S A} (self : attributes) (body : st S A) := fit_context scaler_names scaler_constraints self body.
Definition lm_call {S A} (self : attributes) (body : st S A) := fit_context lm_names lm_constraints self body.
Definition lasso_call {S A} (self : attributes) (body : st S A) := fit_context lasso_names lm_constraints self body.
Definition gam_call {S A} (self : attributes) (body : st S A) := fit_context gam_names gam_constraints self body.

(** A program that calls [fit], [update] and [partial_fit] of an [OnlineLasso] and carries
    on after exceptions; the bodies are those of the linear model ([M_LM]), the
    configuration [c] what [self.forget], [self.method], ... hold. *)
Inductive request := CallFit | CallUpdate | CallPartialFit.
Definition lasso_request {M} (ops : method_ops M) (c : lm_cfg M) (self : attributes)
    (q : request) (b : batch) : st (lm M) unit :=
  match q with
  | CallFit => lasso_call self (lm_fit ops c b)
  | CallUpdate => lasso_call self (lm_update ops c b)
  | CallPartialFit => fun s => if is_fitted s then lasso_call self (lm_update ops c b) s
                               else lasso_call self (lm_fit ops c b) s
  end.
Fixpoint lasso_requests {M} (ops : method_ops M) (c : lm_cfg M) (self : attributes)
    (qs : list (request * batch)) (s : lm M) : lm M * list (res unit) :=
  match qs with
  | [] => (s, [])
  | (q, b) :: qs' =>
      let (s1, r) := lasso_request ops c self q b s in
      let (s2, rs) := lasso_requests ops c self qs' s1 in (s2, r :: rs)
  end.

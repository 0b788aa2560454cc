(** Specification: which constructor arguments are usable, said without sklearn's
    constraint objects, and how python values are read as options of the model. *)
From Coq Require Import Reals List Bool Arith ZArith String.
From Verif Require Import Base M_LM M_Equation M_GAMLSS M_Params M_Utils.
Import ListNotations.
Open Scope R_scope.
Open Scope string_scope.

Definition is_dict_value (v : pyval) : Prop := exists d, v = VDict d.
Definition a_bool (v : pyval) : Prop := exists b, v = VBool b.
Definition a_string (v : pyval) : Prop := exists s, v = VStr s.
Definition a_method (v : pyval) : Prop := exists m, v = VMethod m.
Definition one_of (l : list string) (v : pyval) : Prop := exists s, v = VStr s /\ In s l.
(** A finite number [x] (a boolean counts as 0 or 1). *)
Definition number (v : pyval) (x : R) : Prop :=
  v = VFloat x \/ (exists z, v = VInt z /\ x = IZR z) \/
  (v = VBool true /\ x = 1) \/ (v = VBool false /\ x = 0).
Definition number_between (lo hi : R) (v : pyval) : Prop := exists x, number v x /\ lo <= x < hi.
Definition number_from (lo : R) (v : pyval) : Prop := exists x, number v x /\ lo <= x.
Definition integer_from (lo : Z) (v : pyval) : Prop :=
  exists z, (lo <= z)%Z /\ (v = VInt z \/ (v = VBool true /\ z = 1%Z) \/ (v = VBool false /\ z = 0%Z)).
Definition any_number (v : pyval) : Prop :=
  (exists x, number v x) \/ (exists s, v = VInf s) \/ v = VNan.

(** The arguments of [OnlineScaler], [OnlineLinearModel] and
    [OnlineDistributionalRegression] that [fit] and [update] accept. *)
Definition usable_scaler (a : string -> pyval) : Prop :=
  number_between 0 1 (a "forget") /\ (a_bool (a "to_scale") \/ a "to_scale" = VArray).
Definition usable_lm (a : string -> pyval) : Prop :=
  number_between 0 1 (a "forget") /\
  (a_bool (a "scale_inputs") \/ a "scale_inputs" = VArray) /\
  a_bool (a "fit_intercept") /\ a_bool (a "regularize_intercept") /\
  (a_method (a "method") \/ a_string (a "method")) /\
  one_of ["aic"; "bic"; "hqc"; "max"] (a "ic").
Definition usable_gam (a : string -> pyval) : Prop :=
  usable_lm a /\
  a "distribution" = VCallable /\
  (is_dict_value (a "equation") \/ a "equation" = VNone) /\
  one_of ["local_rss"; "global_ll"] (a "model_selection") /\
  integer_from 0 (a "prefit_initial") /\ integer_from 0 (a "prefit_update") /\
  a_bool (a "cautious_updates") /\
  integer_from 1 (a "max_it_outer") /\ integer_from 1 (a "max_it_inner") /\
  number_from 0 (a "abs_tol_outer") /\ number_from 0 (a "abs_tol_inner") /\
  number_from 0 (a "rel_tol_outer") /\ number_from 0 (a "rel_tol_inner") /\
  (any_number (a "step_size") \/ is_dict_value (a "step_size")) /\
  integer_from 0 (a "verbose") /\ a_bool (a "debug") /\
  (a "param_order" = VArray \/ a "param_order" = VNone).

(** The python value [v] is the option [o]: one value, or a dict whose values are read one by one. *)
Definition reads {A} (value : pyval -> A -> Prop) (v : pyval) (o : option_value A) : Prop :=
  match o with
  | Scalar x => ~ is_dict_value v /\ value v x
  | Dict d => exists dv, v = VDict dv /\ Forall2 (fun a b => fst a = fst b /\ value (snd a) (snd b)) dv d
  end.
Definition reads_bool (v : pyval) (b : bool) : Prop := v = VBool b.
Definition reads_ic (v : pyval) (c : criterion) : Prop :=
  match c with
  | aic => v = VStr "aic" | aicc => v = VStr "aicc" | bic => v = VStr "bic"
  | hqc => v = VStr "hqc" | max_ll => v = VStr "max"
  end.
(** [find] gives the method for a value; a dict gives a value per parameter, "ols" if none. *)
Definition reads_method {M} (find : pyval -> res M) (v : pyval) (o : nat -> res M) : Prop :=
  forall p, o p = match v with
                  | VDict d => find (match lookup d p with Some m => m | None => VStr "ols" end)
                  | _ => find v
                  end.

(** The constructor arguments [a] are what the configuration [c] of the model says. *)
Definition configured {M} (find : pyval -> res M) (a : string -> pyval) (c : gam_cfg M) : Prop :=
  reads number (a "forget") (o_forget c) /\
  reads reads_ic (a "ic") (o_ic c) /\
  reads reads_bool (a "fit_intercept") (o_icpt c) /\
  reads reads_bool (a "regularize_intercept") (o_regicpt c) /\
  reads_method find (a "method") (o_method c) /\
  reads number (a "step_size") (o_step c).

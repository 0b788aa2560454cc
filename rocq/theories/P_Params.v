(** Property theorems: parameter validation before [fit] and [update]. *)
From Coq Require Import Reals List Bool Arith ZArith String Lra Lia.
From Verif Require Import Base M_State M_OLS M_LM M_Equation M_Utils M_GAMLSS M_Params S_Params L_Params L_GAMEx3.
Import ListNotations.
Open Scope R_scope.
Open Scope string_scope.

(** ** C85: an OnlineLasso can never be fitted *)

(** Whatever the constructor arguments [a] and whatever calls of [fit], [update] and
    [partial_fit] are made: each raises AttributeError and the object stays as it was. *)
Theorem C85_lasso_never_fits {M} (ops : method_ops M) c a m qs :
  lasso_requests ops c (lasso_init a m) qs new_lm = (new_lm, map (fun _ => Raise AttributeError) qs).
Proof. exact (C85_lasso_lemma ops c a m qs). Qed.
Print Assumptions C85_lasso_never_fits.

Theorem C85_lasso_never_predicts {M} (ops : method_ops M) c a m qs p X :
  snd (lm_predict c p X (fst (lasso_requests ops c (lasso_init a m) qs new_lm))) = Raise NotFittedError.
Proof. exact (C85_predict_lemma ops c a m qs p X). Qed.
Print Assumptions C85_lasso_never_predicts.

(** ** C86: per-parameter dicts are rejected *)

Theorem C86_dict_options_are_rejected {S A} a name d (body : st S A) s :
  In name ["forget"; "method"; "fit_intercept"; "regularize_intercept"; "ic"] ->
  a name = VDict d ->
  gam_call (gam_init a) body s = (s, Raise ValueError).
Proof. exact (C86_dicts_lemma a name d body s). Qed.
Print Assumptions C86_dict_options_are_rejected.

Theorem C86_step_size_may_be_a_dict {S A} a d (body : st S A) s : usable_gam a ->
  gam_call (gam_init (fun n => if String.eqb n "step_size" then VDict d else a n)) body s = body s.
Proof. exact (C86_step_lemma a d body s). Qed.
Print Assumptions C86_step_size_may_be_a_dict.

(** So in every fit that gets past validation all distribution parameters have the same
    forgetting factor (in [0, 1)), criterion (never "aicc"), intercept options and method. *)
Theorem C86_all_parameters_have_the_same_options {M} find a (c : gam_cfg M) pr ms :
  configured find a c -> usable_gam a -> prepare c = Ok (pr, ms) ->
  exists forget crit icpt regicpt,
    0 <= forget < 1 /\ crit <> aicc /\
    forall p, (p < d_n (o_dist c))%nat ->
      p_forget pr p = forget /\ p_ic pr p = crit /\ p_icpt pr p = icpt /\ p_regicpt pr p = regicpt /\
      exists m, find (a "method") = Ok m /\ ms p = Some m.
Proof. exact (C86_same_lemma find a c pr ms). Qed.
Print Assumptions C86_all_parameters_have_the_same_options.

(** ** C87: unusable parameters are rejected without effect, usable ones are not *)

Theorem C87_scaler {S A} a (body : st S A) :
  (usable_scaler a -> forall s, scaler_call (scaler_init a) body s = body s) /\
  (~ usable_scaler a -> forall s, scaler_call (scaler_init a) body s = (s, Raise ValueError)).
Proof. exact (C87_scaler_lemma a body). Qed.
Print Assumptions C87_scaler.

Theorem C87_linear_model {S A} a (body : st S A) :
  (usable_lm a -> forall s, lm_call (lm_init a) body s = body s) /\
  (~ usable_lm a -> forall s, lm_call (lm_init a) body s = (s, Raise ValueError)).
Proof. exact (C87_lm_lemma a body). Qed.
Print Assumptions C87_linear_model.

Theorem C87_distributional_regression {S A} a (body : st S A) :
  (usable_gam a -> forall s, gam_call (gam_init a) body s = body s) /\
  (~ usable_gam a -> forall s, gam_call (gam_init a) body s = (s, Raise ValueError)).
Proof. exact (C87_gam_lemma a body). Qed.
Print Assumptions C87_distributional_regression.

(** ** Examples *)

(** The defaults of online_gamlss.py:62-92, and of online_lasso.py:10-26. *)
Definition default_arguments (n : string) : pyval :=
  if existsb (String.eqb n) ["fit_intercept"; "scale_inputs"] then VBool true
  else if existsb (String.eqb n) ["regularize_intercept"; "cautious_updates"; "cond_start_val"; "debug"] then VBool false
  else if existsb (String.eqb n) ["prefit_initial"; "prefit_update"; "verbose"; "early_stop"] then VInt 0
  else if existsb (String.eqb n) ["max_it_outer"; "max_it_inner"] then VInt 30
  else if String.eqb n "min_it_outer" then VInt 1
  else if existsb (String.eqb n) ["abs_tol_outer"; "abs_tol_inner"] then VFloat (1 / 1000)
  else if existsb (String.eqb n) ["rel_tol_outer"; "rel_tol_inner"] then VFloat (1 / 100000)
  else if String.eqb n "forget" then VFloat 0
  else if String.eqb n "step_size" then VFloat 1
  else if String.eqb n "method" then VStr "ols"
  else if String.eqb n "ic" then VStr "aic"
  else if String.eqb n "model_selection" then VStr "local_rss"
  else if String.eqb n "distribution" then VCallable
  else if String.eqb n "lambda_n" then VInt 100
  else VNone.
Example C87_defaults_are_usable : usable_gam default_arguments.
Proof.
  unfold usable_gam, usable_lm, number_between, number_from, integer_from, one_of, any_number, number,
    a_bool, a_string, a_method, is_dict_value, default_arguments.
  cbn [existsb orb String.eqb Ascii.eqb Bool.eqb].
  repeat match goal with |- _ /\ _ => split end;
    try (exists 0; split; [left; reflexivity | lra]);
    try (eexists; split; [left; reflexivity | lra]);
    try (eexists; reflexivity); eauto 8;
    try (eexists; split; [|left; reflexivity]; lia);
    try (eexists; split; [reflexivity|]; cbn [In]; auto 6).
  all: try (left; left; eexists; left; reflexivity).
  all: try (left; eexists; reflexivity).
  all: try (right; eexists; reflexivity).
Qed.
Example C86_example {S A} (body : st S A) s :
  gam_call (gam_init (fun n => if String.eqb n "forget" then VDict [(0%nat, VFloat (1 / 100)); (1%nat, VFloat 0)]
                               else default_arguments n)) body s = (s, Raise ValueError) /\
  gam_call (gam_init (fun n => if String.eqb n "ic" then VStr "aicc" else default_arguments n)) body s = (s, Raise ValueError) /\
  gam_call (gam_init (fun n => if String.eqb n "step_size" then VDict [(1%nat, VFloat (1 / 2))]
                               else default_arguments n)) body s = body s.
Proof.
  split; [|split].
  - exact (C86_dict_options_are_rejected _ "forget" _ body s (or_introl eq_refl) eq_refl).
  - apply (proj2 (C87_distributional_regression _ body)). intros [[_ [_ [_ [_ [_ [t [E H]]]]]]] _].
    cbn in E. inversion E; subst. cbn [In] in H. destruct H as [H|[H|[H|[H|[]]]]]; discriminate.
  - exact (C86_step_size_may_be_a_dict default_arguments _ body s C87_defaults_are_usable).
Qed.
Example C87_forget_example {S A} (body : st S A) s :
  lm_call (lm_init (fun n => if String.eqb n "forget" then VFloat 1 else default_arguments n)) body s = (s, Raise ValueError) /\
  lm_call (lm_init (fun n => if String.eqb n "forget" then VNan else default_arguments n)) body s = (s, Raise ValueError) /\
  lm_call (lm_init (fun n => if String.eqb n "forget" then VFloat (1 / 2) else default_arguments n)) body s = body s.
Proof.
  split; [|split].
  - apply (proj2 (C87_linear_model _ body)). intros [[x [H Hx]] _]. apply as_number_spec in H. cbn in H. inversion H. lra.
  - apply (proj2 (C87_linear_model _ body)). intros [[x [H Hx]] _]. apply as_number_spec in H. cbn in H. discriminate.
  - apply (proj1 (C87_linear_model _ body)). destruct C87_defaults_are_usable as [[_ H] _].
    split; [|exact H]. exists (1 / 2). split; [left; reflexivity | lra].
Qed.
Example C85_example {M} (ops : method_ops M) c b :
  lasso_requests ops c (lasso_init default_arguments 0) [(CallFit, b); (CallPartialFit, b)] new_lm
  = (new_lm, [Raise AttributeError; Raise AttributeError]).
Proof. exact (C85_lasso_never_fits ops c default_arguments 0 [(CallFit, b); (CallPartialFit, b)]). Qed.
Example C86_configured_example :
  configured (fun _ => Ok tt) default_arguments n_cfg /\
  exists pr ms, prepare n_cfg = Ok (pr, ms) /\ forall p, (p < 2)%nat -> p_forget pr p = 0 /\ ms p = Some tt.
Proof.
  split.
  - assert (F : forall v, v = VFloat 0 \/ v = VFloat 1 \/ v = VBool true \/ v = VBool false \/ v = VStr "aic" -> ~ is_dict_value v).
    { intros v [->|[->|[->|[->| ->]]]] [d E]; discriminate. }
    unfold configured, default_arguments. cbn [existsb orb String.eqb Ascii.eqb Bool.eqb].
    unfold reads, reads_bool, reads_ic, reads_method, number. cbn [n_cfg o_forget o_ic o_icpt o_regicpt o_step o_method].
    repeat split; auto 8.
  - eexists; eexists. split; [reflexivity|]. intros p Hp. destruct p as [|[|p]]; [split; reflexivity | split; reflexivity | lia].
Qed.

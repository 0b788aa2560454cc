(** Property theorems: per-parameter options and the equation. *)
From Coq Require Import Reals List Bool Arith ZArith Lia Lra.
From Verif Require Import Base Lin M_Equation S_Equation L_Equation.
Import ListNotations.

(** ** C54: options are completed, user values are preserved *)

Theorem C54_every_parameter_has_a_value {A} n (attribute : option_value A) default p : (p < n)%nat ->
  lookup (fst (process_parameter n attribute default)) p = Some (wanted attribute default p).
Proof. exact (C54_completed_lemma n attribute default p). Qed.
Print Assumptions C54_every_parameter_has_a_value.

Theorem C54_user_entries_are_kept {A} n (d : dict A) default k v : lookup d k = Some v ->
  lookup (fst (process_parameter n (Dict d) default)) k = Some v.
Proof. exact (C54_kept_lemma n d default k v). Qed.
Print Assumptions C54_user_entries_are_kept.

(** The user's dict is extended in place: its object afterwards is the completed dict, and
    a later call (another fit, another estimator or another option sharing the dict) gets
    the first default, not its own. *)
Theorem C54_user_dict_is_extended_in_place {A} n (d : dict A) default default' :
  let after := snd (process_parameter n (Dict d) default) in
  after = Dict (fst (process_parameter n (Dict d) default)) /\
  (forall p, (p < n)%nat -> lookup d p = None ->
     wanted after default' p = default) /\
  process_parameter n after default' = (fst (process_parameter n (Dict d) default), after).
Proof. exact (C54_mutated_lemma n d default default'). Qed.
Print Assumptions C54_user_dict_is_extended_in_place.

(** utils.handle_param_dict, with a scalar default and with a dict default. *)
Theorem C54_handle_param_dict {A} n (param : option_value A) default :
  (forall a, default = Scalar a ->
     exists d, handle_param_dict n param default = Ok d /\
       forall p, (p < n)%nat -> lookup d p = Some (wanted param a p)) /\
  (forall u dd, param = Dict u -> default = Dict dd ->
     (forall p, (p < n)%nat -> lookup u p = None -> lookup dd p <> None) ->
     exists d, handle_param_dict n param default = Ok d /\
       forall p, (p < n)%nat ->
         lookup d p = match lookup u p with Some v => Some v | None => lookup dd p end) /\
  (forall u dd p, param = Dict u -> default = Dict dd -> (p < n)%nat ->
     lookup u p = None -> lookup dd p = None -> handle_param_dict n param default = Raise KeyError).
Proof. exact (C54_handle_lemma n param default). Qed.
Print Assumptions C54_handle_param_dict.

(** The equation: the default models the first parameter by all columns and the others by
    an intercept; missing entries become an intercept; unusable entries raise. *)
Theorem C54_equation_completed frames n equation :
  (equation = None -> exists d, process_equation frames n equation = Ok d /\
     forall p, (p < n)%nat -> lookup d p = Some (if Nat.eqb p 0 then EqAll else EqIntercept)) /\
  (forall u, equation = Some u -> (forall p, (p < n)%nat -> eqn_ok frames (wanted (Dict u) EqIntercept p) = true) ->
     exists d, process_equation frames n equation = Ok d /\
       (forall p, (p < n)%nat -> lookup d p = Some (wanted (Dict u) EqIntercept p)) /\
       (forall k v, lookup u k = Some v -> lookup d k = Some v)) /\
  (forall u p, equation = Some u -> (p < n)%nat -> eqn_ok frames (wanted (Dict u) EqIntercept p) = false ->
     process_equation frames n equation = Raise ValueError).
Proof. exact (C54_equation_lemma frames n equation). Qed.
Print Assumptions C54_equation_completed.

Example C54_example :
  process_parameter 3 (Dict [(1%nat, 7%nat)]) 5%nat
  = ([(1, 7); (0, 5); (2, 5)]%nat, Dict [(1, 7); (0, 5); (2, 5)]%nat).
Proof. reflexivity. Qed.

(** ** C55: step sizes go by the order of the dict *)

Theorem C55_step_is_right_for_dicts_in_parameter_order n (attribute : option_value R) default p :
  (forall d, attribute = Dict d -> in_parameter_order d) -> (p < n)%nat ->
  step_entry (fst (process_parameter n attribute default)) p = Ok (wanted attribute default p).
Proof. exact (C55_in_order_lemma n attribute default p). Qed.
Print Assumptions C55_step_is_right_for_dicts_in_parameter_order.

(** In general parameter [p] gets the value of the [p]-th key. *)
Theorem C55_step_goes_by_position n (attribute : option_value R) default p k :
  (forall d, attribute = Dict d -> is_dict d) ->
  nth_error (keys (fst (process_parameter n attribute default))) p = Some k ->
  exists v, lookup (fst (process_parameter n attribute default)) k = Some v /\
    step_entry (fst (process_parameter n attribute default)) p = Ok v.
Proof. exact (C55_by_position_lemma n attribute default p k). Qed.
Print Assumptions C55_step_goes_by_position.

(** [step_size={1: 0.1}] for two parameters: the first parameter gets 0.1, the second the default 1. *)
Theorem C55_wrong_parameter :
  let option := Dict [(1%nat, (1 / 10)%R)] in
  let steps := fst (process_parameter 2 option 1%R) in
  step_entry steps 0 = Ok (wanted option 1%R 1) /\ step_entry steps 1 = Ok (wanted option 1%R 0) /\
  wanted option 1%R 0 <> wanted option 1%R 1.
Proof. cbn. repeat split. lra. Qed.
Print Assumptions C55_wrong_parameter.

Example C55_example : step_entry (fst (process_parameter 2 (Dict [(0%nat, (1 / 2)%R)]) 1%R)) 0 = Ok (1 / 2)%R.
Proof. reflexivity. Qed.

(** ** C56: columns of the model matrices *)

(** A usable equation gives exactly the wanted columns; the bookkeeping agrees unless the
    selection is a python list of booleans. *)
Theorem C56_model_matrix e fit_intercept ncol X : selects e fit_intercept ncol ->
  let k := length (model_row e fit_intercept ncol (fun _ => 0%R)) in
  exists rows, make_model_array e fit_intercept ncol X = Ok (k, rows) /\
    map (row_of k) rows = map (model_row e fit_intercept ncol) X /\
    (is_list_of_bools e = false -> get_J e fit_intercept ncol = Ok k).
Proof. exact (C56_model_lemma e fit_intercept ncol X). Qed.
Print Assumptions C56_model_matrix.

(** Whenever both succeed, the numbers agree, except for a list of booleans that is not
    all true. *)
Theorem C56_bookkeeping_agrees e fit_intercept ncol X J k rows :
  get_J e fit_intercept ncol = Ok J -> make_model_array e fit_intercept ncol X = Ok (k, rows) ->
  selects e fit_intercept ncol /\
  (J = k <-> forall l, e = EqListBool l -> Forall (fun b => b = true) l).
Proof. exact (C56_agree_lemma e fit_intercept ncol X J k rows). Qed.
Print Assumptions C56_bookkeeping_agrees.

Theorem C56_other_selections_raise e fit_intercept ncol X : ~ selects e fit_intercept ncol ->
  (exists x, get_J e fit_intercept ncol = Raise x) \/
  (exists x, make_model_array e fit_intercept ncol X = Raise x).
Proof. exact (C56_rejected_lemma e fit_intercept ncol X). Qed.
Print Assumptions C56_other_selections_raise.

Example C56_example_list_of_bools :
  get_J (EqListBool [true; false]) true 2 = Ok 3%nat /\
  exists rows, make_model_array (EqListBool [true; false]) true 2 [fun j => INR j] = Ok (2%nat, rows).
Proof. split; [reflexivity|]. eexists. reflexivity. Qed.
Example C56_example_negative :
  selects (EqInt [-1; 0]%Z) true 3 /\ model_row (EqInt [-1; 0]%Z) true 3 INR = [1; INR 2; INR 0]%R.
Proof. split; [|reflexivity]. split; [discriminate|]. repeat constructor; unfold index_ok; lia. Qed.

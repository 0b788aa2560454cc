(** Property C124: a common factor of the sample weights. *)
From Coq Require Import Reals List Bool Arith Lra Lia Permutation.
From Verif Require Import Base Lin Data M_Gram S_Gram M_OLS M_CD M_Path M_Ridge M_Scaler M_Utils M_State M_LM S_LM S_Target S_Recode L_Target4 L_Target5 L_Weight4 P_LM.
Import ListNotations.
Open Scope R_scope.

Theorem C124_ols : forall inv c t d ds s, matinv_spec inv -> accepted_factor c t d ->
  lm_history (ols_ops inv) c (d :: ds) new_lm = Ok s ->
  exists s' b b', lm_history (ols_ops inv) c (map (weight_factor t) (d :: ds)) new_lm = Ok s' /\
    a_coef s = Some b /\ a_coef s' = Some b' /\ (forall j, (j < n_cols (c_icpt c) (b_p d))%nat -> b' j = b j) /\
    (forall p X, snd (lm_predict c p X s') = snd (lm_predict c p X s)) /\
    (forall e, snd (lm_score c e s') = snd (lm_score c e s)).
Proof. exact C124_ols_lemma. Qed.
Print Assumptions C124_ols.

(** Ridge with the default penalty (the mean of the diagonal of the Gramian). *)
Theorem C124_ridge : forall inv perms c cfg t d ds s, matinv_spec inv -> accepted_factor c t d ->
  c_method c = Ok (cfg, 0%nat) -> ri_lambda cfg = None ->
  (forall k i, Permutation (perms k i) (seq 0 (n_cols (c_icpt c) (b_p d)))) ->
  lm_history (ridge_ops inv perms) c (d :: ds) new_lm = Ok s ->
  exists s' b b', lm_history (ridge_ops inv perms) c (map (weight_factor t) (d :: ds)) new_lm = Ok s' /\
    a_coef s = Some b /\ a_coef s' = Some b' /\ (forall j, (j < n_cols (c_icpt c) (b_p d))%nat -> b' j = b j) /\
    (forall p X, snd (lm_predict c p X s') = snd (lm_predict c p X s)) /\
    (forall e, snd (lm_score c e s') = snd (lm_score c e s)).
Proof. exact C124_ridge_lemma. Qed.
Print Assumptions C124_ridge.

(** Elastic net and lasso: the path. *)
Theorem C124_path : forall perms c t d ds s, accepted_factor c t d -> c_ic c <> aicc ->
  lm_history (en_ops perms) c (d :: ds) new_lm = Ok s ->
  exists s', lm_history (en_ops perms) c (map (weight_factor t) (d :: ds)) new_lm = Ok s' /\
    a_path s' = a_path s /\
    (forall p X, snd (lm_predict_path c p X s') = snd (lm_predict_path c p X s)).
Proof. exact C124_path_lemma. Qed.
Print Assumptions C124_path.

(** The choice on the path depends on the factor: weight 1 and weight 2 of all rows. *)
Theorem C124_selection : forall perms, (forall k l i, Permutation (perms k l i) (seq 0 1)) ->
  exists s s' P0 P1, lm_history (en_ops perms) t_c [t_b] new_lm = Ok s /\
    lm_history (en_ops perms) t_c [weight_factor 2 t_b] new_lm = Ok s' /\
    a_path s = Some [P0; P1] /\ a_path s' = Some [P0; P1] /\ P0 0%nat = 0 /\ P1 0%nat = 1 /\
    a_coef s = Some P0 /\ a_coef s' = Some P1.
Proof. exact C124_selection_lemma. Qed.
Print Assumptions C124_selection.

(** Factors that are not accepted. *)
Theorem C124_rejected : forall M (ops : method_ops M) c b s, config_ok c -> data_ok b ->
  total_weight (b_rows b) = 1 \/ (c_ols_name c = true /\ total_weight (b_rows b) <= INR (n_cols (c_icpt c) (b_p b))) ->
  snd (lm_fit ops c b s) = Raise ValueError.
Proof. exact @C124_rejected_lemma. Qed.
Print Assumptions C124_rejected.

(** Scaled inputs, a fit and an update: all weights five. *)
Example C124_example : forall inv, matinv_spec inv -> exists s s',
  lm_history (ols_ops inv) w48_c [w48_b0; w48_b1] new_lm = Ok s /\
  lm_history (ols_ops inv) w48_c (map (weight_factor 5) [w48_b0; w48_b1]) new_lm = Ok s' /\
  snd (lm_predict w48_c 1 [fun _ => 5] s) = Ok [25 / 74] /\
  snd (lm_predict w48_c 1 [fun _ => 5] s') = Ok [25 / 74].
Proof.
  intros inv HI. destruct (C48_scaling_breaks_equality inv HI) as (s & _ & H & _ & P & _).
  destruct (C124_ols inv w48_c 5 w48_b0 [w48_b1] s HI) as (s' & b & b' & E & _ & _ & _ & Q & _); [|exact H|].
  { split; [lra|]. split; [|intros _]; unfold total_weight; cbn; lra. }
  exists s, s'. repeat (split; [assumption|]). rewrite Q. exact P.
Qed.
Example C124_ridge_example : forall inv perms, matinv_spec inv -> (forall k i, Permutation (perms k i) (seq 0 1)) ->
  exists s s', lm_history (ridge_ops inv perms) t_rc [t_b] new_lm = Ok s /\
    lm_history (ridge_ops inv perms) t_rc [weight_factor (1 / 4) t_b] new_lm = Ok s' /\
    snd (lm_predict t_rc 1 [fun _ => 3] s) = Ok [3] /\ snd (lm_predict t_rc 1 [fun _ => 3] s') = Ok [3].
Proof.
  intros inv perms HI Hp. destruct (t_ridge inv perms Hp) as (s & beta & H & _ & _ & P).
  destruct (C124_ridge inv perms t_rc (mk_ridge None None false None None 0 10) (1 / 4) t_b [] s HI) as (s' & b & b' & E & _ & _ & _ & Q & _);
    try reflexivity; auto.
  { split; [lra|]. split; [unfold total_weight; cbn; lra|discriminate]. }
  exists s, s'. repeat (split; [assumption|]). rewrite Q. exact P.
Qed.
(** Two rows whose weights were normalised to sum one. *)
Example C124_normalised : forall perms s, snd (lm_fit (en_ops perms) t_c (weight_factor (1 / 2) t_b) s) = Raise ValueError.
Proof.
  intros perms s. apply C124_rejected.
  - split; [eexists; reflexivity|intros [K _]; discriminate K].
  - split; cbn; lia.
  - left. unfold total_weight. cbn. lra.
Qed.

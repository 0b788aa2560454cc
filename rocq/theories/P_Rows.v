(** Properties C109-C110: sample weights as counts, order of rows. *)
From Coq Require Import Reals List Bool Arith Lra Lia Permutation.
From Verif Require Import Base Lin Data M_Gram S_Gram M_OLS M_CD M_Path M_Ridge M_Scaler M_Utils M_State M_LM S_LM S_Target S_Rows L_LM L_Target5 L_Rows3 L_Rows4.
Import ListNotations.
Open Scope R_scope.

(** C109. Without forgetting, a sample weight counts a row. *)
Theorem C109_counts : forall l, same_data (counted l) (repeated l).
Proof. exact counted_repeated. Qed.
Print Assumptions C109_counts.
Theorem C109_ols : forall inv c d d' ds ds' s, matinv_spec inv -> c_forget c = 0 ->
  Forall2 same_batch (d :: ds) (d' :: ds') ->
  Forall (fun e => weights_nonneg (b_rows e)) (d :: ds) -> Forall (fun e => weights_nonneg (b_rows e)) (d' :: ds') ->
  enough_rows 2 d' -> Forall (enough_rows 1) ds' ->
  lm_history (ols_ops inv) c (d :: ds) new_lm = Ok s ->
  exists s' b b', lm_history (ols_ops inv) c (d' :: ds') new_lm = Ok s' /\
    a_coef s = Some b /\ a_coef s' = Some b' /\ eqv (n_cols (c_icpt c) (b_p d)) b b' /\ a_scaler s' = a_scaler s /\
    (forall p X, snd (lm_predict c p X s') = snd (lm_predict c p X s)) /\ (forall e, snd (lm_score c e s') = snd (lm_score c e s)).
Proof. exact C109_ols_lemma. Qed.
Print Assumptions C109_ols.
Theorem C109_ridge : forall inv perms c d d' ds ds' s, c_forget c = 0 ->
  Forall2 same_batch (d :: ds) (d' :: ds') ->
  Forall (fun e => weights_nonneg (b_rows e)) (d :: ds) -> Forall (fun e => weights_nonneg (b_rows e)) (d' :: ds') ->
  enough_rows 2 d' -> Forall (enough_rows 1) ds' ->
  lm_history (ridge_ops inv perms) c (d :: ds) new_lm = Ok s -> lm_history (ridge_ops inv perms) c (d' :: ds') new_lm = Ok s.
Proof. exact C109_ridge_lemma. Qed.
Print Assumptions C109_ridge.
Theorem C109_path : forall perms c d d' ds ds' s, c_forget c = 0 ->
  Forall2 same_batch (d :: ds) (d' :: ds') ->
  Forall (fun e => weights_nonneg (b_rows e)) (d :: ds) -> Forall (fun e => weights_nonneg (b_rows e)) (d' :: ds') ->
  enough_rows 2 d' -> Forall (enough_rows 1) ds' ->
  lm_history (en_ops perms) c (d :: ds) new_lm = Ok s ->
  exists s', lm_history (en_ops perms) c (d' :: ds') new_lm = Ok s' /\ a_scaler s' = a_scaler s /\ a_path s' = a_path s /\
    (forall p X, snd (lm_predict_path c p X s') = snd (lm_predict_path c p X s)).
Proof. exact C109_path_lemma. Qed.
Print Assumptions C109_path.
(** The choice on the path is not kept: [predict] differs. *)
Theorem C109_choice_differs : forall perms, (forall k l i, Permutation (perms k l i) (seq 0 1)) ->
  exists s s', lm_history (en_ops perms) r_c [mk_batch 1 (counted r_rows)] new_lm = Ok s /\
    lm_history (en_ops perms) r_c [mk_batch 1 (repeated r_rows)] new_lm = Ok s' /\
    snd (lm_predict r_c 1 [fun _ => 1] s) = Ok [2 / 5] /\ snd (lm_predict r_c 1 [fun _ => 1] s') = Ok [0].
Proof. exact C109_choice_lemma. Qed.
Print Assumptions C109_choice_differs.
(** The first row of three is split into a row of weight one half twice, a row of weight zero is added. *)
Definition split_b : batch := mk_batch 1 [mkobs (fun _ => 5) 7 0; mkobs (fun _ => -1) 10 (1 / 2); mkobs (fun _ => -1) 10 (1 / 2); mkobs (fun _ => 0) 16 1; mkobs (fun _ => 1) 19 1].
Lemma split_same : same_batch t_ib split_b.
Proof.
  split; [reflexivity|]. cbn [t_ib split_b b_rows row1]. eapply sd_trans; [|apply sd_sym, sd_zero].
  unfold row1. replace (mkobs (fun _ : nat => -1) 10 1) with (mkobs (fun _ : nat => -1) 10 (1 / 2 + 1 / 2)) by (f_equal; lra). apply sd_split.
Qed.
Example C109_example : forall inv, matinv_spec inv -> exists s', lm_history (ols_ops inv) t_ic [split_b] new_lm = Ok s' /\
  snd (lm_predict t_ic 1 [fun _ => 2] s') = Ok [24].
Proof.
  intros inv HI. destruct (t_ols inv HI) as (s & beta & H & _ & _ & _ & P).
  destruct (C109_ols inv t_ic t_ib split_b [] [] s) as (s' & b & b' & E & _ & _ & _ & _ & Q & _); auto.
  { constructor; [apply split_same|constructor]. }
  1-2: constructor; [|constructor]; repeat constructor; cbn; lra.
  { unfold enough_rows. cbn. lia. }
  exists s'. split; [exact E|]. rewrite Q. exact P.
Qed.
Example C109_path_example : forall perms, (forall k l i, Permutation (perms k l i) (seq 0 1)) ->
  exists s s' P0 P1, lm_history (en_ops perms) r_c [mk_batch 1 (counted r_rows)] new_lm = Ok s /\
    lm_history (en_ops perms) r_c [mk_batch 1 (repeated r_rows)] new_lm = Ok s' /\
    a_path s = Some [P0; P1] /\ a_path s' = Some [P0; P1] /\ P1 0%nat = 2 / 5.
Proof.
  intros perms Hp. destruct (r_counted perms Hp) as (s & P0 & P1 & E & A & _ & V & _).
  destruct (C109_path perms r_c (mk_batch 1 (counted r_rows)) (mk_batch 1 (repeated r_rows)) [] [] s) as (s' & E' & _ & A' & _); auto.
  { constructor; [split; [reflexivity|apply C109_counts]|constructor]. }
  1-2: constructor; [|constructor]; repeat constructor; cbn; lra.
  { unfold enough_rows. cbn. lia. }
  exists s, s', P0, P1. rewrite A'. auto.
Qed.
Example C109_ridge_example : forall inv perms, (forall k i, Permutation (perms k i) (seq 0 1)) ->
  exists s, lm_history (ridge_ops inv perms) t_rc [mk_batch 1 [mkobs (fun _ => 1) 3 (1 / 4); mkobs (fun _ => 1) 1 1; mkobs (fun _ => 1) 3 (3 / 4)]] new_lm = Ok s /\
    snd (lm_predict t_rc 1 [fun _ => 3] s) = Ok [3].
Proof.
  intros inv perms Hp. destruct (t_ridge inv perms Hp) as (s & beta & H & _ & _ & P). exists s. split; [|exact P].
  apply (C109_ridge inv perms t_rc t_b _ [] [] s); auto.
  { constructor; [|constructor]. split; [reflexivity|]. cbn [t_b b_rows]. unfold row1.
    eapply sd_trans; [apply sd_order, perm_swap|].
    replace (mkobs (fun _ : nat => 1) 3 1) with (mkobs (fun _ : nat => 1) 3 (1 / 4 + 3 / 4)) by (f_equal; lra).
    eapply sd_trans; [apply sd_split|]. apply sd_order, perm_skip, perm_swap. }
  1-2: constructor; [|constructor]; repeat constructor; cbn; lra.
  unfold enough_rows. cbn. lia.
Qed.

(** C110. Without forgetting, the order of the rows of a batch does not matter. *)
Theorem C110_ols : forall inv c d d' ds ds' s, matinv_spec inv -> c_forget c = 0 ->
  Forall2 reordered (d :: ds) (d' :: ds') -> Forall (fun e => weights_nonneg (b_rows e)) (d :: ds) ->
  lm_history (ols_ops inv) c (d :: ds) new_lm = Ok s ->
  exists s' b b', lm_history (ols_ops inv) c (d' :: ds') new_lm = Ok s' /\
    a_coef s = Some b /\ a_coef s' = Some b' /\ eqv (n_cols (c_icpt c) (b_p d)) b b' /\ a_scaler s' = a_scaler s /\
    (forall p X, snd (lm_predict c p X s') = snd (lm_predict c p X s)) /\ (forall e, snd (lm_score c e s') = snd (lm_score c e s)).
Proof. exact C110_ols_lemma. Qed.
Print Assumptions C110_ols.
Theorem C110_ridge : forall inv perms c d d' ds ds' s, c_forget c = 0 ->
  Forall2 reordered (d :: ds) (d' :: ds') -> Forall (fun e => weights_nonneg (b_rows e)) (d :: ds) ->
  lm_history (ridge_ops inv perms) c (d :: ds) new_lm = Ok s -> lm_history (ridge_ops inv perms) c (d' :: ds') new_lm = Ok s.
Proof. exact C110_ridge_lemma. Qed.
Print Assumptions C110_ridge.
Theorem C110_path : forall perms c d d' ds ds' s, c_forget c = 0 ->
  Forall2 reordered (d :: ds) (d' :: ds') -> Forall (fun e => weights_nonneg (b_rows e)) (d :: ds) ->
  lm_history (en_ops perms) c (d :: ds) new_lm = Ok s -> lm_history (en_ops perms) c (d' :: ds') new_lm = Ok s.
Proof. exact C110_path_lemma. Qed.
Print Assumptions C110_path.
(** With forgetting it does: two orders of the same two rows. *)
Theorem C110_forgetting_differs : forall inv, matinv_spec inv ->
  exists s s', lm_history (ols_ops inv) o_c [mk_batch 1 [row1 1 0; row1 1 4]] new_lm = Ok s /\
    lm_history (ols_ops inv) o_c [mk_batch 1 [row1 1 4; row1 1 0]] new_lm = Ok s' /\
    snd (lm_predict o_c 1 [fun _ => 1] s) = Ok [8 / 3] /\ snd (lm_predict o_c 1 [fun _ => 1] s') = Ok [4 / 3].
Proof. exact C110_forget_lemma. Qed.
Print Assumptions C110_forgetting_differs.
Example C110_example : forall inv, matinv_spec inv -> exists s',
  lm_history (ols_ops inv) t_ic [mk_batch 1 [row1 1 19; row1 (-1) 10; row1 0 16]] new_lm = Ok s' /\
  snd (lm_predict t_ic 1 [fun _ => 2] s') = Ok [24].
Proof.
  intros inv HI. destruct (t_ols inv HI) as (s & beta & H & _ & _ & _ & P).
  destruct (C110_ols inv t_ic t_ib (mk_batch 1 [row1 1 19; row1 (-1) 10; row1 0 16]) [] [] s) as (s' & b & b' & E & _ & _ & _ & _ & Q & _); auto.
  { constructor; [|constructor]. split; [reflexivity|]. cbn [t_ib b_rows]. eapply perm_trans; [apply perm_skip, perm_swap|]. apply perm_swap. }
  { constructor; [|constructor]; repeat constructor; cbn; lra. }
  exists s'. split; [exact E|]. rewrite Q. exact P.
Qed.
Example C110_path_example : forall perms, (forall k l i, Permutation (perms k l i) (seq 0 1)) ->
  exists s, lm_history (en_ops perms) r_c [mk_batch 1 (rev (counted r_rows))] new_lm = Ok s /\ snd (lm_predict r_c 1 [fun _ => 1] s) = Ok [2 / 5].
Proof.
  intros perms Hp. destruct (C109_choice_differs perms Hp) as (s & _ & E & _ & P & _). exists s. split; [|exact P].
  apply (C110_path perms r_c (mk_batch 1 (counted r_rows)) _ [] [] s); auto.
  { constructor; [split; [reflexivity|apply Permutation_rev]|constructor]. }
  constructor; [|constructor]; repeat constructor; cbn; lra.
Qed.

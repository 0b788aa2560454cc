(** C121, C122: recoded columns; the intercept, the residuals and the training score. *)
From Coq Require Import Reals List Bool Arith Lra Lia.
From Verif Require Import Base Lin Data S_Gram M_OLS M_Scaler M_Utils M_State M_LM S_LM
  S_Recode L_Recode L_RecodeEx.
Import ListNotations.
Open Scope R_scope.

(** C121. Least squares does not depend on the coding of the columns. *)
Theorem C121_recode : forall inv c b0 bs s A A' a,
  matinv_spec inv -> 0 <= c_forget c < 1 -> ols_config c -> good_calls (b_p b0) (b0 :: bs) ->
  is_inverse (b_p b0) A A' -> (c_icpt c = true \/ forall j, (j < b_p b0)%nat -> a j = 0) ->
  lm_history (ols_ops inv) c (b0 :: bs) new_lm = Ok s ->
  exists s', lm_history (ols_ops inv) c (map (recode_batch A a) (b0 :: bs)) new_lm = Ok s' /\
    (forall X, X <> [] ->
      snd (lm_predict c (b_p b0) (map (recode (b_p b0) A a) X) s') = snd (lm_predict c (b_p b0) X s)) /\
    forall b, b_p b = b_p b0 -> b_rows b <> [] ->
      snd (lm_score c (recode_batch A a b) s') = snd (lm_score c b s).
Proof. exact C121_recode_lemma. Qed.
Print Assumptions C121_recode.

(** x recoded to 2 x - 1: the prediction at 9 is the old one at 5. *)
Example C121_example : forall inv, matinv_spec inv -> exists s s',
  lm_history (ols_ops inv) ex121_c [mk_batch 1 ex121_rows] new_lm = Ok s /\
  lm_history (ols_ops inv) ex121_c [recode_batch (fun _ _ => 2) (fun _ => -1) (mk_batch 1 ex121_rows)] new_lm = Ok s' /\
  snd (lm_predict ex121_c 1 [fun _ => 5] s) = Ok [4] /\
  snd (lm_predict ex121_c 1 [recode 1 (fun _ _ => 2) (fun _ => -1) (fun _ => 5)] s') = Ok [4] /\
  recode 1 (fun _ _ => 2) (fun _ => -1) (fun _ => 5) 0%nat = 9.
Proof.
  intros inv HI. destruct (ex121_history inv HI) as (s & E & P).
  destruct (C121_recode inv ex121_c (mk_batch 1 ex121_rows) [] s (fun _ _ => 2) (fun _ _ => / 2) (fun _ => -1) HI) as (s' & E' & Q & _).
  - cbn; lra.
  - repeat split.
  - constructor; [|constructor]. split; [|split; [discriminate|reflexivity]]. repeat constructor; cbn; lra.
  - split; intros i j Hi Hj; cbn [b_p] in Hi, Hj; assert (i = 0)%nat by lia; assert (j = 0)%nat by lia; subst; unfold mmul, mid; cbn; field.
  - left. reflexivity.
  - exact E.
  - exists s, s'. split; [exact E|]. split; [exact E'|].
    assert (V : snd (lm_predict ex121_c 1 [fun _ => 5] s) = Ok [4]) by (rewrite P by discriminate; cbn [map]; do 2 f_equal; field).
    split; [exact V|]. split; [rewrite <- V; apply (Q [fun _ => 5]); discriminate|].
    unfold recode, mvec. cbn. ring.
Qed.

(** C122. With an intercept the discounted weighted residuals sum to zero. *)
Theorem C122_residuals : forall inv c b0 bs s,
  matinv_spec inv -> 0 <= c_forget c < 1 -> ols_config c -> c_icpt c = true -> good_calls (b_p b0) (b0 :: bs) ->
  lm_history (ols_ops inv) c (b0 :: bs) new_lm = Ok s ->
  exists pred, snd (lm_predict c (b_p b0) (Xs (stream (b0 :: bs))) s) = Ok pred /\
    residual_sum (c_forget c) (stream (b0 :: bs)) pred = 0.
Proof. exact C122_residuals_lemma. Qed.
Print Assumptions C122_residuals.

(** Without forgetting and weights the score on the data learned is between 0 and 1. *)
Theorem C122_training_score : forall inv c b0 bs s,
  matinv_spec inv -> c_forget c = 0 -> ols_config c -> c_icpt c = true -> good_calls (b_p b0) (b0 :: bs) ->
  unit_weights (stream (b0 :: bs)) ->
  lm_history (ols_ops inv) c (b0 :: bs) new_lm = Ok s ->
  exists r, snd (lm_score c (mk_batch (b_p b0) (stream (b0 :: bs))) s) = Ok r /\
    forall q, r = Some q -> 0 <= q <= 1.
Proof. exact C122_score_lemma. Qed.
Print Assumptions C122_training_score.

(** More columns never lower it. *)
Theorem C122_nested : forall inv c b0 bs q s s' r r',
  matinv_spec inv -> c_forget c = 0 -> ols_config c -> good_calls (b_p b0) (b0 :: bs) ->
  unit_weights (stream (b0 :: bs)) -> (b_p b0 <= q)%nat ->
  lm_history (ols_ops inv) c (b0 :: bs) new_lm = Ok s ->
  lm_history (ols_ops inv) c (map (with_columns q) (b0 :: bs)) new_lm = Ok s' ->
  snd (lm_score c (mk_batch (b_p b0) (stream (b0 :: bs))) s) = Ok (Some r) ->
  snd (lm_score c (mk_batch q (stream (b0 :: bs))) s') = Ok (Some r') ->
  r <= r'.
Proof. exact C122_nested_lemma. Qed.
Print Assumptions C122_nested.

(** With sample weights the training score can be negative: [score] ignores the weights. *)
Theorem C122_weights_break_it : forall inv, matinv_spec inv ->
  exists s, lm_history (ols_ops inv) ex121_c [mk_batch 1 ex122_rows] new_lm = Ok s /\
    snd (lm_score ex121_c (mk_batch 1 ex122_rows) s) = Ok (Some (- (35 / 37))).
Proof. exact C122_weights_lemma. Qed.
Print Assumptions C122_weights_break_it.

(** Responses 1, 3, 2 at 0, 1, 2: predictions 3/2, 2, 5/2, score 1/4. *)
Example C122_example : forall inv, matinv_spec inv -> exists s,
  lm_history (ols_ops inv) ex121_c [mk_batch 1 ex121_rows] new_lm = Ok s /\
  snd (lm_predict ex121_c 1 (Xs ex121_rows) s) = Ok [3 / 2; 2; 5 / 2] /\
  residual_sum 0 ex121_rows [3 / 2; 2; 5 / 2] = 0 /\
  snd (lm_score ex121_c (mk_batch 1 ex121_rows) s) = Ok (Some (1 / 4)).
Proof.
  intros inv HI. destruct (ex121_history inv HI) as (s & E & P). exists s. split; [exact E|].
  assert (V : snd (lm_predict ex121_c 1 (Xs ex121_rows) s) = Ok [3 / 2; 2; 5 / 2]).
  { rewrite P by discriminate. unfold Xs, ex121_rows. cbn [map ox row1]. f_equal. apply f_equal2; [field|]. apply f_equal2; [field|]. apply f_equal2; [field|reflexivity]. }
  split; [exact V|]. split; [unfold residual_sum; cbn; field|].
  rewrite (score_of _ (mk_batch 1 ex121_rows) s _ V). unfold r2, ys, ex121_rows. cbn [b_rows map map2 lsum length oy row1 INR].
  match goal with |- context [Reqb ?a 0] => replace (Reqb a 0) with false by (symmetry; apply Reqb_false; lra) end.
  do 2 f_equal. field_simplify; lra.
Qed.

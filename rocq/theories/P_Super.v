(** C130: least squares is linear in the responses and recovers noise-free responses. *)
From Coq Require Import Reals List Bool Arith Lra Lia.
From Verif Require Import Base Lin Data S_Gram M_OLS L_OLS M_Scaler M_Utils M_State M_LM S_LM
  S_Recode L_Recode L_RecodeEx S_Super L_Super.
Import ListNotations.
Open Scope R_scope.

(** Predictions for a combination of two responses are the combination of the predictions. *)
Theorem C130_superposition : forall inv c p rss a k s1 s2,
  matinv_spec inv -> 0 <= c_forget c < 1 -> ols_config c -> rss <> [] -> good_calls p (map (respond p t_y1) rss) ->
  lm_history (ols_ops inv) c (map (respond p t_y1) rss) new_lm = Ok s1 ->
  lm_history (ols_ops inv) c (map (respond p t_y2) rss) new_lm = Ok s2 ->
  exists s, lm_history (ols_ops inv) c (map (respond p (fun r => a * t_y1 r + k * t_y2 r)) rss) new_lm = Ok s /\
    forall X, X <> [] -> exists v1 v2,
      snd (lm_predict c p X s1) = Ok v1 /\ snd (lm_predict c p X s2) = Ok v2 /\
      snd (lm_predict c p X s) = Ok (map2 (fun u v => a * u + k * v) v1 v2).
Proof. exact C130_superposition_lemma. Qed.
Print Assumptions C130_superposition.

(** Whether a history of calls succeeds does not depend on the responses. *)
Theorem C130_any_response : forall inv c p rss g h s,
  matinv_spec inv -> 0 <= c_forget c < 1 -> ols_config c -> rss <> [] -> good_calls p (map (respond p g) rss) ->
  lm_history (ols_ops inv) c (map (respond p g) rss) new_lm = Ok s ->
  exists s', lm_history (ols_ops inv) c (map (respond p h) rss) new_lm = Ok s'.
Proof. exact C130_any_response_lemma. Qed.
Print Assumptions C130_any_response.

(** Noise-free responses: the coefficients, the predictions and the score are exact. *)
Theorem C130_recovery : forall inv c b0 bs s b,
  matinv_spec inv -> 0 <= c_forget c < 1 -> ols_config c -> good_calls (b_p b0) (b0 :: bs) ->
  lm_history (ols_ops inv) c (b0 :: bs) new_lm = Ok s ->
  noise_free (c_icpt c) (b_p b0) b (stream (b0 :: bs)) ->
  (exists beta, a_coef s = Some beta /\ eqv (n_cols (c_icpt c) (b_p b0)) beta b) /\
  (forall X, X <> [] -> snd (lm_predict c (b_p b0) X s)
     = Ok (map (fun x => dot (n_cols (c_icpt c) (b_p b0)) (ox (regressors (c_icpt c) (mkobs x 0 0))) b) X)) /\
  (forall d, b_p d = b_p b0 -> b_rows d <> [] -> noise_free (c_icpt c) (b_p b0) b (b_rows d) ->
     exists r, snd (lm_score c d s) = Ok r /\ (r = None \/ r = Some 1) /\
       ((exists o o', In o (b_rows d) /\ In o' (b_rows d) /\ oy o <> oy o') -> r = Some 1)).
Proof. exact C130_recovery_lemma. Qed.
Print Assumptions C130_recovery.

(** With scaled inputs this fails after one update: responses equal to the covariate, and the
    prediction at 5 is 135/37. *)
Theorem C130_scaling_breaks_recovery : forall inv, matinv_spec inv -> exists s,
  lm_history (ols_ops inv) w48_c [w48_b0; w130_b1] new_lm = Ok s /\
  noise_free false 1 (fun _ => 1) (stream [w48_b0; w130_b1]) /\
  snd (lm_predict w48_c 1 [fun _ => 5] s) = Ok [135 / 37].
Proof. exact C130_scaling_lemma. Qed.
Print Assumptions C130_scaling_breaks_recovery.

(** Responses 1, 3, 2 and 0, 0, 6 at 0, 1, 2: the lines predict 4 and 14 at 5, and twice the
    first minus the second predicts -6. *)
Definition ex130_rows : list row2 :=
  [mk_row2 (fun _ => 0) 1 0 1; mk_row2 (fun _ => 1) 3 0 1; mk_row2 (fun _ => 2) 2 6 1].
Example C130_example : forall inv, matinv_spec inv -> exists s1 s2 s,
  lm_history (ols_ops inv) ex121_c [respond 1 t_y1 ex130_rows] new_lm = Ok s1 /\
  lm_history (ols_ops inv) ex121_c [respond 1 t_y2 ex130_rows] new_lm = Ok s2 /\
  lm_history (ols_ops inv) ex121_c [respond 1 (fun r => 2 * t_y1 r + -1 * t_y2 r) ex130_rows] new_lm = Ok s /\
  snd (lm_predict ex121_c 1 [fun _ => 5] s1) = Ok [4] /\ snd (lm_predict ex121_c 1 [fun _ => 5] s2) = Ok [14] /\
  snd (lm_predict ex121_c 1 [fun _ => 5] s) = Ok [-6].
Proof.
  intros inv HI.
  assert (K : forall g, exists s beta, lm_history (ols_ops inv) ex121_c [respond 1 g ex130_rows] new_lm = Ok s /\
    normal_equations 2 0 (map (regressors true) (b_rows (respond 1 g ex130_rows))) beta /\
    snd (lm_predict ex121_c 1 [fun _ => 5] s) = Ok [beta 0%nat + 5 * beta 1%nat]).
  { intros g. destruct (line_history inv (b_rows (respond 1 g ex130_rows)) HI) as (s & beta & E & _ & N & P).
    - unfold respond, ex130_rows. cbn [b_rows map t_w]. do 3 (apply Forall_cons; [cbn; lra|]). apply Forall_nil.
    - cbn; lia.
    - unfold total_weight; cbn; lra.
    - unfold gram_spec; cbn; lra.
    - exists s, beta. split; [exact E|]. split; [exact N|]. apply (P [fun _ => 5]). discriminate. }
  destruct (K t_y1) as (s1 & b1 & E1 & N1 & P1). destruct (K t_y2) as (s2 & b2 & E2 & N2 & P2).
  destruct (C130_superposition inv ex121_c 1 [ex130_rows] 2 (-1) s1 s2 HI) as (s & E & Q); auto.
  - cbn; lra.
  - repeat split.
  - discriminate.
  - unfold good_calls. cbn [map]. apply Forall_cons; [|apply Forall_nil]. split; [|split; [discriminate|reflexivity]].
    unfold respond, ex130_rows. cbn [b_rows map t_w]. do 3 (apply Forall_cons; [cbn; lra|]). apply Forall_nil.
  - exists s1, s2, s. split; [exact E1|]. split; [exact E2|]. split; [exact E|].
    pose proof (N1 0%nat ltac:(lia)) as A1. pose proof (N1 1%nat ltac:(lia)) as A2.
    pose proof (N2 0%nat ltac:(lia)) as B1. pose proof (N2 1%nat ltac:(lia)) as B2.
    unfold mvec, gram_spec, ygram_spec in A1, A2, B1, B2. cbn in A1, A2, B1, B2.
    assert (V1 : snd (lm_predict ex121_c 1 [fun _ => 5] s1) = Ok [4]) by (rewrite P1; do 2 f_equal; lra).
    assert (V2 : snd (lm_predict ex121_c 1 [fun _ => 5] s2) = Ok [14]) by (rewrite P2; do 2 f_equal; lra).
    split; [exact V1|]. split; [exact V2|].
    destruct (Q [fun _ => 5] ltac:(discriminate)) as (v1 & v2 & W1 & W2 & ->).
    rewrite V1 in W1. rewrite V2 in W2. injection W1 as <-. injection W2 as <-. cbn [map2]. do 2 f_equal. lra.
Qed.

(** Responses 1 + 2x at 0, 1, 2, then at 5: the line is found and predicts 15 at 7. *)
Example C130_recovery_example : forall inv, matinv_spec inv -> exists s,
  lm_history (ols_ops inv) ex121_c [mk_batch 1 [row1 0 1; row1 1 3; row1 2 5]; mk_batch 1 [row1 5 11]] new_lm = Ok s /\
  snd (lm_predict ex121_c 1 [fun _ => 7] s) = Ok [15].
Proof.
  intros inv HI.
  destruct (line_history inv [row1 0 1; row1 1 3; row1 2 5] HI) as (s0 & beta & E & _ & _ & _).
  - do 3 (apply Forall_cons; [cbn; lra|]). apply Forall_nil.
  - cbn; lia.
  - unfold total_weight; cbn; lra.
  - unfold gram_spec; cbn; lra.
  - set (b0 := mk_batch 1 [row1 0 1; row1 1 3; row1 2 5]) in *. set (b1 := mk_batch 1 [row1 5 11]).
    assert (HG : good_calls 1 [b0; b1]).
    { apply Forall_cons; [|apply Forall_cons; [|apply Forall_nil]]; (split; [|split; [discriminate|reflexivity]]).
      - do 3 (apply Forall_cons; [cbn; lra|]). apply Forall_nil.
      - apply Forall_cons; [cbn; lra|]. apply Forall_nil. }
    assert (HC : ols_config ex121_c) by (repeat split).
    cbn [lm_history] in E. destruct (partial_fit (ols_ops inv) ex121_c b0 new_lm) as [z [[]|e]] eqn:F; [|discriminate E].
    destruct (L_LM3.C47_optimal_lemma inv ex121_c b0 [b1] z HI ltac:(cbn; lra) HC HG F) as (s & _ & H & _).
    exists s. split; [exact H|].
    destruct (C130_recovery inv ex121_c b0 [b1] s (fun j => match j with O => 1 | _ => 2 end) HI ltac:(cbn; lra) HC HG H) as (_ & P & _).
    + unfold noise_free, stream, b0, b1. cbn [map b_rows concat app].
      do 4 (apply Forall_cons; [unfold dot; cbn; ring|]). apply Forall_nil.
    + rewrite P by discriminate. unfold dot. cbn [map]. do 2 f_equal. cbn. ring.
Qed.

(** C129: the statements in full. *)
From Coq Require Import ZArith Reals List Bool Arith Permutation Lia Lra.
From Flocq Require Import Core BinarySingleNaN.
From Verif Require Import Base Lin Data S_Gram S_Scaler L_Gram M_CD S_CD S_CD2 L_CD5 M_Float M_FloatGram S_Float S_FloatGram S_FloatCD S_FloatLasso L_Float L_Float6 L_Float7 L_FloatS L_FloatGram2 L_FloatLasso.
Import ListNotations.
Open Scope R_scope.

Lemma C129_optimal_lemma root pw X Y f bs a x random perm tolerance max_iterations beta beta' n :
  let J := fc_J a in let rows := map robs (concat bs) in let N := length (concat bs) in let W := wtotal (B2R f) rows in
  root_accurate root -> pow_accurate pw ->
  bpow radix2 (-60) <= X <= bpow radix2 300 -> bpow radix2 (-60) <= Y <= bpow radix2 300 ->
  is_finite f = true -> 0 <= B2R f <= 1 -> Forall (fun b => b <> []) bs ->
  Forall (fobs_ok J X Y) (concat bs) -> INR N <= bpow radix2 40 -> INR J <= bpow radix2 40 ->
  2 * INR J * (X * X * W) <= bpow radix2 200 -> 2 * (X * Y * W) <= bpow radix2 200 ->
  (forall j, (j < J)%nat -> bpow radix2 (-200) + 16 * INR N * bpow radix2 (-53) * (X * X * W) <= gram_spec (B2R f) rows j j) ->
  computed_from root pw f bs a x ->
  in_range (fc_reg a) /\ 0 <= B2R (fc_reg a) -> is_finite (fc_alpha a) = true /\ 0 <= B2R (fc_alpha a) <= 1 ->
  fbounds_ok J (fc_lo a) (fc_up a) -> (forall i, Permutation (perm i) (seq 0 J)) ->
  is_finite tolerance = true -> 0 <= B2R tolerance <= 1 ->
  float_coordinate_descent a random perm tolerance max_iterations beta = Ok (beta', n) -> (n <= max_iterations)%nat ->
  (forall k, (k < J)%nat -> in_range (beta' k)) ->
  forall t, in_box J (rbound (fc_lo a)) (rbound (fc_up a)) t ->
    (n = 1%nat \/ forall j, (j < J)%nat -> B2R (beta' j) = 0 -> t j = 0) ->
    1 / 2 * wls_loss J (B2R f) rows (rvec beta') + enet_penalty J (B2R (fc_reg a)) (fc_isreg a) (B2R (fc_alpha a)) (rvec beta')
      + 1 / 2 * dsum (1 - B2R f) (fun o => ow o * (dot J (ox o) (fun k => t k - B2R (beta' k))) ^ 2) rows
    <= 1 / 2 * wls_loss J (B2R f) rows t + enet_penalty J (B2R (fc_reg a)) (fc_isreg a) (B2R (fc_alpha a)) t
       + stream_slack J X Y W (B2R (fc_reg a)) (B2R tolerance) N (max_abs J (rvec beta'))
         * bsum J (fun j => Rabs (t j - B2R (beta' j))).
Proof.
  intros J rows N W HR HP HX HY Ff Hf Ne Ok HN HJ B1 B2 HD HC HL HA HB Hp Ft Ht H Hn Hr t Hb Hz.
  rewrite u_bpow in HD.
  exact (stream_optimal root pw X Y f bs a x HR HP HX HY Ff Hf Ne Ok HN HC HJ B1 B2 HD HL HA random perm tolerance max_iterations beta beta' n HB Hp Ft Ht H Hn Hr t Hb Hz).
Qed.

Lemma stream_slack_pos J X Y W lambda tol n M : 0 <= X -> 0 <= Y -> 0 <= W -> 0 <= lambda -> 0 <= tol -> 0 <= M ->
  0 <= stream_slack J X Y W lambda tol n M.
Proof.
  intros X0 Y0 W0 L0 T0 M0. unfold stream_slack. cbv zeta. pose proof (pos_INR J) as J0. pose proof (pos_INR n) as n0.
  pose proof (bpow_gt_0 radix2 (-50)). pose proof (bpow_gt_0 radix2 (-900)). pose proof (bpow_gt_0 radix2 (-53)). pose proof (bpow_gt_0 radix2 (-48)). pose proof (bpow_gt_0 radix2 (-700)).
  assert (mv : 0 <= (1 + bpow radix2 (-50)) * (tol * M) + bpow radix2 (-900)).
  { assert (0 <= (1 + bpow radix2 (-50)) * (tol * M)) by (apply Rmult_le_pos; [lra|apply Rmult_le_pos; lra]). lra. }
  set (move := (1 + bpow radix2 (-50)) * (tol * M) + bpow radix2 (-900)) in *.
  repeat first [apply Rplus_le_le_0_compat | apply Rmult_le_pos]; try lra.
Qed.

Lemma C129_distance_lemma root pw X Y f bs a x random perm tolerance max_iterations beta beta' n mu :
  let J := fc_J a in let rows := map robs (concat bs) in let N := length (concat bs) in let W := wtotal (B2R f) rows in
  root_accurate root -> pow_accurate pw ->
  bpow radix2 (-60) <= X <= bpow radix2 300 -> bpow radix2 (-60) <= Y <= bpow radix2 300 ->
  is_finite f = true -> 0 <= B2R f <= 1 -> Forall (fun b => b <> []) bs ->
  Forall (fobs_ok J X Y) (concat bs) -> INR N <= bpow radix2 40 -> INR J <= bpow radix2 40 ->
  2 * INR J * (X * X * W) <= bpow radix2 200 -> 2 * (X * Y * W) <= bpow radix2 200 ->
  (forall j, (j < J)%nat -> bpow radix2 (-200) + 16 * INR N * bpow radix2 (-53) * (X * X * W) <= gram_spec (B2R f) rows j j) ->
  computed_from root pw f bs a x ->
  in_range (fc_reg a) /\ 0 <= B2R (fc_reg a) -> is_finite (fc_alpha a) = true /\ 0 <= B2R (fc_alpha a) <= 1 ->
  fbounds_ok J (fc_lo a) (fc_up a) -> (forall i, Permutation (perm i) (seq 0 J)) ->
  is_finite tolerance = true -> 0 <= B2R tolerance <= 1 ->
  float_coordinate_descent a random perm tolerance max_iterations beta = Ok (beta', n) -> (n <= max_iterations)%nat ->
  (forall k, (k < J)%nat -> in_range (beta' k)) ->
  0 < mu ->
  (forall v, mu * bsum J (fun j => v j ^ 2) <= dsum (1 - B2R f) (fun o => ow o * (dot J (ox o) v) ^ 2) rows) ->
  forall t, in_box J (rbound (fc_lo a)) (rbound (fc_up a)) t ->
    (n = 1%nat \/ forall j, (j < J)%nat -> B2R (beta' j) = 0 -> t j = 0) ->
    1 / 2 * wls_loss J (B2R f) rows t + enet_penalty J (B2R (fc_reg a)) (fc_isreg a) (B2R (fc_alpha a)) t
      <= 1 / 2 * wls_loss J (B2R f) rows (rvec beta') + enet_penalty J (B2R (fc_reg a)) (fc_isreg a) (B2R (fc_alpha a)) (rvec beta') ->
    forall j, (j < J)%nat ->
      Rabs (B2R (beta' j) - t j)
      <= 2 * stream_slack J X Y W (B2R (fc_reg a)) (B2R tolerance) N (max_abs J (rvec beta')) * INR J / mu.
Proof.
  intros J rows N W HR HP HX HY Ff Hf Ne Ok HN HJ B1 B2 HD HC HL HA HB Hp Ft Ht H Hn Hr Hmu Hlow t Hb Hz Hle j Hj.
  pose proof (C129_optimal_lemma root pw X Y f bs a x random perm tolerance max_iterations beta beta' n HR HP HX HY Ff Hf Ne Ok HN HJ B1 B2 HD HC HL HA HB Hp Ft Ht H Hn Hr t Hb Hz) as K.
  cbv zeta in K. fold J rows N W in K.
  set (S := stream_slack J X Y W (B2R (fc_reg a)) (B2R tolerance) N (max_abs J (rvec beta'))) in *.
  pose proof (bpow_gt_0 radix2 (-60)) as b60.
  assert (S0 : 0 <= S).
  { apply stream_slack_pos; try lra; [|apply max_abs_nonneg].
    apply (W0 X Y f bs a Hf Ok). }
  rewrite Rabs_minus_sym.
  apply (distance_bound J mu S _ (fun k => t k - B2R (beta' k)) Hmu S0 (Hlow _)); auto.
  lra.
Qed.

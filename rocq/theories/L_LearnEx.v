(** Concrete data for C119 and C120: one column, no intercept. *)
From Coq Require Import Reals List Bool Arith Lra Lia.
From Verif Require Import Base Lin Data M_Gram S_Gram L_Gram M_OLS L_OLS
  M_Scaler M_Utils S_Utils M_State M_LM S_LM L_LM L_LM2 L_LM3 L_LM4 S_Learn L_Learn L_Learn2.
Import ListNotations.
Open Scope R_scope.

Lemma one_col_history inv c b0 bs :
  matinv_spec inv -> 0 <= c_forget c < 1 -> ols_config c -> c_icpt c = false -> c_regicpt c = false ->
  b_p b0 = 1%nat -> good_calls 1 (b0 :: bs) -> (2 <= length (b_rows b0))%nat -> 1 < total_weight (b_rows b0) ->
  gram_spec (c_forget c) (b_rows b0) 0%nat 0%nat <> 0 ->
  exists s beta, lm_history (ols_ops inv) c (b0 :: bs) new_lm = Ok s /\ a_coef s = Some beta /\
    beta 0%nat * gram_spec (c_forget c) (stream (b0 :: bs)) 0%nat 0%nat
      = ygram_spec (c_forget c) (stream (b0 :: bs)) 0%nat /\
    forall x, snd (lm_predict c 1 [x] s) = Ok [x 0%nat * beta 0%nat].
Proof.
  intros HI Hf HC Hi Hr Hp HG HL HT HN.
  assert (RR : forall l, map (regressors (c_icpt c)) l = l).
  { intros l. rewrite <- (map_id l) at 2. apply map_ext. intros [x y w]. rewrite Hi. reflexivity. }
  assert (W0 : weights_nonneg (b_rows b0)) by (inversion HG as [|? ? (G1 & _)]; exact G1).
  assert (Ex : exists o, ols_fit inv 1 (c_forget c) (b_rows b0) = Ok o).
  { unfold ols_fit, init_inverted_gram. pose proof (proj2 HI) as HI2.
    destruct (HI2 1%nat (init_gram (Xs (b_rows b0)) (ws (b_rows b0)) (c_forget c))) as (B & ->); [|cbn [bind]; eauto].
    apply inverse_one. rewrite init_gram_spec; auto; lra. }
  destruct Ex as (o & Ho).
  assert (N1 : n_cols (c_icpt c) 1 = 1%nat) by (rewrite Hi; reflexivity).
  destruct (ols_lm_fit_intro inv c b0 new_lm o) as (s0 & F & _).
  - exact HC.
  - exact HL.
  - lia.
  - rewrite Hp, N1. exact HT.
  - rewrite Hr. reflexivity.
  - rewrite Hp, N1, RR. exact Ho.
  - rewrite <- Hp in HG.
    assert (E : exists s, lm_history (ols_ops inv) c (b0 :: bs) new_lm = Ok s).
    { destruct (C47_optimal_lemma inv c b0 bs s0 HI Hf HC HG F) as (s & _ & E & _). eauto. }
    destruct E as (s & E).
    destruct (ols_lm_state inv c b0 bs s HI Hf HC HG E) as (L & n & o' & R & I).
    exists s, (ols_coef o'). split; [exact E|]. split; [apply R|].
    rewrite RR, Hp, N1 in I. split; [exact (ols_inv_one _ _ _ I)|].
    intros x. rewrite Hp in R. rewrite (ols_predict _ _ _ _ _ [x] R (le_n 1) ltac:(discriminate)).
    rewrite N1. cbn [map]. unfold dot. cbn [bsum]. unfold regressors. rewrite Hi. cbn [ox]. do 2 f_equal. ring.
Qed.

Lemma good_one b : Forall (fun o => 0 <= ow o) (b_rows b) -> b_rows b <> [] -> b_p b = 1%nat ->
  weights_nonneg (b_rows b) /\ b_rows b <> [] /\ b_p b = 1%nat.
Proof. auto. Qed.

Definition ex119_c : lm_cfg unit := mk_lmc unit (Ok tt) true (1 / 2) ScaleNone false false bic.
Definition ex119_b0 (y : R) : batch := mk_batch 1 [row1 1 y; row1 1 y].
Definition ex119_new (y : R) : batch := mk_batch 1 [row1 1 y].

Lemma ex119_good y l : good_calls 1 (ex119_b0 y :: map ex119_new l).
Proof.
  constructor; [apply good_one; [repeat constructor; cbn; lra|discriminate|reflexivity]|].
  induction l as [|a l IH]; constructor; auto.
  apply good_one; [repeat constructor; cbn; lra|discriminate|reflexivity].
Qed.

Lemma ex119_config : ols_config ex119_c.
Proof. repeat split. Qed.

Lemma ex119_history inv y l : matinv_spec inv ->
  exists s beta, lm_history (ols_ops inv) ex119_c (ex119_b0 y :: map ex119_new l) new_lm = Ok s /\ a_coef s = Some beta /\
    beta 0%nat * gram_spec (1 / 2) (stream (ex119_b0 y :: map ex119_new l)) 0%nat 0%nat
      = ygram_spec (1 / 2) (stream (ex119_b0 y :: map ex119_new l)) 0%nat /\
    forall x, snd (lm_predict ex119_c 1 [x] s) = Ok [x 0%nat * beta 0%nat].
Proof.
  intros HI. apply (one_col_history inv ex119_c); auto.
  - cbn; lra.
  - apply ex119_config.
  - apply ex119_good.
  - unfold total_weight; cbn; lra.
  - unfold gram_spec; cbn; lra.
Qed.

Lemma stream_new l : stream (map ex119_new l) = map (row1 1) l.
Proof. induction l as [|a l IH]; [reflexivity|]. unfold stream in *. cbn [map concat]. rewrite IH. reflexivity. Qed.

Lemma ex120_exciting y n : exciting 1 (1 / 2) 1 (map (row1 1) (repeat y (S n))).
Proof.
  intros v. unfold dot. cbn [bsum].
  assert (E : forall m, dsum (1 - 1 / 2) (fun o => ow o * (0 + ox o 0%nat * v 0%nat) ^ 2) (map (row1 1) (repeat y m))
     = (2 - 2 * (1 / 2) ^ m) * (v 0%nat * v 0%nat)).
  { induction m as [|m IH]; [cbn; ring|]. cbn [repeat map dsum length]. rewrite IH, map_length, repeat_length.
    replace (1 - 1 / 2) with (1 / 2) by lra. cbn [row1 ow ox pow]. field. }
  rewrite E. assert (P : (1 / 2) ^ S n <= 1 / 2).
  { cbn [pow]. assert ((1 / 2) ^ n <= 1) by (apply pow_le1; lra). lra. }
  assert (0 <= v 0%nat * v 0%nat) by nra. nra.
Qed.

Lemma ex120_bounded y n : -1 <= y <= 1 -> bounded_rows 1 1 (map (row1 1) (repeat y n)).
Proof.
  intros Hy. unfold bounded_rows. induction n as [|n IH]; cbn [repeat map]; constructor; auto.
  cbn [row1 ow oy ox]. split; [lra|]. split; [apply Rabs_le; lra|]. intros _ _. rewrite Rabs_R1; lra.
Qed.

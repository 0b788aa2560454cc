(** Concrete data for C121 and C122: an intercept and one column. *)
From Coq Require Import Reals List Bool Arith Lra Lia.
From Verif Require Import Base Lin Data M_Gram S_Gram L_Gram M_OLS L_OLS
  M_Scaler M_Utils S_Utils M_State M_LM S_LM L_LM L_LM2 L_LM3 S_Learn L_Learn S_Recode L_Recode.
Import ListNotations.
Open Scope R_scope.

Definition ex121_c : lm_cfg unit := mk_lmc unit (Ok tt) true 0 ScaleNone true false bic.

Lemma line_history inv rows : matinv_spec inv -> weights_nonneg rows -> (2 <= length rows)%nat -> 2 < total_weight rows ->
  let G := gram_spec 0 (map (regressors true) rows) in
  G 0%nat 0%nat * G 1%nat 1%nat - G 0%nat 1%nat * G 1%nat 0%nat <> 0 ->
  exists s beta, lm_history (ols_ops inv) ex121_c [mk_batch 1 rows] new_lm = Ok s /\ a_coef s = Some beta /\
    normal_equations 2 0 (map (regressors true) rows) beta /\
    forall X, X <> [] -> snd (lm_predict ex121_c 1 X s) = Ok (map (fun x => beta 0%nat + x 0%nat * beta 1%nat) X).
Proof.
  intros HI HW HL HT G HD.
  assert (Ex : exists o, ols_fit inv 2 0 (map (regressors true) rows) = Ok o).
  { unfold ols_fit, init_inverted_gram. pose proof (proj2 HI) as HI2.
    set (l := map (regressors true) rows) in *.
    destruct (HI2 2%nat (init_gram (Xs l) (ws l) 0)) as (B & ->); [|cbn [bind]; eauto].
    apply inverse_2x2. rewrite !init_gram_spec by (try lra; apply regressors_nonneg, HW). exact HD. }
  destruct Ex as (o & Ho).
  assert (HC : ols_config ex121_c) by (repeat split).
  destruct (ols_lm_fit_intro inv ex121_c (mk_batch 1 rows) new_lm o HC) as (s & F & R); auto.
  exists s, (ols_coef o). split.
  { cbn [lm_history]. unfold partial_fit. change (is_fitted new_lm) with false. cbn iota. rewrite F. reflexivity. }
  split; [apply R|]. split.
  { apply ols_inv_coef. apply (ols_fit_inv inv); auto; [lra|]. apply regressors_nonneg, HW. }
  intros X HX. cbn [b_p] in R. rewrite (ols_predict _ _ _ _ _ X R (le_n 1) HX). f_equal. apply map_ext. intros x.
  unfold dot. cbn. ring.
Qed.

(** Responses 1, 3, 2 at 0, 1, 2; and a point of weight zero off the line. *)
Definition ex121_rows : list obs := [row1 0 1; row1 1 3; row1 2 2].
Definition ex122_rows : list obs := [mkobs (fun _ => 0) 0 2; mkobs (fun _ => 1) 1 2; mkobs (fun _ => 2) (-10) 0].

Lemma ex121_history inv : matinv_spec inv ->
  exists s, lm_history (ols_ops inv) ex121_c [mk_batch 1 ex121_rows] new_lm = Ok s /\
    forall X, X <> [] -> snd (lm_predict ex121_c 1 X s) = Ok (map (fun x => 3 / 2 + x 0%nat * (1 / 2)) X).
Proof.
  intros HI. destruct (line_history inv ex121_rows HI) as (s & beta & E & _ & N & P).
  - repeat constructor; cbn; lra.
  - cbn; lia.
  - unfold total_weight; cbn; lra.
  - unfold gram_spec; cbn; lra.
  - exists s. split; [exact E|]. intros X HX. rewrite (P X HX).
    pose proof (N 0%nat ltac:(lia)) as N0. pose proof (N 1%nat ltac:(lia)) as N1.
    unfold mvec, gram_spec, ygram_spec in N0, N1. cbn in N0, N1.
    assert (B0 : beta 0%nat = 3 / 2) by lra. assert (B1 : beta 1%nat = 1 / 2) by lra.
    rewrite B0, B1. reflexivity.
Qed.

Lemma ex122_history inv : matinv_spec inv ->
  exists s, lm_history (ols_ops inv) ex121_c [mk_batch 1 ex122_rows] new_lm = Ok s /\
    forall X, X <> [] -> snd (lm_predict ex121_c 1 X s) = Ok (map (fun x => 0 + x 0%nat * 1) X).
Proof.
  intros HI. destruct (line_history inv ex122_rows HI) as (s & beta & E & _ & N & P).
  - repeat constructor; cbn; lra.
  - cbn; lia.
  - unfold total_weight; cbn; lra.
  - unfold gram_spec; cbn; lra.
  - exists s. split; [exact E|]. intros X HX. rewrite (P X HX).
    pose proof (N 0%nat ltac:(lia)) as N0. pose proof (N 1%nat ltac:(lia)) as N1.
    unfold mvec, gram_spec, ygram_spec in N0, N1. cbn in N0, N1.
    assert (B0 : beta 0%nat = 0) by lra. assert (B1 : beta 1%nat = 1) by lra.
    rewrite B0, B1. reflexivity.
Qed.

Lemma C122_weights_lemma inv : matinv_spec inv ->
  exists s, lm_history (ols_ops inv) ex121_c [mk_batch 1 ex122_rows] new_lm = Ok s /\
    snd (lm_score ex121_c (mk_batch 1 ex122_rows) s) = Ok (Some (- (35 / 37))).
Proof.
  intros HI. destruct (ex122_history inv HI) as (s & E & P). exists s. split; [exact E|].
  rewrite (score_of _ (mk_batch 1 ex122_rows) s _ (P (Xs ex122_rows) ltac:(discriminate))).
  unfold r2, ys, Xs, ex122_rows. cbn [b_rows map map2 lsum length oy ox INR].
  match goal with |- context [Reqb ?a 0] => replace (Reqb a 0) with false by (symmetry; apply Reqb_false; lra) end.
  do 2 f_equal. field_simplify; lra.
Qed.

From Coq Require Import Reals List Bool Arith Lra Lia Permutation FunctionalExtensionality.
From Verif Require Import Base Lin Data M_Gram S_Gram L_Gram M_OLS L_OLS M_CD M_Path M_Ridge M_Scaler M_Utils M_State M_LM S_LM L_LM S_CD L_CD L_CD1 L_CD2 L_Path L_Path2 S_Target L_Target L_Target2 L_Target3 L_Target4 L_Target5 S_Rows L_LM4 L_Rows L_Rows2 L_Rows3.
Import ListNotations.
Open Scope R_scope.

Definition r_sc (m : R) : scaler := mk_scaler 0 false [] (fun _ => 0) (fun _ => 0) (fun _ => 0) 0 m.
Lemma n_nonzero_two_fifths v : v 0%nat = 2 / 5 -> n_nonzero 1 v = 1.
Proof.
  unfold n_nonzero. cbn [seq filter]. intros ->. rewrite Rabs_pos_eq by lra.
  replace (Rleb (2 / 5) (1 / 100000000)) with false by (symmetry; apply Rleb_false; lra). reflexivity.
Qed.

Lemma predict_r s beta : a_scaler s = Some (Some (r_sc 4)) -> a_nfin s = Some 1%nat -> a_coef s = Some beta ->
  snd (lm_predict r_c 1 [fun _ => 1] s) = Ok [dot 1 (fun _ => 1) beta].
Proof.
  intros B1 B2 B3. destruct s as [a1 a2 a3 a4 a5 a6 a7 a8 a9 a10 a11 a12]. cbn in B1, B2, B3. subst. reflexivity.
Qed.
Lemma r_fit perms rows k : (forall k l i, Permutation (perms k l i) (seq 0 1)) ->
  weights_nonneg rows -> (2 <= length rows)%nat -> gram_spec 0 rows 0%nat 0%nat = 4 -> ygram_spec 0 rows 0%nat = 2 ->
  lsum (ws rows) = 4 ->
  (forall v w, v 0%nat = 0 -> w 0%nat = 2 / 5 ->
     (if Rltb (2 * ln (rss_fit 1 (design_rows r_c (r_sc 4) rows) w / 4) + 1) (2 * ln (rss_fit 1 (design_rows r_c (r_sc 4) rows) v / 4)) then 1 else 0)%nat = k) ->
  exists s P0 P1, lm_history (en_ops perms) r_c [mk_batch 1 rows] new_lm = Ok s /\
  a_path s = Some [P0; P1] /\ P0 0%nat = 0 /\ P1 0%nat = 2 / 5 /\ a_coef s = Some (nth k [P0; P1] (fun _ => 0)) /\
  snd (lm_predict r_c 1 [fun _ => 1] s) = Ok [nth k [0; 2 / 5] 0].
Proof.
  intros Hp W0 L0 G0 YG0 S0 A.
  set (l := design_rows r_c (r_sc 4) rows) in *.
  set (xg := init_gram (Xs l) (ws l) 0). set (yg := init_y_gram (Xs l) (ys l) (ws l) 0).
  assert (Wl : weights_nonneg l) by (apply scaled_nonneg; auto).
  assert (El : l = rows).
  { unfold l, design_rows. rewrite <- (map_id rows) at 2. apply map_ext. intros [x y w]. reflexivity. }
  assert (X0 : xg 0%nat 0%nat = 4) by (unfold xg; rewrite init_gram_spec by (auto; lra); rewrite El; exact G0).
  assert (Y0 : yg 0%nat = 2) by (unfold yg; rewrite init_y_gram_spec by (auto; lra); rewrite El; exact YG0).
  assert (Lm : get_lambda_max 1 xg yg (is_regularized r_c) = Ok 2).
  { rewrite lambda_max_all by (intros j _; reflexivity). cbn [np_max vmax]. rewrite Y0. reflexivity. }
  assert (D : forall j, (j < 1)%nat -> 0 < xg j j) by (intros j Hj; replace j with 0%nat by lia; lra).
  destruct (fit_total r_en (perms 0%nat) 1 xg yg (is_regularized r_c) 2) as (c' & P & E);
    try reflexivity; auto; try (cbn; lra); try lra.
  { intros n i. apply Hp. }
  assert (Cl : forall i, (i < 2)%nat -> P i 0%nat = yg 0%nat * (1 - 1 * Rpower (1 / 5) (INR i / INR 1)) / (xg 0%nat 0%nat + yg 0%nat * Rpower (1 / 5) (INR i / INR 1) * (1 - 1))).
  { intros i Hi. refine (proj2 (one_column_closed r_en (perms 0%nat) xg yg (is_regularized r_c) c' P i _ _ eq_refl eq_refl eq_refl _ _ eq_refl _ E Hi)); try (cbn; lra); try lra.
    intros n m. apply Hp. }
  assert (C0 : P 0%nat 0%nat = 0).
  { rewrite Cl by lia. cbn [INR]. unfold Rpower. replace (0 / 1) with 0 by lra. rewrite Rmult_0_l, exp_0. lra. }
  assert (C1 : P 1%nat 0%nat = 2 / 5).
  { rewrite Cl by lia. cbn [INR]. replace (1 / 1) with 1 by lra. rewrite Rpower_1 by lra. rewrite X0, Y0. lra. }
  assert (N : en_n c' = 2%nat).
  { apply fit_inv in E. destruct E as (? & ? & B & _). apply bounds_inv in B. destruct B as (-> & _). reflexivity. }
  destruct (lm_fit_intro (en_ops perms) r_c (mk_batch 1 rows) new_lm (r_en, 0%nat) (r_sc 4) xg) as [I _]; try reflexivity; auto.
  { cbn [b_rows]. lia. }
  { apply andb_false_r. }
  { cbn [b_rows]. rewrite S0. lra. }
  { cbn [b_rows b_p r_c c_scale c_forget]. unfold scaler_fit. destruct (Nat.ltb_spec (length rows) 2); [lia|]. cbn. rewrite S0. reflexivity. }
  cbn [b_rows b_p] in I. fold l in I. change (n_cols (c_icpt r_c) 1) with 1%nat in I. change (c_forget r_c) with 0 in I. fold yg in I.
  assert (T : effective_training_length 0 (lsum (ws rows)) = 4).
  { unfold effective_training_length. replace (Reqb 0 0) with true by (symmetry; apply Reqb_true; auto). exact S0. }
  rewrite T in I.
  eexists; exists (P 0%nat), (P 1%nat).
  split.
  - apply fit_history. eapply (I (c', 1%nat) [P 0%nat; P 1%nat] _ k eq_refl).
    + cbn [op_fit_path en_ops fst snd]. rewrite E. cbn [bind fst snd]. rewrite N. reflexivity.
    + cbn [map]. rewrite (proj1 (n_nonzero_one _) C0), (n_nonzero_two_fifths _ C1).
      unfold from_rss_array, from_ll_array. cbn [r_c c_ic map map2 sequence from_ll bind]. reflexivity.
    + rewrite <- (A _ _ C0 C1). cbn [argmin argmin_loop]. f_equal.
      match goal with |- (if Rltb ?a ?b then _ else _) = (if Rltb ?x ?y then _ else _) => replace (Rltb a b) with (Rltb x y); [reflexivity|];
        destruct (Rlt_le_dec x y); [rewrite (proj2 (Rltb_true x y)) by auto; symmetry; apply Rltb_true; lra|rewrite (proj2 (Rltb_false x y)) by lra; symmetry; apply Rltb_false; lra] end.
  - cbn [map a_path a_rss a_ntrain a_coef]. split; [reflexivity|]. split; [exact C0|]. split; [exact C1|]. split; [reflexivity|].
    rewrite (predict_r _ (nth k [P 0%nat; P 1%nat] (fun _ => 0))) by reflexivity.
    unfold dot. cbn [bsum]. do 2 f_equal. destruct k as [|[|k]]; cbn; rewrite ?C0, ?C1; try lra. destruct k; cbn; lra.
Qed.

Lemma r_counted perms : (forall k l i, Permutation (perms k l i) (seq 0 1)) ->
  exists s P0 P1, lm_history (en_ops perms) r_c [mk_batch 1 (counted r_rows)] new_lm = Ok s /\
  a_path s = Some [P0; P1] /\ P0 0%nat = 0 /\ P1 0%nat = 2 / 5 /\ a_coef s = Some P1 /\
  snd (lm_predict r_c 1 [fun _ => 1] s) = Ok [2 / 5].
Proof.
  intros Hp. apply (r_fit perms (counted r_rows) 1 Hp).
  { repeat constructor; cbn; lra. }
  { cbn; lia. }
  { unfold gram_spec. cbn. lra. }
  { unfold ygram_spec. cbn. lra. }
  { cbn. lra. }
  { intros v w Hv Hw.
    assert (R0 : rss_fit 1 (design_rows r_c (r_sc 4) (counted r_rows)) v = 10) by (unfold rss_fit, dot; cbn; rewrite Hv; lra).
    assert (R1 : rss_fit 1 (design_rows r_c (r_sc 4) (counted r_rows)) w = 26 / 5) by (unfold rss_fit, dot; cbn; rewrite Hw; lra).
    rewrite R0, R1.
    match goal with |- (if Rltb ?a ?b then _ else _) = _ => replace (Rltb a b) with true; [reflexivity|] end.
    symmetry. apply Rltb_true.
    assert (2 * ln (26 / 5 / 4) + 1 < 2 * ln (10 / 4)); [|lra].
    assert (K : ln (26 / 5 / 4) + ln (26 / 5 / 4) + 1 < ln (10 / 4) + ln (10 / 4)); [|lra].
    rewrite <- (ln_exp 1), <- !ln_mult by (try apply Rmult_lt_0_compat; try apply exp_pos; lra).
    apply ln_increasing; [apply Rmult_lt_0_compat; [lra|apply exp_pos]|]. pose proof exp_le_3. lra. }
Qed.

Lemma C109_choice_lemma perms : (forall k l i, Permutation (perms k l i) (seq 0 1)) ->
  exists s s', lm_history (en_ops perms) r_c [mk_batch 1 (counted r_rows)] new_lm = Ok s /\
    lm_history (en_ops perms) r_c [mk_batch 1 (repeated r_rows)] new_lm = Ok s' /\
    snd (lm_predict r_c 1 [fun _ => 1] s) = Ok [2 / 5] /\ snd (lm_predict r_c 1 [fun _ => 1] s') = Ok [0].
Proof.
  intros Hp.
  destruct (r_counted perms Hp) as (s & _ & _ & E & _ & _ & _ & _ & Pr).
  destruct (r_fit perms (repeated r_rows) 0 Hp) as (s' & _ & _ & E' & _ & _ & _ & _ & Pr').
  { repeat constructor; cbn; lra. }
  { cbn; lia. }
  { unfold gram_spec. cbn. lra. }
  { unfold ygram_spec. cbn. lra. }
  { cbn. lra. }
  { intros v w Hv Hw.
    assert (R0 : rss_fit 1 (design_rows r_c (r_sc 4) (repeated r_rows)) v = 4) by (unfold rss_fit, dot; cbn; rewrite Hv; lra).
    assert (R1 : rss_fit 1 (design_rows r_c (r_sc 4) (repeated r_rows)) w = 76 / 25) by (unfold rss_fit, dot; cbn; rewrite Hw; lra).
    rewrite R0, R1.
    match goal with |- (if Rltb ?a ?b then _ else _) = _ => replace (Rltb a b) with false; [reflexivity|] end.
    symmetry. apply Rltb_false.
    assert (ln (4 / 4) + ln (4 / 4) < ln (76 / 25 / 4) + ln (76 / 25 / 4) + 1); [|lra].
    rewrite <- (ln_exp 1), <- !ln_mult by (try apply Rmult_lt_0_compat; try apply exp_pos; lra).
    apply ln_increasing; [lra|]. pose proof exp1_large. lra. }
  exists s, s'. auto.
Qed.

(** * Ridge, elastic net and forgetting *)
Lemma ridge_keeps inv perms : keeps_gramian (ridge_ops inv perms).
Proof. split; reflexivity. Qed.
Lemma en_keeps perms : keeps_gramian (en_ops perms).
Proof. split; reflexivity. Qed.
Lemma C109_ridge_lemma inv perms c d d' ds ds' s : c_forget c = 0 ->
  Forall2 same_batch (d :: ds) (d' :: ds') ->
  Forall (fun e => weights_nonneg (b_rows e)) (d :: ds) -> Forall (fun e => weights_nonneg (b_rows e)) (d' :: ds') ->
  enough_rows 2 d' -> Forall (enough_rows 1) ds' ->
  lm_history (ridge_ops inv perms) c (d :: ds) new_lm = Ok s -> lm_history (ridge_ops inv perms) c (d' :: ds') new_lm = Ok s.
Proof.
  intros Hf HR W W' L2 L1 H.
  destruct (C109_gram_lemma _ c d d' ds ds' s (ridge_keeps inv perms) Hf HR W W' L2 L1 H) as (s' & E & Q & _). rewrite E, Q; reflexivity.
Qed.
Lemma C109_path_lemma perms c d d' ds ds' s : c_forget c = 0 ->
  Forall2 same_batch (d :: ds) (d' :: ds') ->
  Forall (fun e => weights_nonneg (b_rows e)) (d :: ds) -> Forall (fun e => weights_nonneg (b_rows e)) (d' :: ds') ->
  enough_rows 2 d' -> Forall (enough_rows 1) ds' ->
  lm_history (en_ops perms) c (d :: ds) new_lm = Ok s ->
  exists s', lm_history (en_ops perms) c (d' :: ds') new_lm = Ok s' /\ a_scaler s' = a_scaler s /\ a_path s' = a_path s /\
    (forall p X, snd (lm_predict_path c p X s') = snd (lm_predict_path c p X s)).
Proof.
  intros Hf HR W W' L2 L1 H.
  destruct (C109_gram_lemma _ c d d' ds ds' s (en_keeps perms) Hf HR W W' L2 L1 H) as (s' & E & _ & S1 & _ & _ & S2 & S3).
  exists s'. auto.
Qed.
Lemma C110_ridge_lemma inv perms c d d' ds ds' s : c_forget c = 0 ->
  Forall2 reordered (d :: ds) (d' :: ds') -> Forall (fun e => weights_nonneg (b_rows e)) (d :: ds) ->
  lm_history (ridge_ops inv perms) c (d :: ds) new_lm = Ok s -> lm_history (ridge_ops inv perms) c (d' :: ds') new_lm = Ok s.
Proof. apply (C110_lemma (ridge_ops inv perms)), ridge_keeps. Qed.
Lemma C110_path_lemma perms c d d' ds ds' s : c_forget c = 0 ->
  Forall2 reordered (d :: ds) (d' :: ds') -> Forall (fun e => weights_nonneg (b_rows e)) (d :: ds) ->
  lm_history (en_ops perms) c (d :: ds) new_lm = Ok s -> lm_history (en_ops perms) c (d' :: ds') new_lm = Ok s.
Proof. apply (C110_lemma (en_ops perms)), en_keeps. Qed.

Definition o_sc : scaler := mk_scaler (1 / 2) false [] (fun _ => 0) (fun _ => 0) (fun _ => 0) 0 (1 + (1 + 0)).
Lemma predict_o s beta : a_scaler s = Some (Some o_sc) -> a_nfin s = Some 1%nat -> a_coef s = Some beta ->
  snd (lm_predict o_c 1 [fun _ => 1] s) = Ok [dot 1 (fun _ => 1) beta].
Proof.
  intros B1 B2 B3. destruct s as [a1 a2 a3 a4 a5 a6 a7 a8 a9 a10 a11 a12]. cbn in B1, B2, B3. subst. reflexivity.
Qed.
Lemma o_fit inv y1 y2 : matinv_spec inv -> exists s, lm_history (ols_ops inv) o_c [mk_batch 1 [row1 1 y1; row1 1 y2]] new_lm = Ok s /\
  snd (lm_predict o_c 1 [fun _ => 1] s) = Ok [(y1 + 2 * y2) / 3].
Proof.
  intros HI. set (b := mk_batch 1 [row1 1 y1; row1 1 y2]). set (l := design_rows o_c o_sc (b_rows b)).
  set (g := init_gram (Xs l) (ws l) (1 / 2)). set (yg := init_y_gram (Xs l) (ys l) (ws l) (1 / 2)).
  assert (Wl : weights_nonneg l) by (repeat constructor; cbn; lra).
  assert (G : g 0%nat 0%nat = 3 / 2) by (unfold g; rewrite init_gram_spec by (auto; lra); unfold gram_spec; cbn; lra).
  assert (Y : yg 0%nat = (y1 + 2 * y2) / 2) by (unfold yg; rewrite init_y_gram_spec by (auto; lra); unfold ygram_spec; cbn; lra).
  assert (Inv : exists B, is_inverse 1 g B).
  { exists (fun _ _ => 2 / 3). split; intros i j Hi Hj; replace i with 0%nat by lia; replace j with 0%nat by lia; unfold mmul, mid; cbn [bsum]; rewrite G; cbn; lra. }
  destruct HI as [HI1 HI2]. destruct (HI2 1%nat g Inv) as (B & EB). pose proof (HI1 _ _ _ EB) as [IB _].
  assert (VB : B 0%nat 0%nat = 2 / 3).
  { pose proof (IB 0%nat 0%nat ltac:(lia) ltac:(lia)) as A1. unfold mmul, mid in A1. cbn [bsum] in A1. rewrite G in A1. cbn in A1. lra. }
  destruct (lm_fit_intro (ols_ops inv) o_c b new_lm tt o_sc B) as [_ I]; try reflexivity.
  { cbn. lia. }
  { cbn [o_c c_ols_name c_icpt]. rewrite andb_true_r. apply Rleb_false. cbn. lra. }
  { cbn; lra. }
  { change (init_inverted_gram inv 1 (Xs l) (ws l) (1 / 2) = Ok B). unfold init_inverted_gram. fold g. rewrite EB. reflexivity. }
  specialize (I tt (ols_beta 1 B yg) eq_refl eq_refl). eexists. split; [apply fit_history, I|].
  rewrite (predict_o _ (ols_beta 1 B yg)) by reflexivity.
  unfold dot. cbn [bsum n_cols o_c c_icpt design]. unfold ols_beta, mvec, dot. cbn [bsum]. rewrite VB, Y. do 2 f_equal. lra.
Qed.
Lemma C110_forget_lemma inv : matinv_spec inv ->
  exists s s', lm_history (ols_ops inv) o_c [mk_batch 1 [row1 1 0; row1 1 4]] new_lm = Ok s /\
    lm_history (ols_ops inv) o_c [mk_batch 1 [row1 1 4; row1 1 0]] new_lm = Ok s' /\
    snd (lm_predict o_c 1 [fun _ => 1] s) = Ok [8 / 3] /\ snd (lm_predict o_c 1 [fun _ => 1] s') = Ok [4 / 3].
Proof.
  intros HI. destruct (o_fit inv 0 4 HI) as (s & E & P). destruct (o_fit inv 4 0 HI) as (s' & E' & P').
  exists s, s'. split; [exact E|]. split; [exact E'|]. rewrite P, P'. split; do 2 f_equal; lra.
Qed.

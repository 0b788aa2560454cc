From Coq Require Import Reals List Bool Arith Lra Lia Permutation FunctionalExtensionality.
From Verif Require Import Base Lin Data M_Gram S_Gram L_Gram M_OLS L_OLS M_CD M_Path M_Ridge M_Scaler M_Utils M_State M_LM S_LM L_LM S_CD L_CD L_CD1 L_CD2 L_Path L_Path2 S_Target L_Target L_Target2 L_Target3 L_Target4.
Import ListNotations.
Open Scope R_scope.

Lemma predict_unscaled {M} (c : lm_cfg M) s x beta : a_scaler s = Some (Some t_sc) -> a_nfin s = Some 1%nat -> a_coef s = Some beta ->
  snd (lm_predict c 1 [fun _ => x] s) = Ok [dot (n_cols (c_icpt c) 1) (design (c_icpt c) (fun _ => x)) beta].
Proof.
  intros B1 B2 B3. destruct s as [a1 a2 a3 a4 a5 a6 a7 a8 a9 a10 a11 a12]. cbn in B1, B2, B3. subst. reflexivity.
Qed.
Lemma fit_history {M} (ops : method_ops M) c b s : lm_fit ops c b new_lm = (s, Ok tt) -> lm_history ops c [b] new_lm = Ok s.
Proof. intros E. cbn [lm_history]. unfold partial_fit. change (is_fitted new_lm) with false. cbv iota. rewrite E. reflexivity. Qed.

Lemma t_ridge inv perms : (forall k i, Permutation (perms k i) (seq 0 1)) ->
  exists s beta, lm_history (ridge_ops inv perms) t_rc [t_b] new_lm = Ok s /\ a_coef s = Some beta /\ beta 0%nat = 1 /\
    snd (lm_predict t_rc 1 [fun _ => 3] s) = Ok [3].
Proof.
  intros Hp.
  set (l := design_rows t_rc t_sc (b_rows t_b)).
  set (xg := init_gram (Xs l) (ws l) 0). set (yg := init_y_gram (Xs l) (ys l) (ws l) 0).
  assert (El : l = [row1 1 1; row1 1 3]) by reflexivity.
  assert (Wl : weights_nonneg l) by (rewrite El; repeat constructor; cbn; lra).
  assert (X0 : xg 0%nat 0%nat = 2).
  { unfold xg. rewrite init_gram_spec by (auto; lra). rewrite El. unfold gram_spec. cbn. lra. }
  assert (Y0 : yg 0%nat = 4).
  { unfold yg. rewrite init_y_gram_spec by (auto; lra). rewrite El. unfold ygram_spec. cbn. lra. }
  set (st := match inv 1%nat xg with Some xi => mvec 1 xi yg | None => fun _ => 0 end).
  set (a := mk_cd 1 xg yg (mtrace 1 xg / 1) (is_regularized t_rc) 0 (bound_fun (Some [None])) (bound_fun (Some [None]))).
  assert (L : mtrace 1 xg / 1 = 2) by (unfold mtrace; cbn [bsum]; rewrite X0; lra).
  assert (Hub : unbounded a) by (intros j; split; destruct j as [|[|j]]; reflexivity).
  assert (C : forall b, cd_coord a b 0 = Ok 1).
  { intros b. assert (D : cd_den a 0 = 4).
    { unfold cd_den. cbn [a cd_isreg cd_alpha cd_reg cd_x]. rewrite L, X0. cbn. lra. }
    rewrite coord_unbounded by (auto; rewrite ?D; lra). rewrite D. unfold cd_num. cbn [a cd_isreg cd_alpha cd_reg].
    cbn [t_rc is_regularized c_icpt c_regicpt]. rewrite L.
    unfold cd_partial. cbn [a cd_J cd_y cd_x bsum]. rewrite Y0.
    unfold soft_threshold, rsign. replace (4 - (0 + xg 0%nat 0%nat * b 0%nat) + xg 0%nat 0%nat * b 0%nat) with 4 by ring.
    replace (Rltb 0 4) with true by (symmetry; apply Rltb_true; lra). rewrite (Rabs_pos_eq 4) by lra.
    rewrite Rmax_left by lra. f_equal. lra. }
  destruct (cd_fixed_after_first a false (perms 0%nat) 0 10 st (fun _ => 1) 1) as (b' & n' & E' & Hb').
  { intros j Hj. replace j with 0%nat by (cbn in Hj; lia). apply C. }
  { exact (Hp 0%nat). }
  { exact (le_n 1). }
  { apply C. }
  { intros k Hk. replace k with 0%nat by (cbn in Hk; lia). reflexivity. }
  destruct (lm_fit_intro (ridge_ops inv perms) t_rc t_b new_lm (mk_ridge None None false None None 0 10, 0%nat) t_sc xg) as [_ I]; try reflexivity.
  1-2: cbn; lia.
  { cbn; lra. }
  fold l in I. change (n_cols (c_icpt t_rc) (b_p t_b)) with 1%nat in I. change (c_forget t_rc) with 0 in I. fold yg in I.
  assert (F : op_fit_beta (ridge_ops inv perms) (mk_ridge None None false None None 0 10, 0%nat) 1 xg yg (is_regularized t_rc)
    = Ok ((mk_ridge (Some (mtrace 1 xg / 1)) None false (Some [None]) (Some [None]) 0 10, 1%nat), b')).
  { cbn [op_fit_beta ridge_ops fst snd]. unfold ridge_fit, ridge_bounds. cbn [ri_lower ri_upper fill_bound repeat length Nat.eqb negb bind].
    unfold ridge_start, ridge_lambda. cbn [ri_start ri_lambda ri_random ri_lower ri_upper ri_tol ri_maxit].
    change (INR 1) with 1. unfold ridge_args. cbn [ri_lower ri_upper]. fold a. fold st. rewrite E'. reflexivity. }
  specialize (I _ _ eq_refl F). eexists; exists b'. split; [apply fit_history, I|].
  assert (B : b' 0%nat = 1) by (apply (Hb' 0%nat); cbn; lia).
  split; [reflexivity|]. split; [exact B|].
  rewrite (predict_unscaled _ _ _ b') by reflexivity. unfold dot. cbn. rewrite B. do 2 f_equal. lra.
Qed.

Lemma t_ols inv : matinv_spec inv ->
  exists s beta, lm_history (ols_ops inv) t_ic [t_ib] new_lm = Ok s /\ a_coef s = Some beta /\ beta 0%nat = 15 /\ beta 1%nat = 9 / 2 /\
    snd (lm_predict t_ic 1 [fun _ => 2] s) = Ok [24].
Proof.
  intros HI. set (sc := mk_scaler 0 false [] (fun _ => 0) (fun _ => 0) (fun _ => 0) 0 (1 + (1 + (1 + 0)))).
  set (l := design_rows t_ic sc (b_rows t_ib)).
  set (g := init_gram (Xs l) (ws l) 0). set (yg := init_y_gram (Xs l) (ys l) (ws l) 0).
  assert (Wl : weights_nonneg l) by (repeat constructor; cbn; lra).
  assert (G : forall i j, (i < 2)%nat -> (j < 2)%nat -> g i j = match i, j with 0%nat, 0%nat => 3 | 1%nat, 1%nat => 2 | _, _ => 0 end).
  { intros i j Hi Hj. unfold g. rewrite init_gram_spec by (auto; lra). unfold gram_spec.
    destruct i as [|[|i]]; try lia; destruct j as [|[|j]]; try lia; cbn; lra. }
  assert (Y : yg 0%nat = 45 /\ yg 1%nat = 9).
  { split; unfold yg; rewrite init_y_gram_spec by (auto; lra); unfold ygram_spec; cbn; lra. }
  assert (Inv : exists B, is_inverse 2 g B).
  { exists (fun i j => match i, j with 0%nat, 0%nat => / 3 | 1%nat, 1%nat => / 2 | _, _ => 0 end).
    split; intros i j Hi Hj; unfold mmul, mid; cbn [bsum]; rewrite !G by lia;
      destruct i as [|[|i]]; try lia; destruct j as [|[|j]]; try lia; cbn; lra. }
  destruct HI as [HI1 HI2]. destruct (HI2 2%nat g Inv) as (B & EB). pose proof (HI1 _ _ _ EB) as [IB _].
  assert (VB : B 0%nat 0%nat = / 3 /\ B 0%nat 1%nat = 0 /\ B 1%nat 0%nat = 0 /\ B 1%nat 1%nat = / 2).
  { pose proof (IB 0%nat 0%nat ltac:(lia) ltac:(lia)) as A1. pose proof (IB 0%nat 1%nat ltac:(lia) ltac:(lia)) as A2.
    pose proof (IB 1%nat 0%nat ltac:(lia) ltac:(lia)) as A3. pose proof (IB 1%nat 1%nat ltac:(lia) ltac:(lia)) as A4.
    unfold mmul, mid in A1, A2, A3, A4. cbn [bsum] in A1, A2, A3, A4. rewrite !G in A1, A2, A3, A4 by lia. cbn in A1, A2, A3, A4. lra. }
  destruct (lm_fit_intro (ols_ops inv) t_ic t_ib new_lm tt sc B) as [_ I]; try reflexivity.
  { cbn; lia. }
  { cbn [t_ic c_ols_name c_icpt]. rewrite andb_true_r. apply Rleb_false. cbn. lra. }
  { cbn; lra. }
  { change (init_inverted_gram inv 2 (Xs l) (ws l) 0 = Ok B). unfold init_inverted_gram. fold g. rewrite EB. reflexivity. }
  specialize (I tt (ols_beta 2 B yg) eq_refl eq_refl). eexists; exists (ols_beta 2 B yg).
  split; [apply fit_history, I|]. split; [reflexivity|].
  destruct VB as (B1 & B2 & B3 & B4). destruct Y as (Y0 & Y1).
  assert (V0 : ols_beta 2 B yg 0%nat = 15) by (unfold ols_beta, mvec; cbn [bsum]; rewrite ?B1, ?B2, ?B3, ?B4, Y0, Y1; lra).
  assert (V1 : ols_beta 2 B yg 1%nat = 9 / 2) by (unfold ols_beta, mvec; cbn [bsum]; rewrite ?B1, ?B2, ?B3, ?B4, Y0, Y1; lra).
  split; [exact V0|]. split; [exact V1|].
  assert (D : forall b, b 0%nat = 15 -> b 1%nat = 9 / 2 -> dot 2 (design true (fun _ => 2)) b = 24) by (intros b D0 D1; unfold dot, design; cbn; lra).
  match goal with |- snd (lm_predict _ _ _ ?s) = _ => 
    transitivity (Ok [dot 2 (design true (fun _ => 2)) (ols_beta 2 B yg)]); [reflexivity|] end.
  rewrite D by assumption. reflexivity.
Qed.

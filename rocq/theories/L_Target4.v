From Coq Require Import Reals List Bool Arith Lra Lia Permutation FunctionalExtensionality.
From Verif Require Import Base Lin Data M_Gram S_Gram L_Gram M_OLS M_CD M_Path M_Ridge M_Scaler M_Utils M_State M_LM S_LM L_LM S_CD L_CD L_CD1 L_CD2 L_Path L_Path2 S_Target L_Target L_Target2 L_Target3.
Import ListNotations.
Open Scope R_scope.

Definition t_sc : scaler := mk_scaler 0 false [] (fun _ => 0) (fun _ => 0) (fun _ => 0) 0 (1 + (1 + 0)).
Lemma exp1_large : 5 / 2 < exp 1.
Proof.
  replace 1 with (1/8+1/8+1/8+1/8+1/8+1/8+1/8+1/8) at 1 by lra. rewrite !exp_plus.
  pose proof (exp_ineq1 (1 / 8) ltac:(lra)) as H. set (e := exp (1 / 8)) in *.
  assert (H1 : 9 / 8 < e) by lra.
  assert (H2 : 81 / 64 < e * e) by nra.
  assert (H3 : 6561 / 4096 < e * e * (e * e)) by nra.
  assert (H4 : 5 / 2 < e * e * (e * e) * (e * e * (e * e))) by nra.
  replace (e * e * e * e * e * e * e * e) with (e * e * (e * e) * (e * e * (e * e))) by ring. exact H4.
Qed.
Lemma n_nonzero_one v : (v 0%nat = 0 -> n_nonzero 1 v = 0) /\ (v 0%nat = 1 -> n_nonzero 1 v = 1).
Proof.
  unfold n_nonzero. cbn [seq filter]. split; intros ->.
  - rewrite Rabs_R0. replace (Rleb 0 (1 / 100000000)) with true by (symmetry; apply Rleb_true; lra). reflexivity.
  - rewrite Rabs_R1. replace (Rleb 1 (1 / 100000000)) with false by (symmetry; apply Rleb_false; lra). reflexivity.
Qed.

Lemma t_fit perms : (forall k l i, Permutation (perms k l i) (seq 0 1)) ->
  exists s P0 P1, lm_fit (en_ops perms) t_c t_b new_lm = (s, Ok tt) /\
  a_path s = Some [P0; P1] /\ P0 0%nat = 0 /\ P1 0%nat = 1 /\ a_rss s = Some [10; 4] /\ a_ntrain s = Some 2 /\ a_coef s = Some P0.
Proof.
  intros Hp.
  set (l := design_rows t_c t_sc (b_rows t_b)).
  set (xg := init_gram (Xs l) (ws l) 0). set (yg := init_y_gram (Xs l) (ys l) (ws l) 0).
  assert (El : l = [row1 1 1; row1 1 3]) by reflexivity.
  assert (Wl : weights_nonneg l) by (rewrite El; repeat constructor; cbn; lra).
  assert (X0 : xg 0%nat 0%nat = 2).
  { unfold xg. rewrite init_gram_spec by (auto; lra). rewrite El. unfold gram_spec. cbn. lra. }
  assert (Y0 : yg 0%nat = 4).
  { unfold yg. rewrite init_y_gram_spec by (auto; lra). rewrite El. unfold ygram_spec. cbn. lra. }
  assert (Lm : get_lambda_max 1 xg yg (is_regularized t_c) = Ok 4).
  { rewrite lambda_max_all by (intros j _; reflexivity). cbn [np_max vmax]. rewrite Y0. reflexivity. }
  assert (D : forall j, (j < 1)%nat -> 0 < xg j j) by (intros j Hj; replace j with 0%nat by lia; lra).
  destruct (fit_total t_en (perms 0%nat) 1 xg yg (is_regularized t_c) 4) as (c' & P & E);
    try reflexivity; auto; try (cbn; lra); try lra.
  { intros k i. apply Hp. }
  assert (Cl : forall i, (i < 2)%nat -> P i 0%nat = yg 0%nat * (1 - 1 * Rpower (1 / 2) (INR i / INR 1)) / (xg 0%nat 0%nat + yg 0%nat * Rpower (1 / 2) (INR i / INR 1) * (1 - 1))).
  { intros i Hi. refine (proj2 (one_column_closed t_en (perms 0%nat) xg yg (is_regularized t_c) c' P i _ _ eq_refl eq_refl eq_refl _ _ eq_refl _ E Hi)); try (cbn; lra); try lra.
    intros k n. apply Hp. }
  assert (C0 : P 0%nat 0%nat = 0).
  { rewrite Cl by lia. cbn [INR]. unfold Rpower. replace (0 / 1) with 0 by lra. rewrite Rmult_0_l, exp_0. lra. }
  assert (C1 : P 1%nat 0%nat = 1).
  { rewrite Cl by lia. cbn [INR]. replace (1 / 1) with 1 by lra. rewrite Rpower_1 by lra. rewrite X0, Y0. lra. }
  assert (N : en_n c' = 2%nat).
  { apply fit_inv in E. destruct E as (? & ? & B & _). apply bounds_inv in B. destruct B as (-> & _). reflexivity. }
  destruct (lm_fit_intro (en_ops perms) t_c t_b new_lm (t_en, 0%nat) t_sc xg) as [I _]; try reflexivity.
  1-2: cbn; lia.
  { cbn; lra. }
  fold l in I. change (n_cols (c_icpt t_c) (b_p t_b)) with 1%nat in I. change (c_forget t_c) with 0 in I. fold yg in I.
  assert (R0 : rss_fit 1 l (P 0%nat) = 10) by (rewrite El; unfold rss_fit, dot; cbn; rewrite C0; lra).
  assert (R1 : rss_fit 1 l (P 1%nat) = 4) by (rewrite El; unfold rss_fit, dot; cbn; rewrite C1; lra).
  assert (T : effective_training_length 0 (lsum (ws (b_rows t_b))) = 2).
  { unfold effective_training_length. replace (Reqb 0 0) with true by (symmetry; apply Reqb_true; auto). cbn. lra. }
  rewrite T in I.
  eexists; exists (P 0%nat), (P 1%nat). split.
  - eapply (I (c', 1%nat) [P 0%nat; P 1%nat] _ 0%nat eq_refl).
    + cbn [op_fit_path en_ops fst snd]. rewrite E. cbn [bind fst snd]. rewrite N. reflexivity.
    + cbn [map]. rewrite R0, R1, (proj1 (n_nonzero_one _) C0), (proj2 (n_nonzero_one _) C1).
      unfold from_rss_array, from_ll_array. cbn [t_c c_ic map map2 sequence from_ll bind]. reflexivity.
    + cbn [argmin argmin_loop].
      match goal with |- Ok (if Rltb ?a ?b then _ else _) = _ => replace (Rltb a b) with false; [reflexivity|] end.
      symmetry. apply Rltb_false.
      assert (L : ln (10 / 2) < ln (4 / 2) + 1).
      { replace (10 / 2) with (4 / 2 * (5 / 2)) by lra. rewrite ln_mult by lra.
        assert (ln (5 / 2) < 1) by (rewrite <- (ln_exp 1); apply ln_increasing; [lra|apply exp1_large]). lra. }
      lra.
  - cbn [map a_path a_rss a_ntrain a_coef nth]. rewrite R0, R1. auto 10.
Qed.

Lemma t_history perms s : lm_fit (en_ops perms) t_c t_b new_lm = (s, Ok tt) -> lm_history (en_ops perms) t_c [t_b] new_lm = Ok s.
Proof. intros E. cbn [lm_history]. unfold partial_fit. change (is_fitted new_lm) with false. cbv iota. rewrite E. reflexivity. Qed.
Lemma unitless_none : unitless_bound None.
Proof. intros l o E. discriminate. Qed.

Lemma C107_flip_lemma perms : (forall k l i, Permutation (perms k l i) (seq 0 1)) ->
  exists s s' t, 0 < t /\ lm_history (en_ops perms) t_c [t_b] new_lm = Ok s /\
    lm_history (en_ops perms) t_c [target_units t t_b] new_lm = Ok s' /\
    snd (lm_predict t_c 1 [fun _ => 1] s) = Ok [0] /\ snd (lm_predict t_c 1 [fun _ => 1] s') = Ok [t * 1].
Proof.
  intros Hp. destruct (t_fit perms Hp) as (s & P0 & P1 & E & Ep & V0 & V1 & Er & En & Ec).
  destruct (C107_small_lemma perms t_c t_en t_b [] s [P0; P1] [10; 4] 2) as (t0 & Ht0 & K); auto; try reflexivity.
  { discriminate. }
  { apply unitless_none. }
  { apply unitless_none. }
  { apply t_history, E. }
  { intros r [<-|[<-|[]]]; lra. }
  { lra. }
  destruct (K (t0 / 2) ltac:(lra)) as (s' & k & E' & A & C').
  assert (Ek : k = 1%nat).
  { cbn in A. injection A as <-. replace (Rltb 4 10) with true by (symmetry; apply Rltb_true; lra). reflexivity. }
  subst k. cbn [nth] in C'.
  exists s, s', (t0 / 2). split; [lra|]. split; [apply t_history, E|]. split; [exact E'|].
  destruct (C107_lemma perms t_c t_en (t0 / 2) t_b [] s) as (s2 & E2 & _ & _); auto; try reflexivity; try discriminate; try apply unitless_none; try lra.
  { apply t_history, E. }
  assert (F : forall h s1, lm_history (en_ops perms) t_c [mk_batch 1 (retarget h (b_rows t_b))] new_lm = Ok s1 ->
    exists sc, a_scaler s1 = Some (Some sc) /\ sc_do sc = false /\ a_nfin s1 = Some 1%nat).
  { intros h s1 H. cbn [lm_history] in H. unfold partial_fit in H. change (is_fitted new_lm) with false in H. cbv iota in H.
    match type of H with (let (_, _) := ?T in _) = _ => destruct T as [s3 [[]|]] eqn:E3 end; [|discriminate]. injection H as <-.
    destruct (lm_fit_ok _ _ _ _ _ E3) as (m & sc & xg & _ & _ & _ & _ & _ & _ & Es & _ & [(_ & m' & path & ic & k & _ & _ & _ & ->)|(D & _)]); [|discriminate D].
    exists sc. cbn [a_scaler a_nfin]. split; auto. split; auto. cbn in Es. injection Es as <-. reflexivity. }
  assert (G : forall s1 b sc, a_scaler s1 = Some (Some sc) -> sc_do sc = false -> a_nfin s1 = Some 1%nat -> a_coef s1 = Some b ->
    snd (lm_predict t_c 1 [fun _ => 1] s1) = Ok [b 0%nat]).
  { intros s1 b sc B1 B2 B3 B4. destruct s1 as [a1 a2 a3 a4 a5 a6 a7 a8 a9 a10 a11 a12]. cbn in B1, B2, B3, B4. subst.
    unfold lm_predict, any_fitted_attribute, validate_old, bnd, read, ret, raise. cbn [a_method a_scaler a_nfin a_nobs a_nfeat a_ntrain a_isreg a_x a_y a_path a_rss a_coef].
    cbn. rewrite B2. cbn. unfold scaler_transform. rewrite B2. do 2 f_equal. ring. }
  split.
  - destruct (F (fun y => y) s) as (sc & B1 & B2 & B3); [apply t_history, E|]. rewrite (G s P0 sc) by auto. rewrite V0. reflexivity.
  - destruct (F (Rmult (t0 / 2)) s' E') as (sc & B1 & B2 & B3). rewrite (G s' _ sc) by (exact C' || auto). unfold vscale. rewrite V1. reflexivity.
Qed.

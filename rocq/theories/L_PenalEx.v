(** Lemmas: a lasso over two batches. *)
From Coq Require Import Reals List Bool Arith Permutation Lra Lia.
From Verif Require Import Base Lin Data M_Gram S_Gram L_Gram M_CD S_CD L_CD1 L_CD L_CD2 M_Path L_Path L_Path2 M_Ridge
  M_Scaler M_Utils M_State M_LM S_LM L_LM L_LM4 S_Target L_Target4 L_Target5 S_Penal L_Penal.
Import ListNotations.
Open Scope R_scope.

Lemma lambda_two x y isreg : only_unreg 2 isreg 0 -> x 0%nat 0%nat <> 0 -> res_corr x y 0 1 <> 0 ->
  exists l, get_lambda_max 2 x y isreg = Ok l /\ 0 < l.
Proof.
  intros U X N. rewrite (lambda_max_one 2 x y isreg 0 U X). cbn [np_max vmax]. eexists. split; [reflexivity|].
  apply Rlt_le_trans with (2 := Rmax_r _ _). apply Rabs_pos_lt, N.
Qed.
Lemma update_total c perm J x y bp isreg lm : bound_fun (en_lower c) = (fun _ => None) -> bound_fun (en_upper c) = (fun _ => None) -> perms_ok J perm ->
  (forall j, (j < J)%nat -> 0 < x j j) -> 0 <= en_alpha c <= 1 ->
  get_lambda_max J x y isreg = Ok lm -> 0 < lm -> 0 < en_eps c ->
  exists P, update_beta_path c perm J x y bp isreg = Ok P.
Proof.
  intros HL HU Hp Hd Ha Hm Hlm He. unfold update_beta_path.
  rewrite Hm. cbn [bind en_eps en_n]. rewrite geomspace_ok by nra. cbn [bind].
  unfold online_coordinate_descent_path.
  match goal with |- context [path_loop ?a0 ?r perm ?t ?m ?e ?w ?bp 0 ?g ?pn ?its] =>
    destruct (path_loop_total a0 r perm t m e w bp Hp g 0 pn its) as (P & out & E) end.
  - intros l Hin j Hj. pose proof (grid_in_pos _ _ _ _ Hlm Hin) as Hl.
    unfold cd_den, with_reg, en_args in *; cbn [cd_isreg cd_x cd_reg cd_alpha cd_J en_alpha] in *.
    specialize (Hd j Hj). destruct (isreg j); [|lra].
    assert (0 <= l * (1 - en_alpha c)) by (apply Rmult_le_pos; lra). lra.
  - rewrite E. cbn [bind fst]. eauto.
Qed.

Definition q_sc : scaler := mk_scaler (1 / 2) false [] (fun _ => 0) (fun _ => 0) (fun _ => 0) 0 (1 + (1 + 0)).
Definition q_sc1 : scaler := mk_scaler (1 / 2) false [] (fun _ => 0) (fun _ => 0) (fun _ => 0) 0 (1 + (1 + 0) + (1 + 0)).
Lemma q_runs perms : (forall k l i, Permutation (perms k l i) (seq 0 2)) ->
  exists s s', partial_fit (en_ops perms) q_c q_b0 new_lm = (s, Ok tt) /\ partial_fit (en_ops perms) q_c q_b1 s = (s', Ok tt) /\ a_nfin s = Some 1%nat /\ a_nfin s' = Some 1%nat /\
    a_scaler s = Some (Some q_sc) /\ a_scaler s' = Some (Some q_sc1).
Proof.
  intros Hp.
  assert (U : only_unreg 2 (is_regularized q_c) 0) by exact (intercept_only q_c 1 eq_refl eq_refl).
  set (l := design_rows q_c q_sc (b_rows q_b0)).
  set (xg := init_gram (Xs l) (ws l) (1 / 2)). set (yg := init_y_gram (Xs l) (ys l) (ws l) (1 / 2)).
  assert (Wl : weights_nonneg l) by (repeat constructor; cbn; lra).
  assert (X : forall i j, xg i j = gram_spec (1 / 2) l i j) by (intros; apply init_gram_spec; auto; lra).
  assert (Y : forall i, yg i = ygram_spec (1 / 2) l i) by (intros; apply init_y_gram_spec; auto; lra).
  destruct (lambda_two xg yg (is_regularized q_c) U) as (lm & EL & Lp).
  { rewrite X. unfold gram_spec. cbn. lra. }
  { unfold res_corr. rewrite !X, !Y. unfold gram_spec, ygram_spec. cbn. lra. }
  destruct (fit_total q_en (perms 0%nat) 2 xg yg (is_regularized q_c) lm) as (c' & P & E); try reflexivity; auto; try (cbn; lra).
  { intros n i. apply Hp. }
  { intros [|[|j]] Hj; try lia; rewrite X; unfold gram_spec; cbn; lra. }
  assert (Ec : c' = en_object q_en 2).
  { apply fit_inv in E. destruct E as (? & ? & B & _). apply bounds_inv in B. destruct B as (-> & _). reflexivity. }
  destruct (lm_fit_intro (en_ops perms) q_c q_b0 new_lm (q_en, 0%nat) q_sc xg) as [I _]; try reflexivity; auto.
  { cbn; lia. }
  { apply andb_false_r. }
  { cbn. lra. }
  fold l in I. change (n_cols (c_icpt q_c) (b_p q_b0)) with 2%nat in I. change (c_forget q_c) with (1 / 2) in I. fold yg in I.
  eassert (F : op_fit_path (en_ops perms) (q_en, 0%nat) 2 xg yg (is_regularized q_c) = Ok (c', 1%nat, [P 0%nat; P 1%nat])).
  { cbn [op_fit_path en_ops fst snd]. rewrite E. cbn [bind fst snd]. rewrite Ec. reflexivity. }
  pose proof (I _ _ _ _ eq_refl F eq_refl eq_refl) as I'. clear F I. rename I' into I.
  match type of I with lm_fit _ _ _ _ = (?v, _) => set (s := v) in I end.
  (* update *)
  set (l1 := design_rows q_c q_sc1 (b_rows q_b1)).
  set (xg1 := update_gram xg (Xs l1) (1 / 2) (ws l1)). set (yg1 := update_y_gram yg (Xs l1) (ys l1) (1 / 2) (ws l1)).
  assert (Wl1 : weights_nonneg l1) by (repeat constructor; cbn; lra).
  assert (X1 : forall i j, xg1 i j = gram_spec (1 / 2) (l ++ l1) i j) by (intros; apply update_gram_spec; auto; lra).
  assert (Y1 : forall i, yg1 i = ygram_spec (1 / 2) (l ++ l1) i) by (intros; apply update_y_gram_spec; auto; lra).
  destruct (lambda_two xg1 yg1 (is_regularized q_c) U) as (lm1 & EL1 & Lp1).
  { rewrite X1. unfold gram_spec. cbn. lra. }
  { unfold res_corr. rewrite !X1, !Y1. unfold gram_spec, ygram_spec. cbn. lra. }
  destruct (update_total (en_object q_en 2) (perms 1%nat) 2 xg1 yg1 (fun i => nth i [P 0%nat; P 1%nat] (fun _ => 0)) (is_regularized q_c) lm1) as (P1 & E1); auto; try (cbn; lra).
  { apply (bound_filled (en_lower q_en)). }
  { apply (bound_filled (en_upper q_en)). }
  { intros n i. apply Hp. }
  { intros [|[|j]] Hj; try lia; rewrite X1; unfold gram_spec; cbn; lra. }
  destruct (lm_update_intro (en_ops perms) q_c q_b1 s _ q_sc q_sc1 _ xg yg xg1 _ eq_refl eq_refl eq_refl eq_refl eq_refl eq_refl) as [I1 _]; try reflexivity; auto.
  fold l1 in I1. change (n_cols (c_icpt q_c) (b_p q_b1)) with 2%nat in I1. change (c_forget q_c) with (1 / 2) in I1. fold yg1 in I1.
  eassert (F : op_update_path (en_ops perms) (c', 1%nat) 2 xg1 yg1 [P 0%nat; P 1%nat] (is_regularized q_c) = Ok (c', 2%nat, [P1 0%nat; P1 1%nat])).
  { cbn [op_update_path en_ops fst snd]. rewrite Ec. rewrite E1. cbn [bind fst snd]. reflexivity. }
  pose proof (I1 _ _ _ _ _ _ eq_refl eq_refl eq_refl F eq_refl eq_refl eq_refl) as I2. clear F I1. rename I2 into I1.
  eexists; eexists. split; [|split; [|split; [|split; [|split]]]].
  - unfold partial_fit. change (is_fitted new_lm) with false. cbv iota. exact I.
  - unfold partial_fit. change (is_fitted s) with true. cbv iota. exact I1.
  - reflexivity.
  - reflexivity.
  - reflexivity.
  - reflexivity.
Qed.

Lemma q_ridge inv perms : (forall k i, Permutation (perms k i) (seq 0 1)) ->
  exists s s' beta beta', partial_fit (ridge_ops inv perms) t_rc t_b new_lm = (s, Ok tt) /\ partial_fit (ridge_ops inv perms) t_rc q_b2 s = (s', Ok tt) /\
    a_nfin s = Some 1%nat /\ a_coef s = Some beta /\ a_coef s' = Some beta' /\ beta 0%nat = 1 /\ beta' 0%nat = 11 / 5.
Proof.
  intros Hp. destruct (t_ridge inv perms Hp) as (s & beta & H & EC & B & _).
  assert (H' : partial_fit (ridge_ops inv perms) t_rc t_b new_lm = (s, Ok tt)).
  { cbn [lm_history] in H. destruct (partial_fit _ _ _ _) as [s1 [[]|]]; [|discriminate]. now injection H as ->. }
  pose proof (run_fit _ _ _ _ H') as R.
  assert (W : Forall (fun x => weights_nonneg (b_rows (fst x))) [(t_b, s)]) by (repeat constructor; cbn; lra).
  pose proof H' as F. unfold partial_fit in F. change (is_fitted new_lm) with false in F. cbn iota in F.
  apply lm_fit_ok in F. cbv zeta in F.
  destruct F as (m1 & sc & xg & Hm1 & _ & L1 & L2 & _ & _ & Hs & Hx & [(K & _)|(_ & m' & b1 & Hfit & Es)]); [discriminate K|].
  assert (Esc : a_scaler s = Some (Some t_sc)) by (rewrite Es; injection Hs as <-; reflexivity).
  assert (En : a_nobs s = Some (lsum (ws (b_rows t_b)))) by (rewrite Es; reflexivity).
  assert (Ef : a_nfin s = Some 1%nat) by (rewrite Es; reflexivity). clear Es.
  destruct (run_gram (ridge_ops inv perms) t_rc [(t_b, s)] s (conj (fun _ _ _ _ => eq_refl) (fun _ _ _ _ _ => eq_refl)) ltac:(cbn; lra) R W) as (EX & EY & EI).
  destruct (ridge_run inv perms t_rc (mk_ridge None None false None None 0 10) 0 eq_refl ltac:(cbn; lra) [(t_b, s)] s 1 R Ef W) as (k & x0 & tr0 & b9 & ET & EM & _).
  { intros j Hj. cbn. auto. }
  { exact Hp. }
  injection ET as <- <-. rewrite all_rows_one, (scaled_design t_rc t_b s t_sc Esc) in EX, EY. cbn [c_forget t_rc] in EX, EY.
  set (l0 := design_rows t_rc t_sc (b_rows t_b)) in *.
  set (lam := ridge_penalty (mk_ridge None None false None None 0 10) (n_cols (c_icpt t_rc) 1) (c_forget t_rc) (scaled_rows (c_icpt t_rc) (t_b, s))) in *.
  assert (L : lam = 2).
  { unfold lam, ridge_penalty. cbn [ri_lambda]. rewrite (scaled_design t_rc t_b s t_sc Esc). fold l0. unfold gram_spec. cbn. lra. }
  set (sc1 := mk_scaler 0 false [] (fun _ => 0) (fun _ => 0) (fun _ => 0) 0 (1 + (1 + 0) + (1 + 0))).
  set (l1 := design_rows t_rc sc1 (b_rows q_b2)).
  set (xg1 := update_gram (gram_spec 0 l0) (Xs l1) 0 (ws l1)). set (yg1 := update_y_gram (ygram_spec 0 l0) (Xs l1) (ys l1) 0 (ws l1)).
  assert (Wl : weights_nonneg l1) by (repeat constructor; cbn; lra).
  assert (X1 : xg1 0%nat 0%nat = 3).
  { unfold xg1. rewrite (update_gram_spec _ _ l0) by (auto; lra). unfold gram_spec. cbn. lra. }
  assert (Y1 : yg1 0%nat = 11).
  { unfold yg1. rewrite (update_y_gram_spec _ _ l0) by (auto; lra). unfold ygram_spec. cbn. lra. }
  set (a := mk_cd 1 xg1 yg1 lam (is_regularized t_rc) 0 (fun _ => None) (fun _ => None)).
  assert (Hub : unbounded a) by (intros j; split; reflexivity).
  assert (C : forall b, cd_coord a b 0 = Ok (11 / 5)).
  { intros b. assert (D : cd_den a 0 = 5).
    { unfold cd_den. cbn [a cd_isreg cd_alpha cd_reg cd_x]. rewrite L, X1. cbn. lra. }
    rewrite coord_unbounded by (auto; rewrite ?D; lra). rewrite D. unfold cd_num. cbn [a cd_isreg cd_alpha cd_reg].
    cbn [t_rc is_regularized c_icpt c_regicpt]. rewrite L.
    unfold cd_partial. cbn [a cd_J cd_y cd_x bsum]. rewrite Y1.
    unfold soft_threshold, rsign. replace (11 - (0 + xg1 0%nat 0%nat * b 0%nat) + xg1 0%nat 0%nat * b 0%nat) with 11 by ring.
    replace (Rltb 0 11) with true by (symmetry; apply Rltb_true; lra). rewrite (Rabs_pos_eq 11) by lra.
    rewrite Rmax_left by lra. f_equal. lra. }
  destruct (cd_fixed_after_first a false (perms k) 0 10 beta (fun _ => 11 / 5) (11 / 5)) as (b' & n' & E' & Hb').
  { intros j Hj. replace j with 0%nat by (cbn in Hj; lia). apply C. }
  { exact (Hp k). }
  { exact (le_n 1). }
  { apply C. }
  { intros i Hi. replace i with 0%nat by (cbn in Hi; lia). reflexivity. }
  destruct (lm_update_intro (ridge_ops inv perms) t_rc q_b2 s _ t_sc sc1 _ _ _ xg1 _ En Esc EM EX EY EI) as [_ I]; try reflexivity; auto.
  change (n_cols (c_icpt t_rc) (b_p q_b2)) with 1%nat in I. fold l1 in I. change (c_forget t_rc) with 0 in I. fold yg1 in I.
  change (n_cols (c_icpt t_rc) 1) with 1%nat in EM, I.
  assert (F : op_update_beta (ridge_ops inv perms) (ridge_object (mk_ridge None None false None None 0 10) lam 1, k) 1 xg1 yg1 beta (is_regularized t_rc)
     = Ok ((ridge_object (mk_ridge None None false None None 0 10) lam 1, S k), b')).
  { cbn [ridge_ops op_update_beta fst snd]. unfold ridge_update. cbn [ri_lambda ridge_object]. fold (ridge_object (mk_ridge None None false None None 0 10) lam 1).
    rewrite ridge_args_object. cbn [ri_lower ri_upper bound_fun ridge_object ri_random ri_tol ri_maxit]. fold a. rewrite E'. reflexivity. }
  specialize (I _ _ _ eq_refl EC F).
  exists s. eexists. exists beta, b'. split; [exact H'|]. split.
  { unfold partial_fit. unfold is_fitted. rewrite En. exact I. }
  split; [exact Ef|]. split; [exact EC|]. split; [reflexivity|]. split; [exact B|]. apply (Hb' 0%nat). cbn. lia.
Qed.

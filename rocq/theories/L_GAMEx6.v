(** Concrete runs with the lasso. *)
From Coq Require Import Reals List Bool Arith ZArith Permutation FunctionalExtensionality Lra Lia.
From Verif Require Import Base Lin Data M_Gram M_OLS M_CD S_CD L_CD1 L_CD L_CD2 M_Path L_Path L_Path2 M_Scaler M_Utils M_Links M_State M_LM M_Equation M_GAMLSS S_GAMLSS.
From Verif Require Import S_Gram L_Gram L_GAM1 L_GAM2 L_GAM6 L_GAMEx L_GAMEx5 L_GAM24 S_GAMLasso.
Import ListNotations.
Open Scope R_scope.
Open Scope st_scope.

Definition l_prep (eq : eqn) : prep :=
  mk_prep (entry [(0%nat, eq)] EqOther) (entry [(0%nat, 0)] 0) (entry [(0%nat, aic)] aic)
    (entry [(0%nat, true)] true) (entry [(0%nat, false)] false) [(0%nat, 1)] [0%nat].
Definition l_fv : list vec := [fun _ => 1; fun _ => 1].

Lemma l_outer perms eq y1 y2 A k X1 X2 m1 row : A 0%nat = (k, [X1; X2]) ->
  op_fit_path (en_ops perms) (l_en, 0%nat) k (init_gram [X1; X2] [1; 1] 0) (init_y_gram [X1; X2] [y1; y2] [1; 1] 0) (gam_isreg (l_prep eq) 0%nat) = Ok (m1, [row]) ->
  exists w dv, outer_fit (en_ops perms) (start_env (l_cfg eq) (l_prep eq) (l_batch y1 y2) A) (enough_fuel (l_cfg eq))
      (start_work (l_cfg eq) (l_prep eq) (fun p => nth_error [(l_en, 0%nat)] p) l_fv) = (w, Ok (dv, 1%nat)) /\
    w_path w 0%nat = Some [row] /\ w_coef w 0%nat = row.
Proof.
  intros HA HF. set (e := start_env _ _ _ _). set (s := start_work _ _ _ _).
  assert (Hdev : exists dv, deviance e l_fv = Ok dv) by (eexists; reflexivity). destruct Hdev as (dv0 & Hdev).
  assert (Hwk : exists d1 d2, working e false 0 l_fv = Ok ([1; 1], mk_dbg [1; 1] [y1; y2] d1 d2 [1; 1] l_fv)).
  { unfold working. cbn -[fit_weight working_response Rleb init_forget_vector]. pose proof (ex_weight false) as W. cbn iota in W. rewrite !W.
    rewrite !ex_response. unfold forget_vector. cbn [e start_env e_prep l_prep p_forget entry e_y ys b_rows l_batch map length].
    unfold init_forget_vector. rewrite eqb_t by (cbn; lra). cbn -[Rleb]. rewrite leb_t by lra. cbn -[Rleb]. eauto. }
  destruct Hwk as (d1 & d2 & Hwk). set (g := mk_dbg _ _ _ _ _ _) in Hwk.
  assert (Hg : gram_weights e g = [1; 1]). { unfold gram_weights. cbn. f_equal; [lra|f_equal; lra]. }
  assert (Hs : exists ll, fit_select e (put_method 0 m1 s) 0 (g_wv g) (g_wt g) [row] = Ok (row, ll, 0%nat)).
  { unfold fit_select. change (o_global_ll (e_cfg e)) with true. cbn iota. unfold path_lls.
    assert (K : exists l, path_ll e 0 (w_fv (put_method 0 m1 s)) (forget_vector e 0) row = Ok l).
    { unfold path_ll. change (e_X e 0) with (A 0%nat). rewrite HA. unfold put_method, set_wmethod, write. cbn. eexists; reflexivity. }
    destruct K as (l & K). cbn [map sequence]. rewrite K. cbn. eexists. reflexivity. }
  destruct Hs as (ll & Hs).
  assert (Hdev' : exists dv, deviance e (set_col (w_fv s) 0 (map (d_inv (o_dist (e_cfg e)) 0) (map2 (fun x et => 1 * dot k x row + (1 - 1) * et) [X1; X2] [1; 1]))) = Ok dv) by (eexists; reflexivity).
  destruct Hdev' as (dv & Hdev').
  assert (Hcand := fit_path_run (en_ops perms) e 0 1 dv0 l_fv None s [1; 1] g k [X1; X2] (init_gram [X1; X2] (gram_weights e g) 0) (l_en, 0%nat) m1 [row] (row, ll, 0%nat) dv
    eq_refl eq_refl HA Hwk eq_refl eq_refl ltac:(rewrite Hg; exact HF) Hs Hdev').
  cbn [fst snd] in Hcand. set (q := mk_cand _ _ _ _ _ _ _ _ _) in Hcand.
  assert (Hin := inner_fit_run1 (en_ops perms) e 0 1 s dv0 l_fv q m1 eq_refl Hdev eq_refl ltac:(cbn; lia) ltac:(cbn; lia) eq_refl Hcand (or_introl eq_refl)).
  set (w := after_inner_fit e 0 0 q (put_method 0 m1 s)) in Hin.
  exists w, dv. split; [|split; reflexivity].
  unfold outer_fit, bnd at 1. unfold peek at 1. unfold bnd at 1, lift at 1. change (w_fv s) with l_fv. rewrite Hdev.
  unfold enough_fuel. change (o_max_outer (l_cfg eq) + 2)%nat with 3%nat. cbn [outer_fit_loop].
  unfold bnd at 1, peek at 1. change (w_min s <=? 0)%nat with false. cbn [andb].
  unfold bnd at 1. change (p_order (e_prep e)) with [0%nat]. cbn [fit_cycle]. unfold bnd at 1. rewrite Hin.
  unfold ret at 1. cbn [fst]. unfold bnd at 1, peek at 1.
  change (w_min w <=? 1)%nat with true. change (o_max_outer (e_cfg e) <=? 1)%nat with true. rewrite orb_true_r. cbn [andb orb]. reflexivity.
Qed.

Lemma l_fit perms eq y1 y2 A js k X1 X2 m1 row : A 0%nat = (k, [X1; X2]) -> eqn_ok true eq = true ->
  all_J (l_prep eq) 1 [0%nat] = Ok js -> arrays (l_cfg eq) (l_prep eq) 1 [fun _ => -1; fun _ => 1] = Ok A ->
  op_fit_path (en_ops perms) (l_en, 0%nat) k (init_gram [X1; X2] [1; 1] 0) (init_y_gram [X1; X2] [y1; y2] [1; 1] 0) (gam_isreg (l_prep eq) 0%nat) = Ok (m1, [row]) ->
  exists s w, gam_fit (en_ops perms) (l_cfg eq) (l_batch y1 y2) new_gam = (s, Ok tt) /\ cycles s = Some 1%nat /\ s_prep s = Some (l_prep eq) /\
    s_work s = Some w /\ w_path w 0%nat = Some [row] /\ w_coef w 0%nat = row.
Proof.
  intros HA Hok HJ HX HF. destruct (l_outer perms eq y1 y2 A k X1 X2 m1 row HA HF) as (w & dv & Ho & K1 & K2).
  eexists. exists w. split; [|split; [|split; [|split]]].
  - eapply (gam_fit_run (en_ops perms) (l_cfg eq) (l_batch y1 y2) new_gam (l_prep eq) _ l_fv js (mk_scaler 0 false [] (fun _ => 0) (fun _ => 0) (fun _ => 0) 0 2) A w dv 1); try reflexivity.
    + unfold prepare, process_equation. cbn -[eqn_ok]. rewrite Hok. reflexivity.
    + cbn; lia.
    + exact HJ.
    + cbn. unfold scaler_fit. cbn. do 2 f_equal. lra.
    + exact HX.
    + exact Ho.
  - reflexivity.
  - reflexivity.
  - reflexivity.
  - auto.
Qed.

Lemma seq_perms k i : perms_ok k (l_perms k i).
Proof. intros j t. apply Permutation_refl. Qed.

Lemma fit_total_neg c perm x y isreg : en_alpha c = 1 -> en_lower c = None -> en_upper c = None -> perms_ok 1 perm ->
  0 < x 0%nat 0%nat -> isreg 0%nat = true -> y 0%nat < 0 -> 0 < en_eps c -> exists c' P, fit_beta_path c perm 1 x y isreg = Ok (c', P).
Proof.
  intros Ha HL HU Hp Hd Hr Hy He. unfold fit_beta_path, set_and_validate_bounds.
  rewrite HL, HU. cbn [fill_bound]. rewrite repeat_length, Nat.eqb_refl. cbn [negb bind].
  rewrite lambda_max_all by (intros j Hj; now replace j with 0%nat by lia). cbn [np_max vmax bind en_eps en_n].
  rewrite geomspace_ok by nra. cbn [bind]. unfold online_coordinate_descent_path.
  match goal with |- context [path_loop ?a0 ?r perm ?t ?m ?e ?w ?bp 0 ?g ?pn ?its] =>
    destruct (path_loop_total a0 r perm t m e w bp Hp g 0 pn its) as (P & out & E) end.
  - intros l Hin j Hj. cbn [en_args cd_J] in Hj. replace j with 0%nat by lia.
    unfold cd_den, with_reg, en_args; cbn [cd_isreg cd_x cd_reg cd_alpha en_alpha]. rewrite Hr, Ha. lra.
  - rewrite E. cbn [bind fst]. eauto.
Qed.

(** Intercept only, both responses -1: the coefficient is -2. *)
Lemma l_only : exists s w row, gam_fit (en_ops (l_perms 1)) (l_cfg EqIntercept) (l_batch (-1) (-1)) new_gam = (s, Ok tt) /\ cycles s = Some 1%nat /\
  s_prep s = Some (l_prep EqIntercept) /\ s_work s = Some w /\ w_path w 0%nat = Some [row] /\ w_coef w 0%nat = row /\ row 0%nat = - 2.
Proof.
  set (X := fun _ : nat => 1). set (G := init_gram [X; X] [1; 1] 0). set (h := init_y_gram [X; X] [-1; -1] [1; 1] 0).
  assert (EG : G 0%nat 0%nat = 2).
  { unfold G, init_gram, mat_tmul, scale_rows, root_weights, init_forget_vector. rewrite eqb_t by lra. cbn. rewrite !root1'. unfold X. lra. }
  assert (Eh : h 0%nat = -2).
  { unfold h, init_y_gram, vec_tmul, scale_rows, root_weights, init_forget_vector. rewrite eqb_t by lra. cbn. rewrite !root1'. unfold X. lra. }
  destruct (fit_total_neg l_en (l_perms 1 0) G h (gam_isreg (l_prep EqIntercept) 0) eq_refl eq_refl eq_refl (seq_perms 1 0) ltac:(lra) eq_refl ltac:(lra) ltac:(cbn; lra)) as (c' & P & E).
  pose proof (single_negative l_en (l_perms 1 0) G h (gam_isreg (l_prep EqIntercept) 0) c' P eq_refl eq_refl eq_refl (le_n 1) (seq_perms 1 0) ltac:(lra) eq_refl ltac:(lra) E) as V.
  destruct (l_fit (l_perms 1) EqIntercept (-1) (-1) (fun p => nth p [(1%nat, [X; X])] (O, [])) [1%nat] 1 X X (c', 1%nat) (P 0%nat)) as (s & w & K1 & K2 & K3 & K4 & K5 & K6); try reflexivity.
  { transitivity (do r <- fit_beta_path l_en (l_perms 1 0) 1 G h (gam_isreg (l_prep EqIntercept) 0); Ok ((fst r, 1%nat), map (snd r) (seq 0 (en_n (fst r))))); [reflexivity|]. rewrite E. cbn [bind fst snd]. apply fit_cfg in E. do 2 f_equal.
    destruct E as (_ & En & _). rewrite En. reflexivity. }
  exists s, w, (P 0%nat). repeat (split; [assumption|]). rewrite V, EG, Eh. lra.
Qed.

(** All columns, responses 1 and 3: the mean and no feature. *)
Lemma l_first : exists s w row, gam_fit (en_ops (l_perms 2)) (l_cfg EqAll) (l_batch 1 3) new_gam = (s, Ok tt) /\ cycles s = Some 1%nat /\
  s_prep s = Some (l_prep EqAll) /\ s_work s = Some w /\ w_path w 0%nat = Some [row] /\ w_coef w 0%nat = row /\ row 0%nat = 2 /\ row 1%nat = 0.
Proof.
  set (X1 := (fun j : nat => match j with O => 1 | S i => (fun _ : nat => -1) (nth i [0%nat] O) end) : vec).
  set (X2 := (fun j : nat => match j with O => 1 | S i => (fun _ : nat => 1) (nth i [0%nat] O) end) : vec).
  set (G := init_gram [X1; X2] [1; 1] 0). set (h := init_y_gram [X1; X2] [1; 3] [1; 1] 0).
  assert (EG : G 0%nat 0%nat = 2 /\ G 0%nat 1%nat = 0 /\ G 1%nat 0%nat = 0 /\ G 1%nat 1%nat = 2).
  { unfold G, init_gram, mat_tmul, scale_rows, root_weights, init_forget_vector. rewrite eqb_t by lra. cbn. rewrite !root1'. unfold X1, X2. cbn. repeat split; lra. }
  assert (Eh : h 0%nat = 4 /\ h 1%nat = 2).
  { unfold h, init_y_gram, vec_tmul, scale_rows, root_weights, init_forget_vector. rewrite eqb_t by lra. cbn. rewrite !root1'. unfold X1, X2. cbn. split; lra. }
  destruct EG as (G00 & G01 & G10 & G11). destruct Eh as [h0 h1].
  assert (Hu : only_unreg 2 (gam_isreg (l_prep EqAll) 0) 0) by (split; [lia|]; intros [|[|j]] Hj; cbn; split; congruence || lia).
  assert (EL : get_lambda_max 2 G h (gam_isreg (l_prep EqAll) 0) = Ok 2).
  { rewrite (lambda_max_one _ _ _ _ 0 Hu) by lra. cbn [np_max vmax]. unfold res_corr. rewrite G00, G01, h0, h1. f_equal.
    replace (4 - 2 * (4 / 2)) with 0 by lra. replace (2 - 0 * (4 / 2)) with 2 by lra. rewrite Rabs_R0, Rabs_right by lra. apply Rmax_right. lra. }
  destruct (lasso_first_row l_en (l_perms 2 0) 2 G h (gam_isreg (l_prep EqAll) 0) 2) as (c' & P & E & V0 & V1); try reflexivity; try (cbn; lra); try lia.
  { apply seq_perms. }
  { intros [|[|i]] [|[|j]] Hi Hj; lia || congruence || reflexivity. }
  { intros [|[|j]] Hj; lia || lra. }
  { exact Hu. }
  { exact EL. }
  destruct (l_fit (l_perms 2) EqAll 1 3 (fun p => nth p [(2%nat, [X1; X2])] (O, [])) [2%nat] 2 X1 X2 (c', 1%nat) (P 0%nat)) as (s & w & K1 & K2 & K3 & K4 & K5 & K6); try reflexivity.
  { transitivity (do r <- fit_beta_path l_en (l_perms 2 0) 2 G h (gam_isreg (l_prep EqAll) 0); Ok ((fst r, 1%nat), map (snd r) (seq 0 (en_n (fst r))))); [reflexivity|]. rewrite E. cbn [bind fst snd]. apply fit_cfg in E. do 2 f_equal.
    destruct E as (_ & En & _). rewrite En. reflexivity. }
  exists s, w, (P 0%nat). repeat (split; [assumption|]). rewrite V0, h0, G00. split; [lra|]. apply V1. lia.
Qed.

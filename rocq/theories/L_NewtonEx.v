(** Lemmas: an iteration of the inner loop away from the maximum, worked out. *)
From Coq Require Import Reals List Bool Arith ZArith Lra Lia.
From Coquelicot Require Import Coquelicot.
From Verif Require Import Base Lin Data M_Gram S_Gram L_Gram M_OLS L_OLS M_Scaler M_Utils M_Links S_Links M_DistTable M_Dist S_Dist M_State M_LM M_Equation M_GAMLSS M_GAMDist S_GAMLSS S_Fitted S_Newton.
From Verif Require Import L_GAM1 L_GAM2 L_GAM4 L_GAM6 L_GAM8 L_GAM9 L_GAM10 L_GAM12 L_GAMEx L_GAMEx3 L_FittedEx L_Newton.
Import ListNotations.
Open Scope R_scope.

Definition half_start : list vec := [row1 1; row1 1].
Lemma half_candidate st : 0 < st -> exists s s' q,
  fit_candidate ex_ops (half_env st) 0 1 0 st (half_dev 1) half_start None s = (s', Ok q) /\ w_fv s = half_start /\
  (forall i, c_beta q i = 5 / 4) /\ c_dv q = half_dev (1 + st / 4).
Proof.
  intros Hst. set (fv := half_start).
  set (e := half_env st). set (s := start_work (half_cfg st) (half_prep st) (fun p => nth_error [tt] p) fv).
  assert (Hdev : deviance e fv = Ok (half_dev 1)) by (apply half_deviance; [lra|reflexivity|reflexivity]).
  assert (Hwk : working e false 0 fv = Ok (ones 2, mk_dbg (ones 2) [1 / 2; 3 / 2] [1 / 2 - 1; 3 / 2 - 1] [-1; -1] (ones 2) fv)).
  { unfold working. cbn [e half_env start_env e_cfg half_cfg o_dist e_y e_w half_b b_rows ys ws map map2 oy ow].
    unfold fv, half_start. cbn [col map map2]. change (d_link ex_dist 0 (row1 1 0%nat)) with (Some 1). cbn [all_some bind map map2].
    rewrite !ex_dl1 by reflexivity. cbn [all_some bind]. rewrite !ex_dl2 by reflexivity. cbn [all_some bind map map2 combine fst snd].
    change (d_dinv ex_dist 0 1) with 1. rewrite (ex_weight false). rewrite !ex_response. cbn [all_some bind andb orb].
    unfold forget_vector. cbn [e half_env start_env e_prep half_prep p_forget entry lookup Nat.eqb].
    unfold init_forget_vector. rewrite eqb_t by lra. cbn [length e half_env start_env e_y half_b b_rows ys map repeat map2 forallb].
    rewrite !leb_t by lra. reflexivity. }
  set (g := mk_dbg (ones 2) [1 / 2; 3 / 2] [1 / 2 - 1; 3 / 2 - 1] [-1; -1] (ones 2) fv) in *.
  set (xg := (fun _ _ : nat => / init_gram (repeat (fun _ => 1) 2) (gram_weights e g) 0 0%nat 0%nat) : mat).
  set (yg := init_y_gram (repeat (fun _ => 1) 2) (g_wv g) (gram_weights e g) 0).
  assert (Hxg : forall i j, xg i j = / 4).
  { intros i j. unfold xg. apply Rinv_eq. unfold init_gram, mat_tmul, scale_rows, root_weights, gram_weights, init_forget_vector.
    rewrite eqb_t by lra. cbn.
    replace (1 * sqrt (1 * 1 * 1) * (1 * sqrt (1 * 1 * 1))) with (sqrt (1 * 1 * 1) * sqrt (1 * 1 * 1)) by ring.
    replace (1 * sqrt (3 * 1 * 1) * (1 * sqrt (3 * 1 * 1))) with (sqrt (3 * 1 * 1) * sqrt (3 * 1 * 1)) by ring.
    rewrite !sqrt_twice by lra. lra. }
  assert (Hyg : forall i, yg i = 5).
  { intros i. unfold yg, init_y_gram, vec_tmul, scale_rows, root_weights, gram_weights, init_forget_vector.
    rewrite eqb_t by lra. cbn.
    pose proof (sqrt_twice (1 * 1 * 1) (1 * 1 * 1) ltac:(lra) eq_refl). pose proof (sqrt_twice (3 * 1 * 1) (3 * 1 * 1) ltac:(lra) eq_refl). nra. }
  assert (Hx : op_init_x ex_ops 1 (repeat (fun _ => 1) 2) (gram_weights e g) 0 = Ok xg).
  { cbn [ex_ops ols_ops op_init_x]. unfold init_inverted_gram. rewrite ex_inv_one; [reflexivity|].
    specialize (Hxg 0%nat 0%nat). unfold xg in Hxg. intros E0. rewrite E0, Rinv_0 in Hxg. lra. }
  set (beta := ols_beta 1 xg yg).
  assert (Hb : forall i, beta i = 5 / 4) by (intros i; unfold beta, ols_beta, mvec; cbn [bsum]; rewrite Hxg, Hyg; field).
  set (pred := map2 (fun x et => st * dot 1 x beta + (1 - st) * et) (repeat (fun _ => 1) 2) (ones 2)).
  assert (Hpred : pred = [1 + st / 4; 1 + st / 4]).
  { unfold pred. cbn [map2 repeat ones]. unfold dot. cbn [bsum]. rewrite Hb. f_equal; [lra|f_equal; lra]. }
  set (fv' := set_col fv 0 (map (d_inv ex_dist 0) pred)).
  assert (Hf' : exists a b, fv' = [a; b] /\ a 0%nat = 1 + st / 4 /\ b 0%nat = 1 + st / 4).
  { unfold fv', fv, half_start. rewrite Hpred. cbn. eexists. eexists. split; [reflexivity|]. split; reflexivity. }
  destruct Hf' as (a & b & Ef' & Ea & Eb).
  assert (Hdev' : deviance e fv' = Ok (half_dev (1 + st / 4))) by (rewrite Ef'; apply half_deviance; [lra|assumption|assumption]).
  assert (Hcand := fit_candidate_run ex_ops e 0 1 0 st (half_dev 1) fv None s (ones 2) g 1 (repeat (fun _ => 1) 2) xg tt tt beta (half_dev (1 + st / 4))
    eq_refl eq_refl eq_refl Hwk Hx eq_refl eq_refl Hdev').
  fold pred in Hcand. cbn zeta in Hcand.
  set (q := mk_cand _ _ _ _ _ _ _ _ _) in Hcand.
  exists s. eexists. exists q. split; [exact Hcand|]. split; [reflexivity|]. split; [exact Hb|reflexivity].
Qed.

Lemma half_from_coefs st : from_coefs Exponential Identity 0 (fst (e_X (half_env st) 0)) (snd (e_X (half_env st) 0)) half_start (e_y (half_env st)) (fun _ => 1).
Proof.
  intros [|[|i]] Hi; cbn in Hi; try lia; cbn [e_X half_env start_env ex_X nth fst snd repeat half_start row1 valid_theta y_support link_inv link_fun dinv_range e_y half_b b_rows ys map oy];
    unfold dot; cbn [bsum]; repeat split; lra || (f_equal; lra).
Qed.

Lemma half_slope st : slope (loglik (fun _ => 0) Exponential Identity 0 1 1 (snd (e_X (half_env st) 0)) half_start (e_w (half_env st)) (e_y (half_env st))) (fun _ => 1) (fun _ => 1) 1.
Proof.
  assert (Hg : is_digamma (fun _ => 0) (fun _ => 0)) by (intros x _; auto_derive; [exact I|reflexivity]).
  pose proof (loglik_slope (fun _ => 0) (fun _ => 0) Exponential Identity 0 1 1 _ _ (e_w (half_env st)) _ (fun _ => 1) Hg ltac:(cbn; lia) (half_from_coefs st) (fun _ => 1)) as H.
  match type of H with slope _ _ _ ?v => replace v with 1 in H; [exact H|] end.
  cbn. unfold dot. cbn [bsum]. field.
Qed.

Lemma half_dev_first : half_dev (5 / 4) < half_dev 1.
Proof.
  unfold half_dev. rewrite ln_1. assert (L : ln (5 / 4) < 1 / 4); [|lra].
  replace (1 / 4) with (ln (exp (1 / 4))) by apply ln_exp. apply ln_increasing; [lra|]. pose proof (exp_ineq1 (1 / 4) ltac:(lra)). lra.
Qed.

(** The normal distribution at mean 0, standard deviation 1: weight 1 for the mean, 2 for
    the logarithm of the standard deviation. *)
Definition n_env : env unit := start_env n_cfg n_prep n_b1 (fun _ => (1%nat, [fun _ => 1; fun _ => 1])).
Definition n_start : list vec := [fun k => INR k; fun k => INR k].
Lemma n_weights : exists eta0 g0 eta1 g1, working n_env false 0 n_start = Ok (eta0, g0) /\ working n_env false 1 n_start = Ok (eta1, g1) /\
  g_wt g0 = [1; 1] /\ g_wt g1 = [2; 2].
Proof.
  assert (F : List.Forall at01 n_start) by (repeat constructor).
  assert (W : List.Forall (fun w => 0 <= w) (e_w n_env)) by (cbn; constructor; [lra|constructor; [lra|constructor]]).
  destruct (n_working n_env eq_refl eq_refl eq_refl W false 0 n_start ltac:(lia) eq_refl F) as (d1 & d2 & E).
  destruct (n_working n_env eq_refl eq_refl eq_refl W false 1 n_start ltac:(lia) eq_refl F) as (d1' & d2' & E').
  do 4 eexists. split; [exact E|]. split; [exact E'|]. split; reflexivity.
Qed.

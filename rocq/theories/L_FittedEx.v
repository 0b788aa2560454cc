(** Lemmas: a damped fit, worked out. *)
From Coq Require Import Reals List Bool Arith ZArith Lra Lia.
From Verif Require Import Base Lin Data M_Gram S_Gram L_Gram M_OLS L_OLS M_Scaler M_Utils M_Links M_DistTable M_Dist M_State M_LM M_Equation S_Equation L_Equation M_GAMLSS M_GAMDist S_GAMLSS S_Fitted.
From Verif Require Import L_GAM1 L_GAM2 L_GAM4 L_GAM6 L_GAM8 L_GAM9 L_GAM10 L_GAM12 L_GAMEx.
Import ListNotations.
Open Scope R_scope.

Lemma shipped_reads lgam dg tg ft fj gi pf cd D ls : reads_parameters (shipped lgam dg tg ft fj gi pf cd D ls).
Proof.
  intros y th th' H. cbn [shipped d_logpdf]. cbn [shipped d_n] in H.
  destruct D; unfold n_params in H; cbn [parameter_support length] in H;
    pose proof (H 0%nat ltac:(lia)) as E0;
    try pose proof (H 1%nat ltac:(lia)) as E1; try pose proof (H 2%nat ltac:(lia)) as E2; try pose proof (H 3%nat ltac:(lia)) as E3;
    unfold logpdf, scipy_logpdf_of, scipy_params; rewrite ?E0, ?E1, ?E2, ?E3; reflexivity.
Qed.

(** As [ex_cfg] with a step size and one outer cycle. *)
Definition half_cfg (st : R) : gam_cfg unit :=
  mk_gcfg unit ex_dist true (Some [(0%nat, EqIntercept)]) (fun _ => Ok tt) (Scalar 0) (Scalar aic) (Scalar true)
    (Scalar false) (Scalar st) None ScaleNone false 0 0 1 1 1 (1 / 1000) (1 / 1000) (1 / 1000) (1 / 1000)
    false false false.
Definition half_prep (st : R) : prep :=
  mk_prep (entry [(0%nat, EqIntercept)] EqOther) (entry [(0%nat, 0)] 0) (entry [(0%nat, aic)] aic)
    (entry [(0%nat, true)] true) (entry [(0%nat, false)] false) [(0%nat, st)] [0%nat].
(** Two observations of mean 1; with the weights the mean is 5/4. *)
Definition half_b : batch := mk_batch 1 [mkobs (fun _ => 1) (1 / 2) 1; mkobs (fun _ => 1) (3 / 2) 3].
Definition row1 (a : R) : vec := fun k => nth k [a] 0.

Lemma half_logpdf y th m : 0 <= y -> 0 < m -> th 0%nat = m -> d_logpdf ex_dist y th = Some (- (y / m) - ln m).
Proof.
  intros Hy Hm Ht. cbn. unfold scipy_logpdf_of, scipy_logpdf. cbn. rewrite Ht.
  rewrite (ltb_t 0 m) by exact Hm. rewrite (leb_t 0 ((y - 0) / m)); [|apply Rmult_le_pos; [lra|left; apply Rinv_0_lt_compat, Hm]].
  cbn. f_equal. field. lra.
Qed.
Definition half_env (st : R) : env unit := start_env (half_cfg st) (half_prep st) half_b (ex_X 2).
Definition half_dev (m : R) : R := 2 * (5 / m + 4 * ln m).
Lemma half_deviance st a b m : 0 < m -> a 0%nat = m -> b 0%nat = m -> deviance (half_env st) [a; b] = Ok (half_dev m).
Proof.
  intros Hm Ha Hb. unfold deviance. cbn [half_env start_env e_cfg e_y e_w half_cfg o_dist half_b b_rows ys ws map map2 oy ow].
  rewrite (half_logpdf (1 / 2) a m), (half_logpdf (3 / 2) b m) by (lra || assumption). cbn [all_some bind].
  f_equal. unfold half_dev. cbn [map2 lsum]. field. lra.
Qed.
Lemma half_has_deviance a b m : 0 < m -> a 0%nat = m -> b 0%nat = m -> has_deviance ex_dist (b_rows half_b) [a; b] (half_dev m).
Proof.
  intros Hm Ha Hb. split; [reflexivity|]. exists [- (1 / 2 / m) - ln m; - (3 / 2 / m) - ln m]. split; [reflexivity|]. split.
  - intros [|[|[|i]]] o H; cbn in H; try discriminate; injection H as <-; cbn [nth oy]; apply half_logpdf; lra || assumption.
  - unfold half_dev. cbn [map2 lsum half_b b_rows ow]. field. lra.
Qed.
Lemma sqrt_twice a b : 0 <= a -> a = b -> sqrt a * sqrt b = a.
Proof. intros H <-. apply sqrt_def, H. Qed.

Lemma half_fit st : 0 < st -> exists s1 th, gam_fit ex_ops (half_cfg st) half_b new_gam = (s1, Ok tt) /\
  cycles s1 = Some 1%nat /\ fitted_values s1 = Some th /\ (forall q, In q th -> q 0%nat = 1 + st / 4) /\ length th = 2%nat /\
  option_map fst (s_dev s1) = Some (half_dev (1 + st / 4)) /\
  (st = 1 -> undamped s1 0) /\
  exists out, snd (predict_parameters (half_cfg st) true 1 (Xs (b_rows half_b)) s1) = Ok out /\ length out = 2%nat /\
    forall q, In q out -> q 0%nat = 5 / 4.
Proof.
  intros Hst. set (fv := [row1 1; row1 1] : list vec).
  assert (Hinit : d_init ex_dist [1 / 2; 3 / 2] = Ok fv).
  { cbn. unfold M_Init.np_mean, npdiv. cbn. rewrite eqb_f by lra. cbn.
    replace ((1 / 2 + (3 / 2 + 0)) / (1 + 1)) with 1 by lra. reflexivity. }
  set (e := half_env st). set (s := start_work (half_cfg st) (half_prep st) (fun p => nth_error [tt] p) fv).
  assert (Hdev : deviance e fv = Ok (half_dev 1)) by (apply half_deviance; [lra|reflexivity|reflexivity]).
  assert (Hwk : working e false 0 fv = Ok (ones 2, mk_dbg (ones 2) [1 / 2; 3 / 2] [1 / 2 - 1; 3 / 2 - 1] [-1; -1] (ones 2) fv)).
  { unfold working. cbn [e half_env start_env e_cfg half_cfg o_dist e_y e_w half_b b_rows ys ws map map2 oy ow].
    unfold fv. cbn [col map map2]. change (d_link ex_dist 0 (row1 1 0%nat)) with (Some 1). cbn [all_some bind map map2].
    rewrite !ex_dl1 by reflexivity. cbn [all_some bind]. rewrite !ex_dl2 by reflexivity. cbn [all_some bind map map2 combine fst snd].
    change (d_dinv ex_dist 0 1) with 1. rewrite (ex_weight false). rewrite !ex_response. cbn [all_some bind andb orb].
    unfold forget_vector. cbn [e half_env start_env e_prep half_prep p_forget entry lookup Nat.eqb].
    unfold init_forget_vector. rewrite eqb_t by lra. cbn [length e half_env start_env e_y half_b b_rows ys map repeat map2 forallb].
    rewrite !leb_t by lra. reflexivity. }
  set (g := mk_dbg (ones 2) [1 / 2; 3 / 2] [1 / 2 - 1; 3 / 2 - 1] [-1; -1] (ones 2) fv) in *.
  set (xg := (fun _ _ : nat => / init_gram (repeat (fun _ => 1) 2) (gram_weights e g) 0 0%nat 0%nat) : mat).
  set (yg := init_y_gram (repeat (fun _ => 1) 2) (g_wv g) (gram_weights e g) 0).
  assert (Hxg : forall i j, xg i j = / 4).
  { intros i j. unfold xg. apply Rinv_eq. unfold init_gram, mat_tmul, scale_rows, root_weights, gram_weights, init_forget_vector.
    rewrite eqb_t by lra. cbn.
    replace (1 * sqrt (1 * 1 * 1) * (1 * sqrt (1 * 1 * 1))) with (sqrt (1 * 1 * 1) * sqrt (1 * 1 * 1)) by ring.
    replace (1 * sqrt (3 * 1 * 1) * (1 * sqrt (3 * 1 * 1))) with (sqrt (3 * 1 * 1) * sqrt (3 * 1 * 1)) by ring.
    rewrite !sqrt_twice by lra. lra. }
  assert (Hyg : forall i, yg i = 5).
  { intros i. unfold yg, init_y_gram, vec_tmul, scale_rows, root_weights, gram_weights, init_forget_vector.
    rewrite eqb_t by lra. cbn.
    pose proof (sqrt_twice (1 * 1 * 1) (1 * 1 * 1) ltac:(lra) eq_refl). pose proof (sqrt_twice (3 * 1 * 1) (3 * 1 * 1) ltac:(lra) eq_refl). nra. }
  assert (Hx : op_init_x ex_ops 1 (repeat (fun _ => 1) 2) (gram_weights e g) 0 = Ok xg).
  { cbn [ex_ops ols_ops op_init_x]. unfold init_inverted_gram. rewrite ex_inv_one; [reflexivity|].
    specialize (Hxg 0%nat 0%nat). unfold xg in Hxg. intros E0. rewrite E0, Rinv_0 in Hxg. lra. }
  set (beta := ols_beta 1 xg yg).
  assert (Hb : forall i, beta i = 5 / 4) by (intros i; unfold beta, ols_beta, mvec; cbn [bsum]; rewrite Hxg, Hyg; field).
  set (pred := map2 (fun x et => st * dot 1 x beta + (1 - st) * et) (repeat (fun _ => 1) 2) (ones 2)).
  assert (Hpred : pred = [1 + st / 4; 1 + st / 4]).
  { unfold pred. cbn [map2 repeat ones]. unfold dot. cbn [bsum]. rewrite Hb. f_equal; [lra|f_equal; lra]. }
  set (fv' := set_col fv 0 (map (d_inv ex_dist 0) pred)).
  assert (Hf' : exists a b, fv' = [a; b] /\ a 0%nat = 1 + st / 4 /\ b 0%nat = 1 + st / 4).
  { unfold fv', fv. rewrite Hpred. cbn. eexists. eexists. split; [reflexivity|]. split; reflexivity. }
  destruct Hf' as (a & b & Ef' & Ea & Eb).
  assert (Hdev' : deviance e fv' = Ok (half_dev (1 + st / 4))) by (rewrite Ef'; apply half_deviance; [lra|assumption|assumption]).
  assert (Hcand := fit_candidate_run ex_ops e 0 1 0 st (half_dev 1) fv None s (ones 2) g 1 (repeat (fun _ => 1) 2) xg tt tt beta (half_dev (1 + st / 4))
    eq_refl eq_refl eq_refl Hwk Hx eq_refl eq_refl Hdev').
  fold pred in Hcand. cbn zeta in Hcand.
  set (q := mk_cand _ _ _ _ _ _ _ _ _) in Hcand.
  assert (Hin := inner_fit_run1 ex_ops e 0 1 s (half_dev 1) fv q tt eq_refl Hdev eq_refl ltac:(cbn; lia) ltac:(cbn; lia) eq_refl Hcand (or_introl eq_refl)).
  set (w := after_inner_fit e 0 0 q (put_method 0 tt s)) in *.
  assert (Ho : outer_fit ex_ops e (enough_fuel (half_cfg st)) s = (w, Ok (half_dev (1 + st / 4), 1%nat))).
  { unfold outer_fit, bnd at 1. unfold peek at 1. unfold bnd at 1, lift at 1. change (w_fv s) with fv. rewrite Hdev.
    unfold enough_fuel. change (o_max_outer (half_cfg st) + 2)%nat with 3%nat. cbn [outer_fit_loop].
    unfold bnd at 1, peek at 1. change (w_min s <=? 0)%nat with false. cbn [andb].
    unfold bnd at 1. change (p_order (e_prep e)) with [0%nat]. cbn [fit_cycle]. unfold bnd at 1. rewrite Hin.
    unfold ret at 1. cbn [fst]. unfold bnd at 1, peek at 1.
    change (w_min w <=? 1)%nat with true. change (o_max_outer (e_cfg e) <=? 1)%nat with true. rewrite orb_true_r. cbn [andb orb]. reflexivity. }
  assert (Hw : w_fv w = fv').
  { unfold w, after_inner_fit, set_itinner, store_fit, write. cbn [fst w_fv put_method].
    change (c_fv q) with fv'. unfold fv'. apply set_col_idem. }
  eexists. exists fv'. split; [|split; [|split; [|split; [|split; [|split; [|split]]]]]].
  - eapply (gam_fit_run ex_ops (half_cfg st) half_b new_gam (half_prep st) _ fv [1%nat] (ex_scaler 4) (ex_X 2) w (half_dev (1 + st / 4)) 1); try reflexivity; try exact Hinit; try exact Ho.
    + cbn; lia.
    + cbn [existsb b_rows half_b oy o_dist half_cfg]. rewrite !ex_below by lra. reflexivity.
    + cbn. unfold scaler_fit. cbn. unfold ex_scaler. do 2 f_equal. lra.
  - reflexivity.
  - unfold fitted_values. cbn [s_work option_map]. now rewrite Hw.
  - rewrite Ef'. intros r [<-|[<-|[]]]; assumption.
  - rewrite Ef'. reflexivity.
  - reflexivity.
  - intros ->. exists (half_prep 1), w. split; [reflexivity|]. split; [reflexivity|]. split; [reflexivity|]. intros i j. reflexivity.
  - eexists. split; [|split].
    + erewrite (predict_parameters_run (half_cfg st) true 1 (Xs (b_rows half_b)) _ (ex_scaler 4) (half_prep st) (ex_X 2) w); [reflexivity|reflexivity|reflexivity|reflexivity| | | |reflexivity|reflexivity].
      * cbn; lia.
      * lia.
      * cbn. congruence.
    + reflexivity.
    + intros r Hr. assert (E : w_coef w 0%nat = beta) by reflexivity.
      cbn in Hr. destruct Hr as [<-|[<-|[]]]; cbn [ex_X nth fst snd repeat d_inv ex_dist shipped link_inv];
      unfold dot; cbn [bsum]; rewrite ?E, ?Hb; lra.
Qed.
Lemma half_dev_less : half_dev (5 / 4) < half_dev (9 / 8).
Proof.
  unfold half_dev. assert (H : ln (5 / 4) = ln (9 / 8) + ln (10 / 9)) by (rewrite <- ln_mult by lra; f_equal; lra).
  rewrite H. assert (L : ln (10 / 9) < 1 / 9); [|lra].
  replace (1 / 9) with (ln (exp (1 / 9))) by apply ln_exp. apply ln_increasing; [lra|].
  pose proof (exp_ineq1 (1 / 9) ltac:(lra)). lra.
Qed.
Lemma two_rows (l : list vec) m : length l = 2%nat -> (forall q, In q l -> q 0%nat = m) ->
  exists a b, l = [a; b] /\ a 0%nat = m /\ b 0%nat = m.
Proof. destruct l as [|a [|b [|]]]; intros L H; try discriminate. exists a, b. split; [reflexivity|]. split; apply H; cbn; auto. Qed.
Lemma C111_damped_lemma : exists s fv th dev v,
  gam_fit ex_ops (half_cfg (1 / 2)) half_b new_gam = (s, Ok tt) /\ cycles s = Some 1%nat /\
  fitted_values s = Some fv /\ snd (predict_parameters (half_cfg (1 / 2)) true (b_p half_b) (Xs (b_rows half_b)) s) = Ok th /\
  (forall q, In q fv -> q 0%nat = 9 / 8) /\ (forall q, In q th -> q 0%nat = 5 / 4) /\
  s_dev s = Some (dev, 1%nat) /\ has_deviance (o_dist (half_cfg (1 / 2))) (b_rows half_b) fv dev /\
  has_deviance (o_dist (half_cfg (1 / 2))) (b_rows half_b) th v /\ v < dev.
Proof.
  destruct (half_fit (1 / 2) ltac:(lra)) as (s & fv & H1 & H2 & H3 & H4 & H5 & H6 & _ & out & H7 & H8 & H9).
  assert (H4' : forall q, In q fv -> q 0%nat = 9 / 8) by (intros q Hq; rewrite (H4 q Hq); lra).
  exists s, fv, out, (half_dev (9 / 8)), (half_dev (5 / 4)).
  do 6 (split; [assumption|]). replace (1 + 1 / 2 / 4) with (9 / 8) in H6 by lra. split.
  - unfold cycles in H2. destruct (s_dev s) as [[a b]|]; [|discriminate]. cbn in H2, H6. congruence.
  - destruct (two_rows fv (9 / 8) H5 H4') as (a & b & -> & A1 & A2). destruct (two_rows out (5 / 4) H8 H9) as (a' & b' & -> & A3 & A4).
    split; [apply half_has_deviance; lra || assumption|]. split; [apply half_has_deviance; lra || assumption|]. exact half_dev_less.
Qed.

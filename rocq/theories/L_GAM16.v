(** Lemmas: boundary observations; worse candidates in update; weights in the selection. *)
From Coq Require Import Reals List Bool Arith ZArith Lra Lia.
From Verif Require Import Base Lin Data M_Gram M_OLS M_Scaler M_Utils M_Links M_DistTable M_Dist M_Init M_State M_LM M_Equation M_GAMLSS M_GAMDist S_GAMLSS.
From Verif Require Import L_GAM1 L_GAM2 L_GAM3 L_GAM8 L_GAM10 L_GAM15.
Import ListNotations.
Open Scope R_scope.

(** * C81 *)
Lemma deviance_defined {M} (e : env M) fv v : deviance e fv = Ok v -> length fv = length (e_y e) ->
  forall i, (i < length (e_y e))%nat -> exists l, d_logpdf (o_dist (e_cfg e)) (nth i (e_y e) 0) (nth i fv (fun _ => 0)) = Some l.
Proof.
  unfold deviance. intros H Hl. destruct (all_some _) as [ll|] eqn:E; [|discriminate]. clear H.
  apply all_some_inv in E. revert fv ll Hl E. generalize (e_y e). intros l. induction l as [|y l IH]; intros [|th fv] [|a ll] Hl E i Hi; cbn in *; try lia; try discriminate.
  injection E as E1 E2. destruct i as [|i]; [exists a; exact E1|]. eapply IH; eauto; lia.
Qed.
Lemma observes_nth y b : observes y b -> exists i, (i < length (ys (b_rows b)))%nat /\ nth i (ys (b_rows b)) 0 = y.
Proof.
  intros (o & Ho & <-). apply (in_map oy) in Ho. apply (In_nth _ _ 0) in Ho. exact Ho.
Qed.
Lemma C81_lemma {M} (ops : method_ops M) (c : gam_cfg M) b s y : observes y b -> rowwise (o_dist c) ->
  (forall th, d_logpdf (o_dist c) y th = None) ->
  snd (gam_fit ops c b s) <> Ok tt /\ snd (gam_update ops c b s) <> Ok tt.
Proof.
  intros Hy Hr Hn. apply observes_nth in Hy. destruct Hy as (i & Hi & Ey). split; intros H.
  - destruct (gam_fit ops c b s) as [s' r] eqn:E. cbn in H. subst r. apply gam_fit_ok in E.
    destruct E as (pr & methods & fv & js & sc & X & w & dv & n & _ & _ & _ & _ & _ & Efv & _ & _ & _ & Eo & _).
    unfold outer_fit in Eo. peel_as Eo f1 s1 P1. apply peek_inv in P1. destruct P1 as [-> <-].
    peel_as Eo dev s2 P2. apply lift_inv in P2. destruct P2 as [-> Ed]. cbn [start_work w_fv] in Ed.
    destruct (deviance_defined _ _ _ Ed) with (i := i) as (l & El); cbn [start_env e_y e_cfg] in *; [exact (Hr _ _ Efv)|exact Hi|].
    rewrite Ey, Hn in El. discriminate.
  - destruct (gam_update ops c b s) as [s' r] eqn:E. cbn in H. subst r. apply gam_update_shaped in E.
    destruct E as (n0 & pr & X & w0 & w1 & w & dev0 & it0 & isreg & dv & n & _ & _ & _ & _ & _ & E). cbv zeta in E.
    destruct E as ([S1 _] & _ & _ & _ & _ & _ & Eo & _).
    unfold outer_update in Eo. peel_as Eo f1 s1 P1. apply peek_inv in P1. destruct P1 as [-> <-].
    peel_as Eo dev s2 P2. apply lift_inv in P2. destruct P2 as [-> Ed].
    destruct (deviance_defined _ _ _ Ed S1) with (i := i) as (l & El); cbn [again_env e_y e_cfg] in *; [exact Hi|].
    rewrite Ey, Hn in El. discriminate.
Qed.
Lemma zero_logpdf lgam D th : D = LogNormal \/ D = LogNormalMedian \/ D = InverseGamma -> logpdf lgam D 0 th = None.
Proof.
  assert (Z : forall k, Rltb 0 ((0 - 0) / k) = false).
  { intros k. apply not_true_is_false. intros H. apply Rltb_true in H. unfold Rdiv in H. rewrite Rminus_0_r, Rmult_0_l in H. lra. }
  intros HD. destruct HD as [-> | [-> | ->]].
  - cbn. replace (Rltb 0 0) with false; [reflexivity|]. symmetry. apply not_true_is_false. intros H. apply Rltb_true in H. lra.
  - unfold logpdf, scipy_logpdf_of, scipy_params, scipy_logpdf. cbn [family_support]. rewrite Z, andb_false_r. reflexivity.
  - unfold logpdf, scipy_logpdf_of, scipy_params, scipy_logpdf. cbn [family_support]. rewrite Z, andb_false_r. reflexivity.
Qed.

(** * C82 *)
Section Worse.
Context (inv : nat -> mat -> option mat) (e : env unit).
Notation ops := (ols_ops inv).
Lemma same_candidate g p io it it' fv (s1 s1' s2 s2' : work unit) q q' : loop_frame s1' = loop_frame s1 ->
  update_candidate ops e g p io it fv s1 = (s2, Ok q) -> update_candidate ops e g p io it' fv s1' = (s2', Ok q') ->
  c_x q' = c_x q /\ c_y q' = c_y q /\ c_beta q' = c_beta q /\ c_fv q' = c_fv q /\ c_dv q' = c_dv q.
Proof.
  intros F H H'. apply update_candidate_ok in H. apply update_candidate_ok in H'. cbv zeta in H, H'.
  destruct H as (eta & gd & m & x0 & y0 & mw & dv & Hwk & _ & Ex & Ey & _ & Hx & Hy & _ & Hfv & Hd & Hv & H). cbn [op_path_based ols_ops] in H.
  destruct H' as (eta' & gd' & m1 & x0' & y0' & mw' & dv' & Hwk' & _ & Ex' & Ey' & _ & Hx' & Hy' & _ & Hfv' & Hd' & Hv' & H'). cbn [op_path_based ols_ops] in H'.
  rewrite Hwk in Hwk'. injection Hwk' as <- <-. unfold loop_frame in F.
  replace (w_x s1') with (w_x s1) in Ex' by congruence. replace (w_y s1') with (w_y s1) in Ey' by congruence.
  replace (w_fv s1') with (w_fv s1) in Hfv' by congruence.
  rewrite Ex in Ex'. injection Ex' as <-. rewrite Ey in Ey'. injection Ey' as <-.
  rewrite Hx in Hx'. injection Hx' as E1. rewrite <- Hy in Hy'.
  destruct H as (m2 & H & _). destruct H' as (m3 & H' & _). cbn [op_update_beta ols_ops] in H, H'. injection H as _ H. injection H' as _ H'.
  assert (E2 : c_beta q' = c_beta q) by (rewrite <- H, <- H', E1, Hy'; reflexivity).
  assert (E3 : c_fv q' = c_fv q) by (rewrite Hfv, Hfv', E2; reflexivity).
  rewrite E3, Hd in Hd'. injection Hd' as <-. split; [congruence|]. split; [congruence|]. split; [exact E2|]. split; [exact E3|congruence].
Qed.
Lemma worse_loop g p io k : forall it fv dvs cnt dv0 (s s0 s00 s' : work unit) q0 q it',
  loop_frame s = loop_frame s0 -> update_candidate ops e g p io 0 fv s0 = (s00, Ok q0) ->
  (forall j, dvs j = dv0) -> dv0 < c_dv q0 ->
  inner_update_loop ops e g p io k it fv dvs cnt s = (s', Ok (q, it')) ->
  cnt = it -> (it <= 5)%nat ->
  (c_x q = c_x q0 /\ c_y q = c_y q0 /\ c_beta q = c_beta q0 /\ c_fv q = c_fv q0 /\ c_dv q = c_dv q0) /\ (it' <= 5)%nat.
Proof.
  induction k as [|k IH]; intros it fv dvs cnt dv0 s s0 s00 s' q0 q it' F H0 Hd Hw H -> Hi; cbn [inner_update_loop] in H; [discriminate|].
  peel_as H step s1 P1. apply read_step_inv in P1. destruct P1 as (-> & _ & _ & Hp).
  peel_as H q1 s2 P2. pose proof (loop_frame_of _ _ _ _ (update_candidate_frame ops e g p io it fv) P2) as F2.
  pose proof (same_candidate g p io 0 it fv s0 s s00 s2 q0 q1 F H0 P2) as E.
  peel_as H u s3 P3. rewrite Hd in *.
  assert (Ei : Rltb dv0 (c_dv q1) = true) by (apply Rltb_true; destruct E as (_ & _ & _ & _ & ->); exact Hw).
  rewrite Ei in *. apply write_inv in P3.
  destruct (_ || Nat.eqb k 0) eqn:Es.
  - apply ret_inv in H. destruct H as [_ H]. injection H as -> <-. auto.
  - apply orb_false_iff in Es. destruct Es as [Es _]. apply orb_false_iff in Es. destruct Es as [Es _]. cbn [andb] in Es. apply Nat.ltb_ge in Es.
    eapply IH in H; [exact H| |exact H0|exact Hd|exact Hw|reflexivity|lia]. subst s3. exact (eq_trans F2 F).
Qed.
Lemma C82_lemma g p io (s s0 s' : work unit) q0 dv0 r :
  inner_update ops e g p io s = (s', Ok r) ->
  update_candidate ops e g p io 0 (w_fv s) s = (s0, Ok q0) ->
  deviance e (w_fv s) = Ok dv0 ->
  dv0 + (1 - p_forget (e_prep e) 0) ^ length (e_y e) * g < c_dv q0 ->
  r = c_dv q0 /\ w_coef s' p = c_beta q0 /\ w_fv s' = set_col (w_fv s) p (col (c_fv q0) p) /\
  w_xn s' p = Some (c_x q0) /\ w_yn s' p = Some (c_y q0) /\ (w_itinner s' p <= 5)%nat.
Proof.
  intros H H0 Hd Hw. unfold inner_update in H.
  peel_as H fv s1 P1. apply peek_inv in P1. destruct P1 as [-> <-].
  peel_as H dv s2 P2. apply lift_inv in P2. destruct P2 as [-> Hd']. rewrite Hd in Hd'. injection Hd' as <-.
  peel_as H n s3 P3. apply read_iter_inv in P3. destruct P3 as [-> E].
  peel_as H qi s4 P4. destruct qi as [q it].
  pose proof (loop_frame_of _ _ _ _ (inner_update_loop_frame ops e g p io _ _ _ _ _) P4) as F4.
  eapply worse_loop in P4; [|reflexivity|exact H0|intros j; reflexivity|exact Hw|reflexivity|lia].
  peel_as H sumw s7 P5. apply get_inv in P5. destruct P5 as [-> Es]. cbn [fst snd] in H.
  peel_as H u s8 P6. apply ret_inv in H. destruct H as [-> <-].
  destruct P4 as [(E1 & E2 & E3 & E4 & E5) E6]. unfold store_update, write in P6. injection P6 as <-. cbn [w_coef w_fv w_xn w_yn w_itinner]. unfold fupd.
  rewrite Nat.eqb_refl, E1, E2, E3, E4. unfold loop_frame in F4. repeat split; congruence || exact E6.
Qed.
End Worse.

(** * C83 *)
Lemma path_lls_weights {M} (e : env M) w p fv wgt path : path_lls (with_weights e w) p fv wgt path = path_lls e p fv wgt path.
Proof. induction path as [|b path IH]; cbn [path_lls]; [reflexivity|]. rewrite IH. reflexivity. Qed.
Lemma C83_lemma {M} (e : env M) w s p wv wt path : o_global_ll (e_cfg e) = true ->
  fit_select (with_weights e w) s p wv wt path = fit_select e s p wv wt path.
Proof. intros H. unfold fit_select. cbn [with_weights e_cfg]. rewrite H. rewrite path_lls_weights. reflexivity. Qed.

Lemma C81_shipped_lemma {M} (ops : method_ops M) (c : gam_cfg M) lgam dg tg ft fj gi ppf cond D links b s :
  o_dist c = shipped lgam dg tg ft fj gi ppf cond D links ->
  D = LogNormal \/ D = LogNormalMedian \/ D = InverseGamma ->
  ~ outside (o_dist c) 0 /\
  (observes 0 b -> snd (gam_fit ops c b s) <> Ok tt /\ snd (gam_update ops c b s) <> Ok tt).
Proof.
  intros E HD. split.
  - rewrite E. intros [H|H]; destruct HD as [-> | [-> | ->]]; cbn in H; lra.
  - intros Ho. apply C81_lemma with (y := 0); [exact Ho|rewrite E; apply shipped_rowwise|].
    intros th. rewrite E. exact (zero_logpdf lgam D th HD).
Qed.

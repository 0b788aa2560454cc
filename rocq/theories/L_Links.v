(** Lemmas about the link functions. *)
From Coq Require Import Reals List Lra Lia Bool.
From Coquelicot Require Import Coquelicot.
From Verif Require Import Base M_Links S_Links.
Import ListNotations.
Open Scope R_scope.

Lemma SMALL_pos : 0 < SMALL.
Proof. unfold SMALL. lra. Qed.
Lemma SMALL_lt1 : SMALL < 1.
Proof. unfold SMALL. lra. Qed.
Lemma LARGE_gt1 : 1 < LARGE.
Proof. unfold LARGE. lra. Qed.
Lemma LOG_order : LOG_SMALL < LOG_LARGE.
Proof.
  unfold LOG_SMALL, LOG_LARGE. apply ln_increasing; [apply SMALL_pos|].
  pose proof SMALL_lt1; pose proof LARGE_gt1; lra.
Qed.
Lemma LOG_SMALL_neg : LOG_SMALL < 0.
Proof. unfold LOG_SMALL. rewrite <- ln_1. apply ln_increasing; [apply SMALL_pos|apply SMALL_lt1]. Qed.
Lemma LOG_LARGE_pos : 0 < LOG_LARGE.
Proof. unfold LOG_LARGE. rewrite <- ln_1. apply ln_increasing; [lra|apply LARGE_gt1]. Qed.
Lemma exp_LOG_SMALL : exp LOG_SMALL = SMALL.
Proof. apply exp_ln, SMALL_pos. Qed.
Lemma exp_LOG_LARGE : exp LOG_LARGE = LARGE.
Proof. apply exp_ln. pose proof LARGE_gt1; lra. Qed.

Lemma exp_le a b : a <= b -> exp a <= exp b.
Proof. intros [H | ->]; [left; now apply exp_increasing | lra]. Qed.
Lemma ln_le' a b : 0 < a -> a <= b -> ln a <= ln b.
Proof. intros H [H' | ->]; [left; now apply ln_increasing | lra]. Qed.
Lemma ln_lt' a b : 0 < a -> a < b -> ln a < ln b.
Proof. intros; now apply ln_increasing. Qed.

(** robust_log and robust_exp as clipped functions. *)
Lemma robust_log_clip x : robust_log x = ln (Rmax SMALL x).
Proof.
  unfold robust_log. rcase.
  - rewrite Rmax_right by lra. reflexivity.
  - rewrite Rmax_left by lra. reflexivity.
Qed.
Lemma robust_exp_clip e : robust_exp e = Rmin LARGE (exp e).
Proof.
  unfold robust_exp. rcase.
  - rewrite Rmin_left; [reflexivity|]. rewrite <- exp_LOG_LARGE. apply exp_le; lra.
  - rewrite Rmin_right; [reflexivity|]. rewrite <- exp_LOG_LARGE. apply exp_le; lra.
Qed.
Lemma robust_exp_pos e : 0 < robust_exp e.
Proof.
  rewrite robust_exp_clip. apply Rmin_glb_lt; [pose proof LARGE_gt1; lra|apply exp_pos].
Qed.
Lemma robust_exp_le e : robust_exp e <= LARGE.
Proof. rewrite robust_exp_clip. apply Rmin_l. Qed.
Lemma robust_exp_log x : robust_exp (robust_log x) = Rmin LARGE (Rmax SMALL x).
Proof.
  rewrite robust_exp_clip, robust_log_clip, exp_ln; [reflexivity|].
  pose proof (Rmax_l SMALL x); pose proof SMALL_pos; lra.
Qed.
Lemma robust_log_exp e : robust_log (robust_exp e) = Rmax LOG_SMALL (Rmin LOG_LARGE e).
Proof.
  rewrite robust_log_clip.
  pose proof SMALL_pos. pose proof LOG_order.
  destruct (Rle_dec e LOG_LARGE) as [H1|H1].
  - rewrite robust_exp_clip, Rmin_right.
    2:{ rewrite <- exp_LOG_LARGE. now apply exp_le. }
    rewrite (Rmin_right LOG_LARGE e) by lra.
    destruct (Rle_dec e LOG_SMALL) as [H2|H2].
    + rewrite !Rmax_left; try lra; [reflexivity|].
      rewrite <- exp_LOG_SMALL. now apply exp_le.
    + rewrite !Rmax_right; try lra; [apply ln_exp|].
      rewrite <- exp_LOG_SMALL. apply exp_le; lra.
  - unfold robust_exp. rewrite (proj2 (Rltb_true _ _)) by lra.
    rewrite (Rmin_left LOG_LARGE e) by lra.
    rewrite !Rmax_right; try lra; [reflexivity|].
    pose proof SMALL_lt1; pose proof LARGE_gt1; lra.
Qed.

(** Softplus. *)
Lemma ln1pexp_gt e : e < ln (1 + exp e).
Proof.
  rewrite <- (ln_exp e) at 1. apply ln_increasing; [apply exp_pos|]. lra.
Qed.
Lemma ln1pexp_pos e : 0 < ln (1 + exp e).
Proof. rewrite <- ln_1. apply ln_increasing; [lra|]. pose proof (exp_pos e); lra. Qed.
Lemma exp_gt1 x : 0 < x -> 1 < exp x.
Proof. intros. rewrite <- exp_0. now apply exp_increasing. Qed.
Lemma lnexpm1_lt x : 0 < x -> ln (exp x - 1) < x.
Proof.
  intros H. rewrite <- (ln_exp x) at 2. pose proof (exp_gt1 x H).
  apply ln_increasing; lra.
Qed.
Lemma softplus_of_inverse x : SMALL <= x -> robust_softplus (robust_softplus_inverse x) = x.
Proof.
  intros H. pose proof SMALL_pos. unfold robust_softplus_inverse.
  destruct (Rltb 40 x) eqn:E.
  - unfold robust_softplus. now rewrite E.
  - apply Rltb_false in E.
    rewrite (proj2 (Rltb_false x SMALL)) by lra.
    pose proof (exp_gt1 x ltac:(lra)).
    unfold robust_softplus. rewrite (proj2 (Rltb_false _ _)).
    + rewrite exp_ln by lra. replace (1 + (exp x - 1)) with (exp x) by ring. apply ln_exp.
    + pose proof (lnexpm1_lt x ltac:(lra)). lra.
Qed.
Lemma inverse_of_softplus e :
  ln (exp SMALL - 1) <= e <= ln (exp 40 - 1) \/ 40 < e ->
  robust_softplus_inverse (robust_softplus e) = e.
Proof.
  intros [[H1 H2]|H].
  - pose proof SMALL_pos.
    pose proof (exp_gt1 SMALL ltac:(lra)). pose proof (exp_gt1 40 ltac:(lra)).
    assert (Ha : exp SMALL <= 1 + exp e).
    { apply exp_le in H1. rewrite exp_ln in H1 by lra. lra. }
    assert (Hb : 1 + exp e <= exp 40).
    { apply exp_le in H2. rewrite exp_ln in H2 by lra. lra. }
    assert (He : e <= 40). { pose proof (lnexpm1_lt 40 ltac:(lra)). lra. }
    unfold robust_softplus. rewrite (proj2 (Rltb_false 40 e)) by lra.
    unfold robust_softplus_inverse.
    rewrite (proj2 (Rltb_false 40 _)), (proj2 (Rltb_false _ SMALL)).
    + pose proof (exp_pos e). rewrite exp_ln by lra.
      replace (1 + exp e - 1) with (exp e) by ring. apply ln_exp.
    + rewrite <- (ln_exp SMALL) at 1. apply ln_le'; [apply exp_pos|exact Ha].
    + rewrite <- (ln_exp 40). pose proof (exp_pos e). apply ln_le'; [lra|exact Hb].
  - assert (E : Rltb 40 e = true) by now apply Rltb_true.
    unfold robust_softplus. rewrite E. unfold robust_softplus_inverse. now rewrite E.
Qed.

(** C31 *)
Lemma C31_round_trip_lemma l x :
  regular_value l x ->
  exists e, link_fun l x = Some e /\ link_inv l e = x + round_trip_error l.
Proof.
  pose proof SMALL_pos as HS. pose proof SMALL_lt1 as HS1. pose proof LARGE_gt1 as HL.
  destruct l as [| |v| | | |v| |v]; cbn [regular_value link_fun link_inv round_trip_error]; intros H.
  - exists x. split; [reflexivity|ring].
  - eexists; split; [reflexivity|]. rewrite robust_exp_log.
    rewrite Rmax_right, Rmin_right by lra. ring.
  - eexists; split; [reflexivity|]. rewrite robust_exp_log.
    rewrite Rmax_right, Rmin_right by lra. unfold SMALL. ring.
  - eexists; split; [reflexivity|].
    destruct (Rleb x 1) eqn:E; [apply Rleb_true in E|apply Rleb_false in E].
    + rewrite robust_log_clip, Rmax_right by lra.
      assert (ln x <= 0). { rewrite <- ln_1. apply ln_le'; lra. }
      rewrite (proj2 (Rleb_true _ _)) by lra.
      rewrite robust_exp_clip, exp_ln by lra. rewrite Rmin_right by lra. ring.
    + rewrite (proj2 (Rleb_false _ _)) by lra. ring.
  - destruct H as [[H0 H1] [H2 H3]].
    unfold npdiv. rewrite (proj2 (Reqb_false _ _)) by (intros ?; lra). cbn [omap].
    eexists; split; [reflexivity|]. rewrite robust_exp_log.
    assert (Hq : x / (1 - x) * (1 - x) = x) by (field; lra).
    assert (SMALL <= x / (1 - x)).
    { apply Rmult_le_reg_r with (1 - x); [lra|]. rewrite Hq. lra. }
    assert (x / (1 - x) <= LARGE).
    { apply Rmult_le_reg_r with (1 - x); [lra|]. rewrite Hq. lra. }
    rewrite Rmax_right, Rmin_right by lra. field. lra.
  - unfold npsqrt. rewrite (proj2 (Rltb_false _ _)) by lra.
    eexists; split; [reflexivity|]. cbn [pow].
    rewrite Rmult_1_r, sqrt_sqrt by lra. ring.
  - unfold npsqrt. rewrite (proj2 (Rltb_false _ _)) by lra.
    eexists; split; [reflexivity|]. fold SMALL.
    replace (sqrt (x - v + SMALL) ^ 2) with (sqrt (x - v + SMALL) * sqrt (x - v + SMALL)) by ring.
    rewrite sqrt_sqrt by lra. ring.
  - eexists; split; [reflexivity|]. rewrite softplus_of_inverse by lra. ring.
  - eexists; split; [reflexivity|]. rewrite softplus_of_inverse by lra. ring.
Qed.

Lemma C31_clipped_lemma x :
  (exists e, link_fun Log x = Some e /\ link_inv Log e = Rmin LARGE (Rmax SMALL x)) /\
  (exists e, link_fun LogIdent x = Some e /\ link_inv LogIdent e = Rmax SMALL x).
Proof.
  pose proof SMALL_pos as HS. pose proof SMALL_lt1 as HS1. pose proof LARGE_gt1 as HL.
  split.
  - eexists; split; [reflexivity|]. apply robust_exp_log.
  - eexists; split; [reflexivity|]. cbn [link_inv].
    destruct (Rleb x 1) eqn:E; [apply Rleb_true in E|apply Rleb_false in E].
    + rewrite robust_log_clip.
      assert (Rmax SMALL x <= 1) by (apply Rmax_lub; lra).
      pose proof (Rmax_l SMALL x).
      assert (ln (Rmax SMALL x) <= 0). { rewrite <- ln_1. apply ln_le'; lra. }
      rewrite (proj2 (Rleb_true _ _)) by lra.
      rewrite robust_exp_clip, exp_ln by lra. rewrite Rmin_right by lra. reflexivity.
    + rewrite (proj2 (Rleb_false _ _)) by lra. rewrite Rmax_right by lra. ring.
Qed.

(** C32 *)
Lemma C32_round_trip_lemma l e :
  regular_predictor l e ->
  (forall v, l <> LogShiftValue v) -> (forall v, l <> SqrtShiftValue v) ->
  link_fun l (link_inv l e) = Some e.
Proof.
  pose proof SMALL_pos as HS. pose proof SMALL_lt1 as HS1. pose proof LARGE_gt1 as HL.
  pose proof LOG_SMALL_neg. pose proof LOG_LARGE_pos.
  destruct l as [| |v| | | |v| |v]; cbn [regular_predictor link_fun link_inv]; intros H' N1 N2.
  - reflexivity.
  - fold LOG_SMALL LOG_LARGE in H'. rewrite robust_log_exp, Rmin_right, Rmax_right by lra. reflexivity.
  - now destruct (N1 v).
  - fold LOG_SMALL in H'.
    destruct (Rleb e 0) eqn:E; [apply Rleb_true in E|apply Rleb_false in E].
    + rewrite robust_log_exp, Rmin_right, Rmax_right by lra.
      rewrite (proj2 (Rleb_true _ _)); [reflexivity|].
      rewrite robust_exp_clip. eapply Rle_trans; [apply Rmin_r|].
      rewrite <- exp_0. now apply exp_le.
    + rewrite (proj2 (Rleb_false _ _)) by lra. f_equal; ring.
  - fold LOG_SMALL LOG_LARGE in H'.
    pose proof (robust_exp_pos e). unfold npdiv. rewrite (proj2 (Reqb_false _ _)).
    + cbn [omap]. f_equal.
      replace (robust_exp e / (robust_exp e + 1) / (1 - robust_exp e / (robust_exp e + 1)))
        with (robust_exp e) by (field; lra).
      now rewrite robust_log_exp, Rmin_right, Rmax_right by lra.
    + intros Hz.
      assert (Hk : 1 - robust_exp e / (robust_exp e + 1) = / (robust_exp e + 1)) by (field; lra).
      rewrite Hk in Hz. assert (0 < / (robust_exp e + 1)) by (apply Rinv_0_lt_compat; lra). lra.
  - unfold npsqrt. cbn [pow]. rewrite Rmult_1_r. rewrite (proj2 (Rltb_false _ _)) by nra.
    f_equal. apply sqrt_square. lra.
  - now destruct (N2 v).
  - f_equal. now apply inverse_of_softplus.
  - f_equal. replace (robust_softplus e + v - v) with (robust_softplus e) by ring.
    now apply inverse_of_softplus.
Qed.

Lemma C32_sqrt_lemma e : link_fun Sqrt (link_inv Sqrt e) = Some (Rabs e).
Proof.
  cbn [link_fun link_inv pow]. unfold npsqrt. rewrite Rmult_1_r.
  rewrite (proj2 (Rltb_false _ _)) by nra. f_equal. apply sqrt_Rsqr_abs.
Qed.

Lemma C32_shifted_lemma v e :
  (ln SMALL <= e <= ln LARGE ->
   link_fun (LogShiftValue v) (link_inv (LogShiftValue v) e) = Some (ln (exp e + SMALL))
   /\ e < ln (exp e + SMALL)) /\
  link_fun (SqrtShiftValue v) (link_inv (SqrtShiftValue v) e) = Some (sqrt (e ^ 2 + SMALL)) /\
  e < sqrt (e ^ 2 + SMALL).
Proof.
  pose proof SMALL_pos as HS.
  split; [|split].
  - fold LOG_SMALL LOG_LARGE. intros H. cbn [link_fun link_inv].
    replace (v + robust_exp e - v + SMALL) with (robust_exp e + SMALL) by ring.
    assert (E : robust_exp e = exp e).
    { unfold robust_exp. now rewrite (proj2 (Rltb_false _ _)) by lra. }
    rewrite E, robust_log_clip. pose proof (exp_pos e).
    rewrite Rmax_right by lra. split; [reflexivity|].
    rewrite <- (ln_exp e) at 1. apply ln_increasing; lra.
  - cbn [link_fun link_inv]. replace (v + e ^ 2 - v + SMALL) with (e ^ 2 + SMALL) by ring.
    unfold npsqrt. rewrite (proj2 (Rltb_false _ _)) by nra. reflexivity.
  - destruct (Rlt_dec e 0).
    + eapply Rlt_le_trans; [eassumption|apply sqrt_pos].
    + rewrite <- (sqrt_Rsqr e) at 1 by lra. apply sqrt_lt_1_alt. unfold Rsqr. split; nra.
Qed.

(** C33 *)
Lemma robust_softplus_pos e : 0 < robust_softplus e.
Proof. unfold robust_softplus. rcase; [lra|apply ln1pexp_pos]. Qed.

Lemma C33_range_lemma l e : link_range l (link_inv l e).
Proof.
  pose proof (robust_exp_pos e) as HE. pose proof (robust_softplus_pos e) as HP.
  destruct l as [| |v| | | |v| |v]; cbn [link_range link_inv]; try exact I; try lra.
  - rcase; lra.
  - split.
    + apply Rdiv_lt_0_compat; lra.
    + apply Rmult_lt_reg_r with (robust_exp e + 1); [lra|].
      replace (robust_exp e / (robust_exp e + 1) * (robust_exp e + 1)) with (robust_exp e) by (field; lra). lra.
  - cbn [pow]. nra.
  - cbn [pow]. nra.
Qed.

Lemma C33_cap_lemma e v :
  link_inv Log e <= 10 ^ 15 /\
  link_inv (LogShiftValue v) e <= v + 10 ^ 15 /\
  link_inv Logit e <= 10 ^ 15 / (10 ^ 15 + 1) /\
  link_inv LogIdent e <= Rmax 1 (e + 1) /\
  link_inv InverseSoftPlus e <= Rmax 0 e + ln 2.
Proof.
  pose proof (robust_exp_le e) as HE. pose proof (robust_exp_pos e) as HP.
  cbn [link_inv]. unfold LARGE in HE. repeat split.
  - exact HE.
  - lra.
  - apply Rmult_le_reg_r with ((robust_exp e + 1) * (10 ^ 15 + 1)); [nra|].
    replace (robust_exp e / (robust_exp e + 1) * ((robust_exp e + 1) * (10 ^ 15 + 1)))
      with (robust_exp e * (10 ^ 15 + 1)) by (field; lra).
    replace (10 ^ 15 / (10 ^ 15 + 1) * ((robust_exp e + 1) * (10 ^ 15 + 1)))
      with (10 ^ 15 * (robust_exp e + 1)) by (field; lra). lra.
  - destruct (Rleb e 0) eqn:E; [apply Rleb_true in E|apply Rleb_false in E].
    + eapply Rle_trans; [|apply Rmax_l]. rewrite robust_exp_clip.
      eapply Rle_trans; [apply Rmin_r|]. rewrite <- exp_0. now apply exp_le.
    + apply Rmax_r.
  - assert (0 < ln 2) by (rewrite <- ln_1; apply ln_increasing; lra).
    unfold robust_softplus. rcase; [rewrite Rmax_right by lra; lra|].
    assert (Hm : 1 + exp e <= 2 * exp (Rmax 0 e)).
    { pose proof (exp_le 0 (Rmax 0 e) (Rmax_l _ _)) as A. rewrite exp_0 in A.
      pose proof (exp_le e (Rmax 0 e) (Rmax_r _ _)). lra. }
    eapply Rle_trans; [apply ln_le'; [|exact Hm]; pose proof (exp_pos e); lra|].
    rewrite ln_mult by (try apply exp_pos; lra). rewrite ln_exp. lra.
Qed.

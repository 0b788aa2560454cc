(** Lemmas about the derivatives and monotonicity of the links and about the
    support check. *)
From Coq Require Import Reals List Lra Lia Bool.
From Coquelicot Require Import Coquelicot.
From Verif Require Import Base M_Links S_Links L_Links M_DistTable.
Import ListNotations.
Open Scope R_scope.

Lemma has_derivative_loc (f : R -> option R) (g : R -> R) (P : R -> Prop) x d :
  locally x P -> (forall y, P y -> f y = Some (g y)) -> is_derive g x d ->
  has_derivative f x d.
Proof.
  intros HP Hf Hg. exists g. split; [|exact Hg].
  eapply filter_imp; [|exact HP]. exact Hf.
Qed.

Lemma has_derivative2_loc (f : R -> option R) (g : R -> R) (P : R -> Prop) x d :
  locally x P -> (forall y, P y -> has_derivative f y (g y)) -> is_derive g x d ->
  has_derivative2 f x d.
Proof.
  intros HP Hf Hg. exists g. split; [|exact Hg].
  eapply filter_imp; [|exact HP]. exact Hf.
Qed.

Lemma loc_gt a x : a < x -> locally x (fun y => a < y).
Proof. exact (open_gt a x). Qed.
Lemma loc_lt a x : x < a -> locally x (fun y => y < a).
Proof. exact (open_lt a x). Qed.
Lemma loc_between a b x : a < x < b -> locally x (fun y => a < y < b).
Proof.
  intros [H1 H2]. apply (filter_and (fun y => a < y) (fun y => y < b)).
  - now apply loc_gt.
  - now apply loc_lt.
Qed.

(** Gluing two functions with the same value and derivative. *)
Lemma is_derive_glue (f g h : R -> R) a d :
  (forall y, y <= a -> f y = g y) -> (forall y, a <= y -> f y = h y) ->
  is_derive g a d -> is_derive h a d -> is_derive f a d.
Proof.
  intros Hg Hh Dg Dh. apply is_derive_Reals in Dg, Dh. apply is_derive_Reals.
  intros eps Heps.
  destruct (Dg eps Heps) as [d1 H1]. destruct (Dh eps Heps) as [d2 H2].
  pose (dd := mkposreal (Rmin d1 d2) (Rmin_pos _ _ (cond_pos d1) (cond_pos d2))).
  exists dd. intros k Hk0 Hk. unfold dd in Hk; cbn [pos] in Hk.
  destruct (Rle_dec k 0) as [Hn|Hn].
  - rewrite (Hg (a + k)) by lra. rewrite (Hg a) by lra. apply H1; [assumption|].
    eapply Rlt_le_trans; [exact Hk|apply Rmin_l].
  - rewrite (Hh (a + k)) by lra. rewrite (Hh a) by lra. apply H2; [assumption|].
    eapply Rlt_le_trans; [exact Hk|apply Rmin_r].
Qed.

Lemma npdiv_ok a b : b <> 0 -> npdiv a b = Some (a / b).
Proof. intros H. unfold npdiv. now rewrite (proj2 (Reqb_false _ _)). Qed.
Lemma npsqrt_ok x : 0 <= x -> npsqrt x = Some (sqrt x).
Proof. intros H. unfold npsqrt. now rewrite (proj2 (Rltb_false _ _)). Qed.
Lemma robust_log_ok x : SMALL < x -> robust_log x = ln x.
Proof. intros. unfold robust_log. now rewrite (proj2 (Rltb_true _ _)). Qed.
Lemma robust_exp_ok x : x <= ln LARGE -> robust_exp x = exp x.
Proof. intros. unfold robust_exp. now rewrite (proj2 (Rltb_false _ _)). Qed.
Lemma zsd_ok b : / 10 ^ 8 < Rabs b -> zero_safe_division 1 b = 1 / b.
Proof.
  intros H. unfold zero_safe_division, isclose0.
  rewrite (proj2 (Rleb_false _ _)) by assumption.
  rewrite (proj2 (Rleb_false (Rabs 1) _)); [reflexivity|]. rewrite Rabs_R1. lra.
Qed.
Lemma zsd_small b : Rabs b <= / 10 ^ 8 -> zero_safe_division 1 b = LARGE.
Proof.
  intros H. unfold zero_safe_division, isclose0.
  now rewrite (proj2 (Rleb_true _ _)) by assumption.
Qed.

(** First derivative of each link, at the points where it is regular. *)
Lemma hd_log v x : v < x -> has_derivative (fun y => Some (robust_log (y - v + SMALL))) x (1 / (x - v + SMALL)).
Proof.
  intros H. pose proof SMALL_pos.
  apply (has_derivative_loc _ (fun y => ln (y - v + SMALL)) (fun y => v < y)).
  - now apply loc_gt.
  - intros y Hy. now rewrite robust_log_ok by lra.
  - auto_derive; [lra|]. field. lra.
Qed.
Lemma hd_log0 x : SMALL < x -> has_derivative (link_fun Log) x (1 / x).
Proof.
  intros H. pose proof SMALL_pos.
  apply (has_derivative_loc _ ln (fun y => SMALL < y)).
  - now apply loc_gt.
  - intros y Hy. cbn [link_fun]. now rewrite robust_log_ok by lra.
  - auto_derive; [lra|]. field. lra.
Qed.

Lemma logit_loc x : 0 < x < 1 -> SMALL * (1 - x) < x ->
  locally x (fun y => 0 < y < 1 /\ SMALL * (1 - y) < y).
Proof.
  intros H H'. pose proof SMALL_pos.
  assert (Hk : SMALL / (1 + SMALL) * (1 + SMALL) = SMALL) by (field; lra).
  apply filter_and; [now apply loc_between|].
  apply (filter_imp (fun y => SMALL / (1 + SMALL) < y)).
  - intros y Hy. apply Rmult_lt_compat_r with (r := 1 + SMALL) in Hy; [|lra].
    rewrite Hk in Hy. lra.
  - apply loc_gt. apply Rmult_lt_reg_r with (1 + SMALL); [lra|]. rewrite Hk. lra.
Qed.

Lemma hd_logit x : 0 < x < 1 -> SMALL * (1 - x) < x ->
  has_derivative (link_fun Logit) x (1 / (x * (1 - x))).
Proof.
  intros H H'. pose proof SMALL_pos.
  apply (has_derivative_loc _ (fun y => ln (y / (1 - y))) (fun y => 0 < y < 1 /\ SMALL * (1 - y) < y)).
  - now apply logit_loc.
  - intros y [Hy Hy']. cbn [link_fun]. rewrite npdiv_ok by (intros ?; lra). cbn [omap].
    rewrite robust_log_ok; [reflexivity|].
    apply Rmult_lt_reg_r with (1 - y); [lra|].
    replace (y / (1 - y) * (1 - y)) with y by (field; lra). lra.
  - assert (0 < x / (1 - x)) by (apply Rdiv_lt_0_compat; lra).
    auto_derive; [repeat split; try lra; exact H1|]. field. lra.
Qed.

Lemma hd_sqrt c x : 0 < x - c ->
  has_derivative (fun y => npsqrt (y - c)) x (1 / (2 * sqrt (x - c))).
Proof.
  intros H. apply (has_derivative_loc _ (fun y => sqrt (y - c)) (fun y => c < y)).
  - apply loc_gt. lra.
  - intros y Hy. now rewrite npsqrt_ok by lra.
  - pose proof (sqrt_lt_R0 _ H). auto_derive; [lra|].
    replace (x + - c) with (x - c) by ring. field. lra.
Qed.

Lemma has_derivative_ext f g x d : (forall y, f y = g y) -> has_derivative f x d -> has_derivative g x d.
Proof.
  intros E (h & H1 & H2). exists h. split; [|exact H2].
  eapply filter_imp; [|exact H1]. intros y Hy. cbv beta in *. now rewrite <- E.
Qed.

(** The true derivative of the inverse softplus. *)
Lemma hd_isp v x : v + SMALL < x < v + 40 ->
  has_derivative (fun y => Some (robust_softplus_inverse (y - v))) x (1 / (1 - exp (v - x))).
Proof.
  intros H. pose proof SMALL_pos.
  apply (has_derivative_loc _ (fun y => ln (exp (y - v) - 1)) (fun y => v + SMALL < y < v + 40)).
  - now apply loc_between.
  - intros y Hy. unfold robust_softplus_inverse.
    rewrite (proj2 (Rltb_false _ _)) by lra. now rewrite (proj2 (Rltb_false _ _)) by lra.
  - assert (1 < exp (x - v)) by (apply exp_gt1; lra).
    assert (exp (v - x) * exp (x - v) = 1).
    { rewrite <- exp_plus. replace (v - x + (x - v)) with 0 by ring. apply exp_0. }
    auto_derive; [replace (x + - v) with (x - v) by ring; lra|].
    assert (exp (v - x) < 1). { rewrite <- exp_0. apply exp_increasing. lra. }
    replace (exp (x + - v)) with (exp (x - v)) by (f_equal; ring).
    assert (E : exp (v - x) = / exp (x - v)).
    { apply Rmult_eq_reg_r with (exp (x - v)); [|lra]. rewrite H2. field. lra. }
    rewrite E in *. field. lra.
Qed.

Lemma cosh_even x : cosh (- x) = cosh x.
Proof. unfold cosh. rewrite Ropp_involutive. lra. Qed.

Lemma two_cosh x : 2 * cosh x - 2 = (exp x - 1) ^ 2 / exp x.
Proof. unfold cosh. rewrite exp_Ropp. field. pose proof (exp_pos x); lra. Qed.

Lemma hd2_isp v x : v + SMALL < x < v + 40 ->
  has_derivative2 (fun y => Some (robust_softplus_inverse (y - v))) x (1 / (2 - 2 * cosh (v - x))).
Proof.
  intros H. pose proof SMALL_pos.
  apply (has_derivative2_loc _ (fun y => 1 / (1 - exp (v - y))) (fun y => v + SMALL < y < v + 40)).
  - now apply loc_between.
  - intros y Hy. now apply hd_isp.
  - assert (exp (v - x) < 1). { rewrite <- exp_0. apply exp_increasing. lra. }
    pose proof (exp_pos (v - x)).
    auto_derive; [intros ?; replace (v + - x) with (v - x) in * by ring; lra|].
    replace (v + - x) with (v - x) by ring.
    replace (2 - 2 * cosh (v - x)) with (- ((exp (v - x) - 1) ^ 2 / exp (v - x)))
      by (rewrite <- two_cosh; ring).
    field. repeat split; lra.
Qed.

(** C34 *)
Lemma C34_link_derivative_lemma l x :
  d1_range l x -> exists d, link_d l x = Ok (Some d) /\ has_derivative (link_fun l) x d.
Proof.
  pose proof SMALL_pos as HS.
  destruct l as [| |v| | | |v| |v]; cbn [d1_range link_d]; intros H; try contradiction.
  - exists 1. split; [reflexivity|]. exists (fun y => y). split.
    + apply filter_forall. reflexivity.
    + auto_derive; [exact I|reflexivity].
  - eexists. split; [rewrite npdiv_ok by (intros ?; lra); reflexivity|]. now apply hd_log0.
  - eexists. split; [rewrite npdiv_ok by (intros ?; lra); reflexivity|]. now apply hd_log.
  - destruct H as [H H']. eexists.
    split; [rewrite npdiv_ok by (intros ?; nra); reflexivity|]. now apply hd_logit.
  - eexists. split.
    + rewrite npsqrt_ok by lra. cbn [obind]. pose proof (sqrt_lt_R0 _ H).
      rewrite npdiv_ok by (intros ?; lra). reflexivity.
    + pose proof (hd_sqrt 0 x ltac:(lra)) as K. rewrite Rminus_0_r in K.
      revert K. apply has_derivative_ext. intros y. cbn [link_fun]. f_equal. ring.
  - assert (Hx : 0 < x - v + SMALL) by lra. eexists. split.
    + rewrite npsqrt_ok by lra. cbn [obind]. pose proof (sqrt_lt_R0 _ Hx).
      rewrite npdiv_ok by (intros ?; lra). reflexivity.
    + pose proof (hd_sqrt (v - SMALL) x ltac:(lra)) as K.
      replace (x - (v - SMALL)) with (x - v + SMALL) in K by ring.
      revert K. apply has_derivative_ext. intros y. cbn [link_fun]. f_equal. ring.
  - destruct H as [H H']. eexists. split; [reflexivity|].
    assert (exp (v - x) < 1). { rewrite <- exp_0. apply exp_increasing. lra. }
    rewrite robust_exp_ok. 2:{ pose proof LOG_LARGE_pos. unfold LOG_LARGE in *. lra. }
    rewrite zsd_ok by (rewrite Rabs_right; lra). now apply hd_isp.
Qed.

Lemma Rpower_32 x : 0 < x -> Rpower x (3 / 2) = x * sqrt x.
Proof.
  intros H. replace (3 / 2) with (1 + / 2) by lra.
  rewrite Rpower_plus, Rpower_1, Rpower_sqrt by assumption. reflexivity.
Qed.

Lemma nppow32_ok x : 0 < x -> nppow32 x = Some (x * sqrt x).
Proof.
  intros H. unfold nppow32. rewrite (proj2 (Rltb_false _ _)) by lra.
  rewrite (proj2 (Reqb_false _ _)) by lra. now rewrite Rpower_32.
Qed.

Lemma hd2_sqrt c x : 0 < x - c ->
  has_derivative2 (fun y => npsqrt (y - c)) x (- 1 / (4 * ((x - c) * sqrt (x - c)))).
Proof.
  intros H. apply (has_derivative2_loc _ (fun y => 1 / (2 * sqrt (y - c))) (fun y => c < y)).
  - apply loc_gt. lra.
  - intros y Hy. apply hd_sqrt. lra.
  - pose proof (sqrt_lt_R0 _ H) as Hs. pose proof (sqrt_sqrt (x - c) ltac:(lra)) as E.
    auto_derive.
    + replace (x + - c) with (x - c) by ring. repeat split; lra.
    + replace (x + - c) with (x - c) by ring.
      replace ((x - c) * sqrt (x - c)) with ((sqrt (x - c) * sqrt (x - c)) * sqrt (x - c))
        by (rewrite E; ring).
      field. repeat split; lra.
Qed.

Lemma has_derivative2_ext f g x d :
  (forall y, f y = g y) -> has_derivative2 f x d -> has_derivative2 g x d.
Proof.
  intros E (h & H1 & H2). exists h. split; [|exact H2].
  eapply filter_imp; [|exact H1]. intros y Hy. cbv beta in *.
  eapply has_derivative_ext; eauto.
Qed.

Lemma C34_link_second_derivative_lemma l x :
  d2_range l x -> exists d, link_d2 l x = Ok (Some d) /\ has_derivative2 (link_fun l) x d.
Proof.
  pose proof SMALL_pos as HS.
  destruct l as [| |v| | | |v| |v]; cbn [d2_range link_d2]; intros H; try contradiction.
  - exists 0. split; [reflexivity|]. exists (fun _ => 1). split.
    + apply filter_forall. intros y. exists (fun y => y). split.
      * apply filter_forall. reflexivity.
      * auto_derive; [exact I|reflexivity].
    + auto_derive; [exact I|reflexivity].
  - eexists. split; [rewrite npdiv_ok by (intros ?; nra); reflexivity|].
    apply (has_derivative2_loc _ (fun y => 1 / y) (fun y => SMALL < y)).
    + now apply loc_gt.
    + intros y Hy. now apply hd_log0.
    + auto_derive; [lra|]. field. lra.
  - eexists. split; [rewrite npdiv_ok by (intros ?; nra); reflexivity|].
    apply (has_derivative2_loc _ (fun y => 1 / (y - v + SMALL)) (fun y => v < y)).
    + now apply loc_gt.
    + intros y Hy. now apply hd_log.
    + auto_derive; [lra|]. field. lra.
  - destruct H as [H H']. eexists.
    split.
    { rewrite npdiv_ok; [reflexivity|].
      assert (0 < x ^ 2 * (1 - x) ^ 2) by (apply Rmult_lt_0_compat; apply pow_lt; lra).
      intros ?; lra. }
    apply (has_derivative2_loc _ (fun y => 1 / (y * (1 - y))) (fun y => 0 < y < 1 /\ SMALL * (1 - y) < y)).
    + now apply logit_loc.
    + intros y [Hy Hy']. now apply hd_logit.
    + auto_derive; [intros ?; nra|]. field. lra.
  - eexists. split.
    + rewrite nppow32_ok by lra. cbn [obind]. pose proof (sqrt_lt_R0 _ H).
      rewrite npdiv_ok by (intros ?; nra). reflexivity.
    + pose proof (hd2_sqrt 0 x ltac:(lra)) as K. rewrite Rminus_0_r in K.
      revert K. apply has_derivative2_ext. intros y. cbn [link_fun]. f_equal. ring.
  - assert (Hx : 0 < x - v + SMALL) by lra. eexists. split.
    + rewrite nppow32_ok by lra. cbn [obind]. pose proof (sqrt_lt_R0 _ Hx).
      rewrite npdiv_ok by (intros ?; nra). reflexivity.
    + pose proof (hd2_sqrt (v - SMALL) x ltac:(lra)) as K.
      replace (x - (v - SMALL)) with (x - v + SMALL) in K by ring.
      revert K. apply has_derivative2_ext. intros y. cbn [link_fun]. f_equal. ring.
  - destruct H as [H H']. eexists. split; [reflexivity|].
    rewrite zsd_ok by (rewrite Rabs_left; lra).
    pose proof (hd2_isp 0 x ltac:(lra)) as K.
    replace (cosh (0 - x)) with (cosh x) in K by (replace (0 - x) with (- x) by ring; now rewrite cosh_even).
    revert K. apply has_derivative2_ext. intros y. cbn [link_fun]. now rewrite Rminus_0_r.
  - destruct H as [H H']. eexists. split; [reflexivity|].
    assert (cosh (v - x) = cosh (x - v)) as E by (rewrite <- cosh_even; f_equal; ring).
    rewrite zsd_ok by (rewrite E, Rabs_left; lra). now apply hd2_isp.
Qed.

Lemma is_derive_loc (f g : R -> R) (P : R -> Prop) x d :
  locally x P -> (forall y, P y -> f y = g y) -> is_derive g x d -> is_derive f x d.
Proof.
  intros HP E D. apply (is_derive_ext_loc g); [|exact D].
  eapply filter_imp; [|exact HP]. intros y Hy. now rewrite E.
Qed.

Lemma is_derive_robust_exp e : e < ln LARGE -> is_derive robust_exp e (exp e).
Proof.
  intros H. apply (is_derive_loc _ exp (fun y => y < ln LARGE)).
  - now apply loc_lt.
  - intros y Hy. apply robust_exp_ok. lra.
  - auto_derive; [exact I|ring].
Qed.

Lemma is_derive_softplus e : e < 40 -> is_derive robust_softplus e (1 / (exp (- e) + 1)).
Proof.
  intros H. apply (is_derive_loc _ (fun y => ln (1 + exp y)) (fun y => y < 40)).
  - now apply loc_lt.
  - intros y Hy. unfold robust_softplus. now rewrite (proj2 (Rltb_false _ _)) by lra.
  - pose proof (exp_pos e). auto_derive; [lra|].
    rewrite exp_Ropp. field. lra.
Qed.

Lemma C34_inverse_derivative_lemma l e :
  dinv_range l e -> is_derive (link_inv l) e (link_inv_d l e).
Proof.
  pose proof SMALL_pos as HS. pose proof LOG_LARGE_pos as HL. unfold LOG_LARGE in HL.
  destruct l as [| |v| | | |v| |v]; cbn [dinv_range link_inv_d]; intros H.
  - change (is_derive (fun y => y) e 1). auto_derive; [exact I|reflexivity].
  - rewrite robust_exp_ok by lra. now apply is_derive_robust_exp.
  - rewrite robust_exp_ok by lra.
    change (is_derive (fun y => v + robust_exp y) e (exp e)).
    apply (is_derive_loc _ (fun y => v + exp y) (fun y => y < ln LARGE)); [now apply loc_lt| |].
    + intros y Hy. now rewrite robust_exp_ok by lra.
    + auto_derive; [exact I|ring].
  - destruct (Rtotal_order e 0) as [Hn|[-> |Hp]].
    + rewrite (proj2 (Rleb_true _ _)) by lra. rewrite robust_exp_ok by lra.
      apply (is_derive_loc _ robust_exp (fun y => y < 0)); [now apply loc_lt| |].
      * intros y Hy. cbn [link_inv]. now rewrite (proj2 (Rleb_true _ _)) by lra.
      * apply is_derive_robust_exp. lra.
    + rewrite (proj2 (Rleb_true _ _)) by lra. rewrite robust_exp_ok by lra.
      apply (is_derive_glue _ exp (fun y => y + 1)).
      * intros y Hy. cbn [link_inv]. rewrite (proj2 (Rleb_true _ _)) by lra.
        apply robust_exp_ok; lra.
      * intros y [Hy | <-]; cbn [link_inv].
        -- now rewrite (proj2 (Rleb_false _ _)) by lra.
        -- rewrite (proj2 (Rleb_true _ _)) by lra. rewrite robust_exp_ok by lra.
           rewrite exp_0. ring.
      * auto_derive; [exact I|ring].
      * rewrite exp_0. auto_derive; [exact I|ring].
    + rewrite (proj2 (Rleb_false _ _)) by lra.
      apply (is_derive_loc _ (fun y => y + 1) (fun y => 0 < y)); [now apply loc_gt| |].
      * intros y Hy. cbn [link_inv]. now rewrite (proj2 (Rleb_false _ _)) by lra.
      * auto_derive; [exact I|ring].
  - rewrite robust_exp_ok by lra.
    apply (is_derive_loc _ (fun y => exp y / (exp y + 1)) (fun y => y < ln LARGE)); [now apply loc_lt| |].
    + intros y Hy. cbn [link_inv]. now rewrite robust_exp_ok by lra.
    + pose proof (exp_pos e). auto_derive; [lra|]. field. lra.
  - change (is_derive (fun y => y ^ 2) e (2 * e)). auto_derive; [exact I|ring].
  - change (is_derive (fun y => v + y ^ 2) e (2 * e)). auto_derive; [exact I|ring].
  - rewrite robust_exp_ok by lra. pose proof (exp_pos (- e)).
    rewrite zsd_ok by (rewrite Rabs_right; lra). apply is_derive_softplus. lra.
  - rewrite robust_exp_ok by lra. pose proof (exp_pos (- e)).
    rewrite zsd_ok by (rewrite Rabs_right; lra).
    change (is_derive (fun y => robust_softplus y + v) e (1 / (exp (- e) + 1))).
    apply (is_derive_loc _ (fun y => ln (1 + exp y) + v) (fun y => y < 40)); [now apply loc_lt| |].
    + intros y Hy. unfold robust_softplus. now rewrite (proj2 (Rltb_false _ _)) by lra.
    + pose proof (exp_pos e). auto_derive; [lra|]. rewrite exp_Ropp. field. lra.
Qed.

Lemma C34_cap_lemma e :
  ln LARGE < e ->
  is_derive (link_inv Log) e 0 /\ link_inv_d Log e = 10 ^ 15 /\
  is_derive (link_inv Logit) e 0 /\ 0 < link_inv_d Logit e.
Proof.
  intros H. pose proof LARGE_gt1.
  split; [|split; [|split]].
  - apply (is_derive_loc _ (fun _ => LARGE) (fun y => ln LARGE < y)); [now apply loc_gt| |].
    + intros y Hy. cbn [link_inv]. unfold robust_exp. now rewrite (proj2 (Rltb_true _ _)).
    + auto_derive; [exact I|reflexivity].
  - cbn [link_inv_d]. unfold robust_exp. now rewrite (proj2 (Rltb_true _ _)).
  - apply (is_derive_loc _ (fun _ => LARGE / (LARGE + 1)) (fun y => ln LARGE < y)); [now apply loc_gt| |].
    + intros y Hy. cbn [link_inv]. unfold robust_exp. now rewrite (proj2 (Rltb_true _ _)).
    + auto_derive; [exact I|reflexivity].
  - cbn [link_inv_d]. pose proof (robust_exp_pos e).
    apply Rdiv_lt_0_compat; [lra|]. apply pow_lt. lra.
Qed.

Lemma C34_not_implemented_lemma x :
  link_d LogIdent x = Raise NotImplementedErr /\ link_d2 LogIdent x = Raise NotImplementedErr.
Proof. split; reflexivity. Qed.

(** C35 *)
Lemma C35_first_lemma x :
  SMALL < x < 40 ->
  exists d t, link_d InverseSoftPlus x = Ok (Some d) /\ d = Rmax (/ 10 ^ 15) (exp (- x)) /\
    has_derivative (link_fun InverseSoftPlus) x t /\ t = 1 / (1 - exp (- x)) /\ d < 1 < t.
Proof.
  intros H. pose proof SMALL_pos.
  assert (E1 : exp (- x) < 1). { rewrite <- exp_0. apply exp_increasing. lra. }
  pose proof (exp_pos (- x)).
  assert (HL : 0 < LARGE) by (pose proof LARGE_gt1; lra).
  eexists. exists (1 / (1 - exp (- x))).
  split; [reflexivity|]. replace (robust_exp x - 1 + 1) with (robust_exp x) by ring.
  assert (Hr : 1 <= robust_exp x).
  { rewrite robust_exp_clip. apply Rmin_glb; [pose proof LARGE_gt1; lra|].
    rewrite <- exp_0. apply exp_le. lra. }
  assert (Ed : zero_safe_division 1 (robust_exp x) = Rmax (/ 10 ^ 15) (exp (- x))).
  { rewrite zsd_ok by (rewrite Rabs_right; lra).
    rewrite robust_exp_clip, exp_Ropp. fold LARGE.
    destruct (Rle_dec LARGE (exp x)) as [Hc|Hc].
    - rewrite Rmin_left by lra. rewrite Rmax_left; [field; lra|]. apply Rinv_le_contravar; lra.
    - rewrite Rmin_right by lra. rewrite Rmax_right; [field; pose proof (exp_pos x); lra|].
      apply Rinv_le_contravar; [apply exp_pos|lra]. }
  split; [exact Ed|]. split; [|split; [reflexivity|split]].
  - pose proof (hd_isp 0 x ltac:(lra)) as K. replace (0 - x) with (- x) in K by ring.
    revert K. apply has_derivative_ext. intros y. cbn [link_fun]. now rewrite Rminus_0_r.
  - rewrite Ed. apply Rmax_lub_lt; lra.
  - apply Rmult_lt_reg_r with (1 - exp (- x)); [lra|].
    replace (1 / (1 - exp (- x)) * (1 - exp (- x))) with 1 by (field; lra). lra.
Qed.

Lemma C35_second_lemma x :
  SMALL < x <= / 20000 ->
  link_d2 InverseSoftPlus x = Ok (Some (10 ^ 15)) /\
  exists t, has_derivative2 (link_fun InverseSoftPlus) x t /\ t < 0.
Proof.
  intros H. pose proof SMALL_pos.
  assert (G1 : 1 < exp x) by (apply exp_gt1; lra).
  assert (G2 : exp x * (1 - x) <= 1).
  { pose proof (exp_ineq1_le (- x)) as G. rewrite exp_Ropp in G.
    apply Rmult_le_compat_l with (r := exp x) in G; [|lra].
    rewrite Rinv_r in G by lra. lra. }
  assert (Hpos : 0 < 2 * cosh x - 2).
  { rewrite two_cosh. apply Rdiv_lt_0_compat; [apply pow_lt; lra|lra]. }
  assert (Hsm : 2 * cosh x - 2 <= / 10 ^ 8).
  { rewrite two_cosh.
    assert (G3 : exp x <= 10001 / 10000) by nra.
    assert (G4 : exp x - 1 <= 6 / 100000) by nra.
    apply Rmult_le_reg_r with (exp x); [lra|].
    replace ((exp x - 1) ^ 2 / exp x * exp x) with ((exp x - 1) ^ 2) by (field; lra). nra. }
  split.
  - cbn [link_d2]. rewrite zsd_small by (rewrite Rabs_left; lra). reflexivity.
  - exists (1 / (2 - 2 * cosh x)). split.
    + pose proof (hd2_isp 0 x ltac:(lra)) as K.
      replace (cosh (0 - x)) with (cosh x) in K by (replace (0 - x) with (- x) by ring; now rewrite cosh_even).
      revert K. apply has_derivative2_ext. intros y. cbn [link_fun]. now rewrite Rminus_0_r.
    + assert (0 < 1 / (2 * cosh x - 2)) by (apply Rdiv_lt_0_compat; lra).
      replace (1 / (2 - 2 * cosh x)) with (- (1 / (2 * cosh x - 2))) by (field; lra). lra.
Qed.

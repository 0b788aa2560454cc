(** Lemmas for C43-C45. *)
From Coq Require Import Reals List Bool Arith ZArith Lra Lia Psatz.
From Coquelicot Require Import Coquelicot.
From Verif Require Import Base M_Links S_Links M_DistTable M_Dist S_Dist M_Mixed S_Mixed
  L_Links2 L_Dist1 L_Dist2 L_Dist3.
Import ListNotations.
Open Scope R_scope.

Lemma npdiv_some a b : b <> 0 -> npdiv a b = Some (a / b).
Proof. intros H. unfold npdiv. destruct (Reqb b 0) eqn:E; [apply Reqb_true in E; now elim H|reflexivity]. Qed.

Lemma nplog_some x : 0 < x -> nplog x = Some (ln x).
Proof. intros H. unfold nplog. now rewrite (proj2 (Rltb_true 0 x) H). Qed.

Lemma beta_b_form mu s : 0 < mu -> 0 < s -> mu * (1 - s ^ 2) / s ^ 2 * (1 - mu) / mu = (1 - mu) * (1 - s ^ 2) / s ^ 2.
Proof. intros. field. lra. Qed.

Ltac decide_tests :=
  repeat match goal with
  | |- context [Rltb ?a ?b] =>
      first [rewrite (proj2 (Rltb_true a b)) by lra | rewrite (proj2 (Rltb_false a b)) by lra]
  | |- context [Rleb ?a ?b] =>
      first [rewrite (proj2 (Rleb_true a b)) by lra | rewrite (proj2 (Rleb_false a b)) by lra]
  | |- context [Reqb ?a ?b] =>
      first [rewrite (proj2 (Reqb_true a b)) by lra
            | rewrite (proj2 (Reqb_false a b)) by (intros ?; lra)]
  end; cbn [andb orb].

(** C43 *)
Lemma ln_div_pos a b : 0 < a -> 0 < b -> ln (a / b) = ln a - ln b.
Proof. intros. unfold Rdiv. rewrite ln_mult, ln_Rinv by (auto using Rinv_0_lt_compat). ring. Qed.

Lemma C43_beta_inflated_lemma lgam bpdf gam y th :
  beta_density lgam bpdf -> valid_theta BetaInflated th -> 0 <= y <= 1 ->
  strictly_inside (mixed_pdf bpdf gam BetaInflated y th) (logpdf lgam BetaInflated y th).
Proof.
  intros Hd Hv Hy. rewrite (bi_value lgam y th Hv Hy).
  cbn [valid_theta] in Hv. destruct Hv as [[Hm Hs] [Hn Ht]].
  unfold strictly_inside, mixed_pdf. cbv zeta. rewrite !npdiv_some by lra.
  destruct (Req_dec y 0) as [-> | N0]; [|destruct (Req_dec y 1) as [-> | N1]].
  - decide_tests. eexists; split; [reflexivity|]. split; [pos|]. now rewrite ln_div_pos by lra.
  - decide_tests. eexists; split; [reflexivity|]. split; [pos|]. now rewrite ln_div_pos by lra.
  - decide_tests. eexists; split; [reflexivity|].
    destruct (Hd (beta_a (th 0%nat) (th 1%nat)) (beta_b (th 0%nat) (th 1%nat)) y) as [P L];
      [now apply beta_a_pos|now apply beta_b_pos|lra|].
    unfold beta_a, beta_b in P, L. split; [pos|].
    rewrite ln_div_pos by lra. rewrite L. unfold beta_form.
    change (th 0%nat * (1 - th 1%nat ^ 2) / th 1%nat ^ 2) with (beta_a (th 0%nat) (th 1%nat)).
    change ((1 - th 0%nat) * (1 - th 1%nat ^ 2) / th 1%nat ^ 2) with (beta_b (th 0%nat) (th 1%nat)).
    rewrite ?beta_ab by lra. f_equal; ring.
Qed.

Lemma C43_beta_inflated_zero_lemma lgam bpdf gam y th :
  beta_density lgam bpdf -> valid_theta BetaInflatedZero th -> 0 <= y < 1 ->
  strictly_inside (mixed_pdf bpdf gam BetaInflatedZero y th) (logpdf lgam BetaInflatedZero y th).
Proof.
  intros Hd Hv Hy. rewrite (biz_value lgam y th Hv Hy).
  cbn [valid_theta] in Hv. destruct Hv as [[Hm Hs] Hn].
  unfold strictly_inside, mixed_pdf. cbv zeta. rewrite !npdiv_some by lra.
  destruct (Req_dec y 0) as [-> | N0].
  - decide_tests. eexists; split; [reflexivity|]. split; [pos|]. now rewrite ln_div_pos by lra.
  - decide_tests. eexists; split; [reflexivity|].
    destruct (Hd (beta_a (th 0%nat) (th 1%nat)) (beta_b (th 0%nat) (th 1%nat)) y) as [P L];
      [now apply beta_a_pos|now apply beta_b_pos|lra|].
    unfold beta_a, beta_b in P, L. split; [pos|].
    rewrite ln_div_pos by lra. rewrite L. unfold beta_form.
    change (th 0%nat * (1 - th 1%nat ^ 2) / th 1%nat ^ 2) with (beta_a (th 0%nat) (th 1%nat)).
    change ((1 - th 0%nat) * (1 - th 1%nat ^ 2) / th 1%nat ^ 2) with (beta_b (th 0%nat) (th 1%nat)).
    rewrite ?beta_ab by lra. f_equal; ring.
Qed.

Lemma C43_zaga_lemma lgam bpdf gam y th :
  (forall x, 0 < x -> gam x = exp (lgam x)) -> valid_theta ZeroAdjustedGamma th -> 0 <= y ->
  strictly_inside (mixed_pdf bpdf gam ZeroAdjustedGamma y th) (logpdf lgam ZeroAdjustedGamma y th).
Proof.
  intros Hg Hv Hy. rewrite (zaga_value lgam y th Hv Hy).
  cbn [valid_theta] in Hv. destruct Hv as [[Hm Hs] Hn].
  unfold strictly_inside, mixed_pdf. cbv zeta.
  destruct (Req_dec y 0) as [-> | N0].
  - decide_tests. eexists; split; [reflexivity|]. split; [lra|reflexivity].
  - decide_tests.
    assert (Hc : 0 < th 0%nat * th 1%nat ^ 2) by pos.
    assert (Hx : 0 < y / (th 0%nat * th 1%nat ^ 2)) by pos.
    assert (Ha : 0 < 1 / th 1%nat ^ 2) by pos.
    unfold nppow. rewrite (proj2 (Rltb_true _ _) Hx). cbn [obind].
    assert (HG : 0 < gam (1 / th 1%nat ^ 2)) by (rewrite Hg by assumption; apply exp_pos).
    assert (Hyp : 0 < y) by lra.
    rewrite npdiv_some by (apply Rgt_not_eq; pos).
    eexists; split; [reflexivity|].
    assert (HP : 0 < Rpower (y / (th 0%nat * th 1%nat ^ 2)) (1 / th 1%nat ^ 2)) by apply exp_pos.
    assert (HE := exp_pos (- y / (th 0%nat * th 1%nat ^ 2))).
    assert (H1n : 0 < 1 - th 2%nat) by lra.
    split; [pos|]. f_equal.
    rewrite ln_div_pos by pos. rewrite !ln_mult by pos. unfold Rpower at 1. rewrite !ln_exp.
    rewrite Hg by assumption. rewrite ln_exp.
    rewrite ln_div_pos by lra. unfold gamma_form.
    rewrite ?ln_div_pos by lra. rewrite ?ln_mult by pos.
    rewrite ln_sq by lra. generalize (lgam (1 / th 1%nat ^ 2)). intros g. field. lra.
Qed.

(** LogNormal's own density. *)
Lemma C43_lognormal_lemma lgam bpdf gam y th :
  valid_theta LogNormal th -> 0 < y ->
  strictly_inside (mixed_pdf bpdf gam LogNormal y th) (logpdf lgam LogNormal y th).
Proof.
  intros Hv Hy. cbn [valid_theta] in Hv. unfold strictly_inside, mixed_pdf, logpdf. cbv zeta.
  assert (Hq : 0 < sqrt (2 * PI)) by (apply sqrt_lt_R0; pose proof PI_RGT_0; lra).
  rewrite !nplog_some by assumption. cbn [obind].
  assert (Hden : 0 < y * th 1%nat * sqrt (2 * PI)) by pos.
  rewrite npdiv_some by lra. cbn [omap obind].
  assert (H1 : 0 < 1 / (y * th 1%nat * sqrt (2 * PI))) by pos.
  rewrite ?nplog_some by assumption. cbn [omap].
  eexists; split; [reflexivity|]. split; [apply Rmult_lt_0_compat; [assumption|apply exp_pos]|].
  rewrite ln_mult by (auto using exp_pos). rewrite ln_exp.
  rewrite (Rltb_yes 0 y), (Rltb_yes 0 (th 1%nat)) by assumption. reflexivity.
Qed.

(** Off the support. *)
Lemma C43_off_support_lemma lgam bpdf gam y th :
  (valid_theta BetaInflated th -> y < 0 \/ 1 < y ->
     mixed_pdf bpdf gam BetaInflated y th = Some 0 /\ logpdf lgam BetaInflated y th = Some 0) /\
  (valid_theta BetaInflatedZero th -> y < 0 ->
     mixed_pdf bpdf gam BetaInflatedZero y th = Some 0 /\
     logpdf lgam BetaInflatedZero y th = Some (- ln (1 + th 2%nat))) /\
  (valid_theta ZeroAdjustedGamma th -> (forall x, 0 < x -> 0 < gam x) -> y < 0 -> th 1%nat = 1 ->
     (exists v, mixed_pdf bpdf gam ZeroAdjustedGamma y th = Some v /\ 0 < v) /\
     logpdf lgam ZeroAdjustedGamma y th = None).
Proof.
  split; [|split].
  - intros Hv Hy. unfold mixed_pdf, logpdf. cbv zeta.
    destruct Hy as [Hy|Hy].
    + rewrite (Rltb_yes y 0) by lra. cbn [orb]. split; reflexivity.
    + rewrite (Rltb_yes 1 y), (Rltb_no y 0) by lra. cbn [orb]. split; reflexivity.
  - intros Hv Hy. cbn [valid_theta] in Hv. unfold mixed_pdf, logpdf. cbv zeta.
    rewrite (Rltb_yes y 0), (Rltb_no 0 y), (Reqb_ne y 0) by lra. cbn [orb obind omap].
    rewrite nplog_some by lra. cbn [omap]. split; [reflexivity|]. f_equal. ring.
  - intros Hv Hg Hy E1. cbn [valid_theta] in Hv. destruct Hv as [[Hm Hs] Hn].
    unfold mixed_pdf, logpdf. cbv zeta. rewrite E1. rewrite (Reqb_ne y 0) by lra.
    replace (1 / 1 ^ 2) with 1 by field. replace (th 0%nat * 1 ^ 2) with (th 0%nat) by ring.
    assert (Hx : y / th 0%nat < 0).
    { assert (0 < (- y) / th 0%nat) by pos. unfold Rdiv in *. lra. }
    assert (HI : Int_part 1 = 1%Z).
    { pose proof (base_Int_part 1) as [A B]. apply le_IZR in A.
      assert (IZR (Int_part 1) > 0) by lra. apply Rgt_lt, lt_IZR in H. lia. }
    split.
    + unfold nppow. rewrite HI. rewrite (Rltb_no 0 (y / th 0%nat)), (Reqb_ne (y / th 0%nat) 0) by lra.
      rewrite (Reqb_refl 1). cbn [obind powerRZ]. change (Pos.to_nat 1) with 1%nat. rewrite pow_1.
      assert (G1 := Hg 1 ltac:(lra)).
      rewrite npdiv_some by (intros K; apply Rmult_integral in K; lra).
      eexists; split; [reflexivity|].
      replace ((1 - th 2%nat) * (y / th 0%nat) * exp (- y / th 0%nat) / (y * gam 1))
        with ((1 - th 2%nat) * exp (- y / th 0%nat) / (th 0%nat * gam 1)) by (field; lra).
      assert (HE := exp_pos (- y / th 0%nat)). assert (0 < 1 - th 2%nat) by lra. pos.
    + rewrite nplog_some by lra. cbn [obind]. unfold nplog.
      rewrite (Rltb_no 0 (y / th 0%nat)) by lra. reflexivity.
Qed.

(** logcdf is the logarithm of cdf. *)
Lemma C43_logcdf_lemma bcdf gcdf ncdf d y th :
  In d [BetaInflated; BetaInflatedZero; ZeroAdjustedGamma; LogNormal] ->
  valid_theta d th -> y_support d y ->
  (forall a b x, 0 <= bcdf a b x) -> (forall a b x, 0 <= gcdf a b x) -> (forall x, 0 < ncdf x) ->
  strictly_inside (mixed_cdf bcdf gcdf ncdf d y th) (mixed_logcdf bcdf gcdf ncdf d y th).
Proof.
  intros Hd Hv Hy Hb Hg Hn.
  cbn [In] in Hd. destruct Hd as [<- | [<- | [<- | [<- | []]]]];
    cbn [valid_theta y_support] in *; unfold strictly_inside, mixed_cdf, mixed_logcdf; cbv zeta.
  - destruct Hv as [[Hm Hs] [Hnu Ht]].
    rewrite beta_b_form by lra. rewrite (Rltb_no 1 y), (Rltb_no y 0) by lra.
    rewrite npdiv_some by lra. cbn [obind].
    eexists; split; [reflexivity|].
    match goal with |- context [bcdf ?a ?b y] => pose proof (Hb a b y) end.
    repeat rcase; cbn [andb] in *; try lra;
      match goal with |- 0 < ?x /\ _ => assert (0 < x) by pos; split; [assumption|now rewrite nplog_some by assumption] end.
  - destruct Hv as [[Hm Hs] Hnu].
    rewrite beta_b_form by lra. rewrite (proj2 (Rleb_false 1 y)), (Rltb_no y 0) by lra.
    rewrite npdiv_some by lra.
    match goal with |- context [bcdf ?a ?b y] => pose proof (Hb a b y) end.
    destruct (Req_dec y 0) as [-> | N].
    + decide_tests. rewrite npdiv_some by lra. cbn [obind].
      eexists; split; [reflexivity|].
      match goal with |- 0 < ?x /\ _ => assert (0 < x) by pos; split; [assumption|now rewrite nplog_some by assumption] end.
    + decide_tests. rewrite npdiv_some by lra. cbn [obind].
      eexists; split; [reflexivity|].
      match goal with |- 0 < ?x /\ _ => assert (0 < x) by pos; split; [assumption|now rewrite nplog_some by assumption] end.
  - destruct Hv as [[Hm Hs] Hnu].
    match goal with |- context [gcdf ?a ?b y] => pose proof (Hg a b y) as Hc end.
    rcase; eexists; (split; [reflexivity|]).
    + split; [lra|now rewrite nplog_some by lra].
    + match goal with |- 0 < ?x /\ _ => assert (0 < x) by nra; split; [assumption|now rewrite nplog_some by assumption] end.
  - rewrite nplog_some by assumption. cbn [omap obind]. eexists; split; [reflexivity|].
    split; [apply Hn|]. now rewrite nplog_some by apply Hn.
Qed.

(** C44 *)
Ltac cdfcases y :=
  let E := fresh "E" in let E' := fresh "E" in
  destruct (Rltb y 0) eqn:E; [apply Rltb_true in E|apply Rltb_false in E;
    destruct (Rleb 1 y) eqn:E'; [apply Rleb_true in E'|apply Rleb_false in E']].

Section Laws.
Variables (bcdf : R -> R -> R -> R) (bppf : R -> R -> R -> option R).
Variables (gcdf : R -> R -> R -> R) (gppf : R -> R -> R -> option R).
Variables (ncdf : R -> R) (nppf : R -> option R).
Hypothesis Hbeta : forall a b, 0 < a -> 0 < b -> law_on_unit (bcdf a b) (bppf a b).
Hypothesis Hgamma : forall a c, 0 < a -> 0 < c -> law_on_positive (gcdf a c) (gppf a c).
Hypothesis Hnorm : law_on_line ncdf nppf.

Lemma law_range F Q y : law_on_unit F Q -> 0 <= F y <= 1.
Proof.
  intros [M L H B _ _]. split.
  - destruct (Rle_dec y 0); [rewrite L; lra|]. rewrite <- (L 0) by lra. apply M; lra.
  - destruct (Rle_dec 1 y); [rewrite H; lra|]. left. apply B. lra.
Qed.

Lemma plaw_range F Q y : law_on_positive F Q -> 0 <= F y <= 1.
Proof.
  intros [M L H _]. split; [|left; apply H].
  destruct (Rle_dec y 0); [rewrite L; lra|]. rewrite <- (L 0) by lra. apply M; lra.
Qed.

Lemma div_mono a b c : 0 < c -> a <= b -> a / c <= b / c.
Proof. intros. apply Rmult_le_compat_r; [left; now apply Rinv_0_lt_compat|assumption]. Qed.

Lemma div_lt_iff a b c : 0 < c -> (a <= b / c <-> a * c <= b).
Proof.
  intros H. split; intros K.
  - apply (Rmult_le_compat_r c) in K; [|lra]. unfold Rdiv in K. rewrite Rmult_assoc, Rinv_l in K by lra. lra.
  - apply (Rmult_le_reg_r c); [lra|]. unfold Rdiv. rewrite Rmult_assoc, Rinv_l by lra. lra.
Qed.

Lemma div_le_one a c : 0 < c -> a <= c -> a / c <= 1.
Proof. intros. apply (Rmult_le_reg_r c); [lra|]. unfold Rdiv. rewrite Rmult_assoc, Rinv_l by lra. lra. Qed.

Definition bi_cdf (th : theta) (y : R) : R :=
  let nu := th 2%nat in let tau := th 3%nat in
  if Rltb y 0 then 0 else if Rleb 1 y then 1
  else (nu + bcdf (beta_a (th 0%nat) (th 1%nat)) (beta_b (th 0%nat) (th 1%nat)) y) / (1 + nu + tau).

Lemma C44_beta_inflated_lemma th :
  valid_theta BetaInflated th ->
  exists F : R -> R,
    (forall y, mixed_cdf bcdf gcdf ncdf BetaInflated y th = Some (F y)) /\
    nondecreasing F /\ (forall y, 0 <= F y <= 1) /\
    jump F 0 (th 2%nat / (1 + th 2%nat + th 3%nat)) /\
    jump F 1 (th 3%nat / (1 + th 2%nat + th 3%nat)) /\
    quantile_function (fun _ => True) F (fun q => mixed_ppf bppf gppf nppf BetaInflated q th).
Proof.
  intros Hv. cbn [valid_theta] in Hv. destruct Hv as [[Hm Hs] [Hn Ht]].
  assert (Ha := beta_a_pos _ _ Hm Hs). assert (Hb := beta_b_pos _ _ Hm Hs).
  pose proof (Hbeta _ _ Ha Hb) as Law.
  set (G := bcdf (beta_a (th 0%nat) (th 1%nat)) (beta_b (th 0%nat) (th 1%nat))) in *.
  assert (Hr : forall y, 0 <= G y <= 1) by (intros; eapply law_range; exact Law).
  destruct Law as [M L H B J Q].
  set (nu := th 2%nat) in *. set (tau := th 3%nat) in *. set (D := 1 + nu + tau).
  assert (HD : 0 < D) by (unfold D; lra).
  exists (bi_cdf th).
  assert (R01 : forall y, 0 <= bi_cdf th y <= 1).
  { intros y. unfold bi_cdf. cbv zeta. fold nu tau D G. repeat rcase; try lra.
    specialize (Hr y). split; [apply Rle_mult_inv_pos; lra|apply div_le_one; unfold D; lra]. }
  split; [|split; [|split; [exact R01|split; [|split]]]].
  - intros y. unfold mixed_cdf, bi_cdf. cbv zeta. fold nu tau D. rewrite beta_b_form by lra.
    change (th 0%nat * (1 - th 1%nat ^ 2) / th 1%nat ^ 2) with (beta_a (th 0%nat) (th 1%nat)).
    change ((1 - th 0%nat) * (1 - th 1%nat ^ 2) / th 1%nat ^ 2) with (beta_b (th 0%nat) (th 1%nat)).
    fold G. rewrite npdiv_some by lra.
    repeat rcase; cbn [andb]; try lra; try reflexivity; f_equal.
    + field. lra.
    + subst y. rewrite L by lra. f_equal. ring.
  - intros x y Hxy. unfold bi_cdf. cbv zeta. fold nu tau D G.
    pose proof (Hr x). pose proof (Hr y). pose proof (M _ _ Hxy).
    repeat rcase; try lra;
      first [ apply div_mono; lra | apply div_le_one; unfold D; lra | apply Rle_mult_inv_pos; lra ].
  - intros eps He. exists 1. split; [lra|]. intros y Hy. unfold bi_cdf. cbv zeta. fold nu tau D G.
    decide_tests. rewrite L by lra. rewrite Rplus_0_r, !Rminus_0_r, Rminus_diag_eq by reflexivity.
    now rewrite Rabs_R0.
  - intros eps He. destruct (J (eps * D)) as [delta [Hd K]]; [pos|].
    exists (Rmin delta 1). split; [apply Rmin_pos; lra|]. intros y Hy.
    pose proof (Rmin_l delta 1). pose proof (Rmin_r delta 1).
    unfold bi_cdf. cbv zeta. fold nu tau D G. decide_tests.
    specialize (K y ltac:(lra)). rewrite H in K by lra.
    replace (1 - (nu + G y) / D - tau / D) with ((1 - G y - 0) / D) by (unfold D; field; unfold D in HD; lra).
    unfold Rdiv. rewrite Rabs_mult, (Rabs_right (/ D)) by (left; now apply Rinv_0_lt_compat).
    apply (Rmult_lt_reg_r D); [lra|]. rewrite Rmult_assoc, Rinv_l by lra. lra.
  - intros q Hq.
    assert (Hlow : 0 < nu / D) by pos.
    assert (Hup : (1 + nu) / D < 1).
    { apply (Rmult_lt_reg_r D); [lra|]. unfold Rdiv. rewrite Rmult_assoc, Rinv_l by lra. unfold D. lra. }
    unfold mixed_ppf. cbv zeta. fold nu tau D.
    rewrite (Rltb_no q 0), (Rltb_no 1 q), (Reqb_ne q 0), (Reqb_ne q 1) by lra. cbn [orb].
    destruct (Rleb q (nu / D)) eqn:E.
    + apply Rleb_true in E. exists 0. split; [reflexivity|]. intros y _.
      unfold bi_cdf. cbv zeta. fold nu tau D G. cdfcases y; [split; lra|split; lra|].
      split; [intros _|lra]. eapply Rle_trans; [exact E|]. apply div_mono; [lra|]. specialize (Hr y). lra.
    + apply Rleb_false in E. destruct (Rleb ((1 + nu) / D) q) eqn:E2.
      * apply Rleb_true in E2. exists 1. split; [reflexivity|]. intros y _.
        unfold bi_cdf. cbv zeta. fold nu tau D G. cdfcases y; [split; lra|split; lra|].
        split; [lra|]. intros K. exfalso. assert (Hy1 : y < 1) by lra. pose proof (B y Hy1).
        assert ((nu + G y) / D < (1 + nu) / D).
        { apply Rmult_lt_compat_r; [now apply Rinv_0_lt_compat|lra]. }
        lra.
      * apply Rleb_false in E2.
        assert (A0 : 0 < (q - nu / D) * D) by (apply Rmult_lt_0_compat; lra).
        assert (EqD : (q - nu / D) * D = q * D - nu) by (field; lra).
        assert (A1 : (q - nu / D) * D < 1).
        { rewrite EqD. apply (Rmult_lt_compat_r D) in E2; [|lra].
          unfold Rdiv in E2. rewrite Rmult_assoc, Rinv_l in E2 by lra. lra. }
        destruct (Q _ (conj A0 A1)) as [x [Ex Kx]].
        exists x. split; [exact Ex|]. intros y _. specialize (Kx y I). rewrite Kx.
        unfold bi_cdf. cbv zeta. fold nu tau D G. rewrite EqD.
        rewrite EqD in A0, A1.
        cdfcases y; [rewrite L by lra; split; intros; lra|rewrite H by lra; split; intros; lra|].
        rewrite div_lt_iff by lra. split; lra.
Qed.

Definition biz_cdf (th : theta) (y : R) : R :=
  let nu := th 2%nat in
  if Rltb y 0 then 0 else if Rleb 1 y then 1
  else (nu + bcdf (beta_a (th 0%nat) (th 1%nat)) (beta_b (th 0%nat) (th 1%nat)) y) / (1 + nu).

Lemma C44_beta_inflated_zero_lemma th :
  valid_theta BetaInflatedZero th ->
  exists F : R -> R,
    (forall y, mixed_cdf bcdf gcdf ncdf BetaInflatedZero y th = Some (F y)) /\
    nondecreasing F /\ (forall y, 0 <= F y <= 1) /\
    jump F 0 (th 2%nat / (1 + th 2%nat)) /\ jump F 1 0 /\
    quantile_function (fun _ => True) F (fun q => mixed_ppf bppf gppf nppf BetaInflatedZero q th).
Proof.
  intros Hv. cbn [valid_theta] in Hv. destruct Hv as [[Hm Hs] Hn].
  assert (Ha := beta_a_pos _ _ Hm Hs). assert (Hb := beta_b_pos _ _ Hm Hs).
  pose proof (Hbeta _ _ Ha Hb) as Law.
  set (G := bcdf (beta_a (th 0%nat) (th 1%nat)) (beta_b (th 0%nat) (th 1%nat))) in *.
  assert (Hr : forall y, 0 <= G y <= 1) by (intros; eapply law_range; exact Law).
  destruct Law as [M L H B J Q].
  set (nu := th 2%nat) in *. set (D := 1 + nu).
  assert (HD : 0 < D) by (unfold D; lra).
  exists (biz_cdf th).
  assert (R01 : forall y, 0 <= biz_cdf th y <= 1).
  { intros y. unfold biz_cdf. cbv zeta. fold nu D G. repeat rcase; try lra.
    specialize (Hr y). split; [apply Rle_mult_inv_pos; lra|apply div_le_one; unfold D; lra]. }
  split; [|split; [|split; [exact R01|split; [|split]]]].
  - intros y. unfold mixed_cdf, biz_cdf. cbv zeta. fold nu D. rewrite beta_b_form by lra.
    change (th 0%nat * (1 - th 1%nat ^ 2) / th 1%nat ^ 2) with (beta_a (th 0%nat) (th 1%nat)).
    change ((1 - th 0%nat) * (1 - th 1%nat ^ 2) / th 1%nat ^ 2) with (beta_b (th 0%nat) (th 1%nat)).
    fold G. rewrite npdiv_some by lra.
    repeat rcase; cbn [andb]; try lra; try reflexivity; f_equal.
    subst y. rewrite L by lra. f_equal. ring.
  - intros x y Hxy. unfold biz_cdf. cbv zeta. fold nu D G.
    pose proof (Hr x). pose proof (Hr y). pose proof (M _ _ Hxy).
    repeat rcase; try lra;
      first [ apply div_mono; lra | apply div_le_one; unfold D; lra | apply Rle_mult_inv_pos; lra ].
  - intros eps He. exists 1. split; [lra|]. intros y Hy. unfold biz_cdf. cbv zeta. fold nu D G.
    decide_tests. rewrite L by lra. rewrite Rplus_0_r, !Rminus_0_r, Rminus_diag_eq by reflexivity.
    now rewrite Rabs_R0.
  - intros eps He. destruct (J (eps * D)) as [delta [Hd K]]; [pos|].
    exists (Rmin delta 1). split; [apply Rmin_pos; lra|]. intros y Hy.
    pose proof (Rmin_l delta 1). pose proof (Rmin_r delta 1).
    unfold biz_cdf. cbv zeta. fold nu D G. decide_tests.
    specialize (K y ltac:(lra)). rewrite H in K by lra.
    replace (1 - (nu + G y) / D - 0) with ((1 - G y - 0) / D) by (unfold D; field; unfold D in HD; lra).
    unfold Rdiv. rewrite Rabs_mult, (Rabs_right (/ D)) by (left; now apply Rinv_0_lt_compat).
    apply (Rmult_lt_reg_r D); [lra|]. rewrite Rmult_assoc, Rinv_l by lra. lra.
  - intros q Hq.
    assert (Hlow : 0 < nu / D) by pos.
    unfold mixed_ppf. cbv zeta. fold nu D.
    rewrite (Rltb_no q 0), (Rltb_no 1 q), (Reqb_ne q 0), (Reqb_ne q 1) by lra. cbn [orb].
    destruct (Rleb q (nu / D)) eqn:E.
    + apply Rleb_true in E. exists 0. split; [reflexivity|]. intros y _.
      unfold biz_cdf. cbv zeta. fold nu D G. cdfcases y; [split; lra|split; lra|].
      split; [intros _|lra]. eapply Rle_trans; [exact E|]. apply div_mono; [lra|]. specialize (Hr y). lra.
    + apply Rleb_false in E.
      assert (A0 : 0 < (q - nu / D) * D) by (apply Rmult_lt_0_compat; lra).
      assert (EqD : (q - nu / D) * D = q * D - nu) by (field; lra).
      assert (A1 : (q - nu / D) * D < 1).
      { rewrite EqD. unfold D. nra. }
      destruct (Q _ (conj A0 A1)) as [x [Ex Kx]].
      exists x. split; [exact Ex|]. intros y _. specialize (Kx y I). rewrite Kx.
      unfold biz_cdf. cbv zeta. fold nu D G. rewrite EqD.
      rewrite EqD in A0, A1.
      cdfcases y; [rewrite L by lra; split; intros; lra|rewrite H by lra; split; intros; lra|].
      rewrite div_lt_iff by lra. split; lra.
Qed.

Lemma C44_zaga_lemma th :
  valid_theta ZeroAdjustedGamma th ->
  exists F : R -> R,
    (forall y, mixed_cdf bcdf gcdf ncdf ZeroAdjustedGamma y th = Some (F y)) /\
    nondecreasing F /\ (forall y, 0 <= F y <= 1) /\ F 0 = th 2%nat /\
    quantile_function (fun y => 0 <= y) F (fun q => mixed_ppf bppf gppf nppf ZeroAdjustedGamma q th).
Proof.
  intros Hv. cbn [valid_theta] in Hv. destruct Hv as [[Hm Hs] Hn].
  assert (Ha : 0 < 1 / th 1%nat ^ 2) by pos. assert (Hc : 0 < th 0%nat * th 1%nat ^ 2) by pos.
  pose proof (Hgamma _ _ Ha Hc) as Law.
  set (G := gcdf (1 / th 1%nat ^ 2) (th 0%nat * th 1%nat ^ 2)) in *.
  assert (Hr : forall y, 0 <= G y <= 1) by (intros; eapply plaw_range; exact Law).
  destruct Law as [M L H Q].
  set (nu := th 2%nat) in *.
  exists (fun y => nu + (1 - nu) * G y).
  split; [|split; [|split; [|split]]].
  - intros y. unfold mixed_cdf. cbv zeta. fold nu G. rcase; [|reflexivity].
    subst y. rewrite L by lra. f_equal. ring.
  - intros x y Hxy. pose proof (M _ _ Hxy). nra.
  - intros y. specialize (Hr y). split; nra.
  - rewrite L by lra. ring.
  - intros q Hq. unfold mixed_ppf. cbv zeta. fold nu.
    destruct (Rleb q nu) eqn:E.
    + apply Rleb_true in E. exists 0. split; [reflexivity|]. intros y Hy.
      specialize (Hr y). split; [intros _; nra|intros _; lra].
    + apply Rleb_false in E.
      assert (A0 : 0 < (q - nu) / (1 - nu)) by (apply Rdiv_lt_0_compat; lra).
      assert (A1 : (q - nu) / (1 - nu) < 1).
      { apply (Rmult_lt_reg_r (1 - nu)); [lra|]. unfold Rdiv. rewrite Rmult_assoc, Rinv_l by lra. lra. }
      destruct (Q _ (conj A0 A1)) as [x [Ex Kx]]. exists x. split; [exact Ex|].
      intros y _. rewrite (Kx y I).
      assert (Eq : q = nu + (1 - nu) * ((q - nu) / (1 - nu))) by (field; lra).
      rewrite Eq at 2. generalize ((q - nu) / (1 - nu)). intros r. split; intros; nra.
Qed.

Lemma C44_lognormal_lemma th :
  valid_theta LogNormal th ->
  forall q, 0 < q < 1 ->
    exists x, mixed_ppf bppf gppf nppf LogNormal q th = Some x /\ 0 < x /\
      forall y, 0 < y ->
        exists v, mixed_cdf bcdf gcdf ncdf LogNormal y th = Some v /\ (x <= y <-> q <= v).
Proof.
  intros Hv q Hq. cbn [valid_theta] in Hv. destruct Hnorm as [M _ _ Q].
  destruct (Q q Hq) as [z [Ez Kz]].
  unfold mixed_ppf, mixed_cdf. cbv zeta. rewrite Ez. cbn [omap].
  eexists; split; [reflexivity|]. split; [apply exp_pos|].
  intros y Hy. rewrite nplog_some by assumption. cbn [omap]. eexists; split; [reflexivity|].
  rewrite <- (Kz _ I). rewrite div_lt_iff by lra. split; intros K.
  - assert (th 0%nat + th 1%nat * z <= ln y); [|lra].
    rewrite <- (exp_ln y Hy) in K. destruct (Rle_dec (th 0%nat + th 1%nat * z) (ln y)); [assumption|].
    exfalso. assert (exp (ln y) < exp (th 0%nat + th 1%nat * z)) by (apply exp_increasing; lra). lra.
  - rewrite <- (exp_ln y Hy).
    assert (K2 : th 0%nat + th 1%nat * z <= ln y) by lra.
    destruct K2 as [K2|K2]; [left; now apply exp_increasing|right; now rewrite K2].
Qed.

(** C45 *)
Lemma C45_below_lemma th y :
  (valid_theta ZeroAdjustedGamma th -> y < 0 ->
     mixed_cdf bcdf gcdf ncdf ZeroAdjustedGamma y th = Some (th 2%nat) /\ 0 < th 2%nat) /\
  (y < 0 -> mixed_cdf bcdf gcdf ncdf BetaInflated y th = Some 0 /\
            mixed_cdf bcdf gcdf ncdf BetaInflatedZero y th = Some 0) /\
  (1 < y -> mixed_cdf bcdf gcdf ncdf BetaInflated y th = Some 1 /\
            mixed_cdf bcdf gcdf ncdf BetaInflatedZero y th = Some 1).
Proof.
  split; [|split].
  - intros Hv Hy. cbn [valid_theta] in Hv. destruct Hv as [[Hm Hs] Hn].
    assert (Ha : 0 < 1 / th 1%nat ^ 2) by pos. assert (Hc : 0 < th 0%nat * th 1%nat ^ 2) by pos.
    split; [|lra]. unfold mixed_cdf. cbv zeta. rewrite Reqb_ne by lra.
    rewrite (lp_low _ _ (Hgamma _ _ Ha Hc)) by lra. f_equal. ring.
  - intros Hy. unfold mixed_cdf. cbv zeta. rewrite (Rltb_no 1 y), (Rltb_yes y 0), (proj2 (Rleb_false 1 y)) by lra.
    split; reflexivity.
  - intros Hy. unfold mixed_cdf. cbv zeta. rewrite (Rltb_yes 1 y), (proj2 (Rleb_true 1 y)) by lra.
    split; reflexivity.
Qed.
End Laws.

Lemma C45_bad_level_lemma bppf gppf nppf th q :
  (q < 0 -> valid_theta ZeroAdjustedGamma th -> mixed_ppf bppf gppf nppf ZeroAdjustedGamma q th = Some 0) /\
  (q < 0 \/ 1 < q -> mixed_ppf bppf gppf nppf BetaInflated q th = None /\
                     mixed_ppf bppf gppf nppf BetaInflatedZero q th = None).
Proof.
  split.
  - intros Hq Hv. cbn [valid_theta] in Hv. unfold mixed_ppf. cbv zeta.
    now rewrite (proj2 (Rleb_true q (th 2%nat))) by lra.
  - intros [H|H]; unfold mixed_ppf; cbv zeta.
    + rewrite (Rltb_yes q 0) by lra. split; reflexivity.
    + rewrite (Rltb_yes 1 q) by lra. rewrite orb_true_r. split; reflexivity.
Qed.

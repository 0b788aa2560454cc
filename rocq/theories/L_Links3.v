(** Monotonicity of the links and the support check. *)
From Coq Require Import Reals List Lra Lia Bool Classical.
From Coquelicot Require Import Coquelicot.
From Verif Require Import Base M_Links S_Links L_Links L_Links2 M_DistTable.
Import ListNotations.
Open Scope R_scope.

Lemma Rmax_mono a x y : x <= y -> Rmax a x <= Rmax a y.
Proof. intros. apply Rmax_lub; [apply Rmax_l|]. eapply Rle_trans; [eassumption|apply Rmax_r]. Qed.
Lemma Rmin_mono a x y : x <= y -> Rmin a x <= Rmin a y.
Proof. intros. apply Rmin_glb; [apply Rmin_l|]. eapply Rle_trans; [apply Rmin_r|eassumption]. Qed.

Lemma robust_log_mono x y : x <= y -> robust_log x <= robust_log y.
Proof.
  intros H. rewrite !robust_log_clip. apply ln_le'; [|now apply Rmax_mono].
  pose proof (Rmax_l SMALL x). pose proof SMALL_pos. lra.
Qed.
Lemma robust_exp_mono x y : x <= y -> robust_exp x <= robust_exp y.
Proof. intros H. rewrite !robust_exp_clip. apply Rmin_mono. now apply exp_le. Qed.

Lemma exp_small_bound : exp (- (30)) <= exp SMALL - 1.
Proof.
  pose proof (exp_ineq1_le SMALL) as A. pose proof SMALL_pos.
  assert (B : exp (- (30)) <= SMALL); [|lra].
  rewrite exp_Ropp.
  replace SMALL with (/ (10 ^ 10)) by reflexivity.
  apply Rinv_le_contravar; [lra|].
  (* e^30 = (e^3)^10 and e^3 >= 16 *)
  assert (E : exp 30 = exp 1 ^ 30).
  { rewrite <- (Rpower_pow 30 (exp 1)) by apply exp_pos. unfold Rpower. rewrite ln_exp. f_equal. cbn [INR]. ring. }
  rewrite E.
  assert (C : 5 / 2 <= exp 1).
  { pose proof (exp_ineq1_le (1 / 2)) as Q.
    assert (Q2 : exp 1 = exp (1 / 2) * exp (1 / 2)) by (rewrite <- exp_plus; f_equal; lra).
    assert (Q3 : exp (1 / 2) = exp (1 / 4) * exp (1 / 4)) by (rewrite <- exp_plus; f_equal; lra).
    assert (Q4 : exp (1 / 4) = exp (1 / 8) * exp (1 / 8)) by (rewrite <- exp_plus; f_equal; lra).
    pose proof (exp_ineq1_le (1 / 8)) as Q5.
    assert (Q6 : 81 / 64 <= exp (1 / 4)) by (rewrite Q4; nra).
    assert (Q7 : 6561 / 4096 <= exp (1 / 2)) by (rewrite Q3; nra).
    rewrite Q2. nra. }
  apply Rle_trans with ((5 / 2) ^ 30); [lra|].
  apply pow_incr. lra.
Qed.

Lemma softplus_inverse_mono x y :
  x <= y -> robust_softplus_inverse x <= robust_softplus_inverse y.
Proof.
  intros H. pose proof SMALL_pos as HS. unfold robust_softplus_inverse.
  assert (Hlow : forall z, SMALL <= z -> - (30) <= ln (exp z - 1)).
  { intros z Hz. rewrite <- (ln_exp (- (30))). apply ln_le'; [apply exp_pos|].
    pose proof exp_small_bound. pose proof (exp_le _ _ Hz). lra. }
  assert (HS1 : SMALL < 1) by apply SMALL_lt1.
  repeat rcase; try lra.
  all: first
    [ apply Hlow; lra
    | pose proof (lnexpm1_lt x ltac:(lra)); lra
    | apply ln_le'; [pose proof (exp_gt1 x ltac:(lra)); lra | pose proof (exp_le _ _ H); lra] ].
Qed.

Lemma C36_link_mono_lemma l x y a b :
  x <= y -> (l = Logit -> y < 1) ->
  link_fun l x = Some a -> link_fun l y = Some b -> a <= b.
Proof.
  intros H HL. pose proof SMALL_lt1 as HS1. pose proof SMALL_pos as HS.
  destruct l as [| |v| | | |v| |v]; cbn [link_fun].
  - intros [= <-] [= <-]. exact H.
  - intros [= <-] [= <-]. now apply robust_log_mono.
  - intros [= <-] [= <-]. apply robust_log_mono. lra.
  - intros [= <-] [= <-]. repeat rcase.
    + now apply robust_log_mono.
    + rewrite robust_log_clip.
      assert (ln (Rmax SMALL x) <= 0).
      { rewrite <- ln_1. apply ln_le'; [pose proof (Rmax_l SMALL x); lra|apply Rmax_lub; lra]. }
      lra.
    + lra.
    + lra.
  - specialize (HL eq_refl). rewrite !npdiv_ok by (intros ?; lra). cbn [omap].
    intros [= <-] [= <-]. apply robust_log_mono.
    assert (E : forall z, z < 1 -> z / (1 - z) = / (1 - z) - 1) by (intros; field; lra).
    rewrite !E by lra. assert (/ (1 - x) <= / (1 - y)) by (apply Rinv_le_contravar; lra). lra.
  - unfold npsqrt. repeat rcase; try discriminate. intros [= <-] [= <-]. now apply sqrt_le_1_alt.
  - unfold npsqrt. repeat rcase; try discriminate. intros [= <-] [= <-]. apply sqrt_le_1_alt. lra.
  - intros [= <-] [= <-]. now apply softplus_inverse_mono.
  - intros [= <-] [= <-]. apply softplus_inverse_mono. lra.
Qed.

Lemma regular_logit l x : regular_value l x -> l = Logit -> x < 1.
Proof. intros H ->. cbn in H. lra. Qed.

Lemma C36_link_strict_lemma l x y a b :
  x < y -> regular_value l x -> regular_value l y ->
  link_fun l x = Some a -> link_fun l y = Some b -> a < b.
Proof.
  intros H Hx Hy Ha Hb.
  destruct (C31_round_trip_lemma l x Hx) as (a' & Ea & Ia).
  destruct (C31_round_trip_lemma l y Hy) as (b' & Eb & Ib).
  rewrite Ha in Ea. rewrite Hb in Eb. injection Ea as <-. injection Eb as <-.
  pose proof (C36_link_mono_lemma l x y a b ltac:(lra) (regular_logit l y Hy) Ha Hb) as [L | ->]; [exact L|].
  lra.
Qed.

Lemma softplus_mono_low x y : x <= y -> y <= 40 -> robust_softplus x <= robust_softplus y.
Proof.
  intros H H'. unfold robust_softplus.
  rewrite (proj2 (Rltb_false _ _)), (proj2 (Rltb_false _ _)) by lra.
  apply ln_le'; [pose proof (exp_pos x); lra|]. pose proof (exp_le _ _ H). lra.
Qed.

Lemma C36_inverse_mono_lemma l e e' :
  e <= e' ->
  match l with
  | Sqrt | SqrtShiftValue _ => 0 <= e
  | InverseSoftPlus | InverseSoftPlusShiftValue _ => e' <= 40 \/ 40 < e
  | _ => True
  end ->
  link_inv l e <= link_inv l e'.
Proof.
  intros H. pose proof (robust_exp_mono e e' H) as HE.
  pose proof (robust_exp_pos e) as P1. pose proof (robust_exp_pos e') as P2.
  destruct l as [| |v| | | |v| |v]; cbn [link_inv]; intros HH; try lra.
  - repeat rcase; try lra.
    rewrite robust_exp_clip. eapply Rle_trans; [apply Rmin_r|].
    eapply Rle_trans; [apply (exp_le e 0); lra|]. rewrite exp_0. lra.
  - assert (E : forall z, 0 < z -> z / (z + 1) = 1 - / (z + 1)) by (intros; field; lra).
    rewrite !E by assumption.
    assert (/ (robust_exp e' + 1) <= / (robust_exp e + 1)) by (apply Rinv_le_contravar; lra). lra.
  - nra.
  - nra.
  - destruct HH as [HH|HH]; [now apply softplus_mono_low|].
    unfold robust_softplus. rewrite !(proj2 (Rltb_true _ _)) by lra. lra.
  - apply Rplus_le_compat_r. destruct HH as [HH|HH]; [now apply softplus_mono_low|].
    unfold robust_softplus. rewrite !(proj2 (Rltb_true _ _)) by lra. lra.
Qed.

Lemma regular_softplus_le e : e <= ln (exp 40 - 1) -> robust_softplus e <= 40.
Proof.
  intros H. pose proof (lnexpm1_lt 40 ltac:(lra)). unfold robust_softplus.
  rewrite (proj2 (Rltb_false _ _)) by lra. rewrite <- (ln_exp 40).
  pose proof (exp_pos e). apply ln_le'; [lra|].
  apply exp_le in H. rewrite exp_ln in H; [lra|]. pose proof (exp_gt1 40 ltac:(lra)). lra.
Qed.

Lemma softplus_strict e e' :
  e < e' ->
  ln (exp SMALL - 1) <= e <= ln (exp 40 - 1) \/ 40 < e ->
  ln (exp SMALL - 1) <= e' <= ln (exp 40 - 1) \/ 40 < e' ->
  robust_softplus e < robust_softplus e'.
Proof.
  intros H H1 H2. pose proof (lnexpm1_lt 40 ltac:(lra)).
  destruct H2 as [H2|H2].
  - assert (H3 : e <= 40) by lra.
    unfold robust_softplus. rewrite !(proj2 (Rltb_false _ _)) by lra.
    apply ln_increasing; [pose proof (exp_pos e); lra|].
    pose proof (exp_increasing _ _ H). lra.
  - destruct H1 as [H1|H1].
    + pose proof (regular_softplus_le e ltac:(lra)).
      unfold robust_softplus at 2. rewrite (proj2 (Rltb_true _ _)) by lra. lra.
    + unfold robust_softplus. rewrite !(proj2 (Rltb_true _ _)) by lra. lra.
Qed.

Lemma C36_inverse_strict_lemma l e e' :
  e < e' -> regular_predictor l e -> regular_predictor l e' -> link_inv l e < link_inv l e'.
Proof.
  intros H.
  destruct l as [| |v| | | |v| |v]; cbn [regular_predictor link_inv]; intros H1 H2.
  - exact H.
  - rewrite !robust_exp_ok by lra. now apply exp_increasing.
  - rewrite !robust_exp_ok by lra. apply Rplus_lt_compat_l. now apply exp_increasing.
  - pose proof LOG_LARGE_pos as HL. unfold LOG_LARGE in HL. repeat rcase; try lra.
    + rewrite !robust_exp_ok by lra. now apply exp_increasing.
    + rewrite !robust_exp_ok by lra. pose proof (exp_le e 0 ltac:(lra)) as Q. rewrite exp_0 in Q. lra.
  - rewrite !robust_exp_ok by lra. pose proof (exp_increasing _ _ H). pose proof (exp_pos e).
    assert (E : forall z, 0 < z -> z / (z + 1) = 1 - / (z + 1)) by (intros; field; lra).
    rewrite !E by lra.
    assert (/ (exp e' + 1) < / (exp e + 1)) by (apply Rinv_lt_contravar; nra). lra.
  - nra.
  - nra.
  - now apply softplus_strict.
  - apply Rplus_lt_compat_r. now apply softplus_strict.
Qed.

Lemma C36_softplus_drop_lemma :
  exists e e', 40 <= e < e' /\ link_inv InverseSoftPlus e' < link_inv InverseSoftPlus e.
Proof.
  pose proof (ln1pexp_gt 40) as H.
  exists 40, ((40 + ln (1 + exp 40)) / 2). split; [lra|]. cbn [link_inv]. unfold robust_softplus.
  rewrite (proj2 (Rltb_true _ _)), (proj2 (Rltb_false 40 40)) by lra. lra.
Qed.

Lemma C36_logit_refuted_lemma :
  exists a b, link_fun Logit (1 / 2) = Some a /\ link_fun Logit 2 = Some b /\ b < a.
Proof.
  pose proof LOG_SMALL_neg. pose proof SMALL_lt1.
  exists 0, LOG_SMALL. cbn [link_fun].
  rewrite !npdiv_ok by (intros ?; lra). cbn [omap]. repeat split; try lra.
  - f_equal. replace (1 / 2 / (1 - 1 / 2)) with 1 by lra. rewrite robust_log_ok by lra. apply ln_1.
  - f_equal. unfold robust_log. rewrite (proj2 (Rltb_false _ _)); [reflexivity|].
    pose proof SMALL_pos. lra.
Qed.

(** C37 *)
Lemma bound_lower_ok a b :
  bound_ltb a b = false -> forall x, above a x -> above b x.
Proof.
  destruct a, b; cbn; try discriminate; try tauto.
  intros H x. apply Rltb_false in H. lra.
Qed.
Lemma bound_upper_ok a b :
  bound_ltb a b = false -> forall x, below b x -> below a x.
Proof.
  destruct a, b; cbn; try discriminate; try tauto.
  intros H x. apply Rltb_false in H. lra.
Qed.

Lemma bound_lower_conv (ls ps : support) :
  (exists x, in_support ls x) -> (forall x, in_support ls x -> above (fst ps) x) ->
  bound_ltb (fst ls) (fst ps) = false.
Proof.
  destruct ls as [lo hi], ps as [plo phi]; unfold in_support; cbn [fst snd].
  intros [x [H1 H2]] H.
  destruct lo as [|l0|], plo as [|p0|]; cbn in *; try reflexivity; try tauto.
  - exfalso. specialize (H (Rmin x (p0 - 1))).
    assert (below hi (Rmin x (p0 - 1))).
    { destruct hi as [|h0|]; cbn in *; auto. eapply Rle_trans; [apply Rmin_l|assumption]. }
    specialize (H (conj I H0)). pose proof (Rmin_r x (p0 - 1)). lra.
  - exfalso. apply (H x). tauto.
  - apply Rltb_false.
    destruct (Rle_dec p0 l0) as [|Hn]; [assumption|exfalso].
    assert (below hi l0).
    { destruct hi as [|h0|]; cbn in *; auto. lra. }
    specialize (H l0 (conj (Rle_refl _) H0)). lra.
  - exfalso. apply (H x). tauto.
Qed.

Lemma bound_upper_conv (ls ps : support) :
  (exists x, in_support ls x) -> (forall x, in_support ls x -> below (snd ps) x) ->
  bound_ltb (snd ps) (snd ls) = false.
Proof.
  destruct ls as [lo hi], ps as [plo phi]; unfold in_support; cbn [fst snd].
  intros [x [H1 H2]] H.
  destruct hi as [|l0|], phi as [|p0|]; cbn in *; try reflexivity; try tauto.
  - exfalso. apply (H x). tauto.
  - apply Rltb_false.
    destruct (Rle_dec l0 p0) as [|Hn]; [assumption|exfalso].
    assert (above lo l0).
    { destruct lo as [|h0|]; cbn in *; auto. lra. }
    specialize (H l0 (conj H0 (Rle_refl _))). lra.
  - exfalso. apply (H x). tauto.
  - exfalso. specialize (H (Rmax x (p0 + 1))).
    assert (above lo (Rmax x (p0 + 1))).
    { destruct lo as [|h0|]; cbn in *; auto. eapply Rle_trans; [eassumption|apply Rmax_l]. }
    specialize (H (conj H0 I)). pose proof (Rmax_r x (p0 + 1)). lra.
Qed.

Lemma validate_link_iff p (ls ps : support) :
  (exists x, in_support ls x) -> (validate_link p ls ps = [] <-> contained ls ps).
Proof.
  intros Hne. unfold validate_link, contained. split.
  - intros H x [H1 H2]. apply app_eq_nil in H as [A B].
    destruct (bound_ltb (fst ls) (fst ps)) eqn:E1; [discriminate|].
    destruct (bound_ltb (snd ps) (snd ls)) eqn:E2; [discriminate|].
    split; [eapply bound_lower_ok; eauto|eapply bound_upper_ok; eauto].
  - intros H.
    rewrite (bound_lower_conv ls ps Hne) by (intros x Hx; apply (H x Hx)).
    rewrite (bound_upper_conv ls ps Hne) by (intros x Hx; apply (H x Hx)).
    reflexivity.
Qed.

Lemma C37_warns_lemma lss :
  List.Forall (fun e => exists x, in_support (fst (snd e)) x) lss ->
  (validate_links lss = [] <->
   List.Forall (fun e => contained (fst (snd e)) (snd (snd e))) lss).
Proof.
  induction lss as [|[p [ls ps]] t IH]; intros H; cbn [validate_links].
  - split; auto.
  - inversion H as [|? ? Hx Ht]; subst; cbn [fst snd] in Hx.
    specialize (IH Ht). pose proof (validate_link_iff p ls ps Hx) as V.
    split.
    + intros E. apply app_eq_nil in E as [A B]. constructor; [apply V, A|apply IH, B].
    + intros E. inversion E; subst. cbn [fst snd] in *.
      rewrite (proj2 V), (proj2 IH) by assumption. reflexivity.
Qed.

Lemma C37_which_bool lss p :
  (In (LowerOutside p) (validate_links lss) <->
   exists ls ps : support, In (p, (ls, ps)) lss /\ bound_ltb (fst ls) (fst ps) = true) /\
  (In (UpperOutside p) (validate_links lss) <->
   exists ls ps : support, In (p, (ls, ps)) lss /\ bound_ltb (snd ps) (snd ls) = true).
Proof.
  induction lss as [|[q [ls ps]] t [IH1 IH2]]; cbn [validate_links].
  - split; split; intros H; try contradiction; destruct H as (? & ? & [] & _).
  - unfold validate_link. split; split.
    + rewrite !in_app_iff. intros [[H|H]|H].
      * destruct (bound_ltb (fst ls) (fst ps)) eqn:E; [|contradiction].
        destruct H as [[= ->]|[]]. exists ls, ps. split; [now left|assumption].
      * destruct (bound_ltb (snd ps) (snd ls)) eqn:E; [|contradiction]. destruct H as [H|[]]; discriminate.
      * apply IH1 in H as (l' & p' & Hin & Hb). exists l', p'. split; [now right|assumption].
    + intros (l' & p' & [[= -> -> ->]|Hin] & Hb); rewrite !in_app_iff.
      * left; left. rewrite Hb. now left.
      * right. apply IH1. eauto.
    + rewrite !in_app_iff. intros [[H|H]|H].
      * destruct (bound_ltb (fst ls) (fst ps)) eqn:E; [|contradiction]. destruct H as [H|[]]; discriminate.
      * destruct (bound_ltb (snd ps) (snd ls)) eqn:E; [|contradiction].
        destruct H as [[= ->]|[]]. exists ls, ps. split; [now left|assumption].
      * apply IH2 in H as (l' & p' & Hin & Hb). exists l', p'. split; [now right|assumption].
    + intros (l' & p' & [[= -> -> ->]|Hin] & Hb); rewrite !in_app_iff.
      * left; right. rewrite Hb. now left.
      * right. apply IH2. eauto.
Qed.

Lemma C37_which_lemma lss p :
  List.Forall (fun e => exists x, in_support (fst (snd e)) x) lss ->
  (In (LowerOutside p) (validate_links lss) <->
   exists ls ps : support, In (p, (ls, ps)) lss /\ exists x, in_support ls x /\ ~ above (fst ps) x) /\
  (In (UpperOutside p) (validate_links lss) <->
   exists ls ps : support, In (p, (ls, ps)) lss /\ exists x, in_support ls x /\ ~ below (snd ps) x).
Proof.
  intros Hne. rewrite List.Forall_forall in Hne.
  destruct (C37_which_bool lss p) as [B1 B2]. split.
  - rewrite B1. split; intros (ls & ps & Hin & Hb); exists ls, ps; (split; [exact Hin|]).
    + apply NNPP. intros Hno. rewrite (bound_lower_conv ls ps) in Hb; [discriminate| |].
      * exact (Hne _ Hin).
      * intros x Hx. apply NNPP. intros Hn. apply Hno. eauto.
    + destruct Hb as (x & Hx & Hn). destruct (bound_ltb (fst ls) (fst ps)) eqn:E; [reflexivity|].
      destruct Hn. eapply bound_lower_ok; [exact E|apply Hx].
  - rewrite B2. split; intros (ls & ps & Hin & Hb); exists ls, ps; (split; [exact Hin|]).
    + apply NNPP. intros Hno. rewrite (bound_upper_conv ls ps) in Hb; [discriminate| |].
      * exact (Hne _ Hin).
      * intros x Hx. apply NNPP. intros Hn. apply Hno. eauto.
    + destruct Hb as (x & Hx & Hn). destruct (bound_ltb (snd ps) (snd ls)) eqn:E; [reflexivity|].
      destruct Hn. eapply bound_upper_ok; [exact E|apply Hx].
Qed.

Lemma C37_defaults_lemma d :
  length (default_links d) = n_params d /\ construct (default_links d) d = [].
Proof.
  split; [destruct d; reflexivity|].
  destruct d; unfold construct, construct_with, validate_link, LogShiftTwo;
    cbn [default_links map parameter_support combine number link_support
         validate_links whole positive unit_open];
    unfold validate_link, whole, positive, unit_open, LogShiftTwo;
    cbn [fst snd bound_ltb link_support];
    repeat match goal with
           | |- context [Rltb ?a ?a] => rewrite (proj2 (Rltb_false a a)) by lra
           end;
    try rewrite (proj2 (Rltb_false (2 + next0) next0)) by lra;
    reflexivity.
Qed.

Lemma next0_pos : 0 < next0.
Proof. unfold next0. apply powerRZ_lt. lra. Qed.

Lemma next0_le_prev1 : next0 <= prev1.
Proof.
  unfold next0, prev1.
  assert (A : powerRZ 2 (-1074) = powerRZ 2 (-53) * powerRZ 2 (-1021)).
  { rewrite <- powerRZ_add by lra. reflexivity. }
  assert (B : powerRZ 2 (-53) <= / 2).
  { change (powerRZ 2 (-53)) with (/ 2 ^ 53). apply Rinv_le_contravar; lra. }
  assert (C : 0 < powerRZ 2 (-53)) by (apply powerRZ_lt; lra).
  assert (D : powerRZ 2 (-1021) <= 1).
  { change (powerRZ 2 (-1021)) with (/ 2 ^ Pos.to_nat 1021).
    rewrite <- Rinv_1. apply Rinv_le_contravar; [lra|]. apply pow_R1_Rle. lra. }
  rewrite A. nra.
Qed.

Lemma link_support_nonempty l : exists x, in_support (link_support l) x.
Proof.
  pose proof next0_le_prev1.
  destruct l as [| |v| | | |v| |v]; unfold in_support;
    cbn [link_support whole positive unit_open fst snd above below].
  1: exists 0; tauto.
  all: first [exists next0; split; cbn [above below]; try exact I; lra
             | exists (v + next0); split; cbn [above below]; try exact I; lra].
Qed.

Lemma Forall_number {A} (P : A -> Prop) l k :
  List.Forall (fun e => P (snd e)) (number k l) <-> List.Forall P l.
Proof.
  revert k; induction l as [|a l IH]; intros k; cbn [number]; split; intros H; auto;
    inversion H; subst; constructor; auto; now apply (IH (S k)).
Qed.

Lemma C37_construct_lemma links d :
  length links = n_params d ->
  (construct links d = [] <->
   List.Forall (fun e => contained (link_support (fst e)) (snd e)) (combine links (parameter_support d))).
Proof.
  intros _. unfold construct, construct_with.
  rewrite C37_warns_lemma.
  - rewrite (Forall_number (fun e => contained (fst e) (snd e))).
    generalize (parameter_support d).
    induction links as [|l links IH]; intros [|p ps]; cbn [map combine]; split; intros H; auto;
      inversion H; subst; constructor; auto; now apply IH.
  - apply (Forall_number (fun e => exists x, in_support (fst e) x)).
    generalize (parameter_support d).
    induction links as [|l links IH]; intros [|p ps]; cbn [map combine]; constructor; auto.
    cbn [fst]. apply link_support_nonempty.
Qed.

Lemma C37_sqrt_gap_lemma :
  construct [Identity; Sqrt] Normal = [] /\
  ~ in_support positive (link_inv Sqrt 0).
Proof.
  pose proof next0_pos. split.
  - unfold construct, construct_with, validate_link;
      cbn [map parameter_support combine number link_support validate_links].
    unfold validate_link, whole, positive; cbn [fst snd bound_ltb].
    rewrite (proj2 (Rltb_false next0 next0)) by lra. reflexivity.
  - unfold in_support, positive; cbn [fst snd above below link_inv]. lra.
Qed.

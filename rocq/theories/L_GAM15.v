(** Lemmas: fit and streams of updates as weighted least squares; the Normal location. *)
From Coq Require Import Reals List Bool Arith ZArith Lra Lia.
From Verif Require Import Base Lin Data M_Gram S_Gram L_Gram M_OLS L_OLS M_Scaler M_Utils M_Links M_DistTable M_Dist M_Init M_State M_LM M_Equation S_Equation L_Equation M_GAMLSS M_GAMDist S_LM S_GAMLSS.
From Verif Require Import L_GAM1 L_GAM2 L_GAM8 L_GAM9 L_GAM10 L_GAM11 L_GAM12 L_GAM13 L_GAM14.
Import ListNotations.
Open Scope R_scope.

Lemma nth_map_oy l i o : nth_error l i = Some o -> nth i (ys l) 0 = oy o /\ nth i (ws l) 0 = ow o /\ nth i (Xs l) (fun _ => 0) = ox o.
Proof.
  revert i. induction l as [|a l IH]; intros [|i] H; cbn in *; try discriminate; [injection H as ->; auto|]. apply IH, H.
Qed.
Lemma arrays_row {M} (c : gam_cfg M) pr ncol sc X A p i : arrays c pr ncol (map (scaler_transform sc) X) = Ok A -> (p < d_n (o_dist c))%nat ->
  (i < length X)%nat -> selects (p_eq pr p) (p_icpt pr p) ncol ->
  row_of (design_width pr ncol p) (nth i (snd (A p)) (fun _ => 0)) =
  model_row (p_eq pr p) (p_icpt pr p) ncol (scaler_transform sc (nth i X (fun _ => 0))).
Proof.
  intros EA Hp Hi Hsel. rewrite <- (arrays_width c pr ncol _ A p EA Hp). apply (arrays_model c pr ncol _ A p EA) in Hp.
  destruct (C56_model_lemma (p_eq pr p) (p_icpt pr p) ncol (map (scaler_transform sc) X) Hsel) as (rows & E & Er & _).
  rewrite E in Hp. injection Hp as Hp. rewrite <- Hp. cbn [fst snd].
  set (k := length (model_row (p_eq pr p) (p_icpt pr p) ncol (fun _ => 0))) in *.
  assert (Hl : length rows = length X).
  { apply (f_equal (@length _)) in Er. rewrite !map_length in Er. exact Er. }
  apply (f_equal (fun l => nth i l [])) in Er.
  rewrite (nth_indep _ [] (row_of k (fun _ => 0))) in Er by (rewrite map_length; lia).
  rewrite map_nth in Er. rewrite Er. rewrite map_map.
  rewrite (nth_indep _ [] (model_row (p_eq pr p) (p_icpt pr p) ncol (scaler_transform sc (fun _ => 0)))) by (rewrite map_length; lia).
  exact (map_nth (fun x => model_row (p_eq pr p) (p_icpt pr p) ncol (scaler_transform sc x)) X (fun _ => 0) i).
Qed.
Lemma working_rows_of d p fl pr ncol sc X fv rows V A (c : gam_cfg unit) : o_dist c = d ->
  arrays c pr ncol (map (scaler_transform sc) (Xs rows)) = Ok A -> (p < d_n d)%nat -> X = snd (A p) -> length V = length rows ->
  (forall i v o, nth_error V i = Some v -> oy o = nth i (ys rows) 0 -> ow o = nth i (ws rows) 0 ->
      ox v = nth i X (fun _ => 0) /\ working_obs d p fl (nth i fv (fun _ => 0)) o v) ->
  List.Forall2 (working_row d p fl pr ncol sc) rows V.
Proof.
  intros <- EA Hp -> Hl H. apply Forall2_nth_error; [congruence|]. intros i o v Ho Hv.
  destruct (nth_map_oy rows i o Ho) as (E1 & E2 & E3).
  destruct (H i v o Hv (eq_sym E1) (eq_sym E2)) as [Kx K]. split; [exists (nth i fv (fun _ => 0)); exact K|].
  intros Hsel. rewrite Kx, <- E3. apply (arrays_row c pr ncol sc (Xs rows) A p i EA Hp); [|exact Hsel].
  unfold Xs. rewrite map_length. apply nth_error_Some. congruence.
Qed.
Lemma weights_list l : weights_nonneg l -> List.Forall (fun a => 0 <= a) (ws l).
Proof. unfold weights_nonneg, ws. rewrite Forall_map. auto. Qed.

Section Stream.
Context (inv : nat -> mat -> option mat) (c : gam_cfg unit).
Hypothesis Hinv : matinv_spec inv.
Notation d := (o_dist c).
Notation ops := (ols_ops inv).

Lemma C84_fit_lemma b s s' pr p : gam_fit ops c b s = (s', Ok tt) -> cycles s' <> Some O ->
  rowwise d -> o_cond_start c = false -> weights_nonneg (b_rows b) ->
  s_prep s' = Some pr -> (p < d_n d)%nat -> 0 <= p_forget pr p < 1 ->
  exists V sc, s_scaler s' = Some (Some sc) /\ List.Forall2 (working_row d p weight_floor pr (b_p b) sc) (b_rows b) V /\
    least_squares_state s' pr (b_p b) p V.
Proof.
  intros H Hcy Hrw Hcs Hwn Epr' Hp Hf. apply gam_fit_ok in H.
  destruct H as (pr' & methods & fv & js & sc & X & w & dv & n & Epr & _ & _ & _ & _ & Efv & _ & _ & EX & Eo & ->).
  cbn in Epr'. injection Epr' as ->. cbn in Hcy.
  set (e := start_env c pr b X) in *.
  assert (Hlw : length (e_w e) = length (e_y e)) by (cbn; now rewrite ws_length, ys_length).
  assert (Hw : List.Forall (fun a => 0 <= a) (e_w e)) by (apply weights_list, Hwn).
  apply (outer_fit_shaped ops e Hcs (fun q w => q = p ->
     exists V, List.Forall2 (working_row d p weight_floor pr (b_p b) sc) (b_rows b) V /\ solved_by (design_width pr (b_p b) p) (p_forget pr p) w p V)) in Eo.
  - destruct Eo as [_ [Eo|Eo]]; [exfalso; apply Hcy; now rewrite Eo|].
    destruct (Eo p ltac:(eapply prepare_order; eauto) eq_refl) as (V & K1 & K2).
    exists V, sc. split; [reflexivity|]. split; [exact K1|]. split; [reflexivity|]. split; [reflexivity|]. exists w. auto.
  - intros q t s1 s2 s3 qc it io i step dvo fv1 pth Hq Hs L1 F1 F3 Hc ->.
    pose proof (fit_candidate_wls inv e Hinv Hlw Hw p io i step dvo fv1 pth s1 s2 qc Hf Hc L1 (proj2 Hs p Hq)) as K.
    cbv zeta in K. destruct K as (V & E4 & HV & HI & Hh & Hb & K).
    assert (Ew : fst (e_X e p) = design_width pr (b_p b) p) by (apply (arrays_width c pr (b_p b) _ X p EX Hq)).
    rewrite Ew in HI, Hb. change (p_forget (e_prep e) p) with (p_forget pr p) in *.
    exists V. split.
    + eapply (working_rows_of d p _ pr (b_p b) sc _ fv1 (b_rows b) V X c eq_refl EX Hq eq_refl); [rewrite E4; cbn; apply ys_length|exact K].
    + unfold set_itinner, store_fit, write. cbn [fst]. split; [exact HV|]. split; cbn [w_x w_y w_coef]; unfold fupd; rewrite Nat.eqb_refl.
      * exists (c_x qc), (c_y qc). auto.
      * rewrite Hb. apply wls_of_parts; auto.
  - intros q t t' E1 E2 E3 _ _ _ _ HL ->. destruct (HL eq_refl) as (V & K1 & K2 & K3 & K4). exists V. split; [exact K1|]. split; [exact K2|].
    rewrite E1, E2, E3. auto.
  - split; [cbn; rewrite ys_length; rewrite (Hrw _ _ Efv); apply ys_length|].
    intros q Hq. cbn. rewrite (arrays_rows c pr (b_p b) _ X q EX Hq), map_length, Xs_length, ys_length. reflexivity.
Qed.

Lemma C84_update_lemma b s s' pr ncol p V : gam_update ops c b s = (s', Ok tt) -> cycles s' <> Some O ->
  weights_nonneg (b_rows b) -> In p (p_order pr) -> (p < d_n d)%nat -> 0 <= p_forget pr p < 1 -> concave_in d p ->
  least_squares_state s pr ncol p V ->
  exists V' sc, s_scaler s' = Some (Some sc) /\ List.Forall2 (working_row d p (- weight_ceiling) pr ncol sc) (b_rows b) V' /\
    least_squares_state s' pr ncol p (V ++ V').
Proof.
  intros H Hcy Hwn Hord Hp Hf Hcv (Epr & Enf & w0 & Ew0 & HV0 & HG & _).
  pose proof (gam_update_shaped ops c b s s' H) as Hsh. apply gam_update_ok in H.
  destruct H as (n0 & pr' & fv & sc0 & sc & X & w0' & w1 & w & dev0 & it0 & isreg & dv & n &
    Hn & _ & Hnf & _ & _ & E1 & E2 & _ & E3 & E4 & E5 & Efv & _ & EX & Ew & Eo & ->).
  rewrite Epr in E2. injection E2 as <-. rewrite Ew0 in E3. injection E3 as <-. specialize (Hnf _ Enf). subst ncol. cbn in Hcy.
  pose proof (again_work_fields c pr b fv w0 w1 Ew) as (F1 & _ & _ & F3 & F4 & _).
  set (e := again_env c pr isreg n0 b X) in *.
  assert (Hlw : length (e_w e) = length (e_y e)) by (cbn; now rewrite ws_length, ys_length).
  assert (Hw : List.Forall (fun a => 0 <= a) (e_w e)) by (apply weights_list, Hwn).
  assert (S0 : shaped e w1).
  { split; cbn [again_env e_y e_X e_cfg e].
    - rewrite F1. destruct (predict_parameters c true (b_p b) (Xs (b_rows b)) s) as [s2 out] eqn:P. cbn in Efv. subst out.
      apply predict_parameters_ok in P. destruct P as (sc1 & pr1 & A & w2 & _ & _ & _ & _ & _ & _ & _ & _ & _ & ->).
      rewrite map_length, seq_length, Xs_length. cbn. now rewrite ys_length.
    - intros q Hq. cbn. rewrite (arrays_rows c pr (b_p b) _ X q EX Hq), map_length, Xs_length, ys_length. reflexivity. }
  apply (outer_update_all ops e dev0 (fun w => shaped e w /\ w_x w = w_x w0 /\ w_y w = w_y w0) (fun q w => q = p ->
     exists V', List.Forall2 (working_row d p (- weight_ceiling) pr (b_p b) sc) (b_rows b) V' /\
       solved_by (design_width pr (b_p b) p) (p_forget pr p) (commit_work w) p (V ++ V'))) in Eo; [| | |split; [exact S0|split; congruence]].
  - destruct Eo as [_ [Eo|Eo]]; [exfalso; apply Hcy; now rewrite Eo|].
    destruct (Eo p Hord eq_refl) as (V' & K1 & K2).
    exists V', sc. split; [reflexivity|]. split; [exact K1|]. split; [reflexivity|]. split; [exact Enf|]. exists (commit_work w). auto.
  - intros q io t t' r (Hs & Ex & Ey) Hin. apply inner_update_shaped in Hin; [|exact Hs].
    destruct Hin as (Hs' & Hq & qc & it & j & fv1 & s1 & s2 & s3 & sumw & Hl & G1 & G3 & Hc & _ & _ & ->).
    split.
    { split; [exact Hs'|]. unfold store_update, write. cbn [fst w_x w_y]. unfold loop_frame in G3. split; congruence. }
    intros ->. 
    pose proof (update_candidate_wls inv e Hlw Hw dev0 p io j fv1 s1 s2 qc V Hf Hcv Hc Hl (proj2 Hs p Hq) ltac:(cbn; rewrite ys_length; lia)) as K.
    cbv zeta in K.
    assert (Ewd : fst (e_X e p) = design_width pr (b_p b) p) by (apply (arrays_width c pr (b_p b) _ X p EX Hq)).
    rewrite Ewd in K. change (p_forget (e_prep e) p) with (p_forget pr p) in *.
    destruct K as (V' & L4 & HV & HI & Hh & Hb & K); [exact HV0| |].
    { destruct HG as (G & h & EG & Eh & HG). exists G, h. unfold loop_frame in G1. split; [congruence|]. split; [congruence|exact HG]. }
    exists V'. split.
    + eapply (working_rows_of d p _ pr (b_p b) sc _ fv1 (b_rows b) V' X c eq_refl EX Hq eq_refl); [rewrite L4; cbn; apply ys_length|exact K].
    + unfold store_update, write, commit_work. cbn [fst]. split; [exact HV|]. split; cbn [w_x w_y w_xn w_yn w_coef]; unfold fupd; rewrite Nat.eqb_refl.
      * exists (c_x qc), (c_y qc). auto.
      * rewrite Hb. apply wls_of_parts; auto.
  - intros q q' io t t' r Hne (Hs & _) HL Hin ->. destruct (HL eq_refl) as (V' & K1 & K2 & K3 & K4).
    exists V'. split; [exact K1|]. apply inner_update_shaped in Hin; [|exact Hs].
    destruct Hin as (_ & _ & qc & it & j & fv1 & s1 & s2 & s3 & sumw & _ & _ & G3 & _ & _ & _ & ->).
    split; [exact K2|]. unfold commit_work, store_update, write in *. cbn [fst w_x w_y w_xn w_yn w_coef] in *. unfold fupd.
    replace (Nat.eqb p q') with false by (symmetry; apply Nat.eqb_neq; congruence).
    unfold loop_frame in G3. replace (w_xn s3) with (w_xn t) by congruence. replace (w_yn s3) with (w_yn t) by congruence.
    replace (w_coef s3) with (w_coef t) by congruence. auto.
Qed.

Lemma Forall2_weaken {A B} (P Q : A -> B -> Prop) l m : (forall a b, P a b -> Q a b) -> List.Forall2 P l m -> List.Forall2 Q l m.
Proof. intros K. induction 1; constructor; auto. Qed.
Lemma C84_stream_lemma bs pr ncol p : In p (p_order pr) -> (p < d_n d)%nat -> 0 <= p_forget pr p < 1 -> concave_in d p ->
  forall s s', updates_run ops c s bs s' -> List.Forall (fun b => weights_nonneg (b_rows b)) bs ->
  forall V, least_squares_state s pr ncol p V ->
  exists V', List.Forall2 (some_row d pr ncol p (- weight_ceiling)) (stream bs) V' /\ least_squares_state s' pr ncol p (V ++ V').
Proof.
  intros Ho Hp Hf Hcv s s' H. induction H as [s|s b s1 bs s' H Hc Hr IH]; intros Hw V HV.
  - exists []. split; [constructor|]. now rewrite app_nil_r.
  - inversion Hw as [|? ? Hb Hbs]; subst. destruct (C84_update_lemma b s s1 pr ncol p V H Hc Hb Ho Hp Hf Hcv HV) as (V1 & sc & _ & K1 & K2).
    destruct (IH Hbs _ K2) as (V2 & K3 & K4). exists (V1 ++ V2). split.
    + unfold stream. cbn [map concat]. apply Forall2_app; [|exact K3].
      eapply Forall2_weaken; [|exact K1]. intros o v K. exists sc. exact K.
    + now rewrite app_assoc.
Qed.
End Stream.

(** * The Normal distribution *)
Section Normal.
Variables (lgam dg tg : R -> R) (fit_t : list R -> R * R * R) (fit_jsu : list R -> R * R * R * R).
Variable gi : bool.
Variables (ppf : dist -> R -> vec -> option R) (cond : dist -> list R -> list vec -> nat -> res (list vec)).
Notation ship := (shipped_default lgam dg tg fit_t fit_jsu gi ppf cond).

Lemma shipped_rowwise D links : rowwise (shipped lgam dg tg fit_t fit_jsu gi ppf cond D links).
Proof.
  intros y fv H. cbn in H. apply all_some_inv in H. apply (f_equal (@length _)) in H. rewrite !map_length in H. congruence.
Qed.
Definition normal_variance (D : dist) (th : vec) : R := match D with Normal => th 1%nat ^ 2 | _ => th 1%nat end.
Lemma normal_parts D y th h : D = Normal \/ D = NormalMeanVariance -> d_dl2 (ship D) 0 y th = Some h ->
  0 < normal_variance D th /\ h = - (1 / normal_variance D th) /\
  d_dl1 (ship D) 0 y th = Some ((y - th 0%nat) / normal_variance D th).
Proof.
  intros HD H. destruct HD as [-> | ->]; cbn in *; unfold guarded in *; rcase; cbn in H; try discriminate; injection H as <-;
    (split; [nra|]); (split; [field; lra|]); f_equal; field; lra.
Qed.
Lemma normal_concave D : D = Normal \/ D = NormalMeanVariance -> concave_in (ship D) 0.
Proof.
  intros HD y th h H. destruct (normal_parts D y th h HD H) as (H1 & -> & _).
  assert (0 < 1 / normal_variance D th) by (apply Rdiv_lt_0_compat; lra). lra.
Qed.
Lemma pow10_pos : 0 < 10 ^ 10. Proof. apply pow_lt. lra. Qed.
Lemma normal_working D pr ncol fl o v : D = Normal \/ D = NormalMeanVariance -> fl <= 1 / 10 ^ 10 ->
  some_row (ship D) pr ncol 0 fl o v -> normal_row pr ncol 0 o v.
Proof.
  intros HD Hfl (sc & (th & eta & a & h & K1 & K2 & K3 & K4) & Hrow).
  destruct (normal_parts D _ _ _ HD K3) as (Hv & -> & E). rewrite E in K2. injection K2 as <-.
  set (s2 := normal_variance D th) in *. exists s2, sc. split; [exact Hv|]. split; [|exact Hrow].
  intros [Hr1 Hr2].
  assert (Ed : d_dinv (ship D) 0 eta = 1 /\ eta = th 0%nat).
  { destruct HD as [-> | ->]; cbn in K1 |- *; injection K1 as <-; auto. }
  destruct Ed as [Ed ->]. rewrite Ed in K4. cbv zeta in K4.
  pose proof pow10_pos as HP.
  assert (E1 : 1 / 10 ^ 10 <= 1 / s2) by (apply Rmult_le_compat_l; [lra|]; apply Rinv_le_contravar; lra).
  assert (E2 : 1 / s2 <= 10 ^ 10).
  { replace (10 ^ 10) with (1 / (1 / 10 ^ 10)) by (field; lra). apply Rmult_le_compat_l; [lra|]. apply Rinv_le_contravar; [|lra].
    apply Rdiv_lt_0_compat; lra. }
  replace (- - (1 / s2) * 1 ^ 2) with (1 / s2) in K4 by ring.
  rewrite Rmax_right in K4 by lra. rewrite Rmin_right in K4 by lra. destruct K4 as [Kw Kz].
  split; [|rewrite Kw; field; lra].
  assert (oy v - th 0%nat = oy o - th 0%nat); [|lra].
  apply (Rmult_eq_reg_l (1 / s2)); [rewrite Kz; field; lra|]. apply Rgt_not_eq, Rdiv_lt_0_compat; lra.
Qed.

Lemma C79_lemma inv (c : gam_cfg unit) D b bs s s1 s' pr : matinv_spec inv -> D = Normal \/ D = NormalMeanVariance -> o_dist c = ship D ->
  o_cond_start c = false ->
  gam_fit (ols_ops inv) c b s = (s1, Ok tt) -> cycles s1 <> Some O -> updates_run (ols_ops inv) c s1 bs s' ->
  weights_nonneg (b_rows b) -> List.Forall (fun b => weights_nonneg (b_rows b)) bs ->
  s_prep s1 = Some pr -> 0 <= p_forget pr 0%nat < 1 ->
  exists V, List.Forall2 (normal_row pr (b_p b) 0) (b_rows b ++ stream bs) V /\ least_squares_state s' pr (b_p b) 0 V.
Proof.
  intros Hi HD Ed Hcs Hfit Hcy Hrun Hw Hws Epr Hf.
  assert (Hp : (0 < d_n (o_dist c))%nat) by (rewrite Ed; destruct HD as [-> | ->]; cbn; lia).
  assert (Hrw : rowwise (o_dist c)) by (rewrite Ed; apply shipped_rowwise).
  destruct (C84_fit_lemma inv c Hi b s s1 pr 0 Hfit Hcy Hrw Hcs Hw Epr Hp Hf) as (V & sc & _ & K1 & K2).
  assert (Hord : In 0%nat (p_order pr)).
  { apply gam_fit_ok in Hfit. destruct Hfit as (pr' & methods & fv & js & sc' & X & w & dv & n & Epr' & _ & _ & _ & _ & _ & _ & _ & _ & _ & ->).
    cbn in Epr. injection Epr as ->. eapply prepare_order; eauto. }
  assert (Hcv : concave_in (o_dist c) 0) by (rewrite Ed; apply normal_concave, HD).
  destruct (C84_stream_lemma inv c bs pr (b_p b) 0 Hord Hp Hf Hcv s1 s' Hrun Hws V K2) as (V' & K3 & K4).
  exists (V ++ V'). split; [|exact K4]. pose proof pow10_pos as HP.
  assert (0 < 1 / 10 ^ 10) by (apply Rdiv_lt_0_compat; lra).
  apply Forall2_app; rewrite Ed in K1, K3.
  - eapply Forall2_weaken; [|exact K1]. intros o v K. apply (normal_working D pr (b_p b) weight_floor); auto; [unfold weight_floor; lra|exists sc; exact K].
  - eapply Forall2_weaken; [|exact K3]. intros o v K. apply (normal_working D pr (b_p b) (- weight_ceiling)); auto. unfold weight_ceiling. lra.
Qed.
End Normal.

(** * C63: the sum of weights after fit *)
Lemma fit_candidate_weights {M} (ops : method_ops M) (e : env M) p io it step dvo fv path s s' q :
  fit_candidate ops e p io it step dvo fv path s = (s', Ok q) ->
  exists eta g, working e false p fv = Ok (eta, g) /\ c_wt q = g_wt g.
Proof.
  intros H. unfold fit_candidate in H.
  peel_as H wk s1 P1. apply lift_inv in P1. destruct P1 as [-> Hw]. destruct wk as [eta g].
  peel_as H u s2 P2. destruct (e_X e p) as [k X].
  peel_as H xg s3 P3. peel_as H m s4 P4. peel_as H r s5 P5. destruct r as [[beta path'] msd].
  peel_as H u2 s6 P6. peel_as H fv0 s7 P7. peel_as H dv s8 P8. apply ret_inv in H. destruct H as [_ <-].
  exists eta, g. auto.
Qed.
Lemma C63_fit_lemma {M} (ops : method_ops M) (c : gam_cfg M) b s s' pr p :
  gam_fit ops c b s = (s', Ok tt) -> cycles s' <> Some O -> rowwise (o_dist c) -> o_cond_start c = false ->
  s_prep s' = Some pr -> (p < d_n (o_dist c))%nat ->
  exists wts, List.Forall2 (working_weight (o_dist c) p weight_floor) (b_rows b) wts /\
    weight_sum s' p = Some (lsum (map2 Rmult (ws (b_rows b)) wts)).
Proof.
  intros H Hcy Hrw Hcs Epr' Hp. apply gam_fit_ok in H.
  destruct H as (pr' & methods & fv & js & sc & X & w & dv & n & Epr & _ & _ & _ & _ & Efv & _ & _ & EX & Eo & ->).
  cbn in Epr'. injection Epr' as ->. cbn in Hcy.
  set (e := start_env c pr b X) in *.
  apply (outer_fit_shaped ops e Hcs (fun q w => q = p ->
     exists wts, List.Forall2 (working_weight (o_dist c) p weight_floor) (b_rows b) wts /\ w_sum w p = Some (lsum (map2 Rmult (ws (b_rows b)) wts)))) in Eo.
  - destruct Eo as [_ [Eo|Eo]]; [exfalso; apply Hcy; now rewrite Eo|].
    destruct (Eo p ltac:(eapply prepare_order; eauto) eq_refl) as (wts & K1 & K2). exists wts. split; [exact K1|exact K2].
  - intros q t s1 s2 s3 qc it io i step dvo fv1 pth Hq Hs L1 F1 F3 Hc ->.
    apply fit_candidate_weights in Hc. destruct Hc as (eta & g & Hw & E).
    exists (g_wt g). split.
    + assert (Ey : length (e_y e) = length (b_rows b)) by (cbn; apply ys_length).
      destruct (working_rows _ _ _ _ _ _ Hw ltac:(congruence)) as (_ & L & _ & K).
      apply Forall2_nth_error; [congruence|]. intros j o wt Ho' Hwt.
      assert (Hi : (j < length (b_rows b))%nat) by (apply nth_error_Some; congruence).
      destruct (K j ltac:(congruence)) as (a1 & a2 & K1 & _ & K2 & K3 & _).
      destruct (nth_map_oy _ _ _ Ho') as [Eo' _].
      cbn [start_env e_y e_cfg e] in *. rewrite Eo' in K2.
      exists (nth j fv1 (fun _ => 0)), (nth j eta 0), a2. split; [exact K1|]. split; [exact K2|].
      unfold weight_floor. rewrite <- (weight_meaning false). rewrite <- K3. symmetry. apply nth_error_nth. exact Hwt.
    + unfold set_itinner, store_fit, write. cbn [fst w_sum]. unfold fupd. rewrite Nat.eqb_refl, E. reflexivity.
  - intros q t t' _ _ _ _ E5 _ _ HL ->. destruct (HL eq_refl) as (wts & K1 & K2). exists wts. split; [exact K1|congruence].
  - split; [cbn; rewrite ys_length; rewrite (Hrw _ _ Efv); apply ys_length|].
    intros q Hq. cbn. rewrite (arrays_rows c pr (b_p b) _ X q EX Hq), map_length, Xs_length, ys_length. reflexivity.
Qed.

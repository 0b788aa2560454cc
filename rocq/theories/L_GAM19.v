(** Lemmas: what the model selection compares, for whole calls. *)
From Coq Require Import Reals List Bool Arith ZArith Lra Lia.
From Verif Require Import Base Lin Data M_Gram S_Gram L_Gram M_OLS L_OLS M_Scaler M_Utils M_Links M_State M_LM M_Equation S_Equation L_Equation M_GAMLSS S_GAMLSS S_GAMSelect.
From Verif Require Import L_GAM1 L_GAM2 L_GAM8 L_GAM9 L_GAM10 L_GAM11 L_GAM12 L_GAM13 L_GAM14 L_GAM15 L_GAM18.
Import ListNotations.
Open Scope R_scope.

Lemma Forall2_len {A B} (Q : A -> B -> Prop) l m : List.Forall2 Q l m -> length l = length m.
Proof. induction 1; cbn; congruence. Qed.

Section Calls.
Context {M : Type} (ops : method_ops M) (c : gam_cfg M).
Notation d := (o_dist c).
Hypothesis Hb : op_path_based ops = true.

Lemma C118_fit_rss_lemma b s s' pr p : o_global_ll c = false -> gam_fit ops c b s = (s', Ok tt) -> cycles s' <> Some O ->
  rowwise d -> o_cond_start c = false -> weights_nonneg (b_rows b) ->
  s_prep s' = Some pr -> (p < d_n d)%nat -> p_forget pr p <= 1 ->
  exists V sc w path data h, s_scaler s' = Some (Some sc) /\ s_work s' = Some w /\
    List.Forall2 (working_row d p weight_floor pr (b_p b) sc) (b_rows b) V /\
    w_path w p = Some path /\ w_msd w p = Some data /\
    data = map (relative_loss (design_width pr (b_p b) p) (p_forget pr p) V) path /\
    w_y w p = Some h /\ (forall i, h i = ygram_spec (p_forget pr p) V i) /\
    w_sum w p = Some (lsum (ws V)) /\ w_mean w p = Some (lsum (ws V) / INR (length V)) /\
    dsum (1 - p_forget pr p) ow V / INR (length V) <> 0.
Proof.
  intros Hg H Hcy Hrw Hcs Hwn Epr' Hp Hf. apply gam_fit_ok in H.
  destruct H as (pr' & methods & fv & js & sc & X & w & dv & n & Epr & _ & _ & _ & _ & Efv & _ & _ & EX & Eo & ->).
  cbn in Epr'. injection Epr' as ->. cbn in Hcy.
  set (e := start_env c pr b X) in *.
  assert (Hlw : length (e_w e) = length (e_y e)) by (cbn; now rewrite ws_length, ys_length).
  assert (Hw : List.Forall (fun a => 0 <= a) (e_w e)) by (apply weights_list, Hwn).
  apply (outer_fit_shaped ops e Hcs (fun q w => q = p ->
     exists V path data h, List.Forall2 (working_row d p weight_floor pr (b_p b) sc) (b_rows b) V /\
       w_path w p = Some path /\ w_msd w p = Some data /\
       data = map (relative_loss (design_width pr (b_p b) p) (p_forget pr p) V) path /\
       w_y w p = Some h /\ (forall i, h i = ygram_spec (p_forget pr p) V i) /\
       w_sum w p = Some (lsum (ws V)) /\ w_mean w p = Some (lsum (ws V) / INR (length V)) /\
       dsum (1 - p_forget pr p) ow V / INR (length V) <> 0)) in Eo.
  - destruct Eo as [_ [Eo|Eo]]; [exfalso; apply Hcy; now rewrite Eo|].
    destruct (Eo p ltac:(eapply prepare_order; eauto) eq_refl) as (V & path & data & h & K).
    exists V, sc, w, path, data, h. split; [reflexivity|]. split; [reflexivity|]. exact K.
  - intros q t s1 s2 s3 qc it io i step dvo fv1 pth Hq Hs L1 F1 F3 Hc ->.
    pose proof (proj2 Hs p Hq) as LX. cbv beta in LX.
    apply fit_candidate_full in Hc. cbv zeta in Hc.
    destruct Hc as (eta & gd & m & Hwk & _ & _ & Hy & Ewt & _ & _ & Hc). rewrite Hb in Hc.
    destruct Hc as (m' & path & j & msd & _ & Hsel & E1 & E2).
    pose proof (working_rows _ _ _ _ _ _ Hwk L1) as R0. cbv zeta in R0. destruct R0 as (Le & Lt & Lv & _).
    destruct (fit_select_rss e s1 p (g_wv gd) (g_wt gd) path _ msd j Hg Hlw Lt Lv LX Hsel) as (Hn & Hm & Hd). cbv zeta in Hd, Hm.
    pose proof (working_obs_of e false p fv1 eta gd (fst (e_X e p)) (snd (e_X e p)) Hwk L1 (surjective_pairing _) LX Hlw) as K. cbv zeta in K.
    set (V := zip_obs (snd (e_X e p)) (g_wv gd) (map2 Rmult (e_w e) (g_wt gd))) in *. destruct K as (X1 & X2 & X3 & X4 & K).
    assert (HV : weights_nonneg V).
    { apply nonneg_obs. rewrite X3. apply (working_weights e false p fv1 eta gd Hwk L1 Hlw Hw). discriminate. }
    assert (Ew : fst (e_X e p) = design_width pr (b_p b) p) by (apply (arrays_width c pr (b_p b) _ X p EX Hq)).
    rewrite Ew in Hd. change (p_forget (e_prep e) p) with (p_forget pr p) in *.
    exists V, path, msd, (c_y qc). split.
    { eapply (working_rows_of' c d p _ pr (b_p b) sc _ fv1 (b_rows b) V X eq_refl EX Hq eq_refl); [rewrite X4; cbn; apply ys_length|exact K]. }
    unfold set_itinner, store_fit, write; cbn [fst w_path w_msd w_y w_sum w_mean]; rewrite E1, E2; unfold fupd; rewrite Nat.eqb_refl.
    split; [reflexivity|]. split; [reflexivity|]. split; [exact Hd|]. split; [reflexivity|]. split.
    { intros l. rewrite Hy. rewrite <- X1, <- X2, <- X3. apply init_y_gram_spec; [exact Hf|exact HV]. }
    rewrite Ewt, <- X3. split; [reflexivity|]. split; [|exact Hm]. unfold mean. rewrite <- ?X3, ws_length, X4. unfold npdiv. rcase; [contradiction|]. reflexivity.
  - intros q t t' E1 E2 E3 E4 E5 E6 E7 HL ->. destruct (HL eq_refl) as (V & path & data & h & K). exists V, path, data, h.
    rewrite E4, E7, E2, E5, E6. exact K.
  - split; [cbn; rewrite ys_length; rewrite (Hrw _ _ Efv); apply ys_length|].
    intros q Hq. cbn. rewrite (arrays_rows c pr (b_p b) _ X q EX Hq), map_length, Xs_length, ys_length. reflexivity.
Qed.

Lemma C118_fit_ll_lemma b s s' pr p : o_global_ll c = true -> gam_fit ops c b s = (s', Ok tt) -> cycles s' <> Some O ->
  rowwise d -> o_cond_start c = false -> s_prep s' = Some pr -> (p < d_n d)%nat ->
  exists V TH sc w path data, s_scaler s' = Some (Some sc) /\ s_work s' = Some w /\
    List.Forall2 (design_row (fun _ => 1) pr (b_p b) p sc) (b_rows b) V /\ length TH = length V /\
    w_path w p = Some path /\ w_msd w p = Some data /\
    List.Forall2 (candidate_ll d p (design_width pr (b_p b) p) (p_forget pr p) V TH) path data.
Proof.
  intros Hg H Hcy Hrw Hcs Epr' Hp. apply gam_fit_ok in H.
  destruct H as (pr' & methods & fv & js & sc & X & w & dv & n & Epr & _ & _ & _ & _ & Efv & _ & _ & EX & Eo & ->).
  cbn in Epr'. injection Epr' as ->. cbn in Hcy.
  set (e := start_env c pr b X) in *.
  assert (LX : length (snd (X p)) = length (b_rows b)) by (rewrite (arrays_rows c pr (b_p b) _ X p EX Hp), map_length, Xs_length; reflexivity).
  destruct (plain_rows c (fun _ => 1) p pr (b_p b) sc (b_rows b) X EX Hp LX) as (V1 & V2 & V3 & V4 & V5).
  set (V := plain_obs (snd (X p)) (b_rows b) (fun _ => 1)) in *.
  assert (Ly : length (e_y e) = length (b_rows b)) by (cbn; apply ys_length).
  apply (outer_fit_shaped ops e Hcs (fun q w => q = p -> exists TH path data, length TH = length V /\
       w_path w p = Some path /\ w_msd w p = Some data /\
       List.Forall2 (candidate_ll d p (design_width pr (b_p b) p) (p_forget pr p) V TH) path data)) in Eo.
  - destruct Eo as [_ [Eo|Eo]]; [exfalso; apply Hcy; now rewrite Eo|].
    destruct (Eo p ltac:(eapply prepare_order; eauto) eq_refl) as (TH & path & data & K).
    exists V, TH, sc, w, path, data. split; [reflexivity|]. split; [reflexivity|]. split; [exact V1|exact K].
  - intros q t s1 s2 s3 qc it io i step dvo fv1 pth Hq Hs L1 F1 F3 Hc ->.
    apply fit_candidate_full in Hc. cbv zeta in Hc.
    destruct Hc as (eta & gd & m & Hwk & _ & _ & _ & _ & _ & _ & Hc). rewrite Hb in Hc.
    destruct Hc as (m' & path & j & msd & _ & Hsel & E1 & E2).
    apply (fit_select_ll e) in Hsel; [|exact Hg].
    assert (Lf : length (w_fv s1) = length (e_y e)).
    { replace (w_fv s1) with (w_fv t) by (unfold loop_frame in F1; congruence). exact (proj1 Hs). }
    exists (w_fv s1), path, msd. split; [congruence|].
    unfold set_itinner, store_fit, write; cbn [fst w_path w_msd]; rewrite E1, E2; unfold fupd; rewrite Nat.eqb_refl.
    split; [reflexivity|]. split; [reflexivity|].
    rewrite <- (arrays_width c pr (b_p b) _ X p EX Hq).
    apply (path_lls_meaning e p (w_fv s1) V path msd); [exact Lf|congruence|exact V3|exact V2|].
    rewrite V4, <- Hsel. f_equal. rewrite <- (map2_ones (forget_vector e p) (length (b_rows b))) at 2.
    + f_equal. clear. induction (b_rows b); cbn; congruence.
    + unfold forget_vector. rewrite init_forget_vector_length. congruence.
  - intros q t t' E1 E2 E3 E4 E5 E6 E7 HL ->. destruct (HL eq_refl) as (TH & path & data & K). exists TH, path, data.
    rewrite E4, E7. exact K.
  - split; [cbn; rewrite ys_length; rewrite (Hrw _ _ Efv); apply ys_length|].
    intros q Hq. cbn. rewrite (arrays_rows c pr (b_p b) _ X q EX Hq), map_length, Xs_length, ys_length. reflexivity.
Qed.

Lemma again_work_old pr b fv (w w1 : work M) : again_work c pr b fv w = Ok w1 -> w_msd_old w1 = w_msd w /\ w_mean w1 = w_mean w.
Proof.
  unfold again_work. destruct (o_cautious c).
  - destruct (cautious_bounds c fv) as [lh|]; [|discriminate]. cbn [bind]. intros H. injection H as <-. repeat split.
  - intros H. injection H as <-. repeat split.
Qed.

Lemma C118_update_lemma b s s' pr p : gam_update ops c b s = (s', Ok tt) -> cycles s' <> Some O ->
  s_prep s = Some pr -> In p (p_order pr) -> (p < d_n d)%nat ->
  exists w0 w n sc old mean path data,
    s_work s = Some w0 /\ w_msd w0 p = Some old /\ w_mean w0 p = Some mean /\ s_nobs s' = Some n /\ s_scaler s' = Some (Some sc) /\
    s_work s' = Some w /\ w_path w p = Some path /\ w_msd w p = Some data /\
    let k := design_width pr (b_p b) p in let f := p_forget pr p in let m := length (b_rows b) in
    if o_global_ll c then
      exists V TH ll, List.Forall2 (design_row ow pr (b_p b) p sc) (b_rows b) V /\ length TH = length V /\
        List.Forall2 (candidate_ll d p k f V TH) path ll /\ length old = length ll /\
        data = map2 (fun l o => l + (1 - f) ^ m * o) ll old
    else
      exists V wts, List.Forall2 (working_row d p (- weight_ceiling) pr (b_p b) sc) (b_rows b) V /\
        ws V = map2 Rmult (ws (b_rows b)) wts /\ length wts = m /\ length old = length path /\
        data = map2 (fun b o => (wls_loss k f V b + (1 - f) ^ m * (o * mean)) / online_mean_update mean wts f n) path old /\
        online_mean_update mean wts f n <> 0 /\
        (exists S, w_sum w0 p = Some S /\ w_sum w p = Some (lsum (ws V) + (1 - f) * S) /\
             w_mean w p = npdiv (lsum (ws V) + (1 - f) * S) (effective_training_length f n)).
Proof.
  intros H Hcy Epr Hord Hp. apply gam_update_ok in H.
  destruct H as (n0 & pr' & fv & sc0 & sc & X & w0 & w1 & w & dev0 & it0 & isreg & dv & n &
    Hn & _ & Hnf & _ & _ & E1 & E2 & _ & E3 & E4 & E5 & Efv & _ & EX & Ew & Eo & ->).
  rewrite Epr in E2. injection E2 as <-. cbn in Hcy.
  pose proof (again_work_fields c pr b fv w0 w1 Ew) as (F1 & F4 & _).
  destruct (again_work_old pr b fv w0 w1 Ew) as [F2 F3].
  set (e := again_env c pr isreg n0 b X) in *.
  assert (Hlw : length (e_w e) = length (e_y e)) by (cbn; now rewrite ws_length, ys_length).
  assert (Ly : length (e_y e) = length (b_rows b)) by (cbn; apply ys_length).
  assert (LX : length (snd (X p)) = length (b_rows b)) by (rewrite (arrays_rows c pr (b_p b) _ X p EX Hp), map_length, Xs_length; reflexivity).
  assert (S0 : shaped e w1).
  { split; cbn [again_env e_y e_X e_cfg e].
    - rewrite F1. destruct (predict_parameters c true (b_p b) (Xs (b_rows b)) s) as [s2 out] eqn:P. cbn in Efv. subst out.
      apply predict_parameters_ok in P. destruct P as (sc1 & pr1 & A & w2 & _ & _ & _ & _ & _ & _ & _ & _ & _ & ->).
      rewrite map_length, seq_length, Xs_length. cbn. now rewrite ys_length.
    - intros q Hq. cbn. rewrite (arrays_rows c pr (b_p b) _ X q EX Hq), map_length, Xs_length, ys_length. reflexivity. }
  set (k := design_width pr (b_p b) p). set (f := p_forget pr p). set (m := length (b_rows b)).
  apply (outer_update_all ops e dev0 (fun w => shaped e w /\ w_msd_old w = w_msd w0 /\ w_mean w = w_mean w0 /\ w_sum w = w_sum w0) (fun q w => q = p ->
     exists old mean path data, w_msd w0 p = Some old /\ w_mean w0 p = Some mean /\ w_path w p = Some path /\ w_msd w p = Some data /\
       if o_global_ll c then
         exists V TH ll, List.Forall2 (design_row ow pr (b_p b) p sc) (b_rows b) V /\ length TH = length V /\
           List.Forall2 (candidate_ll d p k f V TH) path ll /\ length old = length ll /\
           data = map2 (fun l o => l + (1 - f) ^ m * o) ll old
       else
         exists V wts, List.Forall2 (working_row d p (- weight_ceiling) pr (b_p b) sc) (b_rows b) V /\
           ws V = map2 Rmult (ws (b_rows b)) wts /\ length wts = m /\ length old = length path /\
           data = map2 (fun b o => (wls_loss k f V b + (1 - f) ^ m * (o * mean)) / online_mean_update mean wts f (e_nobs e)) path old /\
           online_mean_update mean wts f (e_nobs e) <> 0 /\
           (exists S, w_sum w0 p = Some S /\ w_sumn w p = Some (lsum (ws V) + (1 - f) * S) /\
             w_meann w p = npdiv (lsum (ws V) + (1 - f) * S) (effective_training_length f (e_nobs e))))) in Eo;
    [| | |split; [exact S0|repeat split; congruence]].
  - destruct Eo as [_ [Eo|Eo]]; [exfalso; apply Hcy; now rewrite Eo|].
    destruct (Eo p Hord eq_refl) as (old & mean & path & data & K1 & K2 & K3 & K4 & K5).
    exists w0, (commit_work w), (e_nobs e), sc, old, mean, path, data.
    split; [exact E3|]. split; [exact K1|]. split; [exact K2|]. split; [reflexivity|]. split; [reflexivity|]. split; [reflexivity|].
    split; [exact K3|]. split; [exact K4|]. exact K5.
  - intros q io t t' r (Hs & Eo1 & Eo2 & Eo3) Hin. apply inner_update_shaped in Hin; [|exact Hs].
    destruct Hin as (Hs' & Hq & qc & it & j & fv1 & s1 & s2 & s3 & sumw & Hl & G1 & G3 & Hc & Hsw & _ & ->).
    unfold loop_frame in G1, G3.
    split.
    { split; [exact Hs'|]. unfold store_update, write. cbn [fst w_msd_old w_mean w_sum]. repeat split; congruence. }
    intros ->. apply update_candidate_ok in Hc. cbv zeta in Hc.
    destruct Hc as (eta & gd & mm & x0 & y0 & mw & dv1 & Hwk & _ & _ & _ & Hmw & _ & _ & Ewt & _ & _ & _ & Hc). rewrite Hb in Hc.
    destruct Hc as (path0 & m' & path & old & kk & msd & _ & _ & Hold & Hsel & P1 & P2).
    exists old, mw, path, msd. split; [congruence|]. split; [congruence|].
    unfold store_update, write; cbn [fst w_path w_msd w_sumn w_meann]; rewrite P1, P2; unfold fupd; rewrite Nat.eqb_refl.
    split; [reflexivity|]. split; [reflexivity|].
    assert (Ewd : fst (e_X e p) = k) by (apply (arrays_width c pr (b_p b) _ X p EX Hq)).
    destruct (o_global_ll c) eqn:Hg.
    + destruct (plain_rows c ow p pr (b_p b) sc (b_rows b) X EX Hp LX) as (V1 & V2 & V3 & V4 & V5).
      set (V := plain_obs (snd (X p)) (b_rows b) ow) in *.
      apply (update_select_ll e) in Hsel; [|exact Hg]. destruct Hsel as (ll & S1 & S2 & S3).
      assert (Lf : length (w_fv s1) = length (e_y e)).
      { replace (w_fv s1) with (w_fv t) by congruence. exact (proj1 Hs). }
      exists V, (w_fv s1), ll. split; [exact V1|]. split; [congruence|].
      assert (Q : List.Forall2 (candidate_ll d p k f V (w_fv s1)) path ll).
      { rewrite <- Ewd. apply (path_lls_meaning e p (w_fv s1) V path ll); [exact Lf|congruence|exact V3|exact V2|].
        rewrite V4. exact S2. }
      split; [exact Q|]. split; [apply Forall2_len in Q; congruence|]. rewrite S3, Ly. reflexivity.
    + pose proof (working_rows _ _ _ _ _ _ Hwk Hl) as R0. cbv zeta in R0. destruct R0 as (Le & Lt & Lv & _).
      pose proof (proj2 Hs p Hq) as LX'. cbv beta in LX'.
      destruct (update_select_rss e s1 p (g_wv gd) (g_wt gd) path old mw _ msd kk Hg Hlw Lt Lv LX' Hsel) as (S1 & Hden & S2). cbv zeta in S2, Hden.
      pose proof (working_obs_of e true p fv1 eta gd (fst (e_X e p)) (snd (e_X e p)) Hwk Hl (surjective_pairing _) LX' Hlw) as K. cbv zeta in K.
      set (V := zip_obs (snd (e_X e p)) (g_wv gd) (map2 Rmult (e_w e) (g_wt gd))) in *. destruct K as (X1 & X2 & X3 & X4 & K).
      exists V, (g_wt gd). split.
      { eapply (working_rows_of' c d p _ pr (b_p b) sc _ fv1 (b_rows b) V X eq_refl EX Hq eq_refl); [rewrite X4; cbn; apply ys_length|exact K]. }
      split; [exact X3|]. split; [unfold m; congruence|]. split; [exact S1|]. split; [rewrite S2, Ewd, Ly; reflexivity|].
      split; [exact Hden|]. exists sumw. rewrite X3. split; [congruence|]. destruct (Nat.eqb_spec p p); [|congruence].
      replace (c_wt qc) with (g_wt gd) by congruence. split; reflexivity.
  - intros q q' io t t' r Hne (Hs & _) HL Hin ->. destruct (HL eq_refl) as (old & mean & path & data & K1 & K2 & K3 & K4 & K5).
    exists old, mean, path, data. split; [exact K1|]. split; [exact K2|]. apply inner_update_shaped in Hin; [|exact Hs].
    destruct Hin as (_ & _ & qc & it & j & fv1 & s1 & s2 & s3 & sumw & _ & _ & G3 & _ & _ & _ & ->).
    unfold store_update, write. cbn [fst w_path w_msd w_sumn w_meann]. unfold fupd.
    replace (Nat.eqb p q') with false by (symmetry; apply Nat.eqb_neq; congruence).
    unfold loop_frame in G3. replace (w_path s3) with (w_path t) by congruence. replace (w_msd s3) with (w_msd t) by congruence.
    replace (w_sumn s3) with (w_sumn t) by congruence. replace (w_meann s3) with (w_meann t) by congruence. auto.
Qed.
End Calls.

(** Lemmas: path based methods in distributional regression, whole calls. *)
From Coq Require Import Reals List Bool Arith ZArith FunctionalExtensionality Lra Lia.
From Verif Require Import Base Lin Data M_Gram S_Gram L_Gram M_OLS L_OLS M_Scaler M_Utils M_Links M_State M_LM M_Equation S_Equation L_Equation M_GAMLSS S_GAMLSS.
From Verif Require Import S_LM L_GAM1 L_GAM2 L_GAM8 L_GAM9 L_GAM10 L_GAM11 L_GAM12 L_GAM13 L_GAM14 L_GAM15 L_GAM18 L_GAM21 L_GAM22.
Import ListNotations.
Open Scope R_scope.

Definition starts_with_one (V : list obs) : Prop := List.Forall (fun v => ox v 0%nat = 1) V.

Lemma work_obs_rows {M} (c : gam_cfg M) (e : env M) p u pr ncol sc rows A V : e_cfg e = c -> e_X e = A -> e_y e = ys rows -> e_w e = ws rows ->
  arrays c pr ncol (map (scaler_transform sc) (Xs rows)) = Ok A -> (p < d_n (o_dist c))%nat ->
  work_obs e p u V -> List.Forall2 (working_row (o_dist c) p (if u then - weight_ceiling else weight_floor) pr ncol sc) rows V.
Proof.
  intros Ec EX Ey Ew EA Hp (fv & eta & gd & Hl & Hwk & ->).
  assert (LX : length (snd (e_X e p)) = length (e_y e)) by (rewrite EX, (arrays_rows c pr ncol _ A p EA Hp), Ey, map_length, Xs_length, ys_length; reflexivity).
  assert (Hlw : length (e_w e) = length (e_y e)) by (rewrite Ey, Ew, ws_length, ys_length; reflexivity).
  pose proof (working_obs_of e u p fv eta gd _ _ Hwk Hl (surjective_pairing _) LX Hlw) as K. cbv zeta in K.
  destruct K as (X1 & X2 & X3 & X4 & K). rewrite Ec in K.
  eapply (working_rows_of' c (o_dist c) p _ pr ncol sc _ fv rows _ A eq_refl EA Hp eq_refl).
  - rewrite X4, Ey. apply ys_length.
  - intros i v o Hv E1 E2. rewrite <- Ey in E1. rewrite <- Ew in E2. destruct (K i v o Hv E1 E2) as [K1 K2]. rewrite EX in K1. split; [exact K1|].
    unfold weight_floor, weight_ceiling. exact K2.
Qed.
Lemma design_width_pos pr ncol p : p_icpt pr p = true -> selects (p_eq pr p) (p_icpt pr p) ncol ->
  design_width pr ncol p = S (length (selected (p_eq pr p) ncol)).
Proof.
  intros Hi Hs. unfold design_width. destruct (C56_model_lemma _ _ ncol [] Hs) as (rows & -> & _). cbn [fst].
  unfold model_row. rewrite Hi, app_length, map_length. reflexivity.
Qed.
Lemma working_row_one d p fl pr ncol sc o v : p_icpt pr p = true -> selects (p_eq pr p) (p_icpt pr p) ncol ->
  working_row d p fl pr ncol sc o v -> ox v 0%nat = 1.
Proof.
  intros Hi Hs [_ K]. specialize (K Hs). rewrite (design_width_pos pr ncol p Hi Hs) in K. unfold row_of, model_row in K. rewrite Hi in K.
  cbn [seq map app] in K. injection K as K _. exact K.
Qed.
Lemma rows_start_one d p fl pr ncol sc rows V : p_icpt pr p = true -> selects (p_eq pr p) (p_icpt pr p) ncol ->
  List.Forall2 (working_row d p fl pr ncol sc) rows V -> starts_with_one V.
Proof. intros Hi Hs. induction 1; constructor; [eapply working_row_one; eauto|assumption]. Qed.

Lemma all_methods_nth {M} (c : gam_cfg M) : forall ps ms k p m, all_methods c ps = Ok ms -> nth_error ps k = Some p -> nth_error ms k = Some m -> o_method c p = Ok m.
Proof.
  induction ps as [|q ps IH]; intros ms k p m H Hp Hm; [destruct k; discriminate|]. cbn [all_methods] in H.
  destruct (o_method c q) as [m1|] eqn:E; [|discriminate]. cbn [bind] in H.
  destruct (all_methods c ps) as [r|] eqn:E2; [|discriminate]. cbn [bind] in H. injection H as <-.
  destruct k as [|k]; cbn in *; [congruence|]. eapply IH; eauto.
Qed.
Lemma prepare_method {M} (c : gam_cfg M) pr methods p m : prepare c = Ok (pr, methods) -> (p < d_n (o_dist c))%nat -> methods p = Some m -> o_method c p = Ok m.
Proof.
  unfold prepare. intros H Hp Hm. destruct (process_equation _ _ _); [|discriminate]. cbn [bind] in H.
  destruct (all_methods c _) as [ms|] eqn:E; [|discriminate]. cbn [bind] in H.
  destruct (match o_order c with None => _ | Some _ => _ end); [|discriminate]. cbn [bind] in H. injection H as _ <-.
  eapply all_methods_nth; eauto. rewrite (nth_error_nth' _ 0%nat) by now rewrite seq_length. now rewrite seq_nth.
Qed.

Section Calls.
Context {M : Type} (ops : method_ops M) (c : gam_cfg M) (pr : prep) (ncol p : nat).
Notation d := (o_dist c).
Notation f := (p_forget pr p).
Notation J := (design_width pr ncol p).
Hypothesis Hb : op_path_based ops = true.
Hypothesis Kinit : forall k X w f, op_init_x ops k X w f = Ok (init_gram X w f).
Hypothesis Kupd : forall k g X f w, op_update_x ops k g X f w = Ok (update_gram g X f w).
Hypothesis Hf : f <= 1.
Hypothesis Hp : (p < d_n d)%nat.
Hypothesis Hi : p_icpt pr p = true.
Hypothesis Hs : selects (p_eq pr p) (p_icpt pr p) ncol.
Variables (Im : M -> Prop) (Ip : list vec -> Prop) (Q : list obs -> list vec -> Prop).
Hypothesis Hm : forall m, o_method c p = Ok m -> Im m.
Hypothesis Hfit : forall m V m' path, Im m -> starts_with_one V -> weights_nonneg V ->
  op_fit_path ops m J (gram_spec f V) (ygram_spec f V) (gam_isreg pr p) = Ok (m', path) -> Im m' /\ Ip path /\ Q V path.
Hypothesis Hupd : forall m V path0 m' path, Im m -> starts_with_one V -> weights_nonneg V -> Ip path0 ->
  op_update_path ops m J (gram_spec f V) (ygram_spec f V) path0 (gam_isreg pr p) = Ok (m', path) -> Im m' /\ Ip path /\ Q V path.

Definition path_state (s : gam M) (V : list obs) : Prop :=
  s_prep s = Some pr /\ s_nfin s = Some ncol /\ s_isreg s = Some (gam_isreg pr) /\ weights_nonneg V /\ starts_with_one V /\
  exists w path, s_work s = Some w /\ w_x w p = Some (gram_spec f V) /\ w_y w p = Some (ygram_spec f V) /\
    w_path w p = Some path /\ Ip path /\ Q V path /\ methods_ok p Im w.

Lemma path_fit b s s' : gam_fit ops c b s = (s', Ok tt) -> cycles s' <> Some O -> b_p b = ncol ->
  rowwise d -> o_cond_start c = false -> weights_nonneg (b_rows b) -> s_prep s' = Some pr ->
  exists V sc, List.Forall2 (working_row d p weight_floor pr ncol sc) (b_rows b) V /\ path_state s' V.
Proof.
  intros H Hcy <- Hrw Hcs Hwn Epr'. apply gam_fit_ok in H.
  destruct H as (pr' & methods & fv & js & sc & X & w & dv & n & Epr & _ & _ & _ & _ & Efv & _ & _ & EX & Eo & ->).
  cbn in Epr'. injection Epr' as ->. cbn in Hcy.
  set (e := start_env c pr b X) in *.
  assert (Hlw : length (e_w e) = length (e_y e)) by (cbn; now rewrite ws_length, ys_length).
  assert (Hw : List.Forall (fun a => 0 <= a) (e_w e)) by (apply weights_list, Hwn).
  assert (EJ : fst (e_X e p) = design_width pr (b_p b) p) by (apply (arrays_width c pr (b_p b) _ X p EX Hp)).
  assert (HR : forall V, work_obs e p false V -> List.Forall2 (working_row d p weight_floor pr (b_p b) sc) (b_rows b) V).
  { intros V. exact (work_obs_rows c e p false pr (b_p b) sc (b_rows b) X V eq_refl eq_refl eq_refl eq_refl EX Hp). }
  assert (S0 : shaped e (start_work c pr methods fv)).
  { split; [cbn; rewrite ys_length; rewrite (Hrw _ _ Efv); apply ys_length|].
    intros q Hq. cbn. rewrite (arrays_rows c pr (b_p b) _ X q EX Hq), map_length, Xs_length, ys_length. reflexivity. }
  apply (outer_fit_path ops e p Hb Kinit Hcs Hlw Hw Hf Im Ip Q starts_with_one) in Eo.
  - destruct Eo as [(_ & HM & _) [Eo|(V & path & K1 & K2 & K3 & K4 & K5 & K6 & K7)]]; [exfalso; apply Hcy; now rewrite Eo|].
    pose proof (HR V K1) as KR. exists V, sc. split; [exact KR|].
    split; [reflexivity|]. split; [cbn; f_equal; assumption|]. split; [reflexivity|]. split; [exact K2|].
    split; [exact (rows_start_one _ _ _ _ _ _ _ _ Hi Hs KR)|].
    exists w, path. split; [reflexivity|]. split; [exact K3|]. split; [exact K4|]. split; [exact K5|]. split; [exact K6|]. split; [exact K7|]. exact HM.
  - intros V HV. exact (rows_start_one _ _ _ _ _ _ _ _ Hi Hs (HR V HV)).
  - rewrite EJ. exact Hfit.
  - rewrite EJ. exact Hupd.
  - split; [exact S0|]. split.
    + intros m E. apply Hm. exact (prepare_method c pr methods p m Epr Hp E).
    + intros path E. discriminate E.
  - eapply prepare_order; eauto.
Qed.

Lemma path_update b s s' V : gam_update ops c b s = (s', Ok tt) -> cycles s' <> Some O -> In p (p_order pr) ->
  o_cond_start c = false -> weights_nonneg (b_rows b) -> concave_in d p -> path_state s V ->
  exists V' sc, List.Forall2 (working_row d p (- weight_ceiling) pr ncol sc) (b_rows b) V' /\ path_state s' (V ++ V').
Proof.
  intros H Hcy Hord Hcs Hwn Hcv (Epr & Enf & Eir & HV0 & HO0 & w0 & path0 & Ew0 & Ex0 & Ey0 & Ep0 & HIp & _ & HM0). apply gam_update_ok in H.
  destruct H as (n0 & pr' & fv & sc0 & sc & X & w0' & w1 & w & dev0 & it0 & isreg & dv & n &
    Hn & _ & Hnf & _ & _ & E1 & E2 & _ & E3 & E4 & E5 & Efv & _ & EX & Ew & Eo & ->).
  rewrite Epr in E2. injection E2 as <-. rewrite Ew0 in E3. injection E3 as <-. rewrite Eir in E5. injection E5 as <-.
  specialize (Hnf _ Enf). assert (Enc : b_p b = ncol) by congruence. clear Hnf. cbn in Hcy. rewrite Enc in EX.
  pose proof (again_work_fields c pr b fv w0 w1 Ew) as (F1 & _ & _ & F3 & F4 & _ & F5 & _ & F6).
  set (e := again_env c pr (gam_isreg pr) n0 b X) in *.
  assert (Hlw : length (e_w e) = length (e_y e)) by (cbn; now rewrite ws_length, ys_length).
  assert (Hw : List.Forall (fun a => 0 <= a) (e_w e)) by (apply weights_list, Hwn).
  assert (EJ : fst (e_X e p) = design_width pr ncol p) by (apply (arrays_width c pr ncol _ X p EX Hp)).
  assert (HR : forall u V, work_obs e p u V -> List.Forall2 (working_row d p (if u then - weight_ceiling else weight_floor) pr ncol sc) (b_rows b) V).
  { intros u V1. exact (work_obs_rows c e p u pr ncol sc (b_rows b) X V1 eq_refl eq_refl eq_refl eq_refl EX Hp). }
  assert (S0 : shaped e w1).
  { split; cbn [again_env e_y e_X e_cfg e].
    - rewrite F1. destruct (predict_parameters c true (b_p b) (Xs (b_rows b)) s) as [s2 out] eqn:P. cbn in Efv. subst out.
      apply predict_parameters_ok in P. destruct P as (sc1 & pr1 & A & w2 & _ & _ & _ & _ & _ & _ & _ & _ & _ & ->).
      rewrite map_length, seq_length, Xs_length. cbn. now rewrite ys_length.
    - intros q Hq. cbn. rewrite (arrays_rows c pr ncol _ X q EX Hq), map_length, Xs_length, ys_length. reflexivity. }
  apply (outer_update_path ops e p Hb Kupd Hlw Hw Hf Im Ip Q starts_with_one) with (w0 := w0) (V0 := V) in Eo.
  - destruct Eo as [(_ & HM & _) [Eo|(V' & path & K1 & K2 & K3 & K4 & K5 & K6 & K7)]]; [exfalso; apply Hcy; now rewrite Eo|].
    pose proof (HR true V' K1) as KR. exists V', sc. split; [exact KR|].
    split; [reflexivity|]. split; [exact Enf|]. split; [reflexivity|]. split; [apply Forall_app; auto|].
    split; [apply Forall_app; split; [exact HO0|exact (rows_start_one _ _ _ _ _ _ _ _ Hi Hs KR)]|].
    exists (commit_work w), path. split; [reflexivity|]. unfold commit_work. cbn [w_x w_y w_path].
    split; [exact K3|]. split; [exact K4|]. split; [exact K5|]. split; [exact K6|]. split; [exact K7|]. exact HM.
  - rewrite EJ. exact Hupd.
  - exact Hcv.
  - exact HV0.
  - exact Ex0.
  - exact Ey0.
  - intros V1 HV1. apply Forall_app. split; [exact HO0|]. exact (rows_start_one _ _ _ _ _ _ _ _ Hi Hs (HR true V1 HV1)).
  - split; [exact S0|]. split; [|split; [|split]].
    + intros m E. apply HM0. congruence.
    + intros path E. rewrite F5, Ep0 in E. injection E as <-. exact HIp.
    + now rewrite F3.
    + now rewrite F4.
  - exact Hord.
Qed.

Lemma path_stream bs : In p (p_order pr) -> o_cond_start c = false -> bs = [] \/ concave_in d p ->
  forall s s', updates_run ops c s bs s' -> List.Forall (fun b => weights_nonneg (b_rows b)) bs ->
  forall V, path_state s V ->
  exists V', List.Forall2 (some_row d pr ncol p (- weight_ceiling)) (stream bs) V' /\ path_state s' (V ++ V').
Proof.
  intros Ho Hcs Hcv s s' H. induction H as [s|s b s1 bs s' H Hc Hr IH]; intros Hw V HV.
  - exists []. split; [constructor|]. now rewrite app_nil_r.
  - destruct Hcv as [Hcv|Hcv]; [discriminate|].
    inversion Hw as [|? ? Hwb Hbs]; subst. destruct (path_update b s s1 V H Hc Ho Hcs Hwb Hcv HV) as (V1 & sc & K1 & K2).
    destruct (IH (or_intror Hcv) Hbs _ K2) as (V2 & K3 & K4). exists (V1 ++ V2). split.
    + unfold stream. cbn [map concat]. apply Forall2_app; [|exact K3].
      eapply Forall2_weaken; [|exact K1]. intros o v K. exists sc. exact K.
    + now rewrite app_assoc.
Qed.

Lemma path_history b bs s s1 s' : o_cond_start c = false -> rowwise d -> bs = [] \/ concave_in d p ->
  gam_fit ops c b s = (s1, Ok tt) -> cycles s1 <> Some O -> b_p b = ncol -> s_prep s1 = Some pr -> updates_run ops c s1 bs s' ->
  weights_nonneg (b_rows b) -> List.Forall (fun b => weights_nonneg (b_rows b)) bs ->
  exists V0 V1, List.Forall2 (some_row d pr ncol p weight_floor) (b_rows b) V0 /\
    List.Forall2 (some_row d pr ncol p (- weight_ceiling)) (stream bs) V1 /\ path_state s' (V0 ++ V1).
Proof.
  intros Hcs Hrw Hcv H Hcy En Epr Hr Hw Hws.
  assert (Hord : In p (p_order pr)).
  { pose proof H as H'. apply gam_fit_ok in H'. destruct H' as (pr' & methods & fv & js & sc' & X & w & dv & n & Epr' & _ & _ & _ & _ & _ & _ & _ & _ & _ & E).
    rewrite E in Epr. cbn in Epr. injection Epr as ->. eapply prepare_order; eauto. }
  destruct (path_fit b s s1 H Hcy En Hrw Hcs Hw Epr) as (V0 & sc & K1 & K2).
  destruct (path_stream bs Hord Hcs Hcv s1 s' Hr Hws V0 K2) as (V1 & K3 & K4). exists V0, V1. split; [|auto].
  eapply Forall2_weaken; [|exact K1]. intros o v K. exists sc. exact K.
Qed.
End Calls.

(** C125: shifted responses and recoded columns in distributional regression. *)
From Coq Require Import Reals List Bool Arith Lra Lia.
From Verif Require Import Base Lin Data S_Gram M_OLS M_Scaler M_Links M_DistTable M_Dist M_GAMDist M_Utils M_State M_LM M_Equation M_GAMLSS S_GAMLSS
  S_Recode S_Units S_Equi L_GAM15 L_GAMEx L_GAMEx3 L_GAMEx7 L_Equi4 L_Equi5.
Import ListNotations.
Open Scope R_scope.

(** C125. Moving all responses of a location family by [a] moves the first coefficient of
    the location and the predicted location by [a] and changes nothing else. *)
Theorem C125_shift : forall inv (c : gam_cfg unit) a b bs s pr ms,
  matinv_spec inv -> location_family (o_dist c) a -> S_GAMLSS.rowwise (o_dist c) ->
  bs = [] \/ (forall p, (p < d_n (o_dist c))%nat -> concave_in (o_dist c) p) -> o_cond_start c = false ->
  prepare c = Ok (pr, ms) -> p_icpt pr 0 = true -> (forall p, 0 <= p_forget pr p < 1) ->
  Forall (fun b => weights_nonneg (b_rows b)) (b :: bs) -> after_calls (ols_ops inv) c b bs s ->
  exists s', after_calls (ols_ops inv) c (shift_batch a b) (map (shift_batch a) bs) s' /\ s_dev s' = s_dev s /\
    (forall r X out, snd (predict_parameters c r (b_p b) X s) = Ok out ->
       snd (predict_parameters c r (b_p b) X s') = Ok (map (moved a) out)) /\
    (forall p j, (p < d_n (o_dist c))%nat -> (j < design_width pr (b_p b) p)%nat ->
       coefs s' p j = coefs s p j + match j with O => location a p | S _ => 0 end).
Proof. exact C125_shift_lemma. Qed.
Print Assumptions C125_shift.

(** Which shipped classes this covers. *)
Theorem C125_families : forall lgam dg tg fit_t fit_jsu gi ppf cond D links a,
  location_dist D -> nth 0 links Identity = Identity -> scipy_moves fit_t fit_jsu gi ppf D a ->
  location_family (shipped lgam dg tg fit_t fit_jsu gi ppf cond D links) a.
Proof. exact C125_families_lemma. Qed.
Print Assumptions C125_families.

Theorem C125_concave : forall lgam dg tg fit_t fit_jsu gi ppf cond D links p,
  location_dist D -> concave_in (shipped lgam dg tg fit_t fit_jsu gi ppf cond D links) p.
Proof. exact C125_concave_lemma. Qed.
Print Assumptions C125_concave.

(** C125. With any family, recoding the columns by an invertible affine map changes no
    prediction and not the deviance. *)
Theorem C125_recode : forall inv (c : gam_cfg unit) A A' b0 b bs s pr ms,
  matinv_spec inv -> is_inverse (b_p b) A A' ->
  (0 < d_n (o_dist c))%nat -> S_GAMLSS.rowwise (o_dist c) ->
  bs = [] \/ (forall p, (p < d_n (o_dist c))%nat -> concave_in (o_dist c) p) ->
  o_cond_start c = false -> o_scale c = ScaleNone ->
  prepare c = Ok (pr, ms) -> recodable pr (b_p b) (d_n (o_dist c)) b0 -> (forall p, 0 <= p_forget pr p < 1) ->
  Forall (fun d => weights_nonneg (b_rows d)) (b :: bs) -> Forall (fun d => b_p d = b_p b) bs ->
  after_calls (ols_ops inv) c b bs s ->
  exists s', after_calls (ols_ops inv) c (recode_batch A b0 b) (map (recode_batch A b0) bs) s' /\ s_dev s' = s_dev s /\
    (forall r X out, snd (predict_parameters c r (b_p b) X s) = Ok out ->
       snd (predict_parameters c r (b_p b) (map (recode (b_p b) A b0) X) s') = Ok out).
Proof. exact C125_recode_lemma. Qed.
Print Assumptions C125_recode.

(** Normal distribution, intercepts only, a fit and an update; all responses moved by 5:
    the location is 5, the scale is still 1. *)
Example C125_example : exists s', after_calls (ols_ops ex_inv) n_cfg (shift_batch 5 n_b0) [shift_batch 5 n_b1] s' /\
  map oy (b_rows (shift_batch 5 n_b1)) = [- 1 + 5; 1 + 5] /\ coefs s' 0 0%nat = 5 /\ coefs s' 1 0%nat = 0.
Proof.
  destruct n_fit as (s1 & dv & Hf & Hs).
  assert (C1 : cycles s1 = Some 1%nat) by (destruct Hs as (w & nt & _ & ->); reflexivity).
  assert (N1 : s_nobs s1 <> None) by (destruct Hs as (w & nt & _ & ->); discriminate).
  destruct (n_update 2 dv 1 s1 n_b1 (or_introl eq_refl) ltac:(lra) Hs) as (s2 & dv2 & Hu2 & Hs2).
  destruct Hs2 as (w & nt & ((_ & _ & K0 & _) & (_ & _ & K1 & _) & _) & E2).
  destruct (C125_shift ex_inv n_cfg 5 n_b0 [n_b1] s2 n_prep (fun p => nth_error [tt; tt] p)) as (s' & H1 & _ & _ & H4).
  - exact ex_inv_spec.
  - apply C125_families; [left; reflexivity|reflexivity|]. repeat split; discriminate.
  - apply shipped_rowwise.
  - right. intros p _. apply C125_concave. left. reflexivity.
  - reflexivity.
  - reflexivity.
  - reflexivity.
  - intros [|[|p]]; cbn; lra.
  - repeat constructor; cbn; lra.
  - exists s1. split; [exact Hf|]. split; [rewrite C1; discriminate|]. cbn [gam_history]. unfold gpartial_fit, gis_fitted.
    destruct (s_nobs s1); [|contradiction]. unfold ex_ops in Hu2. now rewrite Hu2.
  - exists s'. split; [exact H1|]. split; [reflexivity|].
    assert (Q : forall p, coefs s2 p = w_coef w p) by (intros p; rewrite E2; reflexivity).
    split; (rewrite H4; [rewrite Q|cbn; lia|cbn; lia]); [rewrite K0|rewrite K1]; cbn; ring.
Qed.

(** The location modelled by one column without an intercept, the column doubled. *)
Example C125_recode_example : exists s s', after_calls (ols_ops ex_inv) r_cfg r_b0 [] s /\
  after_calls (ols_ops ex_inv) r_cfg (recode_batch (fun _ _ => 2) (fun _ => 0) r_b0) [] s' /\
  map (fun o => ox o 0%nat) (b_rows (recode_batch (fun _ _ => 2) (fun _ => 0) r_b0)) = [2; 2; 2] /\ s_dev s' = s_dev s /\
  forall X out, snd (predict_parameters r_cfg true 1 X s) = Ok out ->
    snd (predict_parameters r_cfg true 1 (map (recode 1 (fun _ _ => 2) (fun _ => 0)) X) s') = Ok out.
Proof.
  destruct r_fit as (s1 & dv & Hf & Hs).
  assert (C1 : cycles s1 = Some 1%nat) by (destruct Hs as (w & nt & _ & ->); reflexivity).
  assert (HA : after_calls (ols_ops ex_inv) r_cfg r_b0 [] s1) by (exists s1; split; [exact Hf|]; split; [rewrite C1; discriminate|reflexivity]).
  destruct (C125_recode ex_inv r_cfg (fun _ _ => 2) (fun _ _ => / 2) (fun _ => 0) r_b0 [] s1 r_prep (fun p => nth_error [tt; tt] p)) as (s' & H1 & H2 & H3); auto.
  - exact ex_inv_spec.
  - split; intros i j Hi Hj; cbn in Hi, Hj; replace i with O by lia; replace j with O by lia; unfold mmul, mid; cbn; field.
  - cbn; lia.
  - apply shipped_rowwise.
  - intros [|[|p]] Hp; cbn in Hp |- *; [right|left; reflexivity|lia]. split; [reflexivity|]. right. reflexivity.
  - intros [|[|p]]; cbn; lra.
  - repeat constructor; cbn; lra.
  - exists s1, s'. split; [exact HA|]. split; [exact H1|]. split; [cbn; unfold recode, mvec; cbn; repeat f_equal; ring|]. split; [exact H2|].
    intros X out. apply H3.
Qed.

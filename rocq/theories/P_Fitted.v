(** C111: predictions for the rows just learned from. *)
From Coq Require Import Reals List Bool Arith Lra Lia.
From Verif Require Import Base Lin Data M_DistTable M_State M_LM M_Equation M_GAMLSS M_GAMDist S_GAMLSS S_Fitted L_GAM15 L_GAMEx L_Fitted L_FittedEx.
Import ListNotations.
Open Scope R_scope.

(** After [update] the prediction for the rows of the batch is the fitted values, and the
    deviance of the object is the deviance of that prediction plus the discounted deviance
    before the call. Every method, every distribution, any step sizes. *)
Theorem C111_update : forall M (ops : method_ops M) c b s s' pr, gam_update ops c b s = (s', Ok tt) -> cycles s' <> Some O ->
  s_prep s = Some pr -> p_order pr <> [] -> (forall p, (p < d_n (o_dist c))%nat -> In p (p_order pr)) ->
  exists th v dev0 it0 n, snd (predict_parameters c true (b_p b) (Xs (b_rows b)) s') = Ok th /\ fitted_values s' = Some th /\
    has_deviance (o_dist c) (b_rows b) th v /\ s_dev s = Some (dev0, it0) /\
    s_dev s' = Some (v + (1 - p_forget pr 0) ^ length (b_rows b) * dev0, n).
Proof. exact @C111_update_lemma. Qed.
Print Assumptions C111_update.
(** After [fit] the same for every parameter whose steps were not damped. *)
Theorem C111_fit : forall M (ops : method_ops M) c b s s', gam_fit ops c b s = (s', Ok tt) ->
  rowwise (o_dist c) -> o_cond_start c = false -> cycles s' <> Some O ->
  exists th fv, snd (predict_parameters c true (b_p b) (Xs (b_rows b)) s') = Ok th /\ fitted_values s' = Some fv /\
    forall p, (p < d_n (o_dist c))%nat -> undamped s' p -> same_values p th fv.
Proof. exact @C111_fit_lemma. Qed.
Print Assumptions C111_fit.
(** The deviance of the object is then no better than that of the predictions. *)
Theorem C111_fit_deviance : forall M (ops : method_ops M) c b s s', gam_fit ops c b s = (s', Ok tt) ->
  rowwise (o_dist c) -> o_cond_start c = false -> cycles s' <> Some O -> (0 < d_n (o_dist c))%nat ->
  reads_parameters (o_dist c) -> (forall p, (p < d_n (o_dist c))%nat -> undamped s' p) ->
  exists th v dev n, snd (predict_parameters c true (b_p b) (Xs (b_rows b)) s') = Ok th /\
    has_deviance (o_dist c) (b_rows b) th v /\ s_dev s' = Some (dev, n) /\ v <= dev.
Proof. exact @C111_fit_deviance_lemma. Qed.
Print Assumptions C111_fit_deviance.
(** The shipped distributions meet the conditions. *)
Theorem C111_shipped : forall lgam dg tg ft fj gi pf cd D links,
  rowwise (shipped lgam dg tg ft fj gi pf cd D links) /\ reads_parameters (shipped lgam dg tg ft fj gi pf cd D links).
Proof. intros. split; [apply shipped_rowwise|apply shipped_reads]. Qed.
Print Assumptions C111_shipped.
(** With step size 1/2 the fitted values and the predictions for the same rows differ, and
    the deviance of the object is not that of its predictions. *)
Theorem C111_damped : exists s fv th dev v,
  gam_fit ex_ops (half_cfg (1 / 2)) half_b new_gam = (s, Ok tt) /\ cycles s = Some 1%nat /\
  fitted_values s = Some fv /\ snd (predict_parameters (half_cfg (1 / 2)) true (b_p half_b) (Xs (b_rows half_b)) s) = Ok th /\
  (forall q, In q fv -> q 0%nat = 9 / 8) /\ (forall q, In q th -> q 0%nat = 5 / 4) /\
  s_dev s = Some (dev, 1%nat) /\ has_deviance (o_dist (half_cfg (1 / 2))) (b_rows half_b) fv dev /\
  has_deviance (o_dist (half_cfg (1 / 2))) (b_rows half_b) th v /\ v < dev.
Proof. exact C111_damped_lemma. Qed.
Print Assumptions C111_damped.

(** With step size 1 the fit of the same rows gives 5/4 in both ways. *)
Example C111_example : exists s th, gam_fit ex_ops (half_cfg 1) half_b new_gam = (s, Ok tt) /\
  snd (predict_parameters (half_cfg 1) true 1 (Xs (b_rows half_b)) s) = Ok th /\
  exists fv, fitted_values s = Some fv /\ same_values 0 th fv /\ forall q, In q th -> q 0%nat = 5 / 4.
Proof.
  destruct (half_fit 1 ltac:(lra)) as (s & fv & H1 & H2 & H3 & H4 & H5 & H6 & Hu & out & H7 & H8 & H9).
  exists s, out. split; [exact H1|]. split; [exact H7|]. exists fv. split; [exact H3|]. split; [|exact H9].
  destruct (C111_fit unit ex_ops (half_cfg 1) half_b new_gam s H1) as (th & fv' & E1 & E2 & E3).
  - apply C111_shipped.
  - reflexivity.
  - rewrite H2. discriminate.
  - change (b_p half_b) with 1%nat in E1. rewrite H7 in E1. injection E1 as <-. rewrite H3 in E2. injection E2 as <-.
    apply E3; [cbn; lia|auto].
Qed.
(** Two observations, then one more: deviance 4 plus 2. *)
Example C111_update_example : exists s1 s2 th, gam_fit ex_ops ex_cfg ex_b0 new_gam = (s1, Ok tt) /\
  gam_update ex_ops ex_cfg ex_b1 s1 = (s2, Ok tt) /\
  snd (predict_parameters ex_cfg true 1 (Xs (b_rows ex_b1)) s2) = Ok th /\ fitted_values s2 = Some th /\
  has_deviance ex_dist (b_rows ex_b1) th 2 /\ s_dev s2 = Some (2 + 4, 1%nat).
Proof.
  destruct ex_fit as (s1 & E1 & S1). destruct (ex_update 2 4 1 s1 ltac:(lra) S1) as (s2 & E2 & S2).
  destruct S1 as (w & nt & _ & ->). destruct S2 as (w2 & nt2 & _ & ->).
  eexists. eexists.
  destruct (C111_update unit ex_ops ex_cfg ex_b1 _ _ ex_prep E2 ltac:(discriminate) eq_refl ltac:(discriminate)) as (th & v & dev0 & it0 & n & P1 & P2 & P3 & P4 & P5).
  { intros p Hp. cbn in Hp. left. lia. }
  exists th. split; [exact E1|]. split; [exact E2|]. split; [exact P1|]. split; [exact P2|]. cbn in P4, P5. injection P4 as <- <-. injection P5 as Ev <-.
  split; [|reflexivity]. replace 2 with v by (cbn in Ev; lra). exact P3.
Qed.

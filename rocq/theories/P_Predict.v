(** Properties C88-C90, C93 and C94 for the fitted estimator: predict, predict_median,
    predict_quantile, contributions, and the option cond_start_val. *)
From Coq Require Import Reals List Bool Arith Lia Lra String.
From Verif Require Import Base Lin Data M_Scaler M_State M_LM M_Equation M_GAMLSS M_GAMDist M_Links M_DistTable M_Dist M_Mixed M_Scipy M_Predict.
From Verif Require Import S_Dist S_Mixed S_GAMLSS S_Scipy L_GAM2 L_GAMEx L_GAMEx3 L_Predict P_Scipy.
Import ListNotations.
Open Scope R_scope.

(** ** C88: predict is the mean of the predicted distribution *)
Theorem C88_predict {M} (c : gam_cfg M) lgam dg tg ft fj gi pf cond D euler ncol X (s s' : gam M) params :
  o_dist c = shipped_default lgam dg tg ft fj gi pf cond D -> ~ mixed D ->
  predict_parameters c true ncol X s = (s', Ok params) -> List.Forall (moderate D) params ->
  predict_mean c (dist_mean euler D) ncol X s = (s', Ok (map (expected_mean euler D) params)).
Proof. exact (fun Ec => C88_predict_lemma c lgam dg tg ft fj gi pf cond D Ec euler ncol X s s' params). Qed.
Print Assumptions C88_predict.

(** ** C89: predictions that always raise *)
Theorem C89_predict_median {M} (c : gam_cfg M) ncol X (s : gam M) :
  exists s' x, predict_median c ncol X s = (s', Raise x) /\
    (forall s'' params, predict_parameters c true ncol X s = (s'', Ok params) -> x = AttributeError).
Proof. exact (C89_median_lemma c ncol X s). Qed.
Print Assumptions C89_predict_median.

Theorem C89_predict_of_mixed_families {M} (c : gam_cfg M) D euler ncol X (s s' : gam M) params :
  mixed D -> predict_parameters c true ncol X s = (s', Ok params) ->
  predict_mean c (dist_mean euler D) ncol X s = (s', Raise AttributeError).
Proof. exact (C89_mean_lemma c D euler ncol X s s' params). Qed.
Print Assumptions C89_predict_of_mixed_families.

(** ** C90: predict_quantile *)
(** An array of quantiles: one row per row of [X], one column per quantile, and the
    quantiles of the predicted distribution in them. *)
Theorem C90_array_of_quantiles {M} (c : gam_cfg M) lgam dg tg ft fj gi std_cdf std_ppf cond D l ncol X (s s' : gam M) params :
  scipy_laws std_cdf std_ppf ->
  o_dist c = shipped_default lgam dg tg ft fj gi (dist_ppf std_ppf) cond D ->
  List.Forall (fun q => 0 < q < 1) l ->
  predict_parameters c true ncol X s = (s', Ok params) ->
  exists out, predict_quantile c (QArray l) ncol X s = (s', Ok out) /\ List.length out = List.length X /\
    forall i th, nth_error params i = Some th -> exists row, nth_error out i = Some row /\
      List.Forall2 (fun q v => exists x, v = Some x /\ is_quantile (cdf_domain D) (fun y => dist_cdf std_cdf D y th) q x) l row.
Proof. exact (C90_array_quantiles_lemma c lgam dg tg ft fj gi std_cdf std_ppf cond D l ncol X s s' params). Qed.
Print Assumptions C90_array_of_quantiles.

Theorem C90_one_quantile {M} (c : gam_cfg M) q ncol X (s s' : gam M) params :
  predict_parameters c true ncol X s = (s', Ok params) ->
  exists out, predict_quantile c (QNumber q) ncol X s = (s', Ok out) /\
    predict_quantile c (QArray [q]) ncol X s = (s', Ok out) /\ List.length out = List.length X.
Proof. exact (C90_one_lemma c q ncol X s s' params). Qed.
Print Assumptions C90_one_quantile.

(** A python list of quantiles is paired with the rows, or rejected. *)
Theorem C90_list_of_quantiles {M} (c : gam_cfg M) l ncol X (s s' : gam M) params :
  predict_parameters c true ncol X s = (s', Ok params) ->
  (List.length l = List.length params ->
     exists out, predict_quantile c (QList l) ncol X s = (s', Ok out) /\ List.length out = List.length params /\
       forall i q th, nth_error l i = Some q -> nth_error params i = Some th -> nth_error out i = Some [d_ppf (o_dist c) q th]) /\
  (List.length l <> List.length params -> List.length l <> 1%nat -> List.length params <> 1%nat ->
     predict_quantile c (QList l) ncol X s = (s', Raise ValueError)).
Proof. exact (C90_list_lemma c l ncol X s s' params). Qed.
Print Assumptions C90_list_of_quantiles.

(** ** C93: cond_start_val *)
Theorem C93_fit_never_completes_a_cycle {M} (ops : method_ops M) (c : gam_cfg M) lgam dg tg ft fj gi pf minimise D links b s s' :
  o_dist c = shipped lgam dg tg ft fj gi pf (fun d => conditional_start lgam minimise d links) D links ->
  no_start D -> o_cond_start c = true ->
  gam_fit ops c b s = (s', Ok tt) -> cycles s' = Some O.
Proof. exact (C93_fit_lemma ops c lgam dg tg ft fj gi pf minimise D links b s s'). Qed.
Print Assumptions C93_fit_never_completes_a_cycle.

(** ** C94: contributions *)
Theorem C94_contributions {M} (c : gam_cfg M) what ncol X (s s' : gam M) pred contrib :
  predict_contributions c what ncol X s = (s', Ok (pred, contrib)) ->
  s' = s /\ (what = "response" \/ what = "link")%string /\ List.length pred = List.length X /\
  forall i p, (i < List.length X)%nat ->
    nth i pred (fun _ => 0) p =
      let eta := lsum (nth i (contrib p) []) in if String.eqb what "response" then d_inv (o_dist c) p eta else eta.
Proof. exact (C94_lemma c what ncol X s s' pred contrib). Qed.
Print Assumptions C94_contributions.

Theorem C94_other_values_of_what {M} (c : gam_cfg M) what ncol X (s : gam M) :
  what <> "response"%string -> what <> "link"%string ->
  exists s' x, predict_contributions c what ncol X s = (s', Raise x) /\ predict_what c what ncol X s = (s', Raise x) /\
    (forall s'' out, predict_parameters c false ncol X s = (s'', Ok out) -> x = ValueError).
Proof. exact (C94_invalid_lemma c what ncol X s). Qed.
Print Assumptions C94_other_values_of_what.

(** A normal distribution fitted to -1 and 1 (and a row with weight zero). *)
Lemma n_predict n dev it s r : n_state n dev it s -> exists out,
  predict_parameters n_cfg r 1 [fun _ => 5; fun _ => 7] s = (s, Ok out) /\ List.length out = 2%nat /\
  forall th, In th out -> th 0%nat = 0 /\ th 1%nat = if r then 1 else 0.
Proof.
  intros (w & nt & Hw & ->). eexists. split.
  - apply (predict_parameters_run n_cfg r 1 [fun _ => 5; fun _ => 7] _ (n_scaler n) n_prep (n_X 2) w); try reflexivity; try (cbn; lia); intros q Hq; now injection Hq as <-.
  - split; [reflexivity|]. destruct Hw as ((_ & _ & Hco0 & _) & (_ & _ & Hco1 & _) & _).
    intros th [<-|[<-|[]]]; unfold dot; cbn; rewrite Hco0, Hco1; destruct r; cbn; replace (0 + 1 * 0) with 0 by lra; split; auto; exact rexp0.
Qed.
Example C88_C89_C90_C94_example : exists s, (exists dv, gam_fit ex_ops n_cfg n_b0 new_gam = (s, Ok tt) /\ n_state 2 dv 1 s) /\
  predict_mean n_cfg (dist_mean (1 / 2) Normal) 1 [fun _ => 5; fun _ => 7] s = (s, Ok [Some 0; Some 0]) /\
  predict_median n_cfg 1 [fun _ => 5; fun _ => 7] s = (s, Raise AttributeError) /\
  (exists out, predict_quantile n_cfg (QArray [1 / 4; 1 / 2; 3 / 4]) 1 [fun _ => 5; fun _ => 7] s = (s, Ok out) /\
     List.length out = 2%nat /\ List.Forall (fun row => List.length row = 3%nat) out) /\
  predict_quantile n_cfg (QList [1 / 4; 1 / 2; 3 / 4]) 1 [fun _ => 5; fun _ => 7] s = (s, Raise ValueError) /\
  exists pred contrib, predict_contributions n_cfg "link" 1 [fun _ => 5; fun _ => 7] s = (s, Ok (pred, contrib)) /\ contrib 1%nat = [[0]; [0]].
Proof.
  destruct n_fit as (s & dv & Hf & Hs). exists s. split; [eauto|].
  destruct (n_predict 2 dv 1 s true Hs) as (out & Hp & Hl & Hv).
  assert (El : exists a b, out = [a; b]) by (destruct out as [|a [|b [|? ?]]]; try discriminate; eauto).
  destruct El as (a & b & ->).
  assert (Va := Hv a (or_introl eq_refl)). assert (Vb := Hv b (or_intror (or_introl eq_refl))).
  split; [|split; [|split; [|split]]].
  - erewrite C88_predict; [|reflexivity| |exact Hp|].
    + cbn [map expected_mean]. rewrite (proj1 Va), (proj1 Vb). reflexivity.
    + intros [K|[K|K]]; discriminate.
    + apply Forall_forall; intros th _ K; discriminate.
  - unfold predict_median, bnd. rewrite Hp. reflexivity.
  - unfold predict_quantile, bnd. rewrite Hp. eexists. split; [reflexivity|]. split; [reflexivity|]. repeat constructor.
  - apply (C90_list_of_quantiles n_cfg _ _ _ _ _ _ Hp); cbn; lia.
  - destruct (n_predict 2 dv 1 s false Hs) as (out' & Hp' & _).
    destruct Hs as (w & nt & Hw & ->). destruct Hw as (_ & (_ & _ & Hco1 & _) & _).
    unfold predict_contributions. unfold bnd at 1.
    match goal with |- context [predict_what n_cfg "link" 1 ?x ?s] => change (predict_what n_cfg "link" 1 x s) with (predict_parameters n_cfg false 1 x s) end.
    rewrite Hp'. eexists. eexists. split; [reflexivity|]. cbn. rewrite Hco1. rewrite Rmult_0_r. reflexivity.
Qed.

(** Properties of lasso paths in distributional regression. *)
From Coq Require Import Reals List Bool Arith Lra.
From Verif Require Import Base Lin Data M_CD M_Path M_Scaler M_Utils M_State M_LM S_LM M_Equation S_Equation M_GAMLSS S_GAMLSS S_Penal S_GAMLasso L_GAM24 L_GAMEx6.
Import ListNotations.
Open Scope R_scope.

(** The candidate of the largest penalty: the mean of all working responses, no feature. *)
Theorem C123_first_candidate perms (c : gam_cfg (en_cfg * nat)) m k0 pr p b bs s s1 s' :
  o_method c p = Ok (m, k0) -> plain_lasso m -> p_forget pr p <= 1 -> (p < d_n (o_dist c))%nat ->
  p_icpt pr p = true -> p_regicpt pr p = false -> p_eq pr p <> EqIntercept -> selects (p_eq pr p) true (b_p b) ->
  o_cond_start c = false -> rowwise (o_dist c) -> bs = [] \/ concave_in (o_dist c) p ->
  gam_fit (en_ops perms) c b s = (s1, Ok tt) -> cycles s1 <> Some O -> s_prep s1 = Some pr -> updates_run (en_ops perms) c s1 bs s' ->
  weights_nonneg (b_rows b) -> List.Forall (fun b => weights_nonneg (b_rows b)) bs ->
  exists V0 V1 w row rest,
    List.Forall2 (some_row (o_dist c) pr (b_p b) p weight_floor) (b_rows b) V0 /\
    List.Forall2 (some_row (o_dist c) pr (b_p b) p (- weight_ceiling)) (stream bs) V1 /\
    s_work s' = Some w /\ w_path w p = Some (row :: rest) /\ row 0%nat = target_mean (p_forget pr p) (V0 ++ V1) /\
    forall j, (1 <= j < design_width pr (b_p b) p)%nat -> row j = 0.
Proof.
  intros Hm Hl Hf Hp Hi Hr He Hs Hcs Hrw. rewrite <- Hi in Hs.
  exact (fun K => C123_first_lemma perms c m k0 pr p b Hm Hl Hf Hp Hi Hr Hs Hcs Hrw bs s s1 s' He K).
Qed.
Print Assumptions C123_first_candidate.

Example C123_example : exists s w row, gam_fit (en_ops (l_perms 2)) (l_cfg EqAll) (l_batch 1 3) new_gam = (s, Ok tt) /\ cycles s = Some 1%nat /\
  plain_lasso l_en /\ rowwise l_dist /\ concave_in l_dist 0 /\ s_work s = Some w /\ w_path w 0%nat = Some [row] /\ row 0%nat = 2 /\ row 1%nat = 0.
Proof.
  destruct l_first as (s & w & row & K1 & K2 & K3 & K4 & K5 & K6 & K7). exists s, w, row. split; [exact K1|]. split; [exact K2|].
  split; [unfold plain_lasso; cbn; repeat split; auto; lra|]. split; [intros y fv [= <-]; now rewrite map_length|].
  split; [intros y th v [= <-]; lra|]. auto.
Qed.

(** The equation "intercept": the intercept is penalised although regularize_intercept is
    False. All candidates are below the mean; for a negative mean they are larger in size. *)
Theorem C123_intercept_only perms (c : gam_cfg (en_cfg * nat)) m k0 pr p b bs s s1 s' :
  o_method c p = Ok (m, k0) -> plain_lasso m -> en_eps m <= 1 -> p_forget pr p <= 1 -> (p < d_n (o_dist c))%nat ->
  p_icpt pr p = true -> p_regicpt pr p = false -> p_eq pr p = EqIntercept ->
  o_cond_start c = false -> rowwise (o_dist c) -> bs = [] \/ concave_in (o_dist c) p ->
  gam_fit (en_ops perms) c b s = (s1, Ok tt) -> cycles s1 <> Some O -> s_prep s1 = Some pr -> updates_run (en_ops perms) c s1 bs s' ->
  weights_nonneg (b_rows b) -> List.Forall (fun b => weights_nonneg (b_rows b)) bs ->
  exists V0 V1 w path,
    List.Forall2 (some_row (o_dist c) pr (b_p b) p weight_floor) (b_rows b) V0 /\
    List.Forall2 (some_row (o_dist c) pr (b_p b) p (- weight_ceiling)) (stream bs) V1 /\
    s_work s' = Some w /\ w_path w p = Some path /\ length path = en_n m /\
    let mean := target_mean (p_forget pr p) (V0 ++ V1) in
    mean <> 0 /\ forall k, (k < en_n m)%nat ->
      nth k path (fun _ => 0) 0%nat = mean - Rabs mean * Rpower (en_eps m) (INR k / INR (en_n m - 1)).
Proof.
  intros Hm Hl He Hf Hp Hi Hr Hq Hcs Hrw.
  assert (Hs : selects (p_eq pr p) (p_icpt pr p) (b_p b)) by (rewrite Hq; exact Hi).
  exact (fun K => C123_only_lemma perms c m k0 pr p b Hm Hl Hf Hp Hi Hr Hs Hcs Hrw bs s s1 s' Hq He K).
Qed.
Print Assumptions C123_intercept_only.

(** Both responses are -1; the fitted intercept is -2. *)
Theorem C123_doubles : exists s w, gam_fit (en_ops (l_perms 1)) (l_cfg EqIntercept) (l_batch (-1) (-1)) new_gam = (s, Ok tt) /\
  plain_lasso l_en /\ o_regicpt (l_cfg EqIntercept) = Scalar false /\ s_work s = Some w /\ w_coef w 0%nat 0%nat = - 2 /\
  (exists row, w_path w 0%nat = Some [row] /\ row 0%nat = - 2).
Proof.
  destruct l_only as (s & w & row & K1 & K2 & K3 & K4 & K5 & K6 & K7). exists s, w. split; [exact K1|].
  split; [unfold plain_lasso; cbn; repeat split; auto; lra|]. split; [reflexivity|]. split; [exact K4|]. split; [now rewrite K6|eauto].
Qed.
Print Assumptions C123_doubles.

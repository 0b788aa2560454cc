(** Properties C106-C108: units of the target. *)
From Coq Require Import Reals List Bool Arith Lra Lia Permutation.
From Verif Require Import Base Lin Data M_Gram S_Gram M_OLS M_CD M_Path M_Ridge M_Scaler M_Utils M_State M_LM S_LM S_Target L_Target L_Target2 L_Target3 L_Target4 L_Target5 P_LM.
Import ListNotations.
Open Scope R_scope.

(** C106. OLS and ridge in other units of the target. *)
Theorem C106_ols : forall inv c t d ds s,
  lm_history (ols_ops inv) c (d :: ds) new_lm = Ok s ->
  exists s', lm_history (ols_ops inv) c (map (target_units t) (d :: ds)) new_lm = Ok s' /\
    a_coef s' = option_map (vscale t) (a_coef s) /\
    (forall p X, snd (lm_predict c p X s') = res_map (map (Rmult t)) (snd (lm_predict c p X s))) /\
    (t <> 0 -> forall b, snd (lm_score c (target_units t b) s') = snd (lm_score c b s)).
Proof. exact C106_ols_lemma. Qed.
Print Assumptions C106_ols.
Theorem C106_ridge : forall inv perms c cfg t d ds s, 0 < t ->
  c_method c = Ok (cfg, 0%nat) -> ri_start cfg = None -> unitless_bound (ri_lower cfg) -> unitless_bound (ri_upper cfg) ->
  lm_history (ridge_ops inv perms) c (d :: ds) new_lm = Ok s ->
  exists s', lm_history (ridge_ops inv perms) c (map (target_units t) (d :: ds)) new_lm = Ok s' /\
    a_coef s' = option_map (vscale t) (a_coef s) /\
    (forall p X, snd (lm_predict c p X s') = res_map (map (Rmult t)) (snd (lm_predict c p X s))) /\
    (forall b, snd (lm_score c (target_units t b) s') = snd (lm_score c b s)).
Proof. exact C106_ridge_lemma. Qed.
Print Assumptions C106_ridge.
(** A fit and an update in MWh and in kWh. *)
Example C106_example : forall inv, matinv_spec inv -> exists s s',
  lm_history (ols_ops inv) w48_c [w48_b0; w48_b1] new_lm = Ok s /\
  lm_history (ols_ops inv) w48_c (map (target_units 1000) [w48_b0; w48_b1]) new_lm = Ok s' /\
  snd (lm_predict w48_c 1 [fun _ => 5] s) = Ok [25 / 74] /\
  snd (lm_predict w48_c 1 [fun _ => 5] s') = Ok [1000 * (25 / 74)].
Proof.
  intros inv HI. destruct (C48_scaling_breaks_equality inv HI) as (s & _ & H & _ & P & _).
  destruct (C106_ols inv w48_c 1000 w48_b0 [w48_b1] s H) as (s' & E & _ & Q & _).
  exists s, s'. repeat (split; [assumption|]). rewrite Q, P. reflexivity.
Qed.
Example C106_ridge_example : forall inv perms, (forall k i, Permutation (perms k i) (seq 0 1)) ->
  exists s s', lm_history (ridge_ops inv perms) t_rc [t_b] new_lm = Ok s /\
    lm_history (ridge_ops inv perms) t_rc [target_units 1000 t_b] new_lm = Ok s' /\
    snd (lm_predict t_rc 1 [fun _ => 3] s) = Ok [3] /\ snd (lm_predict t_rc 1 [fun _ => 3] s') = Ok [1000 * 3].
Proof.
  intros inv perms Hp. destruct (t_ridge inv perms Hp) as (s & beta & H & _ & _ & P).
  destruct (C106_ridge inv perms t_rc (mk_ridge None None false None None 0 10) 1000 t_b [] s) as (s' & E & _ & Q & _);
    try reflexivity; try lra; try (intros l o K; discriminate K).
  { exact H. }
  exists s, s'. repeat (split; [assumption|]). rewrite Q, P. reflexivity.
Qed.

(** C107. The lasso: the path scales, the choice on the path only away from [isclose]. *)
Theorem C107_lasso : forall perms c cfg t d ds s, 0 < t -> c_ic c <> aicc ->
  c_method c = Ok (cfg, 0%nat) -> en_alpha cfg = 1 -> unitless_bound (en_lower cfg) -> unitless_bound (en_upper cfg) ->
  lm_history (en_ops perms) c (d :: ds) new_lm = Ok s ->
  exists s', lm_history (en_ops perms) c (map (target_units t) (d :: ds)) new_lm = Ok s' /\
    a_path s' = option_map (map (vscale t)) (a_path s) /\
    (forall p X, snd (lm_predict_path c p X s') = res_map (map (map (Rmult t))) (snd (lm_predict_path c p X s))) /\
    forall path rss n, a_path s = Some path -> a_rss s = Some rss -> a_ntrain s = Some n ->
      same_zeros t (n_cols (c_icpt c) (b_p d)) path -> (forall r, In r rss -> 0 < r) -> 0 < n ->
      a_coef s' = option_map (vscale t) (a_coef s) /\
      (forall p X, snd (lm_predict c p X s') = res_map (map (Rmult t)) (snd (lm_predict c p X s))) /\
      (forall b, snd (lm_score c (target_units t b) s') = snd (lm_score c b s)).
Proof. exact C107_lemma. Qed.
Print Assumptions C107_lasso.
Theorem C107_small_units : forall perms c cfg d ds s path rss n, c_ic c <> aicc ->
  c_method c = Ok (cfg, 0%nat) -> en_alpha cfg = 1 -> unitless_bound (en_lower cfg) -> unitless_bound (en_upper cfg) ->
  lm_history (en_ops perms) c (d :: ds) new_lm = Ok s ->
  a_path s = Some path -> a_rss s = Some rss -> a_ntrain s = Some n -> (forall r, In r rss -> 0 < r) -> 0 < n ->
  exists t0, 0 < t0 /\ forall t, 0 < t < t0 ->
    exists s' k, lm_history (en_ops perms) c (map (target_units t) (d :: ds)) new_lm = Ok s' /\
      argmin rss = Ok k /\ a_coef s' = Some (vscale t (nth k path (fun _ => 0))).
Proof. exact C107_small_lemma. Qed.
Print Assumptions C107_small_units.
Theorem C107_units_change_model : forall perms, (forall k l i, Permutation (perms k l i) (seq 0 1)) ->
  exists s s' t, 0 < t /\ lm_history (en_ops perms) t_c [t_b] new_lm = Ok s /\
    lm_history (en_ops perms) t_c [target_units t t_b] new_lm = Ok s' /\
    snd (lm_predict t_c 1 [fun _ => 1] s) = Ok [0] /\ snd (lm_predict t_c 1 [fun _ => 1] s') = Ok [t * 1].
Proof. exact C107_flip_lemma. Qed.
Print Assumptions C107_units_change_model.
Theorem C107_elastic_net : forall c perm perm' x y isreg t c' P c2 P2 i, 0 <= en_alpha c < 1 -> 0 < en_eps c <= 1 ->
  en_lower c = None -> en_upper c = None -> en_early_stop c = 0%nat ->
  (forall k i, Permutation (perm k i) (seq 0 1)) -> (forall k i, Permutation (perm' k i) (seq 0 1)) ->
  0 < x 0%nat 0%nat -> isreg 0%nat = true -> 0 < y 0%nat -> 0 < t -> t <> 1 ->
  fit_beta_path c perm 1 x y isreg = Ok (c', P) ->
  fit_beta_path c perm' 1 x (vscale t y) isreg = Ok (c2, P2) -> (i < en_n c)%nat ->
  P2 i 0%nat <> t * P i 0%nat.
Proof. exact C107_enet_lemma. Qed.
Print Assumptions C107_elastic_net.
Theorem C107_one_column : forall c perm x y isreg c' P i, 0 <= en_alpha c <= 1 -> 0 < en_eps c <= 1 ->
  en_lower c = None -> en_upper c = None -> en_early_stop c = 0%nat ->
  (forall k i, Permutation (perm k i) (seq 0 1)) -> 0 < x 0%nat 0%nat -> isreg 0%nat = true -> 0 < y 0%nat ->
  fit_beta_path c perm 1 x y isreg = Ok (c', P) -> (i < en_n c)%nat ->
  let e := Rpower (en_eps c) (INR i / INR (en_n c - 1)) in
  0 < e <= 1 /\ P i 0%nat = y 0%nat * (1 - en_alpha c * e) / (x 0%nat 0%nat + y 0%nat * e * (1 - en_alpha c)).
Proof. exact one_column_closed. Qed.
Print Assumptions C107_one_column.
(** In larger units the lasso of [t_b] scales, choice included. *)
Example C107_example : forall perms, (forall k l i, Permutation (perms k l i) (seq 0 1)) ->
  exists s s' P0 P1, lm_history (en_ops perms) t_c [t_b] new_lm = Ok s /\
    lm_history (en_ops perms) t_c [target_units 1000 t_b] new_lm = Ok s' /\
    a_path s = Some [P0; P1] /\ P0 0%nat = 0 /\ P1 0%nat = 1 /\ a_coef s = Some P0 /\
    a_path s' = Some [vscale 1000 P0; vscale 1000 P1] /\ a_coef s' = Some (vscale 1000 P0).
Proof.
  intros perms Hp. destruct (t_fit perms Hp) as (s & P0 & P1 & E & Ep & V0 & V1 & Er & En & Ec).
  pose proof (t_history perms s E) as H.
  destruct (C107_lasso perms t_c t_en 1000 t_b [] s) as (s' & E' & Q & _ & K);
    try reflexivity; try lra; try discriminate; try (intros l o W; discriminate W).
  { exact H. }
  destruct (K _ _ _ Ep Er En) as (C & _).
  - intros v j [<-|[<-|[]]] Hj; replace j with 0%nat by (cbn in Hj; lia); unfold counts_as_zero;
      rewrite ?V0, ?V1, ?Rmult_0_r, ?Rabs_R0; [tauto|]. rewrite !Rabs_pos_eq by lra. split; intros; lra.
  - intros r [<-|[<-|[]]]; lra.
  - lra.
  - exists s, s', P0, P1. rewrite Q, C, Ep, Ec. repeat (split; [assumption || reflexivity|]). reflexivity.
Qed.

(** C108. OLS with an intercept: units with another origin. *)
Theorem C108_affine_target : forall inv c t u d ds s, matinv_spec inv -> 0 <= c_forget c < 1 -> c_icpt c = true ->
  Forall (fun e => weights_nonneg (b_rows e)) (d :: ds) ->
  lm_history (ols_ops inv) c (d :: ds) new_lm = Ok s ->
  exists s' beta beta', lm_history (ols_ops inv) c (map (affine_target t u) (d :: ds)) new_lm = Ok s' /\
    a_coef s = Some beta /\ a_coef s' = Some beta' /\
    beta' 0%nat = t * beta 0%nat + u /\ (forall j, (1 <= j <= b_p d)%nat -> beta' j = t * beta j) /\
    (forall p X, snd (lm_predict c p X s') = res_map (map (fun v => t * v + u)) (snd (lm_predict c p X s))) /\
    (t <> 0 -> forall b, snd (lm_score c (affine_target t u b) s') = snd (lm_score c b s)).
Proof. exact C108_lemma. Qed.
Print Assumptions C108_affine_target.
(** Temperatures in degrees Celsius and in degrees Fahrenheit. *)
Example C108_example : forall inv, matinv_spec inv -> exists s s' beta beta',
  lm_history (ols_ops inv) t_ic [t_ib] new_lm = Ok s /\
  lm_history (ols_ops inv) t_ic [affine_target (9 / 5) 32 t_ib] new_lm = Ok s' /\
  a_coef s = Some beta /\ a_coef s' = Some beta' /\ beta 0%nat = 15 /\ beta 1%nat = 9 / 2 /\
  beta' 0%nat = 59 /\ beta' 1%nat = 81 / 10 /\
  snd (lm_predict t_ic 1 [fun _ => 2] s) = Ok [24] /\ snd (lm_predict t_ic 1 [fun _ => 2] s') = Ok [9 / 5 * 24 + 32].
Proof.
  intros inv HI. destruct (t_ols inv HI) as (s & b & H & B & B0 & B1 & P).
  destruct (C108_affine_target inv t_ic (9 / 5) 32 t_ib [] s HI) as (s' & b1 & b' & E & E1 & E2 & K0 & K1 & Q & _).
  - cbn; lra.
  - reflexivity.
  - repeat constructor; cbn; lra.
  - exact H.
  - rewrite B in E1. injection E1 as <-. exists s, s', b, b'. repeat (split; [assumption|]).
    split; [lra|]. split; [rewrite (K1 1%nat) by (cbn; lia); lra|]. split; [exact P|]. rewrite Q, P. reflexivity.
Qed.

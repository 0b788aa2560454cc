(** Lemmas for C130: least squares is linear in the responses. *)
From Coq Require Import Reals List Bool Arith Lra Lia FunctionalExtensionality.
From Verif Require Import Base Lin Data M_Gram S_Gram L_Gram M_OLS L_OLS
  M_Scaler M_Utils S_Utils M_State M_LM S_LM L_LM L_LM2 L_LM3 L_LM4 S_Learn L_Learn S_Recode L_Recode S_Super.
Import ListNotations.
Open Scope R_scope.

(** * Linearity of the normal equations *)
Section LINEAR.
Variables (p : nat) (f : R) (icpt : bool).
Definition as_obs (g : row2 -> R) (r : row2) : obs := regressors icpt (mkobs (t_x r) (g r) (t_w r)).

Lemma gram_respond g h l : gram_spec f (map (as_obs g) l) = gram_spec f (map (as_obs h) l).
Proof.
  apply functional_extensionality. intros i. apply functional_extensionality. intros j.
  unfold gram_spec. induction l as [|r l IH]; cbn [map dsum]; [reflexivity|]. rewrite IH, !map_length. reflexivity.
Qed.

Lemma ygram_respond a k l i :
  ygram_spec f (map (as_obs (fun r => a * t_y1 r + k * t_y2 r)) l) i
  = a * ygram_spec f (map (as_obs t_y1) l) i + k * ygram_spec f (map (as_obs t_y2) l) i.
Proof.
  unfold ygram_spec. induction l as [|r l IH]; cbn [map dsum]; [ring|]. rewrite IH, !map_length.
  unfold as_obs, regressors. cbn [oy ow ox]. ring.
Qed.

Lemma weights_respond g h l : weights_nonneg (map (as_obs g) l) -> weights_nonneg (map (as_obs h) l).
Proof. unfold weights_nonneg. rewrite !Forall_map. auto. Qed.

Lemma normal_unique l A c b : is_inverse p (gram_spec f l) A -> f <= 1 -> weights_nonneg l ->
  normal_equations p f l c -> normal_equations p f l b -> eqv p b c.
Proof.
  intros HA Hf Hw Nc Nb.
  destruct (wls_optimal p f l A c Hf Hw HA Nc b) as [H1 H2].
  destruct (wls_optimal p f l A b Hf Hw HA Nb c) as [H3 _]. apply H2. lra.
Qed.

Lemma coef_respond a k l o1 o2 o : 0 <= f < 1 ->
  ols_inv p f (map (as_obs t_y1) l) o1 -> ols_inv p f (map (as_obs t_y2) l) o2 ->
  ols_inv p f (map (as_obs (fun r => a * t_y1 r + k * t_y2 r)) l) o ->
  eqv p (ols_coef o) (fun j => a * ols_coef o1 j + k * ols_coef o2 j).
Proof.
  intros Hf I1 I2 I.
  pose proof (ols_inv_coef _ _ _ _ I1) as N1. pose proof (ols_inv_coef _ _ _ _ I2) as N2. pose proof (ols_inv_coef _ _ _ _ I) as N.
  destruct I as ((HA & Hw) & _). intros j Hj. symmetry.
  apply (normal_unique (map (as_obs (fun r => a * t_y1 r + k * t_y2 r)) l) (ols_x o) (ols_coef o)
    (fun j => a * ols_coef o1 j + k * ols_coef o2 j) HA ltac:(lra) Hw N); auto.
  intros i Hi. rewrite ygram_respond, <- (N1 i Hi), <- (N2 i Hi).
  rewrite (gram_respond t_y1 (fun r => a * t_y1 r + k * t_y2 r)), (gram_respond t_y2 (fun r => a * t_y1 r + k * t_y2 r)).
  unfold mvec. rewrite <- !bsum_scal_l, <- bsum_plus. apply bsum_ext. intros; ring.
Qed.

Lemma fit_respond inv g h l o : matinv_spec inv -> 0 <= f < 1 -> weights_nonneg (map (as_obs g) l) ->
  ols_fit inv p f (map (as_obs g) l) = Ok o -> exists o', ols_fit inv p f (map (as_obs h) l) = Ok o'.
Proof.
  intros HI Hf Hw Ho. destruct (ols_fit_inv inv p f _ o HI Hf Hw Ho) as ((IA & _) & _).
  unfold ols_fit, init_inverted_gram.
  destruct (proj2 HI p (init_gram (Xs (map (as_obs h) l)) (ws (map (as_obs h) l)) f)) as (B & ->); [|cbn [bind]; eauto].
  exists (ols_x o). eapply is_inverse_ext; [|apply eqm_refl|exact IA].
  intros i j _ _. rewrite init_gram_spec; [|lra|apply (weights_respond g), Hw]. rewrite (gram_respond h g). reflexivity.
Qed.
End LINEAR.

Lemma stream_respond icpt p g rss :
  map (regressors icpt) (stream (map (respond p g) rss)) = map (as_obs icpt g) (concat rss).
Proof.
  unfold stream. induction rss as [|r rss IH]; cbn [map concat]; [reflexivity|].
  rewrite !map_app, IH. unfold respond at 1. cbn [b_rows]. rewrite map_map. reflexivity.
Qed.

Lemma good_respond p g h rss : good_calls p (map (respond p g) rss) -> good_calls p (map (respond p h) rss).
Proof.
  unfold good_calls. rewrite !Forall_map. apply Forall_impl. intros l (H1 & H2 & H3). split; [|split; [|reflexivity]].
  - unfold respond, weights_nonneg in *. cbn [b_rows] in *. rewrite Forall_map in *. exact H1.
  - unfold respond in *. cbn [b_rows] in *. destruct l; [cbn in H2; congruence|discriminate].
Qed.

Lemma C130_succeeds inv c p r0 rss g h s :
  matinv_spec inv -> 0 <= c_forget c < 1 -> ols_config c -> good_calls p (map (respond p g) (r0 :: rss)) ->
  lm_history (ols_ops inv) c (map (respond p g) (r0 :: rss)) new_lm = Ok s ->
  exists s', lm_history (ols_ops inv) c (map (respond p h) (r0 :: rss)) new_lm = Ok s'.
Proof.
  intros HI Hf HC HG H. cbn [map] in *.
  pose proof (good_respond p g h (r0 :: rss) HG) as HG'. cbn [map] in HG'.
  assert (F0 : exists s0, lm_fit (ols_ops inv) c (respond p h r0) new_lm = (s0, Ok tt)).
  { cbn [lm_history] in H. destruct (partial_fit (ols_ops inv) c (respond p g r0) new_lm) as [s0 [[]|e]] eqn:H0; [|discriminate H].
    unfold partial_fit in H0. change (is_fitted new_lm) with false in H0. cbn iota in H0.
    destruct (ols_lm_fit inv c (respond p g r0) _ _ HC H0) as (L1 & L2 & Hn & Hr & o0 & Ho & _).
    cbn [respond b_p b_rows] in *. rewrite map_length in L1. rewrite map_map in Ho.
    inversion HG as [|? ? (G1 & _)]; subst. cbn [respond b_rows] in G1.
    destruct (fit_respond (n_cols (c_icpt c) p) (c_forget c) (c_icpt c) inv g h r0 o0 HI Hf) as (o1 & Ho1).
    - unfold weights_nonneg in *. rewrite Forall_map in *. exact G1.
    - exact Ho.
    - destruct (ols_lm_fit_intro inv c (respond p h r0) new_lm o1 HC) as (s1 & E1 & _).
      + cbn [respond b_rows]. rewrite map_length. exact L1.
      + exact L2.
      + cbn [respond b_rows b_p]. unfold total_weight, ws in *. rewrite map_map in *. exact Hn.
      + exact Hr.
      + cbn [respond b_rows b_p]. rewrite map_map. exact Ho1.
      + exists s1. exact E1. }
  destruct F0 as (s0 & F0).
  destruct (C47_optimal_lemma inv c (respond p h r0) (map (respond p h) rss) s0 HI Hf HC HG' F0) as (s' & _ & E' & _).
  exists s'. exact E'.
Qed.

Lemma C130_any_response_lemma inv c p rss g h s :
  matinv_spec inv -> 0 <= c_forget c < 1 -> ols_config c -> rss <> [] -> good_calls p (map (respond p g) rss) ->
  lm_history (ols_ops inv) c (map (respond p g) rss) new_lm = Ok s ->
  exists s', lm_history (ols_ops inv) c (map (respond p h) rss) new_lm = Ok s'.
Proof. intros HI Hf HC Hne HG H. destruct rss as [|r0 rss]; [congruence|]. eapply C130_succeeds; eauto. Qed.

Lemma dot_lin n x a b c1 c2 c : eqv n c (fun j => a * c1 j + b * c2 j) -> dot n x c = a * dot n x c1 + b * dot n x c2.
Proof.
  intros H. unfold dot. rewrite <- !bsum_scal_l, <- bsum_plus. apply bsum_ext. intros i Hi. rewrite (H i Hi). ring.
Qed.

Lemma C130_superposition_lemma inv c p rss a k s1 s2 :
  matinv_spec inv -> 0 <= c_forget c < 1 -> ols_config c -> rss <> [] -> good_calls p (map (respond p t_y1) rss) ->
  lm_history (ols_ops inv) c (map (respond p t_y1) rss) new_lm = Ok s1 ->
  lm_history (ols_ops inv) c (map (respond p t_y2) rss) new_lm = Ok s2 ->
  exists s, lm_history (ols_ops inv) c (map (respond p (fun r => a * t_y1 r + k * t_y2 r)) rss) new_lm = Ok s /\
    forall X, X <> [] -> exists v1 v2,
      snd (lm_predict c p X s1) = Ok v1 /\ snd (lm_predict c p X s2) = Ok v2 /\
      snd (lm_predict c p X s) = Ok (map2 (fun u v => a * u + k * v) v1 v2).
Proof.
  intros HI Hf HC Hne HG H1 H2. destruct rss as [|r0 rss]; [congruence|].
  destruct (C130_succeeds inv c p r0 rss t_y1 (fun r => a * t_y1 r + k * t_y2 r) s1 HI Hf HC HG H1) as (s & H).
  exists s. split; [exact H|].
  pose proof (good_respond p t_y1 t_y2 _ HG) as HG2.
  pose proof (good_respond p t_y1 (fun r => a * t_y1 r + k * t_y2 r) _ HG) as HG3.
  cbn [map] in HG, HG2, HG3, H1, H2, H.
  destruct (ols_lm_state inv c (respond p t_y1 r0) (map (respond p t_y1) rss) s1 HI Hf HC HG H1) as (L & n1 & o1 & R1 & I1).
  destruct (ols_lm_state inv c (respond p t_y2 r0) (map (respond p t_y2) rss) s2 HI Hf HC HG2 H2) as (_ & n2 & o2 & R2 & I2).
  destruct (ols_lm_state inv c (respond p (fun r => a * t_y1 r + k * t_y2 r) r0) (map (respond p (fun r => a * t_y1 r + k * t_y2 r)) rss) s HI Hf HC HG3 H) as (_ & n & o & R & I).
  change (respond p t_y1 r0 :: map (respond p t_y1) rss) with (map (respond p t_y1) (r0 :: rss)) in I1.
  change (respond p t_y2 r0 :: map (respond p t_y2) rss) with (map (respond p t_y2) (r0 :: rss)) in I2.
  match type of I with ols_inv _ _ (map _ (stream (?b :: _))) _ =>
    change (b :: map (respond p (fun r => a * t_y1 r + k * t_y2 r)) rss) with (map (respond p (fun r => a * t_y1 r + k * t_y2 r)) (r0 :: rss)) in I end.
  rewrite stream_respond in I1, I2, I. cbn [respond b_p] in R1, R2, R, I1, I2, I, L.
  pose proof (coef_respond _ _ (c_icpt c) a k _ o1 o2 o Hf I1 I2 I) as K.
  intros X HX. rewrite (ols_predict _ _ _ _ _ X R1 L HX), (ols_predict _ _ _ _ _ X R2 L HX), (ols_predict _ _ _ _ _ X R L HX).
  eexists _, _. split; [reflexivity|]. split; [reflexivity|]. f_equal. clear HX.
  induction X as [|x X IH]; cbn [map map2]; [reflexivity|]. rewrite IH, (dot_lin _ _ _ _ _ _ _ K). reflexivity.
Qed.

(** * Recovery *)
Lemma squares_zero m l : lsum (map (fun a => (a - m) ^ 2) l) = 0 -> Forall (fun a => a = m) l.
Proof.
  assert (P : forall l, 0 <= lsum (map (fun a => (a - m) ^ 2) l)).
  { clear. induction l as [|a l IH]; cbn [map lsum]; [lra|]. pose proof (pow2_ge_0 (a - m)). lra. }
  induction l as [|a l IH]; cbn [map lsum]; intros H; constructor; pose proof (P l); pose proof (pow2_ge_0 (a - m)).
  - assert (E : (a - m) ^ 2 = 0) by lra. cbn [pow] in E. rewrite Rmult_1_r in E. apply Rmult_integral in E. destruct E; lra.
  - apply IH. lra.
Qed.

Lemma C130_recovery_lemma inv c b0 bs s b :
  matinv_spec inv -> 0 <= c_forget c < 1 -> ols_config c -> good_calls (b_p b0) (b0 :: bs) ->
  lm_history (ols_ops inv) c (b0 :: bs) new_lm = Ok s ->
  noise_free (c_icpt c) (b_p b0) b (stream (b0 :: bs)) ->
  (exists beta, a_coef s = Some beta /\ eqv (n_cols (c_icpt c) (b_p b0)) beta b) /\
  (forall X, X <> [] -> snd (lm_predict c (b_p b0) X s)
     = Ok (map (fun x => dot (n_cols (c_icpt c) (b_p b0)) (ox (regressors (c_icpt c) (mkobs x 0 0))) b) X)) /\
  (forall d, b_p d = b_p b0 -> b_rows d <> [] -> noise_free (c_icpt c) (b_p b0) b (b_rows d) ->
     exists r, snd (lm_score c d s) = Ok r /\ (r = None \/ r = Some 1) /\
       ((exists o o', In o (b_rows d) /\ In o' (b_rows d) /\ oy o <> oy o') -> r = Some 1)).
Proof.
  intros HI Hf HC HG H HN.
  destruct (ols_lm_state inv c b0 bs s HI Hf HC HG H) as (L & n & o & R & I).
  set (cols := n_cols (c_icpt c) (b_p b0)) in *.
  assert (K : eqv cols b (ols_coef o)).
  { destruct (ols_inv_best cols (c_forget c) _ o b Hf I) as (B1 & B2). apply B2.
    assert (Z : wls_loss cols (c_forget c) (map (regressors (c_icpt c)) (stream (b0 :: bs))) b = 0).
    { unfold wls_loss. rewrite (dsum_ext _ _ (fun _ => 0)); [apply dsum_zero|].
      intros q Hq. apply in_map_iff in Hq. destruct Hq as (q' & <- & Hq).
      unfold noise_free in HN. rewrite Forall_forall in HN. specialize (HN q' Hq). fold cols in HN.
      change (oy (regressors (c_icpt c) q')) with (oy q'). rewrite HN. ring. }
    rewrite Z in *. apply Rle_antisym; [|exact B1].
    apply loss_nonneg; [lra|]. exact (ols_inv_weights _ _ _ _ I). }
  assert (P : forall X, X <> [] -> snd (lm_predict c (b_p b0) X s)
     = Ok (map (fun x => dot cols (ox (regressors (c_icpt c) (mkobs x 0 0))) b) X)).
  { intros X HX. rewrite (ols_predict _ _ _ _ _ X R L HX). f_equal. apply map_ext. intros x. fold cols.
    apply dot_ext; [intros i _; reflexivity|]. intros i Hi. symmetry. apply K, Hi. }
  split; [|split; [exact P|]].
  - destruct R as [r1 r2 r3 r4 r5 r6 r7 r8 r9].
    exists (ols_coef o). split; [assumption|]. intros i Hi. symmetry. apply K, Hi.
  - intros d Hd Nd Hnf. eexists. split; [apply score_of; rewrite Hd; apply P|].
    + unfold Xs. destruct (b_rows d); [congruence|discriminate].
    + assert (E : lsum (map2 (fun a b1 => (a - b1) ^ 2) (ys (b_rows d))
        (map (fun x => dot cols (ox (regressors (c_icpt c) (mkobs x 0 0))) b) (Xs (b_rows d)))) = 0).
      { clear Nd. unfold noise_free in Hnf. fold cols in Hnf. induction Hnf as [|q l Hq _ IH]; cbn [ys Xs map map2 lsum]; [reflexivity|].
        change (map oy l) with (ys l). change (map ox l) with (Xs l). rewrite IH, Hq.
        replace (ox (regressors (c_icpt c) (mkobs (ox q) 0 0))) with (ox (regressors (c_icpt c) q)) by reflexivity. ring. }
      unfold r2. rewrite E. destruct (Reqb _ 0) eqn:Z.
      * split; [left; reflexivity|]. intros (u & v & Hu & Hv & Hne). exfalso. apply Hne. apply Reqb_true in Z.
        pose proof (squares_zero _ _ Z) as F. rewrite Forall_forall in F.
        rewrite (F (oy u)), (F (oy v)); [reflexivity| |]; unfold ys; apply in_map; assumption.
      * assert (Q : forall t, Some (1 - 0 / t) = Some 1) by (intros; f_equal; unfold Rdiv; ring).
        rewrite Q. split; [right; reflexivity|reflexivity].
Qed.

(** * Scaled inputs: noise-free responses, not recovered (compare [w48_online]) *)
Lemma sc130_update sc : sc_is sc 2 0 1 2 ->
  exists sc', scaler_update sc (b_rows w130_b1) = Ok sc' /\ sc_is sc' 4 0 25 100.
Proof.
  intros (E1 & E2 & E3 & E4 & E5 & E6 & E7).
  unfold scaler_update, w130_b1, b_rows. cbn [length Nat.ltb Nat.leb].
  rewrite E2. eexists. split; [reflexivity|].
  unfold sc_is. cbn [fold_left row1 ox ow]. unfold scaler_row, pick.
  cbn [sc_forget sc_do sc_sel sc_cum sc_mean sc_var sc_M].
  rewrite E1, E3, E4. repeat split; try lra; intros k; rewrite E5, ?E7; field; repeat split; lra.
Qed.
Lemma w130_online inv : matinv_spec inv -> exists s,
  lm_history (ols_ops inv) w48_c [w48_b0; w130_b1] new_lm = Ok s /\
  snd (lm_predict w48_c 1 [fun _ => 5] s) = Ok [135 / 37].
Proof.
  intros HI. destruct sc48_fit0 as (sc0 & Hs0 & I0).
  assert (T0 : forall x, scaler_transform sc0 x 0%nat = x 0%nat).
  { intros x. rewrite (sc_is_transform _ _ _ _ _ x I0), sqrt_1. field. }
  assert (W0 : weights_nonneg (b_rows w48_b0)) by (repeat constructor; cbn; lra).
  assert (W1 : weights_nonneg (b_rows w130_b1)) by (repeat constructor; cbn; lra).
  destruct (w48_fit inv w48_b0 sc0 2 0 1 2) as (s0 & E0 & S0); auto.
  { cbn. lra. }
  { unfold gram_spec. cbn [w48_b0 b_rows design_rows map dsum w48_c c_icpt design ow ox length pow].
    rewrite !T0. cbn [row1 ox ow]. lra. }
  assert (R0 : run (ols_ops inv) w48_c [(w48_b0, s0)] s0) by (constructor; exact E0).
  destruct (run_ols inv w48_c _ s0 HI ltac:(cbn; lra) R0) as (o & X & Y & C & I).
  { constructor; [exact W0|constructor]. }
  destruct (sc130_update sc0 I0) as (sc1 & Hs1 & I1).
  set (l1 := design_rows w48_c sc1 (b_rows w130_b1)).
  destruct (ols_update_inv 1 0 _ o l1 ltac:(lra) I (scaled_nonneg _ _ _ W1) ltac:(discriminate)) as (o1 & E1 & _).
  unfold ols_update in E1. destruct (update_inverted_gram _ _ _ _ _) as [xg|] eqn:Hx; [|discriminate E1].
  pose proof E0 as E0'. apply lm_fit_ok in E0'. cbv zeta in E0'.
  destruct E0' as (m & sc & xg0 & _ & _ & _ & _ & _ & _ & _ & _ & [(Z & _)|(_ & m' & beta & _ & Es)]); [discriminate Z|].
  assert (U : exists s1, lm_update (ols_ops inv) w48_c w130_b1 s0 = (s1, Ok tt) /\ a_scaler s1 = Some (Some sc1)).
  { destruct (lm_update_intro (ols_ops inv) w48_c w130_b1 s0 2 sc0 sc1 m' (ols_x o) (ols_y o) xg (is_regularized w48_c)) as [_ J];
      auto; try (rewrite Es; reflexivity).
    - rewrite Es. cbn. f_equal. lra.
    - cbn; lia.
    - exact (sc_is_ok _ _ _ _ _ I0).
    - eexists. split; [eapply J; [reflexivity|exact C|reflexivity]|reflexivity]. }
  destruct U as (s1 & U & S1).
  assert (R1 : run (ols_ops inv) w48_c ([(w48_b0, s0)] ++ [(w130_b1, s1)]) s1).
  { econstructor; [exact R0|]. unfold partial_fit. destruct (is_fitted s0) eqn:Fi; [exact U|].
    rewrite Es in Fi. discriminate Fi. }
  destruct (run_shape _ _ _ _ R1) as (b0' & s0' & tr0' & p & sc' & Et & Ep & _ & F & S' & _ & _ & _).
  cbn [app] in Et. injection Et as <- <- <-. cbn in Ep. subst p.
  destruct (w48_coef inv _ s1 1%nat HI R1) as (beta1 & C1 & N1); auto.
  { constructor; [exact W0|constructor; [exact W1|constructor]]. }
  exists s1. split.
  { cbn [lm_history]. unfold partial_fit at 1. change (is_fitted new_lm) with false. cbn iota. rewrite E0.
    unfold partial_fit. destruct (is_fitted s0) eqn:Fi; [rewrite U; reflexivity|].
    rewrite Es in Fi. discriminate Fi. }
  rewrite (w48_predict s1 sc1 4 0 25 100 beta1 5 F S1 I1 C1), sqrt_25. f_equal. f_equal.
  assert (T1 : forall x, scaler_transform sc1 x 0%nat = x 0%nat / 5).
  { intros x. rewrite (sc_is_transform _ _ _ _ _ x I1), sqrt_25. field. }
  cbn [app map concat] in N1. unfold scaled_rows in N1. rewrite S0, S1 in N1.
  cbn [w48_b0 w130_b1 b_rows map app regressors dsum length pow ow ox oy row1] in N1.
  rewrite !T0, !T1 in N1. cbn [ox] in N1. lra.
Qed.

Lemma C130_scaling_lemma inv : matinv_spec inv -> exists s,
  lm_history (ols_ops inv) w48_c [w48_b0; w130_b1] new_lm = Ok s /\
  noise_free false 1 (fun _ => 1) (stream [w48_b0; w130_b1]) /\
  snd (lm_predict w48_c 1 [fun _ => 5] s) = Ok [135 / 37].
Proof.
  intros HI. destruct (w130_online inv HI) as (s & H & P). exists s. split; [exact H|]. split; [|exact P].
  unfold noise_free, stream. cbn [w48_b0 w130_b1 map b_rows concat app].
  do 4 (apply Forall_cons; [unfold dot; cbn; ring|]). apply Forall_nil.
Qed.

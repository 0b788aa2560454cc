From Coq Require Import Reals List Bool Arith Lra Lia FunctionalExtensionality Permutation.
From Verif Require Import Base Lin Data M_Gram S_Gram M_OLS M_CD M_Path M_Ridge M_Scaler M_Utils M_State M_LM S_LM L_LM S_Target L_Target L_Target4 S_Recode L_Weight L_Weight2 L_Weight3.
Import ListNotations.
Open Scope R_scope.

Lemma accepted_bool {M} (c : lm_cfg M) t d : accepted_factor c t d ->
  Rleb (t * lsum (ws (b_rows d))) (INR (n_cols (c_icpt c) (b_p d))) && c_ols_name c = false /\ t * lsum (ws (b_rows d)) <> 1.
Proof.
  intros (_ & H1 & H2). unfold total_weight in *. split; [|exact H1]. destruct (c_ols_name c); [|apply andb_false_r].
  rewrite andb_true_r. apply Rleb_false. apply H2. reflexivity.
Qed.

Lemma C124_ols_lemma inv c t d ds s : matinv_spec inv -> accepted_factor c t d ->
  lm_history (ols_ops inv) c (d :: ds) new_lm = Ok s ->
  exists s' b b', lm_history (ols_ops inv) c (map (weight_factor t) (d :: ds)) new_lm = Ok s' /\
    a_coef s = Some b /\ a_coef s' = Some b' /\ (forall j, (j < n_cols (c_icpt c) (b_p d))%nat -> b' j = b j) /\
    (forall p X, snd (lm_predict c p X s') = snd (lm_predict c p X s)) /\
    (forall e, snd (lm_score c e s') = snd (lm_score c e s)).
Proof.
  intros HI HA H. destruct (accepted_bool c t d HA) as [A1 A2]. destruct HA as [Ht _].
  set (p := n_cols (c_icpt c) (b_p d)) in *.
  destruct (lm_history_wt (ols_ops inv) c t d Ht eq (ols_x_wt t p) (eqv p) tt) with (ds := ds) (s := s) as (s' & E' & TW); auto; try discriminate.
  - intros []; reflexivity.
  - intros X w f x. apply ols_init_wt; auto.
  - intros x0 x0' X f w x. apply ols_update_wt; auto.
  - intros _ x x' y r m1 b HX K. cbn in K |- *. injection K as <- <-. do 2 eexists. split; [reflexivity|]. split; [reflexivity|]. apply ols_beta_wt; auto.
  - intros _ m m' x x' y r b0 b0' m1 b <- HX _ K. cbn in K |- *. injection K as <- <-. do 2 eexists. split; [reflexivity|]. split; [reflexivity|]. apply ols_beta_wt; auto.
  - exists s'. pose proof TW as (? & ? & sc & ? & ? & ? & ? & ? & ? & ? & ? & path & ? & ? & co & co' & Es & Es' & _ & _ & _ & RV).
    exists co, co'. split; [exact E'|]. split; [rewrite Es; reflexivity|]. split; [rewrite Es'; reflexivity|].
    split; [intros j Hj; symmetry; apply (RV eq_refl); exact Hj|]. split.
    + intros q X. eapply lm_wt_predict; [| |exact TW]; [auto|reflexivity].
    + intros e. eapply lm_wt_score; [| |exact TW]; [auto|reflexivity].
Qed.

Lemma C124_ridge_lemma inv perms c cfg t d ds s : matinv_spec inv -> accepted_factor c t d ->
  c_method c = Ok (cfg, 0%nat) -> ri_lambda cfg = None ->
  (forall k i, Permutation (perms k i) (seq 0 (n_cols (c_icpt c) (b_p d)))) ->
  lm_history (ridge_ops inv perms) c (d :: ds) new_lm = Ok s ->
  exists s' b b', lm_history (ridge_ops inv perms) c (map (weight_factor t) (d :: ds)) new_lm = Ok s' /\
    a_coef s = Some b /\ a_coef s' = Some b' /\ (forall j, (j < n_cols (c_icpt c) (b_p d))%nat -> b' j = b j) /\
    (forall p X, snd (lm_predict c p X s') = snd (lm_predict c p X s)) /\
    (forall e, snd (lm_score c e s') = snd (lm_score c e s)).
Proof.
  intros HI HA HC HN HP H. destruct (accepted_bool c t d HA) as [A1 A2]. destruct HA as [Ht _].
  set (p := n_cols (c_icpt c) (b_p d)) in *.
  destruct (lm_history_wt (ridge_ops inv perms) c t d Ht (ridge_wt t) (fun x x' => x' = mscale t x) (eqv p) (cfg, 0%nat)) with (ds := ds) (s := s) as (s' & E' & TW); auto; try discriminate.
  - intros m E. rewrite HC in E. injection E as <-. reflexivity.
  - intros X w f x. cbn. intros K. injection K as <-. eexists. split; [reflexivity|]. apply init_gram_wt; auto.
  - intros x0 x0' X f w x -> . cbn. intros K. injection K as <-. eexists. split; [reflexivity|]. apply update_gram_wt; auto.
  - intros _ x x' y r m1 b -> K.
    assert (W0 : ridge_wt t (cfg, 0%nat) (cfg, 0%nat)) by (unfold ridge_wt; cbn; rewrite HN; auto 10).
    destruct (ridge_fit_wt t Ht inv perms (cfg, 0%nat) (cfg, 0%nat) p x y r m1 b HI (fun _ k => HP k) HN W0 K) as (m1' & b' & F & W & _ & B). eauto.
  - intros _ m m' x x' y r b0 b0' m1 b W -> B K.
    destruct (ridge_update_wt t Ht inv perms m m' p x y r b0 b0' m1 b (fun _ k => HP k) W B K) as (m1' & b' & F & W' & _ & B'). eauto.
  - exists s'. pose proof TW as (? & ? & sc & ? & ? & ? & ? & ? & ? & ? & ? & path & ? & ? & co & co' & Es & Es' & _ & _ & _ & RV).
    exists co, co'. split; [exact E'|]. split; [rewrite Es; reflexivity|]. split; [rewrite Es'; reflexivity|].
    split; [intros j Hj; symmetry; apply (RV eq_refl); exact Hj|]. split.
    + intros q X. eapply lm_wt_predict; [| |exact TW]; [auto|reflexivity].
    + intros e. eapply lm_wt_score; [| |exact TW]; [auto|reflexivity].
Qed.

Lemma C124_path_lemma perms c t d ds s : accepted_factor c t d -> c_ic c <> aicc ->
  lm_history (en_ops perms) c (d :: ds) new_lm = Ok s ->
  exists s', lm_history (en_ops perms) c (map (weight_factor t) (d :: ds)) new_lm = Ok s' /\
    a_path s' = a_path s /\
    (forall p X, snd (lm_predict_path c p X s') = snd (lm_predict_path c p X s)).
Proof.
  intros HA HC H. destruct (accepted_bool c t d HA) as [A1 A2]. destruct HA as [Ht _].
  set (p := n_cols (c_icpt c) (b_p d)) in *.
  destruct (lm_history_wt (en_ops perms) c t d Ht eq (fun x x' => x' = mscale t x) (eqv p) (match c_method c with Ok m => m | Raise _ => (t_en, 0%nat) end)) with (ds := ds) (s := s) as (s' & E' & TW); auto; try discriminate.
  - intros m E. rewrite E. reflexivity.
  - intros X w f x. cbn. intros K. injection K as <-. eexists. split; [reflexivity|]. apply init_gram_wt; auto.
  - intros x0 x0' X f w x -> . cbn. intros K. injection K as <-. eexists. split; [reflexivity|]. apply update_gram_wt; auto.
  - intros _ x x' y r m1 path -> K. exists m1. split; [|reflexivity]. rewrite <- K. cbn. rewrite fit_path_wt by exact Ht. reflexivity.
  - intros _ m m' x x' y r path0 m1 path <- -> K. exists m1. split; [|reflexivity]. rewrite <- K. cbn. rewrite update_path_wt by exact Ht. reflexivity.
  - exists s'. split; [exact E'|]. split.
    + destruct TW as (? & ? & sc & ? & ? & ? & ? & ? & ? & ? & ? & path & ? & ? & co & co' & -> & -> & _). reflexivity.
    + intros q X. eapply lm_wt_predict_path. exact TW.
Qed.

Lemma C124_rejected_lemma {M} (ops : method_ops M) c b s : config_ok c -> data_ok b ->
  total_weight (b_rows b) = 1 \/ (c_ols_name c = true /\ total_weight (b_rows b) <= INR (n_cols (c_icpt c) (b_p b))) ->
  snd (lm_fit ops c b s) = Raise ValueError.
Proof.
  intros [[m Hm] HR] [L1 L2] H. unfold lm_fit, prepare_fit, validate_new, bnd, lift. rewrite Hm.
  unfold set_method, set_scaler, set_nfin, set_nobs, set_nfeat, write. cbn [fst snd].
  assert (ER : c_regicpt c && negb (c_icpt c) = false) by (destruct (c_regicpt c), (c_icpt c); auto; exfalso; apply HR; auto).
  rewrite ER. unfold ret.
  replace ((length (b_rows b) <? 1)%nat || (b_p b <? 1)%nat) with false
    by (symmetry; apply orb_false_iff; split; apply Nat.ltb_ge; lia).
  unfold total_weight in H. cbv zeta. destruct (Rleb (lsum (ws (b_rows b))) (INR (n_cols (c_icpt c) (b_p b))) && c_ols_name c) eqn:E; [reflexivity|].
  destruct H as [H|[H1 H2]].
  - rewrite H. unfold Reqb. destruct (Req_EM_T 1 1); [reflexivity|congruence].
  - exfalso. rewrite H1, andb_true_r in E. apply Rleb_false in E. lra.
Qed.

Lemma C124_selection_lemma perms : (forall k l i, Permutation (perms k l i) (seq 0 1)) ->
  exists s s' P0 P1, lm_history (en_ops perms) t_c [t_b] new_lm = Ok s /\
    lm_history (en_ops perms) t_c [weight_factor 2 t_b] new_lm = Ok s' /\
    a_path s = Some [P0; P1] /\ a_path s' = Some [P0; P1] /\ P0 0%nat = 0 /\ P1 0%nat = 1 /\
    a_coef s = Some P0 /\ a_coef s' = Some P1.
Proof.
  intros Hp. destruct (t_fit perms Hp) as (s & P0 & P1 & E & Ep & V0 & V1 & Er & En & Ec).
  pose proof (t_history perms s E) as H.
  destruct (C124_path_lemma perms t_c 2 t_b [] s) as (s' & E' & Ep' & _); auto.
  { split; [lra|]. split; [cbn; unfold total_weight; cbn; lra|discriminate]. }
  { discriminate. }
  exists s, s', P0, P1. split; [exact H|]. split; [exact E'|]. split; [exact Ep|]. split; [congruence|]. split; [exact V0|]. split; [exact V1|]. split; [exact Ec|].
  cbn [map lm_history] in E'. unfold partial_fit in E'. change (is_fitted new_lm) with false in E'. cbv iota in E'.
  match type of E' with (let (_, _) := ?T in _) = _ => destruct T as [s3 [[]|]] eqn:E3 end; [|discriminate]. injection E' as ->.
  destruct (lm_fit_ok _ _ _ _ _ E3) as (m & sc & xg & _ & _ & _ & _ & _ & _ & Es & _ & [(_ & m' & path & ic & k & _ & F2 & F3 & ->)|(D & _)]); [|discriminate D].
  cbn [a_path a_coef] in Ep' |- *. rewrite Ep in Ep'. injection Ep' as ->.
  cbn in Es. injection Es as <-.
  assert (T : effective_training_length (c_forget t_c) (lsum (ws (b_rows (weight_factor 2 t_b)))) = 4).
  { unfold effective_training_length. cbn [t_c c_forget]. replace (Reqb 0 0) with true by (symmetry; apply Reqb_true; auto). cbn. lra. }
  rewrite T in F2. cbn [map] in F2.
  change (n_cols (c_icpt t_c) (b_p (weight_factor 2 t_b))) with 1%nat in F2.
  rewrite (proj1 (n_nonzero_one _) V0), (proj2 (n_nonzero_one _) V1) in F2.
  match type of F2 with context [rss_fit 1 ?l P0] =>
    assert (R0 : rss_fit 1 l P0 = 40) by (unfold rss_fit, dot; cbn; rewrite V0; lra);
    assert (R1 : rss_fit 1 l P1 = 16) by (unfold rss_fit, dot; cbn; rewrite V1; lra) end.
  rewrite R0, R1 in F2. unfold from_rss_array, from_ll_array in F2. cbn [t_c c_ic map map2 sequence from_ll bind] in F2. injection F2 as <-.
  cbn [argmin argmin_loop] in F3.
  match type of F3 with Ok (if Rltb ?a ?b then _ else _) = _ => replace (Rltb a b) with true in F3 end; [injection F3 as <-; reflexivity|].
  symmetry. apply Rltb_true.
  assert (L : ln (16 / 4) + 1 / 2 < ln (40 / 4)).
  { replace (40 / 4) with (16 / 4 * (5 / 2)) by lra. rewrite ln_mult by lra.
    assert (exp (1 / 2) < 5 / 2).
    { pose proof exp_le_3 as X. replace 1 with (1 / 2 + 1 / 2) in X by lra. rewrite exp_plus in X. pose proof (exp_pos (1 / 2)). nra. }
    assert (1 / 2 < ln (5 / 2)) by (rewrite <- (ln_exp (1 / 2)) at 1; apply ln_increasing; [apply exp_pos|assumption]). lra. }
  lra.
Qed.

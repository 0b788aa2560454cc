From Coq Require Import Reals List Bool Arith Lra Lia FunctionalExtensionality.
From Verif Require Import Base Lin Data M_Gram S_Gram M_OLS M_CD M_Path M_Ridge M_Scaler M_Utils M_State M_LM S_LM L_LM S_Target L_Target S_Recode L_Weight.
Import ListNotations.
Open Scope R_scope.

Section LM.
Context {M : Type} (ops : method_ops M) (c : lm_cfg M) (t : R) (d : batch).
Hypothesis Ht : 0 < t.
Notation p := (n_cols (c_icpt c) (b_p d)).
Variable MR : M -> M -> Prop.
Variable XR : mat -> mat -> Prop.
Variable VR : vec -> vec -> Prop.
Variable m0 : M.
Hypothesis Hcfg : forall m, c_method c = Ok m -> m = m0.
Hypothesis Hinit : forall X w f x, op_init_x ops p X w f = Ok x ->
  exists x', op_init_x ops p X (map (Rmult t) w) f = Ok x' /\ XR x x'.
Hypothesis Hupdx : forall x0 x0' X f w x, XR x0 x0' -> op_update_x ops p x0 X f w = Ok x ->
  exists x', op_update_x ops p x0' X f (map (Rmult t) w) = Ok x' /\ XR x x'.
Hypothesis Hfitp : op_path_based ops = true -> forall x x' y r m1 path, XR x x' -> op_fit_path ops m0 p x y r = Ok (m1, path) ->
  exists m1', op_fit_path ops m0 p x' (vscale t y) r = Ok (m1', path) /\ MR m1 m1'.
Hypothesis Hupdp : op_path_based ops = true -> forall m m' x x' y r path0 m1 path, MR m m' -> XR x x' -> op_update_path ops m p x y path0 r = Ok (m1, path) ->
  exists m1', op_update_path ops m' p x' (vscale t y) path0 r = Ok (m1', path) /\ MR m1 m1'.
Hypothesis Hfitb : op_path_based ops = false -> forall x x' y r m1 b, XR x x' -> op_fit_beta ops m0 p x y r = Ok (m1, b) ->
  exists m1' b', op_fit_beta ops m0 p x' (vscale t y) r = Ok (m1', b') /\ MR m1 m1' /\ VR b b'.
Hypothesis Hupdb : op_path_based ops = false -> forall m m' x x' y r b0 b0' m1 b, MR m m' -> XR x x' -> VR b0 b0' -> op_update_beta ops m p x y b0 r = Ok (m1, b) ->
  exists m1' b', op_update_beta ops m' p x' (vscale t y) b0' r = Ok (m1', b') /\ MR m1 m1' /\ VR b b'.
Hypothesis Hic : op_path_based ops = true -> c_ic c <> aicc.

Definition lm_wt (s s' : lm M) : Prop :=
  exists m m' sc n nf nt nt' r x x' y path rss rss' co co',
    s = mk_lm (Some m) (Some (Some sc)) (Some (b_p d)) (Some n) nf nt (Some r) (Some x) (Some y) path rss (Some co) /\
    s' = mk_lm (Some m') (Some (Some (scaler_wt t sc))) (Some (b_p d)) (Some (t * n)) nf nt' (Some r) (Some x') (Some (vscale t y)) path rss' (Some co') /\
    MR m m' /\ XR x x' /\
    (op_path_based ops = true -> option_map (@length R) rss' = option_map (@length R) rss) /\ (op_path_based ops = false -> VR co co').

Lemma select_wt q nt nt' path rss rss' ic k : op_path_based ops = true -> length rss = length path -> length rss' = length path ->
  from_rss_array (c_ic c) nt (map (n_nonzero q) path) rss = Ok ic -> argmin ic = Ok k ->
  exists ic' k', from_rss_array (c_ic c) nt' (map (n_nonzero q) path) rss' = Ok ic' /\ argmin ic' = Ok k'.
Proof.
  intros P L L' E A.
  destruct (from_rss_exists (c_ic c) nt' (map (n_nonzero q) path) rss') as (ic' & E' & L2'); auto.
  { rewrite map_length. auto. }
  exists ic'. destruct (from_rss_exists (c_ic c) nt (map (n_nonzero q) path) rss) as (ic2 & E2 & L2); auto.
  { rewrite map_length. auto. }
  rewrite E2 in E. injection E as ->.
  destruct ic' as [|v ic'].
  - destruct ic; cbn in *; [discriminate A|]. exfalso. cbn in L2', L2. lia.
  - eexists. split; [exact E'|reflexivity].
Qed.

Lemma lm_fit_wt s : lm_fit ops c d new_lm = (s, Ok tt) ->
  Rleb (t * lsum (ws (b_rows d))) (INR p) && c_ols_name c = false -> t * lsum (ws (b_rows d)) <> 1 ->
  exists s', lm_fit ops c (weight_factor t d) new_lm = (s', Ok tt) /\ lm_wt s s'.
Proof.
  intros H HO H1. destruct (lm_fit_ok ops c d new_lm s H) as (m & sc & xg & Em & Er & L1 & L2 & Eo & E1 & Es & Ex & K).
  assert (Em0 : c_method c = Ok m0) by (rewrite Em; f_equal; exact (Hcfg _ Em)). rewrite (Hcfg _ Em) in K.
  destruct (Hinit _ _ _ _ Ex) as (xg' & Ex' & RX).
  pose proof (lm_fit_intro ops c (weight_factor t d) new_lm m0 (scaler_wt t sc) xg') as I.
  change (b_rows (weight_factor t d)) with (reweigh t (b_rows d)) in I. change (b_p (weight_factor t d)) with (b_p d) in I.
  cbv zeta in I. rewrite design_rows_wt, design_rows_reweigh, !ws_reweigh, length_reweigh, Xs_reweigh, ys_reweigh, init_y_gram_wt, lsum_scal in I by exact Ht.
  destruct (I Em0 Er L1 L2 HO H1 (scaler_fit_wt t Ht _ _ _ _ _ Es) Ex') as [I1 I2]. clear I.
  destruct K as [(Ep & m1 & path & ic & k & F1 & F2 & F3 & ->)|(Ep & m1 & beta & F1 & ->)].
  - destruct (Hfitp Ep _ _ _ _ _ _ RX F1) as (m1' & F1' & RM).
    destruct (select_wt _ _ (effective_training_length (c_forget c) (t * lsum (ws (b_rows d)))) path _ (map (rss_fit p (reweigh t (design_rows c sc (b_rows d)))) path) _ _ Ep
       ltac:(rewrite map_length; reflexivity) ltac:(rewrite map_length; reflexivity) F2 F3) as (ic' & k' & F2' & F3').
    eexists. split; [exact (I1 m1' path ic' k' Ep F1' F2' F3')|].
    unfold lm_wt. do 16 eexists. split; [reflexivity|]. split; [reflexivity|]. split; [exact RM|]. split; [exact RX|].
    split; [intros _; cbn; rewrite !map_length; reflexivity|congruence].
  - destruct (Hfitb Ep _ _ _ _ _ _ RX F1) as (m1' & b' & F1' & RM & RB).
    eexists. split; [exact (I2 m1' b' Ep F1')|].
    unfold lm_wt. do 16 eexists. split; [reflexivity|]. split; [reflexivity|]. split; [exact RM|]. split; [exact RX|].
    split; [congruence|auto].
Qed.

Lemma lm_update_wt s s' e s1 : lm_wt s s' -> lm_update ops c e s = (s1, Ok tt) ->
  exists s1', lm_update ops c (weight_factor t e) s' = (s1', Ok tt) /\ lm_wt s1 s1'.
Proof.
  intros (m & m' & sc & n & nf & nt & nt' & r & x & x' & y & path & rss & rss' & co & co' & -> & -> & RM & RX & HL & RV) H.
  destruct (lm_update_ok ops c e _ s1 H) as (n0 & sc0 & sc1 & mm & x0 & y0 & xg & isreg & A1 & A2 & A3 & A4 & A5 & A6 & L1 & L2 & QQ & Sel & Es & Ex & K).
  cbn [a_nobs a_scaler a_method a_x a_y a_isreg a_nfin a_path a_rss a_coef a_nfeat] in *.
  injection A1 as <-. injection A2 as <-. injection A3 as <-. injection A4 as <-. injection A5 as <-. injection A6 as <-.
  specialize (QQ _ eq_refl). rewrite <- QQ in Ex, K, Sel.
  destruct (Hupdx _ _ _ _ _ _ RX Ex) as (xg' & Ex' & RX').
  set (s' := mk_lm (Some m') _ _ _ _ _ _ _ _ _ _ _).
  pose proof (lm_update_intro ops c (weight_factor t e) s' (t * n) (scaler_wt t sc) (scaler_wt t sc1) m' x' (vscale t y) xg' r) as I.
  change (b_rows (weight_factor t e)) with (reweigh t (b_rows e)) in I. change (b_p (weight_factor t e)) with (b_p e) in I.
  cbv zeta in I. rewrite design_rows_wt, design_rows_reweigh, !ws_reweigh, length_reweigh, Xs_reweigh, ys_reweigh, update_y_gram_wt, lsum_scal, <- QQ in I by exact Ht.
  cbn [a_nobs a_scaler a_method a_x a_y a_isreg a_nfin a_path a_rss a_coef a_nfeat] in I.
  destruct (I eq_refl eq_refl eq_refl eq_refl eq_refl eq_refl L1 ltac:(lia) eq_refl Sel (scaler_update_wt t Ht _ _ _ Es) Ex') as [I1 I2]. clear I.
  destruct K as [(Ep & m1 & path0 & rss0 & path1 & ic & k & F1 & F2 & F3 & F4 & F5 & F6 & ->)|(Ep & m1 & beta0 & beta & F1 & F2 & ->)].
  - destruct (Hupdp Ep _ _ _ _ _ _ _ _ _ RM RX' F3) as (m1' & F3' & RM').
    subst path rss. specialize (HL Ep). destruct rss' as [rss0'|]; [|discriminate]. cbn in HL. injection HL as HL.
    set (rss1 := map2 _ rss0 _) in *.
    set (rss1' := map2 (fun r0 r1 => (1 - c_forget c) * r0 + r1) rss0' (map (rss_update p (reweigh t (design_rows c sc1 (b_rows e)))) path1)).
    assert (LL : length rss1 = length path1) by (unfold rss1; rewrite map2_length; [exact F4|rewrite map_length; exact F4]).
    assert (LL' : length rss1' = length path1) by (unfold rss1'; rewrite map2_length; [lia|rewrite map_length; lia]).
    destruct (select_wt _ _ (effective_training_length (c_forget c) (t * n + t * lsum (ws (b_rows e)))) path1 _ rss1' _ _ Ep LL LL' F5 F6) as (ic' & k' & F5' & F6').
    eexists. split; [exact (I1 m1' path0 rss0' path1 ic' k' Ep eq_refl eq_refl F3' ltac:(lia) F5' F6')|].
    rewrite <- Rmult_plus_distr_l. unfold lm_wt. do 16 eexists. split; [reflexivity|]. split; [reflexivity|]. split; [exact RM'|]. split; [exact RX'|].
    split; [intros _; cbn; fold rss1'; rewrite LL, LL'; reflexivity|congruence].
  - injection F1 as <-. destruct (Hupdb Ep _ _ _ _ _ _ _ _ _ _ RM RX' (RV Ep) F2) as (m1' & b' & F2' & RM' & RB).
    eexists. split; [exact (I2 m1' co' b' Ep eq_refl F2')|].
    rewrite <- Rmult_plus_distr_l. unfold lm_wt. do 16 eexists. split; [reflexivity|]. split; [reflexivity|]. split; [exact RM'|]. split; [exact RX'|].
    split; [congruence|auto].
Qed.

Lemma lm_updates_wt ds : forall s s' s1, lm_wt s s' -> lm_history ops c ds s = Ok s1 ->
  exists s1', lm_history ops c (map (weight_factor t) ds) s' = Ok s1' /\ lm_wt s1 s1'.
Proof.
  induction ds as [|e ds IH]; intros s s' s1 TW H.
  - injection H as <-. exists s'. auto.
  - cbn [lm_history map] in *. unfold partial_fit in *.
    assert (F : is_fitted s = true /\ is_fitted s' = true).
    { destruct TW as (? & ? & ? & ? & ? & ? & ? & ? & ? & ? & ? & ? & ? & ? & ? & ? & -> & -> & _). auto. }
    destruct F as [F F']. rewrite F in H. rewrite F'.
    destruct (lm_update ops c e s) as [s2 [[]|]] eqn:E; [|discriminate].
    destruct (lm_update_wt s s' e s2 TW E) as (s2' & E2 & TW2).
    rewrite E2. apply (IH s2 s2' s1); auto.
Qed.
Lemma lm_history_wt ds s : lm_history ops c (d :: ds) new_lm = Ok s ->
  Rleb (t * lsum (ws (b_rows d))) (INR p) && c_ols_name c = false -> t * lsum (ws (b_rows d)) <> 1 ->
  exists s', lm_history ops c (map (weight_factor t) (d :: ds)) new_lm = Ok s' /\ lm_wt s s'.
Proof.
  intros H HO H1. cbn [map lm_history] in *. unfold partial_fit in H at 1. cbn in H.
  destruct (lm_fit ops c d new_lm) as [s0 [[]|]] eqn:E; [|discriminate].
  destruct (lm_fit_wt s0 E HO H1) as (s0' & E0 & TW).
  unfold partial_fit at 1. cbn. rewrite E0. apply (lm_updates_wt ds s0 s0' s); auto.
Qed.

Lemma lm_wt_predict_path s s' q X : lm_wt s s' -> snd (lm_predict_path c q X s') = snd (lm_predict_path c q X s).
Proof.
  intros (? & ? & sc & ? & ? & ? & ? & ? & ? & ? & ? & path & ? & ? & ? & ? & -> & -> & _).
  unfold lm_predict_path, any_fitted_attribute, validate_old, bnd, read, ret, raise. cbn [a_method a_scaler a_nfin a_nobs a_nfeat a_ntrain a_isreg a_x a_y a_path a_rss a_coef].
  destruct ((length X <? 1)%nat || (q <? 1)%nat); [auto|].
  cbn [a_method a_scaler a_nfin a_nobs a_nfeat a_ntrain a_isreg a_x a_y a_path a_rss a_coef].
  destruct (Nat.eqb q (b_p d)); [|auto]. cbn [a_method a_scaler a_nfin a_nobs a_nfeat a_ntrain a_isreg a_x a_y a_path a_rss a_coef].
  cbn [scaler_wt sc_do sc_sel]. destruct (sc_do sc && _); [auto|]. cbn [a_path]. destruct path; reflexivity.
Qed.
Lemma lm_wt_predict s s' q X : (forall b b', VR b b' -> eqv p b b') -> op_path_based ops = false -> lm_wt s s' -> snd (lm_predict c q X s') = snd (lm_predict c q X s).
Proof.
  intros HV EP (? & ? & sc & ? & ? & ? & ? & ? & ? & ? & ? & path & ? & ? & co & co' & -> & -> & _ & _ & _ & RV). specialize (HV _ _ (RV EP)).
  unfold lm_predict, any_fitted_attribute, validate_old, bnd, read, ret, raise. cbn [a_method a_scaler a_nfin a_nobs a_nfeat a_ntrain a_isreg a_x a_y a_path a_rss a_coef].
  destruct ((length X <? 1)%nat || (q <? 1)%nat); [auto|].
  cbn [a_method a_scaler a_nfin a_nobs a_nfeat a_ntrain a_isreg a_x a_y a_path a_rss a_coef].
  destruct (Nat.eqb q (b_p d)) eqn:Eq; [|auto]. apply Nat.eqb_eq in Eq. subst q. cbn [a_method a_scaler a_nfin a_nobs a_nfeat a_ntrain a_isreg a_x a_y a_path a_rss a_coef].
  cbn [scaler_wt sc_do sc_sel]. destruct (sc_do sc && _); [auto|]. cbn [a_coef snd]. f_equal. apply map_ext. intros v.
  change (scaler_transform (mk_scaler (sc_forget sc) (sc_do sc) (sc_sel sc) (sc_mean sc) (sc_var sc) (vscale t (sc_M sc)) (t * sc_cum sc) (t * sc_n sc)) v) with (scaler_transform sc v).
  apply dot_ext; [intros i Hi; reflexivity|]. apply eqv_sym. exact HV.
Qed.
Lemma lm_wt_score s s' b : (forall b b', VR b b' -> eqv p b b') -> op_path_based ops = false -> lm_wt s s' -> snd (lm_score c b s') = snd (lm_score c b s).
Proof.
  intros HV EP TW. pose proof (lm_wt_predict s s' (b_p b) (Xs (b_rows b)) HV EP TW) as P. unfold lm_score, bnd.
  destruct (lm_predict c (b_p b) (Xs (b_rows b)) s) as [s1 [v|e]], (lm_predict c (b_p b) (Xs (b_rows b)) s') as [s1' [v'|e']];
    cbn in P; try discriminate; injection P as ->; cbn; auto.
Qed.
End LM.

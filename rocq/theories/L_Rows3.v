From Coq Require Import Reals List Bool Arith Lra Lia Permutation FunctionalExtensionality.
From Verif Require Import Base Lin Data M_Gram S_Gram L_Gram M_OLS L_OLS M_CD M_Path M_Ridge S_Scaler M_Scaler L_Scaler M_Utils M_State M_LM S_LM L_LM L_LM4 S_Rows L_Target L_Rows L_Rows2.
Import ListNotations.
Open Scope R_scope.

Section OLS.
Context (inv : nat -> mat -> option mat) (c : lm_cfg unit) (d d' : batch).
Hypothesis HI : matinv_spec inv.
Hypothesis Hf : c_forget c = 0.
Let p := n_cols (c_icpt c) (b_p d).
Definition ols_rel (b b' : batch) : Prop :=
  b_p b = b_p b' /\ same_sums (b_rows b) (b_rows b') /\ weights_nonneg (b_rows b) /\ weights_nonneg (b_rows b').
Definition ols_rows (s s' : lm unit) : Prop :=
  exists l l' L L' sc o o', sc_same (selection (c_scale c) (b_p d)) l l' sc /\ a_scaler s = Some (Some sc) /\ a_nfin s = Some (b_p d) /\
    a_nobs s <> None /\ same_sums L L' /\ ols_inv p 0 L o /\ ols_inv p 0 L' o' /\ ols_y o = ols_y o' /\
    a_x s = Some (ols_x o) /\ a_y s = Some (ols_y o) /\ a_coef s = Some (ols_coef o) /\
    s' = mk_lm (a_method s) (a_scaler s) (a_nfin s) (a_nobs s) (a_nfeat s) (a_ntrain s) (a_isreg s) (Some (ols_x o'))
      (a_y s) (a_path s) (a_rss s) (Some (ols_coef o')).

Lemma lm_fit_ols_rows s : ols_rel d d' -> enough_rows 2 d' -> lm_fit (ols_ops inv) c d new_lm = (s, Ok tt) ->
  exists s', lm_fit (ols_ops inv) c d' new_lm = (s', Ok tt) /\ ols_rows s s'.
Proof.
  intros (Ep & H & W & W') L H0. unfold enough_rows in L.
  destruct (lm_fit_ok _ c d new_lm s H0) as (m & sc & xg & Em & Er & L1 & L2 & Eo & E1 & Es & Ex & K).
  rewrite Hf in *. destruct (scaler_fit_same _ _ _ _ _ H W W' L Es) as [Es' SS].
  set (l := design_rows c sc (b_rows d)) in *. set (l' := design_rows c sc (b_rows d')).
  assert (HD : same_sums l l') by (apply design_same, H).
  assert (Wl : weights_nonneg l) by (apply scaled_nonneg; auto).
  assert (Wl' : weights_nonneg l') by (apply scaled_nonneg; auto).
  cbn [ols_ops op_init_x] in Ex. fold p in Ex.
  assert (Ex' : init_inverted_gram inv p (Xs l') (ws l') 0 = Ok xg).
  { revert Ex. unfold init_inverted_gram. rewrite (init_gram_same _ _ HD Wl Wl'). auto. }
  pose proof (lm_fit_intro (ols_ops inv) c d' new_lm m sc xg) as I. cbv zeta in I. rewrite Hf in I. fold l' in I.
  rewrite <- (sums_weight _ _ H), <- Ep in I. rewrite <- (init_y_gram_same _ _ HD Wl Wl') in I.
  destruct (I Em Er ltac:(lia) L2 Eo E1 Es' Ex') as [_ I2]. clear I.
  destruct K as [(Epb & _)|(_ & m' & beta & F1 & ->)]; [discriminate Epb|].
  eexists. split; [apply (I2 m' beta eq_refl F1)|]. cbn in F1. injection F1 as <- <-.
  set (yg := init_y_gram (Xs l) (ys l) (ws l) 0) in *.
  exists (b_rows d), (b_rows d'), l, l', sc, (mk_ols xg yg (ols_beta p xg yg)), (mk_ols xg yg (ols_beta p xg yg)).
  cbn [a_method a_scaler a_nfin a_nobs a_nfeat a_ntrain a_isreg a_x a_y a_path a_rss a_coef ols_x ols_y ols_coef].
  split; [exact SS|]. repeat (split; [reflexivity || discriminate|]). split; [exact HD|].
  split; [apply (ols_fit_inv inv); auto; [lra|unfold ols_fit; rewrite Ex; reflexivity]|].
  split; [apply (ols_fit_inv inv); auto; [lra|unfold ols_fit; rewrite Ex'; unfold yg; rewrite (init_y_gram_same _ _ HD Wl Wl'); reflexivity]|].
  repeat (split; [reflexivity|]). reflexivity.
Qed.

Lemma lm_update_ols_rows s s' e e' s1 : ols_rel e e' -> enough_rows 1 e' -> ols_rows s s' ->
  lm_update (ols_ops inv) c e s = (s1, Ok tt) -> exists s1', lm_update (ols_ops inv) c e' s' = (s1', Ok tt) /\ ols_rows s1 s1'.
Proof.
  intros (Ep & H & W & W') L (l0 & l0' & LL & LL' & sc0 & o & o' & SS & Esc & Enf & Eno & HS & Io & Io' & Ey & Ax & Ay & Ac & ->) H0.
  unfold enough_rows in L.
  destruct (lm_update_ok _ c e s s1 H0) as (n0 & sc0' & sc1 & m & x0 & y0 & xg & isreg & A1 & A2 & A3 & A4 & A5 & A6 & L1 & L2 & QQ & Sel & Es & Ex & K).
  rewrite Esc in A2. injection A2 as <-. rewrite Ax in A4. injection A4 as <-. rewrite Ay in A5. injection A5 as <-.
  assert (Ee : b_p d = b_p e) by (apply QQ; exact Enf).
  rewrite Hf in *. destruct (scaler_update_same _ _ _ _ _ _ _ SS H W W' L Es) as [Es' SS'].
  set (l := design_rows c sc1 (b_rows e)) in *. set (l' := design_rows c sc1 (b_rows e')).
  assert (HD : same_sums l l') by (apply design_same, H).
  assert (Wl : weights_nonneg l) by (apply scaled_nonneg; auto).
  assert (Wl' : weights_nonneg l') by (apply scaled_nonneg; auto).
  assert (Nl : nonempty l) by (unfold l, design_rows; destruct (b_rows e); [cbn in L1; lia|discriminate]).
  assert (Nl' : nonempty l') by (unfold l', design_rows; destruct (b_rows e'); [cbn in L; lia|discriminate]).
  destruct (ols_update_inv p 0 LL o l ltac:(lra) Io Wl Nl) as (o1 & U1 & J1).
  destruct (ols_update_inv p 0 LL' o' l' ltac:(lra) Io' Wl' Nl') as (o1' & U1' & J1').
  unfold ols_update in U1, U1'.
  destruct (update_inverted_gram p (ols_x o') (Xs l') 0 (ws l')) as [xg'|] eqn:Ex'; [|discriminate]. cbn [bind] in U1'. injection U1' as <-.
  cbn [ols_ops op_update_x] in Ex. rewrite <- Ee in *. fold p in Ex. rewrite Ex in U1. cbn [bind] in U1. injection U1 as <-.
  set (s' := mk_lm _ _ _ _ _ _ _ _ _ _ _ _).
  pose proof (lm_update_intro (ols_ops inv) c e' s' n0 sc0 sc1 m (ols_x o') (ols_y o) xg' isreg) as I. cbv zeta in I. rewrite Hf in I. fold l' in I.
  rewrite <- (sums_weight _ _ H), <- Ep in I. rewrite <- (update_y_gram_same _ _ _ HD Wl Wl') in I. fold p in I.
  assert (Enf' : a_nfin s' = Some (b_p d)) by (unfold s'; cbn [a_nfin]; congruence).
  assert (Ay' : a_y s' = Some (ols_y o)) by (unfold s'; cbn [a_y]; exact Ay).
  destruct (I A1 Esc A3 eq_refl Ay' A6 L L2 Enf' Sel Es' Ex') as [_ I2]. clear I.
  destruct K as [(Epb & _)|(_ & m' & beta0 & beta & F1 & F2 & ->)]; [discriminate Epb|].
  set (yg := update_y_gram (ols_y o) (Xs l) (ys l) 0 (ws l)) in *.
  assert (Eyg : update_y_gram (ols_y o') (Xs l') (ys l') 0 (ws l') = yg).
  { rewrite <- Ey. unfold yg. symmetry. apply update_y_gram_same; auto. }
  eexists. split; [apply (I2 m (ols_coef o') (ols_beta p xg' yg) eq_refl eq_refl eq_refl)|].
  cbn in F2. injection F2 as <- <-.
  eexists; eexists; exists (LL ++ l), (LL' ++ l'), sc1; eexists; eexists.
  split; [exact SS'|]. cbn [a_method a_scaler a_nfin a_nobs a_nfeat a_ntrain a_isreg a_x a_y a_path a_rss a_coef].
  split; [reflexivity|]. split; [exact Enf|]. split; [discriminate|]. split; [apply same_sums_app; auto|].
  split; [exact J1|]. split; [exact J1'|]. cbn [ols_x ols_y ols_coef]. split; [exact (eq_sym Eyg)|].
  repeat (split; [reflexivity|]). rewrite Eyg. reflexivity.
Qed.

Lemma lm_history_ols_rows ds ds' s : ols_rel d d' -> enough_rows 2 d' -> Forall2 ols_rel ds ds' -> Forall (enough_rows 1) ds' ->
  lm_history (ols_ops inv) c (d :: ds) new_lm = Ok s ->
  exists s', lm_history (ols_ops inv) c (d' :: ds') new_lm = Ok s' /\ ols_rows s s'.
Proof.
  intros HR HL HRs HLs H. cbn [lm_history] in *. unfold partial_fit in H at 1. unfold partial_fit at 1.
  change (is_fitted new_lm) with false in *. cbv iota in *.
  match type of H with (let (_, _) := ?T in _) = _ => destruct T as [s0 [[]|]] eqn:E end; [|discriminate].
  destruct (lm_fit_ols_rows s0 HR HL E) as (s0' & E0 & TW). rewrite E0. clear E E0 HR HL. revert s0 s0' TW H.
  induction HRs as [|e e' ds ds' He HRs IH]; intros s0 s0' TW H.
  - injection H as <-. exists s0'. auto.
  - inversion HLs as [|? ? Hl HLs']; subst. cbn [lm_history] in *. unfold partial_fit in H at 1. unfold partial_fit at 1.
    assert (F : is_fitted s0 = true /\ is_fitted s0' = true).
    { destruct TW as (? & ? & ? & ? & ? & ? & ? & _ & _ & _ & Eno & _ & _ & _ & _ & _ & _ & _ & ->). unfold is_fitted. cbn [a_nobs]. destruct (a_nobs s0); auto; congruence. }
    destruct F as [F F']. rewrite F in H. rewrite F'.
    destruct (lm_update (ols_ops inv) c e s0) as [s2 [[]|]] eqn:E; [|discriminate].
    destruct (lm_update_ols_rows s0 s0' e e' s2 He Hl TW E) as (s2' & E2 & TW2). rewrite E2. apply (IH HLs' s2 s2'); auto.
Qed.
Lemma ols_rows_coef s s' : ols_rows s s' -> exists b b', a_coef s = Some b /\ a_coef s' = Some b' /\ eqv p b b'.
Proof.
  intros (l0 & l0' & LL & LL' & sc0 & o & o' & SS & Esc & Enf & Eno & HS & Io & Io' & Ey & Ax & Ay & Ac & ->).
  exists (ols_coef o), (ols_coef o'). split; [exact Ac|]. split; [reflexivity|].
  destruct Io as ((HA & _) & _ & Hc). destruct Io' as ((HA' & _) & _ & Hc').
  eapply eqv_trans; [exact Hc|]. eapply eqv_trans; [|apply eqv_sym; exact Hc']. rewrite Ey.
  apply mvec_ext; [|intros i _; reflexivity].
  apply (is_inverse_unique p (gram_spec 0 LL)); [exact HA|].
  eapply is_inverse_ext; [| |exact HA']; intros i j _ _; [|reflexivity]. apply sums_gram. intros f. symmetry. apply HS.
Qed.
Lemma ols_rows_predict s s' q X : ols_rows s s' -> snd (lm_predict c q X s') = snd (lm_predict c q X s).
Proof.
  intros TW. destruct (ols_rows_coef s s' TW) as (b & b' & Eb & Eb' & K).
  destruct TW as (l0 & l0' & LL & LL' & sc0 & o & o' & SS & Esc & Enf & Eno & HS & Io & Io' & Ey & Ax & Ay & Ac & ->).
  cbn [a_coef] in Eb'. injection Eb' as <-. rewrite Ac in Eb. injection Eb as <-.
  destruct s as [a1 a2 a3 a4 a5 a6 a7 a8 a9 a10 a11 a12]. cbn in Enf, Eno, Ac. subst.
  unfold lm_predict, any_fitted_attribute, validate_old, bnd, read, ret, raise. cbn [a_method a_scaler a_nfin a_nobs a_nfeat a_ntrain a_isreg a_x a_y a_path a_rss a_coef].
  destruct ((length X <? 1)%nat || (q <? 1)%nat); [auto|].
  cbn [a_method a_scaler a_nfin a_nobs a_nfeat a_ntrain a_isreg a_x a_y a_path a_rss a_coef].
  destruct (Nat.eqb_spec q (b_p d)) as [->|]; [|auto]. cbn [a_method a_scaler a_nfin a_nobs a_nfeat a_ntrain a_isreg a_x a_y a_path a_rss a_coef].
  destruct a2 as [[sc|]|]; auto.
  destruct (sc_do sc && _); [auto|]. cbn [a_method a_scaler a_nfin a_nobs a_nfeat a_ntrain a_isreg a_x a_y a_path a_rss a_coef].
  cbn [snd]. f_equal. apply map_ext. intros x. apply dot_ext; [intros i _; reflexivity|apply eqv_sym; exact K].
Qed.
End OLS.

Lemma score_from_predict {M} (c : lm_cfg M) s s' b : (forall q X, snd (lm_predict c q X s') = snd (lm_predict c q X s)) ->
  snd (lm_score c b s') = snd (lm_score c b s).
Proof.
  intros H. specialize (H (b_p b) (Xs (b_rows b))). unfold lm_score, bnd.
  destruct (lm_predict c (b_p b) (Xs (b_rows b)) s) as [s1 [v|e]], (lm_predict c (b_p b) (Xs (b_rows b)) s') as [s1' [v'|e']];
    cbn in H; try discriminate; injection H as ->; reflexivity.
Qed.

(** * The statements *)
Lemma C109_ols_lemma inv c d d' ds ds' s : matinv_spec inv -> c_forget c = 0 ->
  Forall2 same_batch (d :: ds) (d' :: ds') ->
  Forall (fun e => weights_nonneg (b_rows e)) (d :: ds) -> Forall (fun e => weights_nonneg (b_rows e)) (d' :: ds') ->
  enough_rows 2 d' -> Forall (enough_rows 1) ds' ->
  lm_history (ols_ops inv) c (d :: ds) new_lm = Ok s ->
  exists s' b b', lm_history (ols_ops inv) c (d' :: ds') new_lm = Ok s' /\
    a_coef s = Some b /\ a_coef s' = Some b' /\ eqv (n_cols (c_icpt c) (b_p d)) b b' /\ a_scaler s' = a_scaler s /\
    (forall p X, snd (lm_predict c p X s') = snd (lm_predict c p X s)) /\ (forall e, snd (lm_score c e s') = snd (lm_score c e s)).
Proof.
  intros HI Hf HR HW HW' L2 L1 H. inversion HR as [|? ? ? ? R0 Rs]; subst. inversion HW as [|? ? W0 Ws]; subst. inversion HW' as [|? ? W0' Ws']; subst.
  assert (Rel : Forall2 ols_rel ds ds').
  { clear - Rs Ws Ws'. induction Rs as [|e e' ds ds' [E1 E2] Rs IH]; [constructor|]. inversion Ws; inversion Ws'; subst.
    constructor; [|apply IH; auto]. repeat split; auto. apply same_data_sums, E2. }
  destruct (lm_history_ols_rows inv c d d' HI Hf ds ds' s) as (s' & E & TW); auto.
  { destruct R0 as [E1 E2]. repeat split; auto. apply same_data_sums, E2. }
  destruct (ols_rows_coef c d s s' TW) as (b & b' & B1 & B2 & B3).
  assert (P : forall q X, snd (lm_predict c q X s') = snd (lm_predict c q X s)) by (intros; eapply ols_rows_predict; eauto).
  exists s', b, b'. repeat (split; [assumption|]). split.
  { destruct TW as (l0 & l0' & LL & LL' & sc0 & o & o' & SS & Esc & Enf & Eno & HS & Io & Io' & Ey & Ax & Ay & Ac & ->). reflexivity. }
  split; [exact P|]. intros e. apply score_from_predict, P.
Qed.

Lemma rel_from (ex : Prop) ds ds' : Forall2 same_batch ds ds' -> (ex -> Forall2 reordered ds ds') ->
  Forall (fun e => weights_nonneg (b_rows e)) ds -> Forall (fun e => weights_nonneg (b_rows e)) ds' -> Forall2 (row_rel ex) ds ds'.
Proof.
  induction 1 as [|e e' ds ds' [E1 E2] Rs IH]; intros HX W W'; [constructor|]. inversion W; inversion W'; subst. constructor.
  - repeat split; auto; [apply same_data_sums, E2|]. intros Q. specialize (HX Q). inversion HX as [|? ? ? ? HP]; subst. apply HP.
  - apply IH; auto. intros Q. specialize (HX Q). inversion HX; auto.
Qed.
Lemma C109_gram_lemma {M} (ops : method_ops M) c d d' ds ds' s : keeps_gramian ops -> c_forget c = 0 ->
  Forall2 same_batch (d :: ds) (d' :: ds') ->
  Forall (fun e => weights_nonneg (b_rows e)) (d :: ds) -> Forall (fun e => weights_nonneg (b_rows e)) (d' :: ds') ->
  enough_rows 2 d' -> Forall (enough_rows 1) ds' ->
  lm_history ops c (d :: ds) new_lm = Ok s ->
  exists s', lm_history ops c (d' :: ds') new_lm = Ok s' /\
    (op_path_based ops = false -> s' = s) /\
    a_scaler s' = a_scaler s /\ a_x s' = a_x s /\ a_y s' = a_y s /\ a_path s' = a_path s /\
    (forall p X, snd (lm_predict_path c p X s') = snd (lm_predict_path c p X s)).
Proof.
  intros HG Hf HR HW HW' L2 L1 H.
  pose proof (rel_from False _ _ HR ltac:(contradiction) HW HW') as Rel. inversion Rel as [|? ? ? ? R0 Rs]; subst.
  destruct (lm_history_rows ops c d d' HG Hf False ds ds' s R0 L2 Rs L1 H) as (s' & E & TW).
  destruct TW as (l & l' & sc & rss' & coef' & SS & Esc & Enf & Eno & -> & C1 & C2).
  eexists. split; [exact E|]. split.
  { intros Q. destruct (C1 (or_introl Q)) as [-> ->]. destruct s; reflexivity. }
  repeat (split; [reflexivity|]). intros q X.
  destruct s as [a1 a2 a3 a4 a5 a6 a7 a8 a9 a10 a11 a12]. cbn in Enf, Eno, Esc. subst.
  unfold lm_predict_path, any_fitted_attribute, validate_old, bnd, read, ret, raise. cbn [a_method a_scaler a_nfin a_nobs a_nfeat a_ntrain a_isreg a_x a_y a_path a_rss a_coef].
  destruct ((length X <? 1)%nat || (q <? 1)%nat); [auto|].
  cbn [a_method a_scaler a_nfin a_nobs a_nfeat a_ntrain a_isreg a_x a_y a_path a_rss a_coef].
  destruct (Nat.eqb q (b_p d)); [|auto]. cbn [a_method a_scaler a_nfin a_nobs a_nfeat a_ntrain a_isreg a_x a_y a_path a_rss a_coef].
  destruct (sc_do sc && _); [auto|]. cbn [a_method a_scaler a_nfin a_nobs a_nfeat a_ntrain a_isreg a_x a_y a_path a_rss a_coef].
  destruct a10; reflexivity.
Qed.
Lemma reordered_same ds ds' : Forall2 reordered ds ds' -> Forall2 same_batch ds ds' /\
  (Forall (fun e => weights_nonneg (b_rows e)) ds -> Forall (fun e => weights_nonneg (b_rows e)) ds') /\
  forall n, Forall (enough_rows n) ds -> Forall (enough_rows n) ds'.
Proof.
  induction 1 as [|e e' ds ds' [E1 E2] Rs (IH1 & IH2 & IH3)]; [repeat constructor|].
  split; [constructor; auto; split; auto; constructor; auto|]. split.
  - intros W. inversion W as [|? ? W1 W2]; subst. constructor; auto. unfold weights_nonneg in *. eapply Permutation_Forall; eauto.
  - intros n W. inversion W as [|? ? W1 W2]; subst. constructor; auto. unfold enough_rows in *. rewrite <- (Permutation_length E2). exact W1.
Qed.
Lemma history_rows {M} (ops : method_ops M) c ds : forall d s0 s, lm_history ops c (d :: ds) s0 = Ok s ->
  (is_fitted s0 = false -> enough_rows 2 d) /\ Forall (enough_rows 1) (d :: ds).
Proof.
  induction ds as [|e ds IH]; intros d s0 s H; cbn [lm_history] in H; unfold partial_fit in H at 1.
  all: match type of H with (let (_, _) := ?T in _) = _ => destruct T as [s2 [[]|]] eqn:E end; [|discriminate].
  all: assert (K : (is_fitted s0 = false -> enough_rows 2 d) /\ enough_rows 1 d).
  1, 3: destruct (is_fitted s0);
    [destruct (lm_update_ok ops c d s0 s2 E) as (n0 & sc0' & sc1 & m & x0 & y0 & xg & isreg & A1 & A2 & A3 & A4 & A5 & A6 & L1 & _); split; [discriminate|exact L1]
    |destruct (lm_fit_ok ops c d s0 s2 E) as (m & sc & xg & Em & Er & L1 & L2 & Eo & E1 & Es & _); split; [intros _|exact L1];
     unfold scaler_fit in Es; destruct (Nat.ltb_spec (length (b_rows d)) 2); [discriminate|assumption]].
  - split; [exact (proj1 K)|]. constructor; [exact (proj2 K)|constructor].
  - destruct K as [K1 K2]. split; [exact K1|]. constructor; [exact K2|]. apply (IH e s2 s). exact H.
Qed.
Lemma C110_lemma {M} (ops : method_ops M) c d d' ds ds' s : keeps_gramian ops -> c_forget c = 0 ->
  Forall2 reordered (d :: ds) (d' :: ds') -> Forall (fun e => weights_nonneg (b_rows e)) (d :: ds) ->
  lm_history ops c (d :: ds) new_lm = Ok s -> lm_history ops c (d' :: ds') new_lm = Ok s.
Proof.
  intros HG Hf HR HW H.
  destruct (reordered_same _ _ HR) as (HS & HW' & HL). specialize (HW' HW).
  destruct (history_rows ops c ds d new_lm s H) as [N2 N1]. specialize (N2 eq_refl).
  pose proof (rel_from True _ _ HS ltac:(auto) HW HW') as Rel. inversion Rel as [|? ? ? ? R0 Rs]; subst.
  assert (L2 : enough_rows 2 d').
  { inversion HR as [|? ? ? ? [_ P0] _]; subst. unfold enough_rows in *. rewrite <- (Permutation_length P0). exact N2. }
  assert (L1 : Forall (enough_rows 1) ds') by (specialize (HL 1%nat N1); inversion HL; auto).
  destruct (lm_history_rows ops c d d' HG Hf True ds ds' s R0 L2 Rs L1 H) as (s' & E & TW).
  destruct TW as (l & l' & sc & rss' & coef' & SS & Esc & Enf & Eno & -> & C1 & C2).
  rewrite E. f_equal. destruct (C1 (or_intror I)) as [-> ->]. destruct s; reflexivity.
Qed.
Lemma C110_ols_lemma inv c d d' ds ds' s : matinv_spec inv -> c_forget c = 0 ->
  Forall2 reordered (d :: ds) (d' :: ds') -> Forall (fun e => weights_nonneg (b_rows e)) (d :: ds) ->
  lm_history (ols_ops inv) c (d :: ds) new_lm = Ok s ->
  exists s' b b', lm_history (ols_ops inv) c (d' :: ds') new_lm = Ok s' /\
    a_coef s = Some b /\ a_coef s' = Some b' /\ eqv (n_cols (c_icpt c) (b_p d)) b b' /\ a_scaler s' = a_scaler s /\
    (forall p X, snd (lm_predict c p X s') = snd (lm_predict c p X s)) /\ (forall e, snd (lm_score c e s') = snd (lm_score c e s)).
Proof.
  intros HI Hf HR HW H.
  destruct (reordered_same _ _ HR) as (HS & HW' & HL). specialize (HW' HW).
  destruct (history_rows _ c ds d new_lm s H) as [N2 N1]. specialize (N2 eq_refl).
  apply (C109_ols_lemma inv c d d' ds ds' s); auto.
  { inversion HR as [|? ? ? ? [_ P0] _]; subst. unfold enough_rows in *. rewrite <- (Permutation_length P0). exact N2. }
  specialize (HL 1%nat N1); inversion HL; auto.
Qed.
Lemma counted_repeated l : same_data (counted l) (repeated l).
Proof.
  assert (App : forall l l' m, same_data l l' -> same_data (l ++ m) (l' ++ m)).
  { induction 1; cbn [app].
    - apply sd_order. apply Permutation_app_tail. auto.
    - apply sd_split.
    - apply sd_zero.
    - apply sd_sym; auto.
    - eapply sd_trans; eauto. }
  assert (One : forall x y k m, same_data (mkobs x y (INR k) :: m) (repeat (mkobs x y 1) k ++ m)).
  { intros x y k. induction k as [|k IH]; intros m.
    - apply sd_zero.
    - rewrite S_INR. eapply sd_trans; [apply sd_split|]. cbn [repeat app].
      eapply sd_trans; [apply IH|]. apply sd_order. apply Permutation_sym, Permutation_middle. }
  unfold counted, repeated. induction l as [|[[x y] k] l IH]; cbn [map concat fst snd]; [apply sd_order; constructor|].
  eapply sd_trans; [apply One|].
  eapply sd_trans; [apply sd_order, Permutation_app_comm|]. eapply sd_trans; [apply App, IH|]. apply sd_order, Permutation_app_comm.
Qed.

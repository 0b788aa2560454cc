From Coq Require Import Reals List Bool Arith Lra Lia Permutation FunctionalExtensionality.
From Verif Require Import Base Lin Data M_Gram S_Gram L_Gram M_OLS L_OLS M_CD M_Path M_Ridge M_Scaler M_Utils M_State M_LM S_LM L_LM L_LM4 S_CD L_CD L_CD1 L_CD2 L_Path L_Path2 S_Target L_Target L_Target2.
Import ListNotations.
Open Scope R_scope.

(** * One regularised column: the path in closed form *)
Lemma one_column_row c perm x y isreg c' P i : 0 <= en_alpha c <= 1 -> 0 < en_eps c ->
  en_lower c = None -> en_upper c = None -> en_early_stop c = 0%nat ->
  (forall k i, Permutation (perm k i) (seq 0 1)) -> 0 < x 0%nat 0%nat -> isreg 0%nat = true -> 0 < y 0%nat ->
  fit_beta_path c perm 1 x y isreg = Ok (c', P) -> (i < en_n c)%nat ->
  let l := y 0%nat * Rpower (en_eps c) (INR i / INR (en_n c - 1)) in
  P i 0%nat = soft_threshold (y 0%nat) (en_alpha c * l) / (x 0%nat 0%nat + l * (1 - en_alpha c)).
Proof.
  intros Ha He HL HU Hes Hp Hd Hr Hy E Hi l.
  apply fit_inv in E. destruct E as (lm & out & B & Hm & N1 & N2 & H).
  assert (AR : all_reg 1 isreg) by (intros j Hj; replace j with 0%nat by lia; auto).
  rewrite (lambda_max_all 1 x y isreg AR) in Hm. injection Hm as <-.
  apply path_rows in H. destruct H as [_ H]. rewrite grid_length in H. specialize (H i Hi).
  unfold row_ok in H. cbv zeta in H. rewrite Hes in H. cbn [Nat.ltb Nat.leb andb] in H.
  rewrite grid_nth in H by auto. unfold grid_point in H.
  replace (y 0%nat * en_eps c / y 0%nat) with (en_eps c) in H by (field; lra). fold l in H.
  assert (Hl : 0 < l) by (apply Rmult_lt_0_compat; auto; unfold Rpower; apply exp_pos).
  pose (a := with_reg (en_args c' 1 x y isreg) l). fold a in H.
  set (st := row_start _ _ _ _) in H.
  assert (Ea : cd_alpha a = en_alpha c).
  { apply bounds_inv in B. destruct B as (-> & _). reflexivity. }
  assert (Hub : unbounded a) by (eapply default_unbounded; eauto).
  set (v := soft_threshold _ _ / _).
  assert (Hden : 0 < x 0%nat 0%nat + l * (1 - en_alpha c)).
  { assert (0 <= l * (1 - en_alpha c)) by (apply Rmult_le_pos; lra). lra. }
  assert (C : forall b, cd_coord a b 0 = Ok v).
  { intros b. assert (D : cd_den a 0 = x 0%nat 0%nat + l * (1 - en_alpha c)).
    { unfold cd_den. change (cd_isreg a 0) with (isreg 0%nat). rewrite Hr, Ea. reflexivity. }
    rewrite coord_unbounded by (auto; lra). rewrite D. unfold cd_num.
    change (cd_isreg a 0) with (isreg 0%nat). rewrite Hr, Ea.
    unfold cd_partial. change (cd_J a) with 1%nat. cbn [bsum].
    change (cd_y a 0%nat) with (y 0%nat). change (cd_x a 0%nat 0%nat) with (x 0%nat 0%nat).
    change (cd_reg a) with l. unfold v. do 3 f_equal. ring. }
  destruct (cd_fixed_after_first a (en_random c) (perm i) (en_tol c) (en_maxit c) st (fun _ => v) v) as (b' & n' & E' & Hb').
  - intros j Hj. replace j with 0%nat by (cbn in Hj; lia). apply C.
  - exact (Hp i).
  - exact (le_n 1).
  - apply C.
  - intros k Hk. replace k with 0%nat by (cbn in Hk; lia). reflexivity.
  - rewrite H in E'. injection E' as <- _. apply (Hb' 0%nat). cbn. lia.
Qed.
Lemma one_column_closed c perm x y isreg c' P i : 0 <= en_alpha c <= 1 -> 0 < en_eps c <= 1 ->
  en_lower c = None -> en_upper c = None -> en_early_stop c = 0%nat ->
  (forall k i, Permutation (perm k i) (seq 0 1)) -> 0 < x 0%nat 0%nat -> isreg 0%nat = true -> 0 < y 0%nat ->
  fit_beta_path c perm 1 x y isreg = Ok (c', P) -> (i < en_n c)%nat ->
  let e := Rpower (en_eps c) (INR i / INR (en_n c - 1)) in
  0 < e <= 1 /\ P i 0%nat = y 0%nat * (1 - en_alpha c * e) / (x 0%nat 0%nat + y 0%nat * e * (1 - en_alpha c)).
Proof.
  intros Ha He HL HU Hes Hp Hd Hr Hy E Hi e.
  assert (He1 : 0 < e) by (unfold e, Rpower; apply exp_pos).
  assert (He2 : e <= 1).
  { unfold e, Rpower. rewrite <- exp_0.
    assert (K : ln (en_eps c) <= 0).
    { destruct He as [He [Hl| ->]]; [|rewrite ln_1; lra]. left. rewrite <- ln_1. apply ln_increasing; auto. }
    assert (Q : 0 <= INR i / INR (en_n c - 1)).
    { destruct i; [cbn; lra|]. apply Rmult_le_pos; [apply pos_INR|]. left. apply Rinv_0_lt_compat, lt_0_INR. lia. }
    assert (F : INR i / INR (en_n c - 1) * ln (en_eps c) <= 0) by nra.
    destruct F as [F| ->]; [left; apply exp_increasing; auto|lra]. }
  split; [lra|].
  rewrite (one_column_row c perm x y isreg c' P i) by (auto; lra). fold e. cbv zeta.
  f_equal. unfold soft_threshold, rsign.
  replace (Rltb 0 (y 0%nat)) with true by (symmetry; apply Rltb_true; auto).
  rewrite (Rabs_pos_eq (y 0%nat)) by lra.
  assert (Q : 0 <= y 0%nat - en_alpha c * (y 0%nat * e)).
  { replace (y 0%nat - en_alpha c * (y 0%nat * e)) with (y 0%nat * (1 - en_alpha c * e)) by ring.
    apply Rmult_le_pos; [lra|]. nra. }
  rewrite Rmax_left by lra. ring.
Qed.
(** Any mixture with a ridge part reacts to the units. *)
Lemma C107_enet_lemma c perm perm' x y isreg t c' P c2 P2 i : 0 <= en_alpha c < 1 -> 0 < en_eps c <= 1 ->
  en_lower c = None -> en_upper c = None -> en_early_stop c = 0%nat ->
  (forall k i, Permutation (perm k i) (seq 0 1)) -> (forall k i, Permutation (perm' k i) (seq 0 1)) ->
  0 < x 0%nat 0%nat -> isreg 0%nat = true -> 0 < y 0%nat -> 0 < t -> t <> 1 ->
  fit_beta_path c perm 1 x y isreg = Ok (c', P) ->
  fit_beta_path c perm' 1 x (vscale t y) isreg = Ok (c2, P2) -> (i < en_n c)%nat ->
  P2 i 0%nat <> t * P i 0%nat.
Proof.
  intros Ha He HL HU Hes Hp Hp' Hd Hr Hy Ht Ht1 E E2 Hi.
  assert (Ha' : 0 <= en_alpha c <= 1) by lra.
  destruct (one_column_closed c perm x y isreg c' P i Ha' He HL HU Hes Hp Hd Hr Hy E Hi) as [_ ->].
  assert (Hy' : 0 < vscale t y 0%nat) by (apply Rmult_lt_0_compat; auto).
  destruct (one_column_closed c perm' x (vscale t y) isreg c2 P2 i Ha' He HL HU Hes Hp' Hd Hr Hy' E2 Hi) as [B ->].
  set (e := Rpower (en_eps c) (INR i / INR (en_n c - 1))) in *. unfold vscale.
  set (X := x 0%nat 0%nat) in *. set (Y := y 0%nat) in *. set (al := en_alpha c) in *.
  assert (P1 : 0 < Y * e * (1 - al)) by (repeat apply Rmult_lt_0_compat; lra).
  assert (P3 : 0 < t * Y * e * (1 - al)).
  { replace (t * Y * e * (1 - al)) with (t * (Y * e * (1 - al))) by ring. apply Rmult_lt_0_compat; auto. }
  assert (Q : 0 < 1 - al * e) by nra.
  intros F. apply (f_equal (fun z => z * (X + Y * e * (1 - al)) * (X + t * Y * e * (1 - al)))) in F.
  replace (t * Y * (1 - al * e) / (X + t * Y * e * (1 - al)) * (X + Y * e * (1 - al)) * (X + t * Y * e * (1 - al)))
    with (t * Y * (1 - al * e) * (X + Y * e * (1 - al))) in F by (field; lra).
  replace (t * (Y * (1 - al * e) / (X + Y * e * (1 - al))) * (X + Y * e * (1 - al)) * (X + t * Y * e * (1 - al)))
    with (t * Y * (1 - al * e) * (X + t * Y * e * (1 - al))) in F by (field; lra).
  apply Rmult_eq_reg_l in F.
  - assert (G : Y * e * (1 - al) * (1 - t) = 0) by lra. apply Rmult_integral in G. lra.
  - apply Rgt_not_eq. repeat apply Rmult_lt_0_compat; auto.
Qed.

(** * Shifting the target: least squares with an intercept *)
Section Affine.
Context (inv : nat -> mat -> option mat) (c : lm_cfg unit) (t u : R) (d : batch).
Hypothesis HI : matinv_spec inv.
Hypothesis Hf : 0 <= c_forget c < 1.
Hypothesis Hic : c_icpt c = true.
Let p := n_cols (c_icpt c) (b_p d).
Let f := c_forget c.
Let g : R -> R := fun y => t * y + u.

Definition ols_twin (s s' : lm unit) : Prop :=
  exists l o o', Forall (fun r => ox r 0%nat = 1) l /\ a_x s = Some (ols_x o) /\ a_y s = Some (ols_y o) /\ a_coef s = Some (ols_coef o) /\
    ols_inv p f l o /\ ols_inv p f (retarget g l) o' /\ ols_x o' = ols_x o /\ a_nfin s = Some (b_p d) /\ a_nobs s <> None /\
    s' = mk_lm (a_method s) (a_scaler s) (a_nfin s) (a_nobs s) (a_nfeat s) (a_ntrain s) (a_isreg s) (a_x s)
      (Some (ols_y o')) (a_path s) (a_rss s) (Some (ols_coef o')).

Lemma design_ones sc l : Forall (fun r => ox r 0%nat = 1) (design_rows c sc l).
Proof. unfold design_rows. rewrite Forall_map. apply Forall_forall. intros o _. cbn. rewrite Hic. reflexivity. Qed.
Lemma weights_retarget h l : weights_nonneg l -> weights_nonneg (retarget h l).
Proof. unfold weights_nonneg, retarget. rewrite Forall_map. apply Forall_impl. auto. Qed.
Lemma retarget_app h l m : retarget h (l ++ m) = retarget h l ++ retarget h m.
Proof. apply map_app. Qed.

Lemma lm_fit_affine s : weights_nonneg (b_rows d) -> lm_fit (ols_ops inv) c d new_lm = (s, Ok tt) ->
  exists s', lm_fit (ols_ops inv) c (affine_target t u d) new_lm = (s', Ok tt) /\ ols_twin s s'.
Proof.
  intros Hw H. destruct (lm_fit_ok _ c d new_lm s H) as (m & sc & xg & Em & Er & L1 & L2 & Eo & E1 & Es & Ex & K).
  pose proof (lm_fit_intro (ols_ops inv) c (affine_target t u d) new_lm m sc xg) as I.
  cbn [affine_target b_rows b_p] in I. fold g in I.
  rewrite ws_retarget, length_retarget, scaler_fit_retarget, design_rows_retarget in I.
  set (l := design_rows c sc (b_rows d)) in *.
  assert (Ex' : op_init_x (ols_ops inv) (n_cols (c_icpt c) (b_p d)) (Xs (retarget g l)) (ws (retarget g l)) (c_forget c) = Ok xg)
    by (rewrite Xs_retarget, ws_retarget; exact Ex).
  destruct (I Em Er L1 L2 Eo E1 Es Ex') as [_ I2]. destruct K as [(Ep & _)|(_ & m' & beta & F1 & ->)]; [discriminate Ep|].
  eexists. split; [apply (I2 m _ eq_refl eq_refl)|].
  cbn in F1. injection F1 as <- <-.
  exists l, (mk_ols xg (init_y_gram (Xs l) (ys l) (ws l) f) (ols_beta p xg (init_y_gram (Xs l) (ys l) (ws l) f))),
    (mk_ols xg (init_y_gram (Xs (retarget g l)) (ys (retarget g l)) (ws (retarget g l)) f)
       (ols_beta p xg (init_y_gram (Xs (retarget g l)) (ys (retarget g l)) (ws (retarget g l)) f))).
  split; [apply design_ones|]. cbn [a_x a_y a_coef a_nfin a_nobs ols_x ols_y ols_coef].
  split; [reflexivity|]. split; [reflexivity|]. split; [reflexivity|].
  assert (Wl : weights_nonneg l) by (apply scaled_nonneg; exact Hw).
  split; [apply (ols_fit_inv inv); auto; unfold ols_fit; cbn in Ex; fold p f in Ex; rewrite Ex; reflexivity|].
  split; [apply (ols_fit_inv inv); auto; [apply weights_retarget; auto|unfold ols_fit; cbn in Ex'; fold p f in Ex'; rewrite Ex'; reflexivity]|].
  repeat (split; [reflexivity || discriminate|]). reflexivity.
Qed.

Lemma lm_update_affine s s' e s1 : weights_nonneg (b_rows e) -> ols_twin s s' -> lm_update (ols_ops inv) c e s = (s1, Ok tt) ->
  exists s1', lm_update (ols_ops inv) c (affine_target t u e) s' = (s1', Ok tt) /\ ols_twin s1 s1'.
Proof.
  intros Hw (l & o & o' & H1 & Ax & Ay & Ac & Io & Io' & Exx & Enf & Eno & ->) H.
  destruct (lm_update_ok _ c e s s1 H) as (n0 & sc0 & sc1 & m & x0 & y0 & xg & isreg & A1 & A2 & A3 & A4 & A5 & A6 & L1 & L2 & QQ & Sel & Es & Ex & K).
  assert (Ee : b_p d = b_p e) by (apply QQ; exact Enf).
  set (s' := mk_lm _ _ _ _ _ _ _ _ _ _ _ _).
  pose proof (lm_update_intro (ols_ops inv) c (affine_target t u e) s' n0 sc0 sc1 m x0 (ols_y o') xg isreg) as I.
  cbn [affine_target b_rows b_p] in I. fold g in I.
  rewrite ws_retarget, length_retarget, scaler_update_retarget, design_rows_retarget in I.
  set (l1 := design_rows c sc1 (b_rows e)) in *.
  assert (Ex' : op_update_x (ols_ops inv) (n_cols (c_icpt c) (b_p e)) x0 (Xs (retarget g l1)) (c_forget c) (ws (retarget g l1)) = Ok xg)
    by (rewrite Xs_retarget, ws_retarget; exact Ex).
  assert (Enf' : a_nfin s' = Some (b_p e)) by (unfold s'; cbn [a_nfin]; congruence).
  destruct (I A1 A2 A3 A4 eq_refl A6 L1 L2 Enf' Sel Es Ex') as [_ I2].
  destruct K as [(Ep & _)|(_ & m' & beta0 & beta & F1 & F2 & ->)]; [discriminate Ep|].
  eexists. split; [apply (I2 m _ _ eq_refl eq_refl eq_refl)|].
  cbn in F2. injection F2 as <- <-.
  rewrite Ax in A4. injection A4 as <-. rewrite Ay in A5. injection A5 as <-.
  assert (Wl : weights_nonneg l1) by (apply scaled_nonneg; exact Hw).
  assert (Nl : nonempty l1) by (unfold l1, design_rows; destruct (b_rows e); [cbn in L1; lia|discriminate]).
  destruct (ols_update_inv p f l o l1 Hf Io Wl Nl) as (o1 & U1 & J1).
  destruct (ols_update_inv p f (retarget g l) o' (retarget g l1) Hf Io' (weights_retarget _ _ Wl)) as (o1' & U1' & J1').
  { destruct l1; [destruct Nl; auto|discriminate]. }
  rewrite <- retarget_app in J1'.
  cbn [ols_ops op_update_x] in Ex, Ex'. rewrite <- Ee in *. fold p f in Ex, Ex'.
  unfold ols_update in U1, U1'. rewrite Ex in U1. rewrite Exx, Ex' in U1'. cbn [bind] in U1, U1'.
  injection U1 as <-. injection U1' as <-.
  eexists; eexists; eexists. split; [|split; [|split; [|split; [|split; [exact J1|split; [exact J1'|]]]]]]; try reflexivity.
  - apply Forall_app. split; [exact H1|apply design_ones].
  - repeat (split; [assumption || reflexivity || discriminate|]). reflexivity.
Qed.

Lemma lm_history_affine ds s : Forall (fun e => weights_nonneg (b_rows e)) (d :: ds) ->
  lm_history (ols_ops inv) c (d :: ds) new_lm = Ok s ->
  exists s', lm_history (ols_ops inv) c (map (affine_target t u) (d :: ds)) new_lm = Ok s' /\ ols_twin s s'.
Proof.
  intros Hw H. inversion Hw as [|? ? Hd Hds]; subst. cbn [map lm_history] in *. unfold partial_fit in H at 1. cbn in H.
  destruct (lm_fit (ols_ops inv) c d new_lm) as [s0 [[]|]] eqn:E; [|discriminate].
  destruct (lm_fit_affine s0 Hd E) as (s0' & E0 & TW).
  unfold partial_fit at 1. cbn. rewrite E0. clear E E0 Hw. revert s0 s0' TW H.
  induction ds as [|e ds IH]; intros s0 s0' TW H.
  - injection H as <-. exists s0'. auto.
  - inversion Hds as [|? ? He Hds']; subst. cbn [lm_history map] in *. unfold partial_fit in *.
    assert (F : is_fitted s0 = true /\ is_fitted s0' = true).
    { destruct TW as (l & o & o' & _ & _ & _ & _ & _ & _ & _ & _ & Eno & ->). unfold is_fitted. cbn [a_nobs]. destruct (a_nobs s0); auto; congruence. }
    destruct F as [F F']. rewrite F in H. rewrite F'.
    destruct (lm_update (ols_ops inv) c e s0) as [s2 [[]|]] eqn:E; [|discriminate].
    destruct (lm_update_affine s0 s0' e s2 He TW E) as (s2' & E2 & TW2).
    rewrite E2. apply (IH Hds' s2 s2'); auto.
Qed.

Lemma ygram_affine l : Forall (fun r => ox r 0%nat = 1) l -> forall i, ygram_spec f (retarget g l) i = t * ygram_spec f l i + u * gram_spec f l i 0%nat.
Proof.
  intros H i. unfold ygram_spec, gram_spec. induction H as [|o l Ho H IH]; cbn [retarget map dsum]; [ring|].
  unfold retarget in IH. rewrite IH, map_length, Ho. cbn [ox oy ow]. unfold g. ring.
Qed.
Lemma twin_coef s s' : ols_twin s s' -> exists beta beta', a_coef s = Some beta /\ a_coef s' = Some beta' /\
  forall j, (j < p)%nat -> beta' j = t * beta j + (if Nat.eqb j 0 then u else 0).
Proof.
  intros (l & o & o' & H1 & Ax & Ay & Ac & Io & Io' & Exx & Enf & Eno & ->).
  exists (ols_coef o), (ols_coef o'). split; [exact Ac|]. split; [reflexivity|]. intros j Hj.
  destruct Io as ((HA & _) & Hy & Hc). destruct Io' as (_ & Hy' & Hc').
  rewrite (Hc' j Hj), (Hc j Hj), Exx.
  assert (P0 : (0 < p)%nat) by lia.
  unfold mvec. rewrite (bsum_ext p _ (fun k => t * (ols_x o j k * ols_y o k) + u * (ols_x o j k * gram_spec f l k 0%nat))).
  - rewrite bsum_plus, !bsum_scal_l. f_equal. destruct HA as [_ HA]. specialize (HA j 0%nat Hj P0). unfold mmul, mid in HA. rewrite HA.
    destruct (Nat.eqb j 0); ring.
  - intros k _. rewrite Hy', Hy, ygram_affine by auto. ring.
Qed.
Lemma dot_affine (x b b' : vec) : (1 <= b_p d)%nat -> x 0%nat = 1 -> (forall j, (j < p)%nat -> b' j = t * b j + (if Nat.eqb j 0 then u else 0)) ->
  dot p x b' = t * dot p x b + u.
Proof.
  intros P0 Hx H. unfold dot. rewrite (bsum_ext p _ (fun k => t * (x k * b k) + (if Nat.eqb k 0 then u * x k else 0))).
  - rewrite bsum_plus, bsum_scal_l. f_equal.
    rewrite (bsum_delta p 0 (fun k => u * x k)); [rewrite Hx; ring|unfold p, n_cols; lia].
  - intros k Hk. rewrite H by auto. destruct (Nat.eqb k 0); ring.
Qed.
Lemma twin_predict s s' q X : (1 <= b_p d)%nat -> ols_twin s s' ->
  snd (lm_predict c q X s') = res_map (map g) (snd (lm_predict c q X s)).
Proof.
  intros P0 TW. destruct (twin_coef s s' TW) as (b & b' & Eb & Eb' & K).
  destruct TW as (l & o & o' & H1 & Ax & Ay & Ac & Io & Io' & Exx & Enf & Eno & ->). cbn [a_coef] in Eb'. injection Eb' as <-.
  rewrite Ac in Eb. injection Eb as <-.
  destruct s as [a1 a2 a3 a4 a5 a6 a7 a8 a9 a10 a11 a12]. cbn in Enf, Eno, Ac. subst.
  unfold lm_predict, any_fitted_attribute, validate_old, bnd, read, ret, raise. cbn [a_method a_scaler a_nfin a_nobs a_nfeat a_ntrain a_isreg a_x a_y a_path a_rss a_coef].
  destruct ((length X <? 1)%nat || (q <? 1)%nat); [auto|].
  cbn [a_method a_scaler a_nfin a_nobs a_nfeat a_ntrain a_isreg a_x a_y a_path a_rss a_coef].
  destruct (Nat.eqb_spec q (b_p d)) as [->|]; [|auto]. cbn [a_method a_scaler a_nfin a_nobs a_nfeat a_ntrain a_isreg a_x a_y a_path a_rss a_coef].
  destruct a2 as [[sc|]|]; auto.
  destruct (sc_do sc && _); [auto|]. cbn [a_method a_scaler a_nfin a_nobs a_nfeat a_ntrain a_isreg a_x a_y a_path a_rss a_coef].
  cbn [snd res_map]. f_equal. rewrite map_map. apply map_ext. intros x. unfold g.
  apply dot_affine; auto. rewrite Hic. reflexivity.
Qed.
Lemma r2_affine y z : t <> 0 -> r2 (map g y) (map g z) = r2 y z.
Proof.
  intros H. destruct y as [|y0 y']; [unfold r2; cbn; destruct z; reflexivity|]. set (y := y0 :: y').
  assert (N : INR (length y) <> 0) by (apply not_0_INR; discriminate).
  unfold r2. rewrite map_length, map_map.
  assert (E1 : forall l, lsum (map g l) = t * lsum l + u * INR (length l)).
  { induction l as [|v l IH]; [cbn; ring|]. cbn [map length]. rewrite S_INR. cbn [lsum fold_right] in *. cbn. cbn in IH. rewrite IH. unfold g. ring. }
  rewrite E1. replace ((t * lsum y + u * INR (length y)) / INR (length y)) with (t * (lsum y / INR (length y)) + u) by (field; auto).
  set (m := lsum y / INR (length y)).
  assert (E2 : forall l, lsum (map (fun x => (g x - (t * m + u)) ^ 2) l) = t ^ 2 * lsum (map (fun a => (a - m) ^ 2) l)).
  { intros l. induction l as [|v l IH]; [cbn; ring|]. cbn. cbn in IH. rewrite IH. unfold g. ring. }
  assert (E3 : forall l m, lsum (map2 (fun a b => (a - b) ^ 2) (map g l) (map g m)) = t ^ 2 * lsum (map2 (fun a b => (a - b) ^ 2) l m)).
  { induction l as [|v l IH]; intros [|w k]; try (cbn; ring). cbn [map map2]. cbn in IH |- *. rewrite IH. unfold g. ring. }
  rewrite E2, E3. set (a := lsum (map2 _ y z)). set (b := lsum (map _ y)).
  assert (Hq : t ^ 2 <> 0) by (apply pow_nonzero; auto).
  unfold Reqb. destruct (Req_EM_T (t ^ 2 * b) 0) as [F|F], (Req_EM_T b 0) as [G|G]; auto.
  - apply Rmult_integral in F. tauto.
  - rewrite G in F. destruct F. ring.
  - do 2 f_equal. field. split; auto.
Qed.
Lemma twin_score s s' b : (1 <= b_p d)%nat -> ols_twin s s' -> t <> 0 ->
  snd (lm_score c (affine_target t u b) s') = snd (lm_score c b s).
Proof.
  intros P0 TW H0. pose proof (twin_predict s s' (b_p b) (Xs (b_rows b)) P0 TW) as P.
  unfold lm_score, bnd. cbn [affine_target b_p b_rows]. fold g. rewrite Xs_retarget, ys_retarget.
  destruct (lm_predict c (b_p b) (Xs (b_rows b)) s) as [s1 [v|e]], (lm_predict c (b_p b) (Xs (b_rows b)) s') as [s1' [v'|e']];
    cbn in P; try discriminate; injection P as ->; cbn; auto.
  rewrite r2_affine; auto.
Qed.
End Affine.

Lemma history_shape {M} (ops : method_ops M) c d ds s : lm_history ops c (d :: ds) new_lm = Ok s -> (1 <= b_p d)%nat.
Proof.
  intros H. cbn [lm_history] in H. unfold partial_fit in H at 1. cbn in H.
  destruct (lm_fit ops c d new_lm) as [s0 [[]|]] eqn:E; [|discriminate].
  destruct (lm_fit_ok ops c d new_lm s0 E) as (m & sc & xg & _ & _ & _ & L2 & _). exact L2.
Qed.
Lemma C108_lemma inv c t u d ds s : matinv_spec inv -> 0 <= c_forget c < 1 -> c_icpt c = true ->
  Forall (fun e => weights_nonneg (b_rows e)) (d :: ds) ->
  lm_history (ols_ops inv) c (d :: ds) new_lm = Ok s ->
  exists s' beta beta', lm_history (ols_ops inv) c (map (affine_target t u) (d :: ds)) new_lm = Ok s' /\
    a_coef s = Some beta /\ a_coef s' = Some beta' /\
    beta' 0%nat = t * beta 0%nat + u /\ (forall j, (1 <= j <= b_p d)%nat -> beta' j = t * beta j) /\
    (forall p X, snd (lm_predict c p X s') = res_map (map (fun v => t * v + u)) (snd (lm_predict c p X s))) /\
    (t <> 0 -> forall b, snd (lm_score c (affine_target t u b) s') = snd (lm_score c b s)).
Proof.
  intros HI Hf Hic Hw H. pose proof (history_shape _ _ _ _ _ H) as P0.
  destruct (lm_history_affine inv c t u d HI Hf Hic ds s Hw H) as (s' & E & TW).
  destruct (twin_coef c t u d s s' TW) as (b & b' & Eb & Eb' & K).
  assert (P : n_cols (c_icpt c) (b_p d) = (b_p d + 1)%nat) by (unfold n_cols; rewrite Hic; reflexivity).
  exists s', b, b'. repeat (split; [assumption|]). split; [|split; [|split]].
  - rewrite (K 0%nat) by (rewrite P; lia). reflexivity.
  - intros j Hj. rewrite (K j) by (rewrite P; lia). replace (Nat.eqb j 0) with false by (symmetry; apply Nat.eqb_neq; lia). ring.
  - intros p X. eapply twin_predict; eauto.
  - intros H0 b0. eapply twin_score; eauto.
Qed.

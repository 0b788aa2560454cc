(** The online linear model with ordinary least squares and unscaled inputs. *)
From Coq Require Import Reals List Bool Arith Lra Lia.
From Verif Require Import Base Lin Data M_Gram S_Gram L_Gram M_OLS L_OLS M_CD M_Path M_Ridge
  M_Scaler M_Utils S_Utils L_Utils M_State M_LM S_LM L_LM L_LM2.
Import ListNotations.
Open Scope R_scope.


Lemma design_rows_plain (c : lm_cfg unit) sc l :
  sc_do sc = false -> design_rows c sc l = map (regressors (c_icpt c)) l.
Proof.
  intros H. unfold design_rows. apply map_ext. intros o.
  unfold scaler_transform, regressors, design. rewrite H. reflexivity.
Qed.

Record ols_rel (c : lm_cfg unit) (p : nat) (n : R) (o : ols_state) (s : lm unit) : Prop := mk_rel {
  r_method : a_method s = Some tt;
  r_scaler : exists sc, a_scaler s = Some (Some sc) /\ sc_do sc = false;
  r_nfin : a_nfin s = Some p;
  r_nobs : a_nobs s = Some n;
  r_ntrain : a_ntrain s = Some (effective_training_length (c_forget c) n);
  r_isreg : exists ir, a_isreg s = Some ir;
  r_x : a_x s = Some (ols_x o);
  r_y : a_y s = Some (ols_y o);
  r_coef : a_coef s = Some (ols_coef o)
}.

Lemma ols_lm_fit inv c b s0 s :
  ols_config c ->
  lm_fit (ols_ops inv) c b s0 = (s, Ok tt) ->
  (2 <= length (b_rows b))%nat /\ (1 <= b_p b)%nat /\
  INR (n_cols (c_icpt c) (b_p b)) < total_weight (b_rows b) /\
  c_regicpt c && negb (c_icpt c) = false /\
  exists o, ols_fit inv (n_cols (c_icpt c) (b_p b)) (c_forget c) (map (regressors (c_icpt c)) (b_rows b)) = Ok o /\
    ols_rel c (b_p b) (total_weight (b_rows b)) o s.
Proof.
  intros (Cm & Cn & Cs) H. apply lm_fit_ok in H. cbv zeta in H.
  destruct H as (m & sc & xg & Hm & Hr & L1 & L2 & Ho & H1 & Hs & Hx & H).
  destruct H as [(K & _)|(_ & m' & beta & Hf & ->)]; [discriminate K|].
  rewrite Cn, andb_true_r in Ho. apply Rleb_false in Ho.
  unfold scaler_fit in Hs. rewrite Cs in Hs. cbn [selection] in Hs.
  destruct (Nat.ltb_spec (length (b_rows b)) 2); [discriminate Hs|].
  assert (D : sc_do sc = false) by (injection Hs as <-; reflexivity).
  rewrite (design_rows_plain c sc _ D) in *.
  split; [lia|]. split; [lia|]. split; [exact Ho|]. split; [exact Hr|].
  cbn [ols_ops op_init_x op_fit_beta] in Hx, Hf.
  unfold ols_fit. rewrite Hx. cbn [bind]. eexists. split; [reflexivity|].
  injection Hf as <- <-. destruct m. split; cbn; eauto.
Qed.

Lemma ols_lm_fit_intro inv c b s0 o :
  ols_config c -> (2 <= length (b_rows b))%nat -> (1 <= b_p b)%nat ->
  INR (n_cols (c_icpt c) (b_p b)) < total_weight (b_rows b) ->
  c_regicpt c && negb (c_icpt c) = false ->
  ols_fit inv (n_cols (c_icpt c) (b_p b)) (c_forget c) (map (regressors (c_icpt c)) (b_rows b)) = Ok o ->
  exists s, lm_fit (ols_ops inv) c b s0 = (s, Ok tt) /\
    ols_rel c (b_p b) (total_weight (b_rows b)) o s.
Proof.
  intros (Cm & Cn & Cs) L1 L2 Hn Hr Ho.
  unfold ols_fit in Ho.
  destruct (init_inverted_gram inv _ _ _ _) as [xg|] eqn:Hx; [|discriminate Ho].
  cbn [bind] in Ho. injection Ho as <-.
  set (sc := mk_scaler (c_forget c) false [] (fun _ => 0) (fun _ => 0) (fun _ => 0) 0 (lsum (ws (b_rows b)))).
  assert (Hs : scaler_fit (c_forget c) (c_scale c) (b_p b) (b_rows b) = Ok sc).
  { unfold scaler_fit. rewrite Cs. cbn [selection].
    destruct (Nat.ltb_spec (length (b_rows b)) 2); [lia|]. reflexivity. }
  destruct (lm_fit_intro (ols_ops inv) c b s0 tt sc xg) as [_ I]; auto; try lia.
  - rewrite Cn, andb_true_r. apply Rleb_false. exact Hn.
  - assert (1 <= INR (n_cols (c_icpt c) (b_p b))).
    { change 1 with (INR 1). apply le_INR. unfold n_cols. lia. }
    unfold total_weight in Hn. lra.
  - cbv zeta in I. rewrite design_rows_plain in I by reflexivity.
    eexists. split; [apply I; reflexivity|]. split; cbn; eauto.
Qed.

Lemma ols_lm_update inv c b s p n o o' :
  ols_rel c p n o s -> b_rows b <> [] -> (1 <= p)%nat -> b_p b = p ->
  ols_update (n_cols (c_icpt c) p) (c_forget c) o (map (regressors (c_icpt c)) (b_rows b)) = Ok o' ->
  exists s', lm_update (ols_ops inv) c b s = (s', Ok tt) /\
    ols_rel c p (n + total_weight (b_rows b)) o' s'.
Proof.
  intros [r1 (sc & r2 & D) r3 r4 r5 (ir & r6) r7 r8 r9] Hb Hp E Ho.
  unfold ols_update in Ho.
  destruct (update_inverted_gram _ _ _ _ _) as [xg|] eqn:Hx; [|discriminate Ho].
  cbn [bind] in Ho. injection Ho as <-. subst p.
  set (sc' := mk_scaler (sc_forget sc) (sc_do sc) (sc_sel sc) (sc_mean sc) (sc_var sc) (sc_M sc)
                 (sc_cum sc) (sc_n sc + lsum (ws (b_rows b)))).
  assert (L : (1 <= length (b_rows b))%nat) by (destruct (b_rows b); [congruence|cbn; lia]).
  assert (Hs : scaler_update sc (b_rows b) = Ok sc').
  { unfold scaler_update. destruct (Nat.ltb_spec (length (b_rows b)) 1); [lia|]. rewrite D. cbn.
    unfold sc'. rewrite D. reflexivity. }
  assert (D' : sc_do sc' = false) by exact D.
  destruct (lm_update_intro (ols_ops inv) c b s n sc sc' tt (ols_x o) (ols_y o) xg ir) as [_ I]; auto.
  - rewrite D. reflexivity.
  - cbv zeta. rewrite design_rows_plain by exact D'. exact Hx.
  - cbv zeta in I. rewrite design_rows_plain in I by exact D'.
    eexists. split; [eapply I; [reflexivity|exact r9|reflexivity]|].
    split; cbn; eauto.
Qed.

Lemma ols_lm_history inv c p bs : forall s n o o',
  ols_rel c p n o s -> (1 <= p)%nat ->
  Forall (fun b => b_rows b <> [] /\ b_p b = p) bs ->
  ols_updates (n_cols (c_icpt c) p) (c_forget c) o (map (fun b => map (regressors (c_icpt c)) (b_rows b)) bs) = Ok o' ->
  exists s', lm_history (ols_ops inv) c bs s = Ok s' /\
    ols_rel c p (n + total_weight (stream bs)) o' s'.
Proof.
  induction bs as [|b bs IH]; intros s n o o' R Hp F U; cbn [map ols_updates lm_history] in *.
  - injection U as <-. exists s. split; [reflexivity|].
    replace (n + total_weight (stream [])) with n; [exact R|]. unfold total_weight, stream; cbn; lra.
  - inversion F as [|? ? [F1 F2] F3]; subst.
    destruct (ols_update _ _ _ _) as [o1|] eqn:E; [|discriminate U]. cbn [bind] in U.
    destruct (ols_lm_update inv c b s (b_p b) n o o1 R F1 Hp eq_refl E) as (s1 & E1 & R1).
    assert (B : is_fitted s = true) by (unfold is_fitted; rewrite (r_nobs _ _ _ _ _ R); reflexivity).
    unfold partial_fit. rewrite B, E1.
    destruct (IH s1 _ o1 o' R1 Hp F3 U) as (s' & E2 & R2).
    exists s'. split; [exact E2|].
    replace (n + total_weight (stream (b :: bs))) with (n + total_weight (b_rows b) + total_weight (stream bs)); auto.
    unfold total_weight, stream. cbn [map concat]. unfold ws. rewrite !map_app, !lsum_app. lra.
Qed.


Lemma stream_regressors icpt bs :
  map (regressors icpt) (stream bs) = concat (map (fun b => map (regressors icpt) (b_rows b)) bs).
Proof. unfold stream. rewrite concat_map, map_map. reflexivity. Qed.

Lemma regressors_nonneg icpt l : weights_nonneg l -> weights_nonneg (map (regressors icpt) l).
Proof. unfold weights_nonneg. rewrite Forall_map. apply Forall_impl. intros o H. exact H. Qed.

Lemma total_weight_nonneg l : weights_nonneg l -> 0 <= total_weight l.
Proof.
  unfold total_weight, ws. induction 1 as [|o l H _ IH]; cbn; lra.
Qed.

Lemma good_calls_lists icpt p bs : good_calls p bs ->
  Forall weights_nonneg (map (fun b => map (regressors icpt) (b_rows b)) bs) /\
  Forall nonempty (map (fun b => map (regressors icpt) (b_rows b)) bs) /\
  Forall (fun b => b_rows b <> [] /\ b_p b = p) bs /\ weights_nonneg (stream bs).
Proof.
  unfold good_calls. induction 1 as [|b bs (H1 & H2 & H3) F (I1 & I2 & I3 & I4)]; cbn [map].
  - repeat split; constructor.
  - repeat split; try constructor; auto.
    + apply regressors_nonneg, H1.
    + unfold nonempty. destruct (b_rows b); [congruence|discriminate].
    + unfold stream. cbn [map concat]. apply Forall_app. split; auto.
Qed.

Lemma ols_predict c p n o s X :
  ols_rel c p n o s -> (1 <= p)%nat -> X <> [] ->
  snd (lm_predict c p X s)
  = Ok (map (fun x => dot (n_cols (c_icpt c) p) (ox (regressors (c_icpt c) (mkobs x 0 0))) (ols_coef o)) X).
Proof.
  intros [r1 (sc & r2 & D) r3 r4 r5 (ir & r6) r7 r8 r9] Hp HX.
  unfold lm_predict, any_fitted_attribute. rewrite r3. cbn iota.
  unfold bnd at 1, validate_old.
  replace (length X <? 1)%nat with false by (symmetry; apply Nat.ltb_ge; destruct X; [congruence|cbn; lia]).
  replace (p <? 1)%nat with false by (symmetry; apply Nat.ltb_ge; lia). cbn [orb].
  rewrite r3, Nat.eqb_refl. erewrite bnd_read by exact r2. cbv beta iota. rewrite D. cbn [andb].
  erewrite bnd_read by exact r9. unfold ret. cbn [snd]. f_equal. apply map_ext. intros x.
  unfold scaler_transform. rewrite D. reflexivity.
Qed.

Lemma C47_batch_lemma inv c b0 bs s0 :
  matinv_spec inv -> 0 <= c_forget c < 1 -> ols_config c -> good_calls (b_p b0) (b0 :: bs) ->
  partial_fit (ols_ops inv) c b0 new_lm = (s0, Ok tt) ->
  let cols := n_cols (c_icpt c) (b_p b0) in
  exists s sb beta betab,
    lm_history (ols_ops inv) c (b0 :: bs) new_lm = Ok s /\
    lm_fit (ols_ops inv) c (mk_batch (b_p b0) (stream (b0 :: bs))) new_lm = (sb, Ok tt) /\
    a_coef s = Some beta /\ a_coef sb = Some betab /\ eqv cols beta betab /\
    a_nobs s = a_nobs sb /\ a_ntrain s = a_ntrain sb /\
    forall X, X <> [] -> snd (lm_predict c (b_p b0) X s) = snd (lm_predict c (b_p b0) X sb).
Proof.
  intros HI Hf HC HG H0 cols. inversion HG as [|? ? (G1 & G2 & G3) G4]; subst.
  pose proof H0 as H0'. unfold partial_fit in H0'. change (is_fitted new_lm) with false in H0'.
  cbn iota in H0'.
  destruct (ols_lm_fit inv c b0 _ _ HC H0') as (L1 & L2 & Hn & Hr & o & Ho & R).
  destruct (good_calls_lists (c_icpt c) _ _ G4) as (W & N & F & WS).
  destruct (ols_online_batch inv cols (c_forget c) (map (regressors (c_icpt c)) (b_rows b0))
     (map (fun b => map (regressors (c_icpt c)) (b_rows b)) bs) o HI Hf (regressors_nonneg _ _ G1) W N Ho)
    as (o1 & ob & E1 & E2 & E3).
  unfold ols_history in E1. fold cols in Ho. rewrite Ho in E1. cbn [bind] in E1.
  destruct (ols_lm_history inv c (b_p b0) bs s0 _ o o1 R L2 F E1) as (s & E4 & R4).
  assert (TW : total_weight (stream (b0 :: bs)) = total_weight (b_rows b0) + total_weight (stream bs)).
  { unfold total_weight, stream. cbn [map concat]. unfold ws. rewrite !map_app, !lsum_app. reflexivity. }
  destruct (ols_lm_fit_intro inv c (mk_batch (b_p b0) (stream (b0 :: bs))) new_lm ob HC) as (sb & E5 & R5).
  - cbn [b_rows]. unfold stream. cbn [map concat]. rewrite app_length. lia.
  - exact L2.
  - cbn [b_rows b_p]. rewrite TW. pose proof (total_weight_nonneg _ WS). lra.
  - exact Hr.
  - cbn [b_rows b_p]. rewrite stream_regressors. exact E2.
  - cbn [b_rows b_p] in R5. rewrite TW in R5.
    exists s, sb, (ols_coef o1), (ols_coef ob).
    split. { cbn [lm_history]. rewrite H0. exact E4. }
    split; [exact E5|].
    split; [apply R4|]. split; [apply R5|]. split; [intros i Hi; apply E3; exact Hi|].
    split; [rewrite (r_nobs _ _ _ _ _ R4), (r_nobs _ _ _ _ _ R5); reflexivity|].
    split; [rewrite (r_ntrain _ _ _ _ _ R4), (r_ntrain _ _ _ _ _ R5); reflexivity|].
    intros X HX. rewrite (ols_predict _ _ _ _ _ X R4), (ols_predict _ _ _ _ _ X R5) by auto.
    f_equal. apply map_ext. intros x. unfold dot. apply bsum_ext. intros i Hi.
    rewrite (E3 i Hi). reflexivity.
Qed.

Lemma C47_optimal_lemma inv c b0 bs s0 :
  matinv_spec inv -> 0 <= c_forget c < 1 -> ols_config c -> good_calls (b_p b0) (b0 :: bs) ->
  partial_fit (ols_ops inv) c b0 new_lm = (s0, Ok tt) ->
  let cols := n_cols (c_icpt c) (b_p b0) in
  let data := map (regressors (c_icpt c)) (stream (b0 :: bs)) in
  exists s beta,
    lm_history (ols_ops inv) c (b0 :: bs) new_lm = Ok s /\ a_coef s = Some beta /\
    (forall b, wls_loss cols (c_forget c) data beta <= wls_loss cols (c_forget c) data b /\
       (wls_loss cols (c_forget c) data b = wls_loss cols (c_forget c) data beta -> eqv cols b beta)) /\
    forall X, X <> [] -> snd (lm_predict c (b_p b0) X s)
      = Ok (map (fun x => dot cols (ox (regressors (c_icpt c) (mkobs x 0 0))) beta) X).
Proof.
  intros HI Hf HC HG H0 cols data. inversion HG as [|? ? (G1 & G2 & G3) G4]; subst.
  pose proof H0 as H0'. unfold partial_fit in H0'. change (is_fitted new_lm) with false in H0'.
  cbn iota in H0'.
  destruct (ols_lm_fit inv c b0 _ _ HC H0') as (L1 & L2 & Hn & Hr & o & Ho & R).
  destruct (good_calls_lists (c_icpt c) _ _ G4) as (W & N & F & WS).
  destruct (ols_online_optimal inv cols (c_forget c) (map (regressors (c_icpt c)) (b_rows b0))
     (map (fun b => map (regressors (c_icpt c)) (b_rows b)) bs) o HI Hf (regressors_nonneg _ _ G1) W N Ho)
    as (o1 & E1 & E3).
  unfold ols_history in E1. fold cols in Ho. rewrite Ho in E1. cbn [bind] in E1.
  destruct (ols_lm_history inv c (b_p b0) bs s0 _ o o1 R L2 F E1) as (s & E4 & R4).
  exists s, (ols_coef o1). split. { cbn [lm_history]. rewrite H0. exact E4. }
  split; [apply R4|]. split.
  - unfold data. rewrite stream_regressors. intros b. split; [apply E3|].
    intros E i Hi. apply (proj2 (E3 b) E i Hi).
  - intros X HX. apply (ols_predict _ _ _ _ _ X R4); auto.
Qed.

(** C53. *)
Lemma sq_sum_nonneg {A B} (f : A -> B -> R) l m : 0 <= lsum (map2 (fun a b => f a b ^ 2) l m).
Proof.
  revert m; induction l as [|a l IH]; intros [|b m]; cbn [map2 lsum]; try lra.
  specialize (IH m). assert (0 <= f a b ^ 2) by (apply pow2_ge_0). lra.
Qed.
Lemma sq_sum_zero l m : length l = length m ->
  (lsum (map2 (fun a b => (a - b) ^ 2) l m) = 0 <-> m = l).
Proof.
  revert m; induction l as [|a l IH]; intros [|b m] L; cbn [map2 lsum length] in *; try discriminate L.
  - tauto.
  - injection L as L. pose proof (sq_sum_nonneg (fun a b => a - b) l m) as N. cbv beta in N.
    assert (0 <= (a - b) ^ 2) by apply pow2_ge_0. split.
    + intros E. assert (E1 : (a - b) ^ 2 = 0) by lra. assert (E2 : lsum (map2 (fun a b => (a - b) ^ 2) l m) = 0) by lra.
      apply IH in E2; auto. subst m. f_equal. assert (a - b = 0); [|lra].
      destruct (Req_dec (a - b) 0); auto. exfalso. apply (pow_nonzero _ 2) in H0. lra.
    + intros E. injection E as -> ->. replace ((a - a) ^ 2) with 0 by ring.
      assert (Z : lsum (map2 (fun a b => (a - b) ^ 2) l l) = 0) by (apply IH; auto). lra.
Qed.
Lemma ss_tot_repeat (m : R) y :
  lsum (map (fun a => (a - m) ^ 2) y) = lsum (map2 (fun a b => (a - b) ^ 2) y (repeat m (length y))).
Proof. induction y as [|a y IH]; cbn [map map2 lsum repeat length]; [reflexivity|]. rewrite IH. reflexivity. Qed.
Lemma ss_tot_zero m y : lsum (map (fun a => (a - m) ^ 2) y) = 0 <-> y = repeat m (length y).
Proof.
  rewrite ss_tot_repeat. rewrite sq_sum_zero by (rewrite repeat_length; reflexivity).
  split; intros H; symmetry; exact H.
Qed.

Lemma C53_range_lemma y pred v :
  length pred = length y -> r2 y pred = Some v -> v <= 1 /\ (v = 1 <-> pred = y).
Proof.
  intros L H. unfold r2 in H. rewrite ss_tot_repeat in H.
  destruct (Reqb _ 0) eqn:E; [discriminate H|]. apply Reqb_false in E.
  apply (f_equal (fun o => match o with Some x => x | None => v end)) in H. cbv beta iota in H. subst v.
  set (m := lsum y / INR (length y)) in *.
  set (tot := lsum (map2 _ y (repeat m (length y)))) in *.
  assert (T : 0 < tot).
  { pose proof (sq_sum_nonneg (fun a b => a - b) y (repeat m (length y))) as N. cbv beta in N. fold tot in N. lra. }
  pose proof (sq_sum_nonneg (fun a b => a - b) y pred) as N. cbv beta in N.
  pose proof (sq_sum_zero y pred (eq_sym L)) as Z.
  set (q := lsum (map2 (fun a b => (a - b) ^ 2) y pred)) in *.
  split.
  - assert (0 <= q / tot) by (apply Rle_mult_inv_pos; auto). lra.
  - rewrite <- Z. split; intros H.
    + assert (K : q / tot = 0) by lra. apply Rmult_integral in K. destruct K as [K|K]; auto.
      exfalso. apply (Rinv_neq_0_compat tot); [intros ?; lra|exact K].
    + rewrite H. unfold Rdiv. lra.
Qed.
Lemma C53_mean_lemma y :
  r2 y (repeat (lsum y / INR (length y)) (length y))
  = if Reqb (lsum (map (fun a => (a - lsum y / INR (length y)) ^ 2) y)) 0 then None else Some 0.
Proof.
  unfold r2. destruct (Reqb _ 0) eqn:E; [reflexivity|]. apply Reqb_false in E.
  rewrite <- ss_tot_repeat. f_equal. field. exact E.
Qed.
Lemma lsum_repeat c n : lsum (repeat c n) = INR n * c.
Proof. induction n as [|n IH]; [cbn; lra|]. rewrite S_INR. cbn [repeat lsum]. rewrite IH. lra. Qed.
Lemma C53_undefined_lemma y pred :
  r2 y pred = None <-> exists c, y = repeat c (length y).
Proof.
  unfold r2. destruct (Reqb _ 0) eqn:E.
  - apply Reqb_true in E. apply ss_tot_zero in E. split; [intros _; eauto|reflexivity].
  - apply Reqb_false in E. split; [discriminate|]. intros (c & H). exfalso. apply E.
    apply ss_tot_zero. destruct y as [|a y]; [reflexivity|].
    assert (Q : lsum (a :: y) / INR (length (a :: y)) = c).
    { rewrite H at 1. rewrite lsum_repeat. field. apply not_0_INR. discriminate. }
    rewrite Q. exact H.
Qed.
Lemma C53_score_lemma {M} (c : lm_cfg M) b s preds :
  snd (lm_predict c (b_p b) (Xs (b_rows b)) s) = Ok preds ->
  snd (lm_score c b s) = Ok (r2 (ys (b_rows b)) preds).
Proof.
  unfold lm_score, bnd. destruct (lm_predict _ _ _ _) as [s' r]. cbn [snd]. intros ->. reflexivity.
Qed.
Lemma C53_weights_lemma {M} (c : lm_cfg M) b w s :
  length w = length (b_rows b) ->
  lm_score c (mk_batch (b_p b) (map2 (fun o v => mkobs (ox o) (oy o) v) (b_rows b) w)) s = lm_score c b s.
Proof.
  intros L. unfold lm_score. cbn [b_p b_rows].
  assert (K : Xs (map2 (fun o v => mkobs (ox o) (oy o) v) (b_rows b) w) = Xs (b_rows b) /\
              ys (map2 (fun o v => mkobs (ox o) (oy o) v) (b_rows b) w) = ys (b_rows b)).
  { revert w L. induction (b_rows b) as [|o l IH]; intros [|v w] L; cbn in L; try discriminate L; auto.
    injection L as L. destruct (IH w L) as [I1 I2]. unfold Xs, ys in *. cbn [map2 map ox oy].
    rewrite I1, I2. auto. }
  destruct K as [-> ->]. reflexivity.
Qed.

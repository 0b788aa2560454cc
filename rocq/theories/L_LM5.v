(** The online linear model: the residual sum of squares behind the model selection. *)
From Coq Require Import Reals List Bool Arith Lra Lia.
From Verif Require Import Base Lin Data M_Gram S_Gram L_Gram M_OLS M_CD M_Path M_Ridge
  M_Scaler M_Utils S_Utils L_Utils M_State M_LM S_LM L_LM L_LM2 L_LM3 L_LM4.
Import ListNotations.
Open Scope R_scope.

Lemma predict_path_ok {M} (c : lm_cfg M) s p X sc path :
  a_nfin s = Some p -> (1 <= p)%nat -> X <> [] -> a_scaler s = Some (Some sc) -> sel_ok p sc ->
  a_path s = Some path ->
  snd (lm_predict_path c p X s)
  = Ok (map (fun x => map (dot (n_cols (c_icpt c) p) (design (c_icpt c) (scaler_transform sc x))) path) X).
Proof.
  intros F Hp HX S K P. unfold lm_predict_path, any_fitted_attribute. rewrite F. cbn iota.
  unfold bnd at 1, validate_old.
  replace (length X <? 1)%nat with false by (symmetry; apply Nat.ltb_ge; destruct X; [congruence|cbn; lia]).
  replace (p <? 1)%nat with false by (symmetry; apply Nat.ltb_ge; lia). cbn [orb].
  rewrite F, Nat.eqb_refl. erewrite bnd_read by exact S. cbv beta iota. unfold sel_ok in K. rewrite K.
  erewrite bnd_read by exact P. reflexivity.
Qed.

Lemma nth_map_lt {A B} (f : A -> B) l k d d' : (k < length l)%nat -> nth k (map f l) d = f (nth k l d').
Proof. revert k; induction l as [|a l IH]; intros [|k] H; cbn in *; try lia; auto. apply IH. lia. Qed.

Lemma nth_map2_lt (f : R -> R -> R) : forall l1 l2 j, (j < length l1)%nat -> (j < length l2)%nat ->
  nth j (map2 f l1 l2) 0 = f (nth j l1 0) (nth j l2 0).
Proof.
  induction l1 as [|a l1 IH]; intros [|b l2] [|j] H1 H2; cbn in *; try lia; auto. apply IH; lia.
Qed.

Lemma sq_errors_rss {M} (c : lm_cfg M) sc p path k : (k < length path)%nat -> forall l,
  let preds := map (fun x => map (dot (n_cols (c_icpt c) p) (design (c_icpt c) (scaler_transform sc x))) path) (Xs l) in
  sq_errors true l k preds = rss_fit (n_cols (c_icpt c) p) (design_rows c sc l) (nth k path (fun _ => 0)) /\
  sq_errors false l k preds = rss_update (n_cols (c_icpt c) p) (design_rows c sc l) (nth k path (fun _ => 0)).
Proof.
  intros Hk. cbv zeta. unfold sq_errors, rss_fit, rss_update, Xs.
  induction l as [|o l [I1 I2]]; [split; reflexivity|].
  cbn [map map2 lsum design_rows ox oy ow].
  rewrite I1, I2. rewrite (nth_map_lt _ path k 0 (fun _ => 0) Hk). cbn [ox oy ow]. rewrite Rmult_1_l. split; reflexivity.
Qed.

Lemma call_errors_ok {M} (c : lm_cfg M) b s sc path k w :
  a_nfin s = Some (b_p b) -> (1 <= b_p b)%nat -> b_rows b <> [] -> a_scaler s = Some (Some sc) ->
  sel_ok (b_p b) sc -> a_path s = Some path -> (k < length path)%nat ->
  call_errors c w k (b, s) =
  (if w then rss_fit else rss_update) (n_cols (c_icpt c) (b_p b)) (design_rows c sc (b_rows b)) (nth k path (fun _ => 0)).
Proof.
  intros F Hp HX S K P Hk. unfold call_errors.
  rewrite (predict_path_ok c s (b_p b) _ sc path); auto.
  2:{ unfold Xs. destruct (b_rows b); [congruence|discriminate]. }
  destruct (sq_errors_rss c sc (b_p b) path k Hk (b_rows b)) as [E1 E2]. destruct w; [exact E1|exact E2].
Qed.


Lemma contributions_snoc {M} (c : lm_cfg M) k tr x : tr <> [] ->
  contributions c k (tr ++ [x]) = contributions c k tr ++ [call_errors c false k x].
Proof. destruct tr; [congruence|]. cbn. rewrite map_app. reflexivity. Qed.

Lemma C49_formula_lemma {M} (ops : method_ops M) c tr s :
  op_path_based ops = true -> run ops c tr s ->
  exists path rss, a_path s = Some path /\ a_rss s = Some rss /\ length rss = length path /\
    forall k, (k < length rss)%nat ->
      nth k rss 0 = dsum (1 - c_forget c) (fun v => v) (contributions c k tr).
Proof.
  intros Hp R. induction R as [b s H | tr s b s' R IH H].
  - assert (R1 : run ops c [(b, s)] s) by (constructor; exact H).
    destruct (run_shape _ _ _ _ R1) as (b0 & s0 & tr0 & p & sc' & Et & Ep & P1 & F & S & K & Fit & A).
    injection Et as <- <- <-. subst p.
    unfold partial_fit in H. change (is_fitted new_lm) with false in H. cbn iota in H.
    apply lm_fit_ok in H. cbv zeta in H.
    destruct H as (m & sc & xg & _ & _ & L1 & L2 & _ & _ & Hs & _ & [H|[Z _]]); [|congruence].
    destruct H as (_ & m' & path & ic & k & _ & _ & _ & Es).
    assert (E1 : a_path s = Some path) by (rewrite Es; reflexivity).
    assert (E2 : sc' = sc) by (rewrite Es in S; cbn in S; congruence). subst sc'.
    eexists path, _. split; [exact E1|]. split; [rewrite Es; reflexivity|].
    rewrite map_length. split; [reflexivity|]. intros j Hj.
    rewrite (nth_map_lt _ path j 0 (fun _ => 0)) by exact Hj.
    cbn [contributions map dsum length pow].
    rewrite (call_errors_ok c b s sc path j true); auto.
    + lra.
    + destruct (b_rows b); [cbn in L1; lia|discriminate].
  - destruct IH as (path0 & rss0 & P0 & Q0 & L0 & I0).
    pose proof (run_step ops c tr s b s' R H) as R1.
    pose proof (run_shape _ _ _ _ R) as (b0 & s0 & tr0 & p & sc0 & Et & Ep & P1 & F & S & K & Fit & A).
    pose proof (run_shape _ _ _ _ R1) as (b0' & s0' & tr0' & p' & sc' & Et' & Ep' & P1' & F' & S' & K' & _ & A').
    assert (Epp : p = p') by (rewrite Et in Et'; cbn in Et'; injection Et' as <- _ _; congruence).
    unfold partial_fit in H. rewrite Fit in H. apply lm_update_ok in H. cbv zeta in H.
    destruct H as (n0 & sc1 & sc & m & x0 & y0 & xg & isreg & _ & S1 & _ & _ & _ & _ & L1 & L2 & Q & K0 & Hs & _ & [H|[Z _]]);
    [|congruence].
    assert (Eb : b_p b = p) by (symmetry; apply Q; exact F).
    destruct H as (_ & m' & path1 & rss1 & path & ic & k & P2 & Q2 & _ & El & _ & _ & Es).
    rewrite Q0 in Q2. injection Q2 as <-.
    assert (E1 : a_path s' = Some path) by (rewrite Es; reflexivity).
    assert (E2 : sc' = sc) by (rewrite Es in S'; cbn in S'; congruence). subst sc'.
    eexists path, _. split; [exact E1|]. split; [rewrite Es; reflexivity|].
    rewrite map2_length by (rewrite map_length; exact El). split; [exact El|].
    intros j Hj. rewrite contributions_snoc by (eapply run_nonempty; eauto).
    rewrite dsum_app. cbn [length pow dsum]. rewrite <- (I0 j) by exact Hj.
    rewrite (call_errors_ok c b s' sc path j false).
    + rewrite nth_map2_lt by (rewrite ?map_length; lia).
      rewrite (nth_map_lt _ path j 0 (fun _ => 0)) by lia. lra.
    + rewrite Eb, Epp. exact F'.
    + lia.
    + destruct (b_rows b); [cbn in L1; lia|discriminate].
    + exact S'.
    + rewrite Eb, Epp. exact K'.
    + exact E1.
    + lia.
Qed.


Lemma call_errors_unit {M} (c : lm_cfg M) k x : unit_weights (b_rows (fst x)) ->
  call_errors c true k x = call_errors c false k x.
Proof.
  destruct x as [b s]. cbn [fst]. intros U. unfold call_errors.
  destruct (snd _) as [preds|]; [|reflexivity]. unfold sq_errors.
  revert preds. induction U as [|o l H U IH]; intros [|q preds]; cbn [map2 lsum]; auto.
  rewrite IH, H. reflexivity.
Qed.

Lemma C49_plain_lemma {M} (ops : method_ops M) c tr s :
  op_path_based ops = true -> run ops c tr s -> c_forget c = 0 ->
  Forall (fun x => unit_weights (b_rows (fst x))) tr ->
  exists rss, a_rss s = Some rss /\
    forall k, (k < length rss)%nat -> nth k rss 0 = lsum (map (call_errors c false k) tr).
Proof.
  intros Hp R H0 U. destruct (C49_formula_lemma ops c tr s Hp R) as (path & rss & _ & Q & _ & I).
  exists rss. split; [exact Q|]. intros k Hk. rewrite (I k Hk), H0.
  assert (D : forall l, dsum (1 - 0) (fun v => v) l = lsum l).
  { induction l as [|v l IH]; cbn [dsum lsum]; auto. rewrite IH, Rminus_0_r, pow1. lra. }
  rewrite D. destruct tr as [|x tr]; [reflexivity|]. cbn [contributions map lsum].
  inversion U; subst. rewrite call_errors_unit by assumption. reflexivity.
Qed.


Lemma select2 n q0 q1 r0 r1 : 0 < n -> 0 < r0 -> 0 < r1 ->
  exists ic, from_rss_array max_ll n [q0; q1] [r0; r1] = Ok ic /\
    (r0 <= r1 -> argmin ic = Ok 0%nat) /\ (r1 < r0 -> argmin ic = Ok 1%nat).
Proof.
  intros Hn H0 H1. unfold from_rss_array, from_ll_array. cbn [map map2 sequence from_ll bind].
  eexists. split; [reflexivity|]. unfold argmin. cbn [argmin_loop].
  assert (I : 0 < / n) by (apply Rinv_0_lt_compat; exact Hn).
  assert (P0 : 0 < r0 / n) by (apply Rmult_lt_0_compat; auto).
  assert (P1 : 0 < r1 / n) by (apply Rmult_lt_0_compat; auto).
  split; intros H.
  - assert (L : ln (r0 / n) <= ln (r1 / n)).
    { destruct (Req_dec r0 r1) as [-> |]; [lra|]. left. apply ln_increasing; auto. apply Rmult_lt_compat_r; lra. }
    destruct (Rltb _ _) eqn:E; [|reflexivity]. apply Rltb_true in E. exfalso.
    assert (n * ln (r0 / n) <= n * ln (r1 / n)) by (apply Rmult_le_compat_l; lra). lra.
  - assert (L : ln (r1 / n) < ln (r0 / n)).
    { apply ln_increasing; auto. apply Rmult_lt_compat_r; auto. }
    destruct (Rltb _ _) eqn:E; [reflexivity|]. apply Rltb_false in E. exfalso.
    assert (n * ln (r1 / n) < n * ln (r0 / n)) by (apply Rmult_lt_compat_l; lra). lra.
Qed.

Definition st49 (n r0 r1 : R) (k : nat) (s : lm unit) : Prop :=
  exists sc xg yg, sc_do sc = false /\
    s = mk_lm (Some tt) (Some (Some sc)) (Some 1%nat) (Some n) (Some 1%nat)
          (Some (effective_training_length (1 / 2) n)) (Some (is_regularized w49_c)) (Some xg) (Some yg)
          (Some w49_path) (Some [r0; r1]) (Some (nth k w49_path (fun _ => 0))).

Lemma eff_half_pos n : 0 < n -> 0 < effective_training_length (1 / 2) n.
Proof.
  intros Hn. pose proof (C27_increasing_lemma (1 / 2) 0 n ltac:(lra) Hn) as H.
  replace (effective_training_length (1 / 2) 0) with 0 in H; [exact H|].
  unfold effective_training_length. destruct (Reqb (1 / 2) 0) eqn:E; [reflexivity|].
  rewrite Rpower_O by lra. lra.
Qed.

Lemma w49_plain sc l : sc_do sc = false -> design_rows w49_c sc l = map (regressors false) l.
Proof. apply design_rows_plain. Qed.

Lemma st49_fit b n r0 r1 k :
  b_p b = 1%nat -> (2 <= length (b_rows b))%nat -> n = total_weight (b_rows b) -> 0 < n -> n <> 1 ->
  r0 = rss_fit 1 (map (regressors false) (b_rows b)) (fun _ => 0) ->
  r1 = rss_fit 1 (map (regressors false) (b_rows b)) (fun _ => 1) ->
  0 < r0 -> 0 < r1 -> (k = 0%nat /\ r0 <= r1 \/ k = 1%nat /\ r1 < r0) ->
  exists s, lm_fit (fixed_ops w49_path) w49_c b new_lm = (s, Ok tt) /\ st49 n r0 r1 k s.
Proof.
  intros Hp HL Hn P N1 E0 E1 P0 P1 HK.
  set (sc := mk_scaler (1 / 2) false [] (fun _ => 0) (fun _ => 0) (fun _ => 0) 0 (lsum (ws (b_rows b)))).
  assert (D : sc_do sc = false) by reflexivity.
  destruct (lm_fit_intro (fixed_ops w49_path) w49_c b new_lm tt sc (fun _ _ => 0)) as [I _].
  - reflexivity.
  - reflexivity.
  - lia.
  - lia.
  - apply andb_false_r.
  - unfold total_weight in Hn. rewrite <- Hn. exact N1.
  - unfold scaler_fit. cbn [w49_c c_scale c_forget selection].
    destruct (Nat.ltb_spec (length (b_rows b)) 2); [lia|]. reflexivity.
  - reflexivity.
  - rewrite w49_plain in I by exact D. rewrite Hp in I.
    change (n_cols (c_icpt w49_c) 1) with 1%nat in I. change (c_forget w49_c) with (1 / 2) in I.
    fold (total_weight (b_rows b)) in I. rewrite <- Hn in I.
    destruct (select2 (effective_training_length (1 / 2) n) (n_nonzero 1 (fun _ => 0)) (n_nonzero 1 (fun _ => 1)) r0 r1
       (eff_half_pos n P) P0 P1) as (ic & Hi & A0 & A1).
    specialize (I tt w49_path ic k eq_refl eq_refl).
    cbn [map w49_path] in I. rewrite <- E0, <- E1 in I. specialize (I Hi).
    eexists. split; [apply I; destruct HK as [[-> H]|[-> H]]; auto|].
    exists sc. do 2 eexists. split; [exact D|reflexivity].
Qed.

Lemma st49_update b n r0 r1 n' r0' r1' k k' s :
  st49 n r0 r1 k s -> b_p b = 1%nat -> (1 <= length (b_rows b))%nat ->
  n' = n + total_weight (b_rows b) -> 0 < n' ->
  r0' = (1 - 1 / 2) * r0 + rss_update 1 (map (regressors false) (b_rows b)) (fun _ => 0) ->
  r1' = (1 - 1 / 2) * r1 + rss_update 1 (map (regressors false) (b_rows b)) (fun _ => 1) ->
  0 < r0' -> 0 < r1' -> (k' = 0%nat /\ r0' <= r1' \/ k' = 1%nat /\ r1' < r0') ->
  exists s', partial_fit (fixed_ops w49_path) w49_c b s = (s', Ok tt) /\ st49 n' r0' r1' k' s'.
Proof.
  intros (sc & xg & yg & D & Es) Hp HL Hn P E0 E1 P0 P1 HK.
  set (sc' := mk_scaler (sc_forget sc) (sc_do sc) (sc_sel sc) (sc_mean sc) (sc_var sc) (sc_M sc)
                 (sc_cum sc) (sc_n sc + lsum (ws (b_rows b)))).
  assert (Hs : scaler_update sc (b_rows b) = Ok sc').
  { unfold scaler_update. destruct (Nat.ltb_spec (length (b_rows b)) 1); [lia|]. rewrite D.
    unfold sc'. rewrite D. reflexivity. }
  assert (D' : sc_do sc' = false) by exact D.
  unfold partial_fit. replace (is_fitted s) with true by (rewrite Es; reflexivity).
  destruct (lm_update_intro (fixed_ops w49_path) w49_c b s n sc sc' tt xg yg xg (is_regularized w49_c)) as [I _];
    try (rewrite Es; reflexivity); auto.
  - lia.
  - rewrite Es, Hp. reflexivity.
  - rewrite D. reflexivity.
  - rewrite w49_plain in I by exact D'. rewrite Hp in I.
    change (n_cols (c_icpt w49_c) 1) with 1%nat in I. change (c_forget w49_c) with (1 / 2) in I.
    fold (total_weight (b_rows b)) in I. rewrite <- Hn in I.
    destruct (select2 (effective_training_length (1 / 2) n') (n_nonzero 1 (fun _ => 0)) (n_nonzero 1 (fun _ => 1)) r0' r1'
       (eff_half_pos n' P) P0 P1) as (ic & Hi & A0 & A1).
    specialize (I tt w49_path [r0; r1] w49_path ic k' eq_refl).
    cbv zeta in I. cbn [map map2 w49_path] in I. rewrite <- E0, <- E1 in I.
    eexists. split.
    + apply I; try (rewrite Es; reflexivity); auto. destruct HK as [[-> H]|[-> H]]; auto.
    + exists sc'. do 2 eexists. split; [exact D'|]. rewrite Es. reflexivity.
Qed.

Lemma C49_witness_lemma :
  stream [w49_b0; w49_b1; w49_b2] = stream [w49_b0; w49_b12] /\
  exists s s', lm_history (fixed_ops w49_path) w49_c [w49_b0; w49_b1; w49_b2] new_lm = Ok s /\
    lm_history (fixed_ops w49_path) w49_c [w49_b0; w49_b12] new_lm = Ok s' /\
    a_rss s = Some [19 / 8; 23 / 8] /\ a_rss s' = Some [9 / 2; 7 / 2] /\
    a_coef s = Some (fun _ => 0) /\ a_coef s' = Some (fun _ => 1).
Proof.
  split; [reflexivity|].
  destruct (st49_fit w49_b0 2 (1 / 2) (1 / 2) 0) as (s0 & F0 & S0);
    try (cbn; lra); try (cbn; lia); try (left; split; lra); auto.
  { left. split; [reflexivity|lra]. }
  destruct (st49_update w49_b1 2 (1 / 2) (1 / 2) 3 (17 / 4) (5 / 4) 0 1 s0 S0) as (s1 & F1 & S1);
    try (cbn; lra); try (cbn; lia).
  { right. split; [reflexivity|lra]. }
  destruct (st49_update w49_b2 3 (17 / 4) (5 / 4) 4 (19 / 8) (23 / 8) 1 0 s1 S1) as (s2 & F2 & S2);
    try (cbn; lra); try (cbn; lia).
  { left. split; [reflexivity|lra]. }
  destruct (st49_update w49_b12 2 (1 / 2) (1 / 2) 4 (9 / 2) (7 / 2) 0 1 s0 S0) as (s3 & F3 & S3);
    try (cbn; lra); try (cbn; lia).
  { right. split; [reflexivity|lra]. }
  exists s2, s3. cbn [lm_history].
  assert (F0' : partial_fit (fixed_ops w49_path) w49_c w49_b0 new_lm = (s0, Ok tt)) by exact F0.
  rewrite F0', F1, F2, F3.
  destruct S2 as (? & ? & ? & _ & ->). destruct S3 as (? & ? & ? & _ & ->).
  repeat split; reflexivity.
Qed.

(** The weight of an observation counts squared in [fit] and not at all in [update]. *)
Lemma C49_weights_lemma {M} (c : lm_cfg M) b s w k : 0 < w ->
  Forall (fun o => ow o = w) (b_rows b) ->
  call_errors c true k (b, s) = w ^ 2 * call_errors c false k (b, s).
Proof.
  intros Hw U. unfold call_errors. destruct (snd _) as [preds|]; [|lra].
  unfold sq_errors. revert preds. induction U as [|o l H U IH]; intros [|q preds]; cbn [map2 lsum]; try lra.
  rewrite IH, H. ring.
Qed.

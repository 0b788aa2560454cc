(** C126: what the choice of the information criterion can and cannot change. *)
From Coq Require Import Reals List Bool Arith Lra Lia.
From Verif Require Import Base Lin Data M_Scaler M_Utils S_Utils M_State M_LM S_LM S_Criterion L_LM5 L_Criterion.
Import ListNotations.
Open Scope R_scope.

(** C126. Another criterion gives the same object up to [coef_]. *)
Theorem C126_only_chooses : forall M (ops : method_ops M) c k, op_path_based ops = true -> k <> aicc -> forall b bs s,
  lm_history ops c (b :: bs) new_lm = Ok s ->
  exists s', lm_history ops (with_ic k c) (b :: bs) new_lm = Ok s' /\ same_but_coef s s' /\ a_nfin s = Some (b_p b).
Proof. exact @C126_only_lemma. Qed.
Print Assumptions C126_only_chooses.

(** A criterion that charges more per parameter never chooses more coefficients, and the row
    it chooses never has a smaller residual sum. *)
Theorem C126_heavier : forall M (ops : method_ops M) c k b bs s s' n rss,
  op_path_based ops = true -> c_ic c <> aicc -> k <> aicc ->
  lm_history ops c (b :: bs) new_lm = Ok s -> lm_history ops (with_ic k c) (b :: bs) new_lm = Ok s' ->
  a_ntrain s = Some n -> 0 < n -> a_rss s = Some rss -> Forall (fun r => 0 < r) rss ->
  0 <= charge (c_ic c) n < charge k n ->
  exists path i i', a_path s = Some path /\ (i < length path)%nat /\ (i' < length path)%nat /\
    a_coef s = Some (nth i path (fun _ => 0)) /\ a_coef s' = Some (nth i' path (fun _ => 0)) /\
    let p := n_cols (c_icpt c) (b_p b) in
    (length (active p (nth i' path (fun _ => 0%R))) <= length (active p (nth i path (fun _ => 0%R))))%nat /\
    nth i rss 0 <= nth i' rss 0.
Proof. exact @C126_heavier_lemma. Qed.
Print Assumptions C126_heavier.

(** Which criterion charges more. *)
Theorem C126_order :
  (forall n, charge max_ll n < charge aic n) /\
  (forall n, 8 <= n -> charge aic n < charge bic n) /\
  (forall n, 3 <= n -> charge max_ll n < charge hqc n) /\
  (forall n, 3 <= n -> charge hqc n < charge bic n) /\
  (forall n, exp (exp 1) < n -> charge aic n < charge hqc n) /\
  (forall n, 3 <= n < exp (exp 1) -> charge hqc n < charge aic n).
Proof. exact C126_order_lemma. Qed.
Print Assumptions C126_order.

(** Residual sums 9/2 and 7/2 of the coefficients 0 and 1: "max" takes the larger model,
    "aic" the empty one, after the same calls. *)
Example C126_example : exists s s',
  lm_history (fixed_ops w49_path) w49_c [w49_b0; w49_b12] new_lm = Ok s /\
  lm_history (fixed_ops w49_path) (with_ic aic w49_c) [w49_b0; w49_b12] new_lm = Ok s' /\
  a_rss s' = Some [9 / 2; 7 / 2] /\ a_coef s = Some (fun _ => 1) /\ a_coef s' = Some (fun _ => 0).
Proof.
  destruct (st49_fit w49_b0 2 (1 / 2) (1 / 2) 0) as (s0 & F0 & S0);
    try (cbn; lra); try (cbn; lia); try (left; split; lra); auto.
  { left. split; [reflexivity|lra]. }
  destruct (st49_update w49_b12 2 (1 / 2) (1 / 2) 4 (9 / 2) (7 / 2) 0 1 s0 S0) as (s3 & F3 & S3);
    try (cbn; lra); try (cbn; lia).
  { right. split; [reflexivity|lra]. }
  assert (H : lm_history (fixed_ops w49_path) w49_c [w49_b0; w49_b12] new_lm = Ok s3).
  { cbn [lm_history]. assert (F0' : partial_fit (fixed_ops w49_path) w49_c w49_b0 new_lm = (s0, Ok tt)) by exact F0.
    now rewrite F0', F3. }
  destruct (C126_only_chooses unit (fixed_ops w49_path) w49_c aic eq_refl ltac:(discriminate) w49_b0 [w49_b12] s3 H) as (s' & H' & HS & _).
  exists s3, s'. split; [exact H|]. split; [exact H'|].
  destruct (history_selected (fixed_ops w49_path) (with_ic aic w49_c) w49_b0 [w49_b12] s' eq_refl H') as (path & rss & n & k & P1 & P2 & P3 & _ & P5 & P6).
  destruct S3 as (sc & xg & yg & _ & E3). rewrite E3 in HS. rewrite HS in P1, P2, P3. cbn in P1, P2, P3.
  injection P1 as <-. injection P2 as <-. injection P3 as <-.
  split; [rewrite HS; reflexivity|]. split; [rewrite E3; reflexivity|].
  pose proof (eff_half_pos 4 ltac:(lra)) as Hn. set (n := effective_training_length (1 / 2) 4) in *.
  assert (N2 : n < 2).
  { unfold n, effective_training_length. destruct (Reqb (1 / 2) 0) eqn:E; [apply Reqb_true in E; lra|].
    assert (0 < Rpower (1 - 1 / 2) 4) by apply exp_pos. lra. }
  destruct (P6 Hn ltac:(repeat constructor; lra)) as (L & Hmin & _). cbn in L.
  rewrite P5. destruct k as [|[|k]]; [reflexivity| |lia]. exfalso. specialize (Hmin 0%nat ltac:(cbn; lia)).
  cbn in Hmin. unfold active in Hmin. cbn in Hmin.
  assert (B0 : Rltb (1 / 100000000) (Rabs 0) = false) by (apply Rltb_false; rewrite Rabs_R0; lra).
  assert (B1 : Rltb (1 / 100000000) (Rabs 1) = true) by (apply Rltb_true; rewrite Rabs_R1; lra).
  rewrite B0, B1 in Hmin. cbn in Hmin.
  assert (E : ln (9 / 2 / n) = ln (9 / 7) + ln (7 / 2 / n)).
  { rewrite <- ln_mult; [f_equal; field; lra|lra|apply Rdiv_lt_0_compat; lra]. }
  assert (B : ln (9 / 7) < 2 / 7).
  { rewrite <- (ln_exp (2 / 7)). apply ln_increasing; [lra|]. pose proof (exp_ineq1 (2 / 7)). lra. }
  rewrite E in Hmin. nra.
Qed.

(** C132: online ridge regression with a fixed penalty. *)
From Coq Require Import Reals List Bool Arith Lra Lia Permutation.
From Verif Require Import Base Lin Data S_Gram M_CD M_Path M_Ridge M_Scaler M_Utils S_Utils M_State M_LM S_LM S_Penal S_RidgeLM L_RidgeLM.
Import ListNotations.
Open Scope R_scope.

(** Coordinate descent on a Gramian in which one column is uncorrelated with all others: its
    coefficient is exact after one sweep and stays so, for any start value, tolerance and limit. *)
Theorem C132_coordinate : forall J x y reg isreg alpha lo up random perm tol maxit b b' n k, (k < J)%nat ->
  (forall j, (j < J)%nat -> j <> k -> x k j = 0) ->
  online_coordinate_descent (mk_cd J x y reg isreg alpha lo up) random perm tol maxit b = Ok (b', n) ->
  let v := if isreg k then soft_threshold (y k) (alpha * reg) / (x k k + reg * (1 - alpha)) else y k / x k k in
  b' k = min_up (max_lo v (lo k)) (up k).
Proof. exact C132_coordinate_lemma. Qed.
Print Assumptions C132_coordinate.

(** Ridge regression fits and updates on any data: collinear columns, more columns than rows,
    columns of zeros. *)
Theorem C132_never_fails : forall inv perms c m b0 bs,
  ridge_config c m -> first_call c m b0 -> orders perms (n_cols (c_icpt c) (b_p b0)) -> good_calls (b_p b0) (b0 :: bs) ->
  exists s, lm_history (ridge_ops inv perms) c (b0 :: bs) new_lm = Ok s.
Proof. exact C132_total_lemma. Qed.
Print Assumptions C132_never_fails.

(** The coefficient of a category is exact, whatever the tolerance and the limit of iterations. *)
Theorem C132_category : forall inv perms c m b0 bs k,
  ridge_config c m -> first_call c m b0 -> c_icpt c = false -> orders perms (b_p b0) -> good_calls (b_p b0) (b0 :: bs) ->
  (k < b_p b0)%nat -> disjoint_column (b_p b0) k (stream (b0 :: bs)) ->
  exists s beta, lm_history (ridge_ops inv perms) c (b0 :: bs) new_lm = Ok s /\ a_coef s = Some beta /\
    beta k = column_response (c_forget c) k (stream (b0 :: bs)) / (column_weight (c_forget c) k (stream (b0 :: bs)) + penalty_of c m b0).
Proof. exact C132_category_lemma. Qed.
Print Assumptions C132_category.

(** Rows outside the category shrink its coefficient. *)
Theorem C132_absence : forall inv perms c m b0 bs qs k,
  ridge_config c m -> first_call c m b0 -> c_icpt c = false -> orders perms (b_p b0) -> good_calls (b_p b0) (b0 :: bs ++ qs) ->
  (k < b_p b0)%nat -> disjoint_column (b_p b0) k (stream (b0 :: bs)) -> Forall (fun o => ox o k = 0) (stream qs) ->
  exists s s' beta beta', lm_history (ridge_ops inv perms) c (b0 :: bs) new_lm = Ok s /\ lm_history (ridge_ops inv perms) c qs s = Ok s' /\
    a_coef s = Some beta /\ a_coef s' = Some beta' /\
    let g := (1 - c_forget c) ^ length (stream qs) in
    let D := column_weight (c_forget c) k (stream (b0 :: bs)) in
    let lam := penalty_of c m b0 in
    beta' k = beta k * (g * (D + lam) / (g * D + lam)) /\ Rabs (beta' k) <= Rabs (beta k) /\
    Rabs (beta' k) <= g * ((D + lam) / lam) * Rabs (beta k).
Proof. exact C132_absence_lemma. Qed.
Print Assumptions C132_absence.

(** In the long run to zero. *)
Theorem C132_fades : forall inv perms c m b0 bs k eps,
  ridge_config c m -> first_call c m b0 -> c_icpt c = false -> orders perms (b_p b0) -> good_calls (b_p b0) (b0 :: bs) ->
  (k < b_p b0)%nat -> disjoint_column (b_p b0) k (stream (b0 :: bs)) -> 0 < c_forget c -> 0 < eps ->
  exists s N, lm_history (ridge_ops inv perms) c (b0 :: bs) new_lm = Ok s /\
    forall qs, good_calls (b_p b0) qs -> Forall (fun o => ox o k = 0) (stream qs) -> (N <= length (stream qs))%nat ->
    exists s' beta', lm_history (ridge_ops inv perms) c qs s = Ok s' /\ a_coef s' = Some beta' /\ Rabs (beta' k) <= eps.
Proof. exact C132_fades_lemma. Qed.
Print Assumptions C132_fades.

(** Four equal rows, no forgetting, default penalty: all at once, or in two calls of two rows. *)
Lemma w132_run inv perms n t : orders perms 1 -> (2 <= n)%nat ->
  exists s beta, lm_history (ridge_ops inv perms) w132_c [mk_batch 1 (repeat w132_row n); mk_batch 1 (repeat w132_row (S t))] new_lm = Ok s /\
    a_coef s = Some beta /\ beta 0%nat = INR (n + S t) / (INR (n + S t) + INR n).
Proof.
  intros HO Hn.
  assert (Q : forall g : obs -> R, g w132_row = 1 -> forall j, dsum (1 - 0) g (repeat w132_row j) = INR j).
  { intros g Hg. induction j as [|j IH]; [reflexivity|]. cbn [repeat dsum]. rewrite IH, Hg, Rminus_0_r, pow1, S_INR. ring. }
  assert (W : forall j, weights_nonneg (repeat w132_row j)).
  { induction j; [apply Forall_nil|]. apply Forall_cons; [cbn; lra|assumption]. }
  assert (HN : 2 <= INR n) by (change 2 with (INR 2); now apply le_INR).
  assert (PE : penalty_of w132_c (mk_ridge None None false None None (1 / 10000) 1000) (mk_batch 1 (repeat w132_row n)) = INR n).
  { unfold penalty_of, ridge_penalty. cbn [ri_lambda b_p b_rows w132_c c_icpt c_forget].
    replace (map (regressors false) (repeat w132_row n)) with (repeat w132_row n).
    - change (n_cols false 1) with 1%nat. cbn [bsum]. unfold gram_spec. rewrite Q by (cbn; ring). change (INR 1) with 1. field.
    - clear. induction n as [|j IH]; [reflexivity|]. cbn [repeat map]. rewrite <- IH. reflexivity. }
  assert (TW : forall j, total_weight (repeat w132_row j) = INR j).
  { unfold total_weight. induction j as [|j IH]; [reflexivity|]. rewrite S_INR, <- IH. change (1 + lsum (ws (repeat w132_row j)) = lsum (ws (repeat w132_row j)) + 1). ring. }
  destruct (C132_category inv perms w132_c (mk_ridge None None false None None (1 / 10000) 1000)
    (mk_batch 1 (repeat w132_row n)) [mk_batch 1 (repeat w132_row (S t))] 0) as (s & beta & E & B & V).
  - split; [eexists; reflexivity|]. repeat split; cbn; lra.
  - split; [cbn; now rewrite repeat_length|]. split; [cbn; lia|]. cbn [b_rows]. rewrite TW. split; [lra|]. split; [lra|]. rewrite PE. lra.
  - reflexivity.
  - exact HO.
  - apply Forall_cons; [|apply Forall_cons; [|apply Forall_nil]]; (split; [apply W|split; [|reflexivity]]).
    + cbn. destruct n; [lia|discriminate].
    + discriminate.
  - cbn; lia.
  - apply Forall_forall. intros o _ j Hj Nj. cbn in Hj. lia.
  - exists s, beta. split; [exact E|]. split; [exact B|]. rewrite V, PE. unfold stream. cbn [map concat b_rows c_forget w132_c].
    rewrite app_nil_r, <- repeat_app. unfold column_response, column_weight. rewrite !Q by (cbn; ring). reflexivity.
Qed.

(** With the default penalty the coefficients depend on where the first call ends. *)
Theorem C132_first_call_sets_penalty : forall inv perms, orders perms 1 ->
  exists s s' beta beta',
    lm_history (ridge_ops inv perms) w132_c [mk_batch 1 (repeat w132_row 2); mk_batch 1 (repeat w132_row 4)] new_lm = Ok s /\
    lm_history (ridge_ops inv perms) w132_c [mk_batch 1 (repeat w132_row 5); mk_batch 1 (repeat w132_row 1)] new_lm = Ok s' /\
    a_coef s = Some beta /\ a_coef s' = Some beta' /\ beta 0%nat = 3 / 4 /\ beta' 0%nat = 6 / 11.
Proof.
  intros inv perms HO. destruct (w132_run inv perms 2 3 HO ltac:(lia)) as (s & b & E & B & V).
  destruct (w132_run inv perms 5 0 HO ltac:(lia)) as (s' & b' & E' & B' & V').
  exists s, s', b, b'. split; [exact E|]. split; [exact E'|]. split; [exact B|]. split; [exact B'|].
  rewrite V, V'. cbn. split; lra.
Qed.
Print Assumptions C132_first_call_sets_penalty.

(** Penalty 1, forget 1/2: responses 2 and 5 of the first category, then three rows of the other. *)
Definition ex132_b0 : batch := mk_batch 2 [cat_row 0 2; cat_row 1 4; cat_row 0 5].
Definition ex132_quiet : batch := mk_batch 2 [cat_row 1 100; cat_row 1 100; cat_row 1 100].
Example C132_example : forall inv perms, orders perms 2 ->
  exists s s' beta beta', lm_history (ridge_ops inv perms) w132_d [ex132_b0] new_lm = Ok s /\
    lm_history (ridge_ops inv perms) w132_d [ex132_quiet] s = Ok s' /\ a_coef s = Some beta /\ a_coef s' = Some beta' /\
    beta 0%nat = 22 / 9 /\ beta' 0%nat = 22 / 37.
Proof.
  intros inv perms HO.
  assert (HC : ridge_config w132_d (mk_ridge (Some 1) None false None None (1 / 10000) 1000)).
  { split; [eexists; reflexivity|]. repeat split; cbn; lra. }
  assert (HF : first_call w132_d (mk_ridge (Some 1) None false None None (1 / 10000) 1000) ex132_b0).
  { unfold first_call, total_weight, penalty_of, ridge_penalty. cbn. repeat split; try lia; lra. }
  assert (G : good_calls 2 [ex132_b0; ex132_quiet]).
  { apply Forall_cons; [|apply Forall_cons; [|apply Forall_nil]]; (split; [|split; [discriminate|reflexivity]]);
      repeat (apply Forall_cons; [cbn; lra|]); apply Forall_nil. }
  assert (DJ : disjoint_column 2 0 (stream [ex132_b0])).
  { cbn. repeat (apply Forall_cons; [intros j Hj Nj; cbn [cat_row ox]; destruct j as [|[|j]]; [congruence|cbn; ring|lia]|]). apply Forall_nil. }
  destruct (C132_absence inv perms w132_d _ ex132_b0 [] [ex132_quiet] 0 HC HF eq_refl HO G ltac:(cbn; lia) DJ)
    as (s & s' & b & b' & E & E' & B & B' & V & _).
  { cbn. repeat (apply Forall_cons; [reflexivity|]). apply Forall_nil. }
  destruct (C132_category inv perms w132_d _ ex132_b0 [] 0 HC HF eq_refl HO) as (s1 & b1 & E1 & B1 & V1); auto.
  { inversion G; subst. apply Forall_cons; [assumption|apply Forall_nil]. }
  { cbn; lia. }
  rewrite E in E1. injection E1 as <-. rewrite B in B1. injection B1 as <-.
  exists s, s', b, b'. split; [exact E|]. split; [exact E'|]. split; [exact B|]. split; [exact B'|].
  rewrite V, V1. unfold column_response, column_weight, penalty_of, ridge_penalty. cbn. split; field.
Qed.

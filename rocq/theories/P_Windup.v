(** C131: with forgetting, what the stream says about a category it stops visiting fades. *)
From Coq Require Import Reals List Bool Arith Lra Lia.
From Verif Require Import Base Lin Data M_Gram S_Gram L_Gram M_OLS L_OLS
  M_Scaler M_Utils S_Utils M_State M_LM S_LM L_LM L_LM3 L_Learn L_LearnEx L_RecodeEx S_Windup L_Windup.
Import ListNotations.
Open Scope R_scope.

(** The error left after a one-row update, against the evidence for any active direction. *)
Theorem C131_one_row : forall inv c b0 bs b s x y w u,
  matinv_spec inv -> 0 <= c_forget c < 1 -> ols_config c -> good_calls (b_p b0) (b0 :: bs ++ [b]) ->
  lm_history (ols_ops inv) c (b0 :: bs) new_lm = Ok s -> b_rows b = [mkobs x y w] ->
  exists s' v v', partial_fit (ols_ops inv) c b s = (s', Ok tt) /\
    snd (lm_predict c (b_p b0) [x] s) = Ok [v] /\ snd (lm_predict c (b_p b0) [x] s') = Ok [v'] /\
    w * (dot (n_cols (c_icpt c) (b_p b0)) (ox (regressors (c_icpt c) (mkobs x y w))) u) ^ 2 * Rabs (y - v')
    <= (1 - c_forget c) * evidence (c_forget c) (c_icpt c) (n_cols (c_icpt c) (b_p b0)) u (stream (b0 :: bs)) * Rabs (y - v).
Proof. exact C131_one_row_lemma. Qed.
Print Assumptions C131_one_row.

(** Rows in which the direction is inactive discount the evidence. *)
Theorem C131_windup : forall inv c b0 bs qs b s x y w u,
  matinv_spec inv -> 0 <= c_forget c < 1 -> ols_config c -> good_calls (b_p b0) (b0 :: bs ++ qs ++ [b]) ->
  lm_history (ols_ops inv) c (b0 :: bs) new_lm = Ok s -> b_rows b = [mkobs x y w] ->
  unseen (c_icpt c) (n_cols (c_icpt c) (b_p b0)) u (stream qs) ->
  exists s1 s2 v v', lm_history (ols_ops inv) c qs s = Ok s1 /\ partial_fit (ols_ops inv) c b s1 = (s2, Ok tt) /\
    snd (lm_predict c (b_p b0) [x] s1) = Ok [v] /\ snd (lm_predict c (b_p b0) [x] s2) = Ok [v'] /\
    w * (dot (n_cols (c_icpt c) (b_p b0)) (ox (regressors (c_icpt c) (mkobs x y w))) u) ^ 2 * Rabs (y - v')
    <= (1 - c_forget c) ^ S (length (stream qs))
       * evidence (c_forget c) (c_icpt c) (n_cols (c_icpt c) (b_p b0)) u (stream (b0 :: bs)) * Rabs (y - v).
Proof. exact C131_windup_lemma. Qed.
Print Assumptions C131_windup.

(** After a long enough absence the next row alone decides its own prediction. *)
Theorem C131_next_row_decides : forall inv c b0 bs s u delta eps,
  matinv_spec inv -> 0 < c_forget c < 1 -> ols_config c -> good_calls (b_p b0) (b0 :: bs) ->
  lm_history (ols_ops inv) c (b0 :: bs) new_lm = Ok s -> 0 < delta -> 0 < eps ->
  exists N, forall qs b x y w,
    good_calls (b_p b0) (qs ++ [b]) -> unseen (c_icpt c) (n_cols (c_icpt c) (b_p b0)) u (stream qs) ->
    (N <= length (stream qs))%nat -> b_rows b = [mkobs x y w] ->
    delta <= w * (dot (n_cols (c_icpt c) (b_p b0)) (ox (regressors (c_icpt c) (mkobs x y w))) u) ^ 2 ->
    exists s1 s2 v v', lm_history (ols_ops inv) c qs s = Ok s1 /\ partial_fit (ols_ops inv) c b s1 = (s2, Ok tt) /\
      snd (lm_predict c (b_p b0) [x] s1) = Ok [v] /\ snd (lm_predict c (b_p b0) [x] s2) = Ok [v'] /\
      Rabs (y - v') <= eps * Rabs (y - v).
Proof. exact C131_limit_lemma. Qed.
Print Assumptions C131_next_row_decides.

(** The coefficient of a category is the discounted mean of its rows. *)
Theorem C131_category_mean : forall inv c b0 bs s k,
  matinv_spec inv -> 0 <= c_forget c < 1 -> ols_config c -> good_calls (b_p b0) (b0 :: bs) ->
  lm_history (ols_ops inv) c (b0 :: bs) new_lm = Ok s -> (k < n_cols (c_icpt c) (b_p b0))%nat ->
  separate (c_icpt c) (n_cols (c_icpt c) (b_p b0)) k (stream (b0 :: bs)) ->
  exists beta, a_coef s = Some beta /\ is_column_mean (c_forget c) (c_icpt c) k (stream (b0 :: bs)) (beta k).
Proof. exact C131_category_lemma. Qed.
Print Assumptions C131_category_mean.

(** While a category is absent its coefficient does not move at all. *)
Theorem C131_frozen : forall inv c b0 bs qs s k,
  matinv_spec inv -> 0 <= c_forget c < 1 -> ols_config c -> good_calls (b_p b0) (b0 :: bs ++ qs) ->
  lm_history (ols_ops inv) c (b0 :: bs) new_lm = Ok s -> (k < n_cols (c_icpt c) (b_p b0))%nat ->
  separate (c_icpt c) (n_cols (c_icpt c) (b_p b0)) k (stream (b0 :: bs)) ->
  Forall (fun o => ox (regressors (c_icpt c) o) k = 0) (stream qs) ->
  exists s1 beta beta1, lm_history (ols_ops inv) c qs s = Ok s1 /\
    a_coef s = Some beta /\ a_coef s1 = Some beta1 /\ beta1 k = beta k.
Proof. exact C131_frozen_lemma. Qed.
Print Assumptions C131_frozen.

(** Two categories, forget 1/2. The first has responses 2 and 5, is then absent for three rows
    with response 100, and returns with response 11. *)
Definition ex131_row (k : nat) (y : R) : obs := mkobs (fun j => if Nat.eqb j k then 1 else 0) y 1.
Definition ex131_b0 : batch := mk_batch 2 [ex131_row 0 2; ex131_row 1 4; ex131_row 0 5].
Definition ex131_quiet : batch := mk_batch 2 [ex131_row 1 100; ex131_row 1 100; ex131_row 1 100].
Definition ex131_back : batch := mk_batch 2 [ex131_row 0 11].

Example C131_example : forall inv, matinv_spec inv ->
  exists s s1 s2 b b1 b2, lm_history (ols_ops inv) ex119_c [ex131_b0] new_lm = Ok s /\
    lm_history (ols_ops inv) ex119_c [ex131_b0; ex131_quiet] new_lm = Ok s1 /\
    lm_history (ols_ops inv) ex119_c [ex131_b0; ex131_quiet; ex131_back] new_lm = Ok s2 /\
    a_coef s = Some b /\ a_coef s1 = Some b1 /\ a_coef s2 = Some b2 /\
    b 0%nat = 22 / 5 /\ b1 0%nat = 22 / 5 /\ b2 0%nat = 242 / 23.
Proof.
  intros inv HI.
  assert (HC : ols_config ex119_c) by (repeat split).
  assert (Hf : 0 <= c_forget ex119_c < 1) by (cbn; lra).
  assert (G0 : forall q, In q [ex131_b0; ex131_quiet; ex131_back] ->
     weights_nonneg (b_rows q) /\ b_rows q <> [] /\ b_p q = b_p ex131_b0).
  { intros q [<-|[<-|[<-|[]]]]; (split; [|split; [discriminate|reflexivity]]);
      repeat (apply Forall_cons; [cbn; lra|]); apply Forall_nil. }
  assert (RR : forall l, map (regressors false) l = l).
  { intros l. rewrite <- (map_id l) at 2. apply map_ext. intros [x y w]. reflexivity. }
  assert (Ex : exists o, ols_fit inv 2 (1 / 2) (b_rows ex131_b0) = Ok o).
  { unfold ols_fit, init_inverted_gram. pose proof (proj2 HI) as HI2.
    destruct (HI2 2%nat (init_gram (Xs (b_rows ex131_b0)) (ws (b_rows ex131_b0)) (1 / 2))) as (B & ->); [|cbn [bind]; eauto].
    apply inverse_2x2. rewrite !init_gram_spec by (try lra; apply (G0 ex131_b0); cbn; auto).
    unfold gram_spec; cbn; lra. }
  destruct Ex as (o & Ho).
  destruct (ols_lm_fit_intro inv ex119_c ex131_b0 new_lm o) as (s0 & F & _).
  - exact HC.
  - cbn; lia.
  - cbn; lia.
  - unfold total_weight; cbn; lra.
  - reflexivity.
  - change (ols_fit inv 2 (1 / 2) (map (regressors false) (b_rows ex131_b0)) = Ok o). rewrite RR. exact Ho.
  - assert (K : forall bs, good_calls 2 (ex131_b0 :: bs) ->
       separate false 2 0 (stream (ex131_b0 :: bs)) ->
       exists s b, lm_history (ols_ops inv) ex119_c (ex131_b0 :: bs) new_lm = Ok s /\ a_coef s = Some b /\
         is_column_mean (1 / 2) false 0 (stream (ex131_b0 :: bs)) (b 0%nat)).
    { intros bs HG HS. destruct (C47_optimal_lemma inv ex119_c ex131_b0 bs s0 HI Hf HC HG F) as (s & _ & E & _).
      destruct (C131_category_mean inv ex119_c ex131_b0 bs s 0 HI Hf HC HG E ltac:(cbn; lia) HS) as (b & B & M).
      exists s, b. split; [exact E|]. split; [exact B|exact M]. }
    assert (SS : forall l, (forall o, In o l -> exists k y, o = ex131_row k y) -> separate false 2 0 l).
    { intros l Hl. apply Forall_forall. intros a Ha j Hj Nj. destruct (Hl a Ha) as (k & y & ->).
      cbn [regressors ex131_row ox]. destruct (Nat.eqb_spec 0 k) as [<-|N]; [|ring].
      destruct (Nat.eqb_spec j 0); [contradiction|ring]. }
    destruct (K []) as (s & b & E & B & M).
    { apply Forall_cons; [apply G0; cbn; auto|apply Forall_nil]. }
    { apply SS. cbn. intros o' H. repeat (destruct H as [<-|H]; [eexists _, _; reflexivity|]). destruct H. }
    destruct (K [ex131_quiet]) as (s1 & b1 & E1 & B1 & M1).
    { apply Forall_forall. intros q [<-|[<-|[]]]; apply G0; cbn; auto. }
    { apply SS. cbn. intros o' H. repeat (destruct H as [<-|H]; [eexists _, _; reflexivity|]). destruct H. }
    destruct (K [ex131_quiet; ex131_back]) as (s2 & b2 & E2 & B2 & M2).
    { apply Forall_forall. intros q Hq. apply G0. exact Hq. }
    { apply SS. cbn. intros o' H. repeat (destruct H as [<-|H]; [eexists _, _; reflexivity|]). destruct H. }
    exists s, s1, s2, b, b1, b2. do 6 (split; [assumption|]).
    destruct M as (_ & ->). destruct M1 as (_ & ->). destruct M2 as (_ & ->). cbn.
    split; [|split]; field.
Qed.

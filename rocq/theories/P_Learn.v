(** C119, C120: what an update of a least-squares model does, and how it forgets. *)
From Coq Require Import Reals List Bool Arith Lra Lia.
From Verif Require Import Base Lin Data S_Gram L_Gram M_OLS L_OLS M_Scaler M_Utils M_State M_LM S_LM L_LM3
  S_Learn L_Learn L_Learn2 L_LearnEx.
Import ListNotations.
Open Scope R_scope.

(** C119. A batch that the model already predicts exactly changes nothing. *)
Theorem C119_exact_rows : forall inv c b0 bs b s,
  matinv_spec inv -> 0 <= c_forget c < 1 -> ols_config c -> good_calls (b_p b0) (b0 :: bs ++ [b]) ->
  lm_history (ols_ops inv) c (b0 :: bs) new_lm = Ok s ->
  snd (lm_predict c (b_p b0) (Xs (b_rows b)) s) = Ok (ys (b_rows b)) ->
  exists s' beta beta', partial_fit (ols_ops inv) c b s = (s', Ok tt) /\
    a_coef s = Some beta /\ a_coef s' = Some beta' /\ eqv (n_cols (c_icpt c) (b_p b0)) beta' beta /\
    forall X, X <> [] -> snd (lm_predict c (b_p b0) X s') = snd (lm_predict c (b_p b0) X s).
Proof. exact C119_exact_lemma. Qed.
Print Assumptions C119_exact_rows.

(** One row: its prediction moves towards the target and never reaches or passes it. *)
Theorem C119_one_row : forall inv c b0 bs b s x y w,
  matinv_spec inv -> 0 <= c_forget c < 1 -> ols_config c -> good_calls (b_p b0) (b0 :: bs ++ [b]) ->
  lm_history (ols_ops inv) c (b0 :: bs) new_lm = Ok s ->
  b_rows b = [mkobs x y w] ->
  exists s' v v' h, partial_fit (ols_ops inv) c b s = (s', Ok tt) /\
    snd (lm_predict c (b_p b0) [x] s) = Ok [v] /\ snd (lm_predict c (b_p b0) [x] s') = Ok [v'] /\
    0 <= h < 1 /\ v' = v + h * (y - v) /\
    (0 < w -> c_icpt c = true \/ (exists j, (j < b_p b0)%nat /\ x j <> 0) -> 0 < h).
Proof. exact C119_row_lemma. Qed.
Print Assumptions C119_one_row.

(** A batch: its own error falls, unless the coefficients stay. *)
Theorem C119_batch : forall inv c b0 bs b s,
  matinv_spec inv -> 0 <= c_forget c < 1 -> ols_config c -> good_calls (b_p b0) (b0 :: bs ++ [b]) ->
  lm_history (ols_ops inv) c (b0 :: bs) new_lm = Ok s ->
  exists s' beta beta' pred pred', partial_fit (ols_ops inv) c b s = (s', Ok tt) /\
    a_coef s = Some beta /\ a_coef s' = Some beta' /\
    snd (lm_predict c (b_p b0) (Xs (b_rows b)) s) = Ok pred /\
    snd (lm_predict c (b_p b0) (Xs (b_rows b)) s') = Ok pred' /\
    (eqv (n_cols (c_icpt c) (b_p b0)) beta' beta \/
     batch_error (c_forget c) (b_rows b) pred' < batch_error (c_forget c) (b_rows b) pred).
Proof. exact C119_batch_lemma. Qed.
Print Assumptions C119_batch.

(** Responses 2, 2 at x = 1, then 8 with forget 1/2: the prediction moves from 2 to 38/7, 4/7 of
    the way; then the exact row 38/7 leaves it there. *)
Example C119_example : forall inv, matinv_spec inv -> exists s s' s'',
  lm_history (ols_ops inv) ex119_c [ex119_b0 2] new_lm = Ok s /\
  partial_fit (ols_ops inv) ex119_c (ex119_new 8) s = (s', Ok tt) /\
  partial_fit (ols_ops inv) ex119_c (ex119_new (38 / 7)) s' = (s'', Ok tt) /\
  snd (lm_predict ex119_c 1 [fun _ => 1] s) = Ok [2] /\
  snd (lm_predict ex119_c 1 [fun _ => 1] s') = Ok [2 + 4 / 7 * (8 - 2)] /\
  snd (lm_predict ex119_c 1 [fun _ => 1] s'') = Ok [38 / 7].
Proof.
  intros inv HI.
  destruct (ex119_history inv 2 [] HI) as (s & b & E & _ & C & P).
  destruct (ex119_history inv 2 [8] HI) as (s' & b' & E' & _ & C' & P').
  assert (V : b 0%nat = 2) by (unfold gram_spec, ygram_spec in C; cbn in C; lra).
  assert (V' : b' 0%nat = 38 / 7) by (unfold gram_spec, ygram_spec in C'; cbn in C'; lra).
  cbn [map] in E, E'.
  assert (Q : partial_fit (ols_ops inv) ex119_c (ex119_new 8) s = (s', Ok tt)).
  { apply partial_fit_history. change [ex119_b0 2; ex119_new 8] with ([ex119_b0 2] ++ [ex119_new 8]) in E'.
    rewrite lm_history_app, E in E'. exact E'. }
  destruct (C119_exact_rows inv ex119_c (ex119_b0 2) [ex119_new 8] (ex119_new (38 / 7)) s' HI) as (s'' & _ & _ & K & _ & _ & _ & S'').
  - cbn; lra.
  - apply ex119_config.
  - apply (ex119_good 2 [8; 38 / 7]).
  - exact E'.
  - change (snd (lm_predict ex119_c 1 [fun _ => 1] s') = Ok [38 / 7]). rewrite P', V'. do 2 f_equal. ring.
  - exists s, s', s''. split; [exact E|]. split; [exact Q|]. split; [exact K|].
    split; [rewrite P, V; do 2 f_equal; ring|]. split; [rewrite P', V'; do 2 f_equal; field|].
    change 1%nat with (b_p (ex119_b0 2)). rewrite S'' by discriminate. change (b_p (ex119_b0 2)) with 1%nat.
    rewrite P', V'. do 2 f_equal. ring.
Qed.

(** C120. With forgetting two models with different pasts grow together under the same new
    data, at the rate of the discount; the constant does not depend on the new data. *)
Theorem C120_forgets : forall inv c p a0 a d0 d s1 s2 B lam,
  matinv_spec inv -> 0 < c_forget c < 1 -> ols_config c -> 0 < lam -> 0 <= B ->
  b_p a0 = p -> b_p d0 = p -> good_calls p (a0 :: a) -> good_calls p (d0 :: d) ->
  lm_history (ols_ops inv) c (a0 :: a) new_lm = Ok s1 -> lm_history (ols_ops inv) c (d0 :: d) new_lm = Ok s2 ->
  let cols := n_cols (c_icpt c) p in
  exists C, 0 <= C /\ forall tail, good_calls p tail ->
    let later := map (regressors (c_icpt c)) (stream tail) in
    bounded_rows cols B later -> exciting cols (c_forget c) lam later ->
    exists t1 t2 beta1 beta2,
      lm_history (ols_ops inv) c tail s1 = Ok t1 /\ lm_history (ols_ops inv) c tail s2 = Ok t2 /\
      a_coef t1 = Some beta1 /\ a_coef t2 = Some beta2 /\
      forall j, (j < cols)%nat -> Rabs (beta1 j - beta2 j) <= C * (1 - c_forget c) ^ length later.
Proof. exact C120_forgets_lemma. Qed.
Print Assumptions C120_forgets.

(** Pasts with responses 2 and 10 and any number of later rows with response 0. *)
Example C120_example : forall inv, matinv_spec inv -> exists s1 s2 C,
  lm_history (ols_ops inv) ex119_c [ex119_b0 2] new_lm = Ok s1 /\
  lm_history (ols_ops inv) ex119_c [ex119_b0 10] new_lm = Ok s2 /\
  snd (lm_predict ex119_c 1 [fun _ => 1] s1) = Ok [2] /\ snd (lm_predict ex119_c 1 [fun _ => 1] s2) = Ok [10] /\
  forall n, exists t1 t2 b1 b2,
    lm_history (ols_ops inv) ex119_c (map ex119_new (repeat 0 (S n))) s1 = Ok t1 /\
    lm_history (ols_ops inv) ex119_c (map ex119_new (repeat 0 (S n))) s2 = Ok t2 /\
    a_coef t1 = Some b1 /\ a_coef t2 = Some b2 /\
    Rabs (b1 0%nat - b2 0%nat) <= C * (1 / 2) ^ S n.
Proof.
  intros inv HI.
  destruct (ex119_history inv 2 [] HI) as (s1 & b1 & E1 & _ & C1 & P1).
  destruct (ex119_history inv 10 [] HI) as (s2 & b2 & E2 & _ & C2 & P2).
  assert (V1 : b1 0%nat = 2) by (unfold gram_spec, ygram_spec in C1; cbn in C1; lra).
  assert (V2 : b2 0%nat = 10) by (unfold gram_spec, ygram_spec in C2; cbn in C2; lra).
  cbn [map] in E1, E2.
  destruct (C120_forgets inv ex119_c 1 (ex119_b0 2) [] (ex119_b0 10) [] s1 s2 1 1 HI) as (C & _ & K); auto; try lra.
  - cbn; lra.
  - apply ex119_config.
  - apply (ex119_good 2 []).
  - apply (ex119_good 10 []).
  - exists s1, s2, C. split; [exact E1|]. split; [exact E2|].
    split; [rewrite P1, V1; do 2 f_equal; ring|]. split; [rewrite P2, V2; do 2 f_equal; ring|].
    intros n.
    assert (RR : map (regressors (c_icpt ex119_c)) (stream (map ex119_new (repeat 0 (S n)))) = map (row1 1) (repeat 0 (S n))).
    { rewrite stream_new, map_map. apply map_ext. reflexivity. }
    specialize (K (map ex119_new (repeat 0 (S n)))). cbv zeta in K. rewrite RR in K.
    destruct K as (t1 & t2 & c1 & c2 & F1 & F2 & A1 & A2 & D).
    + pose proof (ex119_good 2 (repeat 0 (S n))) as G. inversion G; auto.
    + apply ex120_bounded; lra.
    + apply ex120_exciting.
    + exists t1, t2, c1, c2. repeat (split; [assumption|]).
      specialize (D 0%nat ltac:(cbn; lia)). rewrite map_length, repeat_length in D.
      replace (1 - c_forget ex119_c) with (1 / 2) in D by (cbn; lra). exact D.
Qed.

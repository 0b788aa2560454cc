(** Properties C01-C09: discounted Gramians, the recursive inverse and online
    least squares. *)
From Coq Require Import Reals List Lia Lra.
From Verif Require Import Base Lin Data M_Gram M_GramNan M_OLS S_Gram
  L_Gram L_GramNan L_OLS L_Inv.
Import ListNotations.
Open Scope R_scope.

(** C01. *)
Theorem C01_forget_vector : forall forget size, (1 <= size)%nat ->
  length (init_forget_vector forget size) = size /\
  (forall n, (n < size)%nat ->
     nth n (init_forget_vector forget size) 0 = (1 - forget) ^ (size - 1 - n)) /\
  nth (size - 1) (init_forget_vector forget size) 0 = 1.
Proof. exact init_forget_vector_correct. Qed.
Print Assumptions C01_forget_vector.
Example C01_example :
  nth 0 (init_forget_vector (1/10) 3) 0 = 81/100 /\ nth 2 (init_forget_vector (1/10) 3) 0 = 1.
Proof. rewrite !init_forget_vector_nth by lia. simpl. lra. Qed.

(** C02. *)
Theorem C02_init_gram : forall forget (l : list obs) i j,
  forget <= 1 -> weights_nonneg l ->
  init_gram (Xs l) (ws l) forget i j
  = dsum (1 - forget) (fun o => ow o * ox o i * ox o j) l.
Proof. exact (fun forget l i j => init_gram_spec forget l i j). Qed.
Print Assumptions C02_init_gram.
Theorem C02_init_y_gram : forall forget (l : list obs) i,
  forget <= 1 -> weights_nonneg l ->
  init_y_gram (Xs l) (ys l) (ws l) forget i
  = dsum (1 - forget) (fun o => ow o * ox o i * oy o) l.
Proof. exact (fun forget l i => init_y_gram_spec forget l i). Qed.
Print Assumptions C02_init_y_gram.

(** Concrete stream used in the examples below. *)
Definition ex_b0 : list obs :=
  [mkobs (vec_of [1; 0]) 1 1; mkobs (vec_of [1; 1]) 2 2; mkobs (vec_of [1; 2]) 2 1].
Definition ex_bs : list (list obs) :=
  [[mkobs (vec_of [1; 3]) 4 1]; [mkobs (vec_of [1; 1]) 0 3; mkobs (vec_of [1; 5]) 1 0]].
Lemma ex_b0_nonneg : weights_nonneg ex_b0.
Proof. repeat constructor; simpl; lra. Qed.
Lemma ex_bs_nonneg : Forall weights_nonneg ex_bs.
Proof. repeat constructor; simpl; lra. Qed.
Lemma ex_bs_nonempty : Forall nonempty ex_bs.
Proof. repeat constructor; discriminate. Qed.

Example C02_example :
  init_gram (Xs ex_b0) (ws ex_b0) (1/10) 0%nat 1%nat = 38/10 /\
  init_y_gram (Xs ex_b0) (ys ex_b0) (ws ex_b0) (1/10) 0%nat = 641/100.
Proof.
  rewrite C02_init_gram, C02_init_y_gram by (exact ex_b0_nonneg || lra).
  unfold ex_b0. cbn. lra.
Qed.

(** C03. *)
Theorem C03_gram_history : forall forget b0 bs i j,
  forget <= 1 -> weights_nonneg b0 -> Forall weights_nonneg bs ->
  gram_history forget b0 bs i j
  = init_gram (Xs (b0 ++ concat bs)) (ws (b0 ++ concat bs)) forget i j.
Proof. exact gram_history_batch. Qed.
Print Assumptions C03_gram_history.
Theorem C03_y_gram_history : forall forget b0 bs i,
  forget <= 1 -> weights_nonneg b0 -> Forall weights_nonneg bs ->
  y_gram_history forget b0 bs i
  = init_y_gram (Xs (b0 ++ concat bs)) (ys (b0 ++ concat bs)) (ws (b0 ++ concat bs)) forget i.
Proof. exact y_gram_history_batch. Qed.
Print Assumptions C03_y_gram_history.
Example C03_example :
  gram_history (1/10) ex_b0 ex_bs 0%nat 0%nat
  = init_gram (Xs (ex_b0 ++ concat ex_bs)) (ws (ex_b0 ++ concat ex_bs)) (1/10) 0%nat 0%nat.
Proof. apply C03_gram_history; [lra | exact ex_b0_nonneg | exact ex_bs_nonneg]. Qed.

(** C04. *)
Theorem C04_gram_symmetric : forall forget b0 bs p,
  forget <= 1 -> weights_nonneg b0 -> Forall weights_nonneg bs ->
  forall i j, (i < p)%nat -> (j < p)%nat ->
  gram_history forget b0 bs i j = gram_history forget b0 bs j i.
Proof. exact gram_history_sym. Qed.
Print Assumptions C04_gram_symmetric.
Theorem C04_gram_psd : forall forget b0 bs p,
  forget <= 1 -> weights_nonneg b0 -> Forall weights_nonneg bs ->
  forall v, 0 <= dot p v (mvec p (gram_history forget b0 bs) v).
Proof. exact gram_history_psd. Qed.
Print Assumptions C04_gram_psd.
Example C04_example : 0 <= dot 2 (vec_of [1; -1]) (mvec 2 (gram_history (1/10) ex_b0 ex_bs) (vec_of [1; -1])).
Proof. apply C04_gram_psd; [lra | exact ex_b0_nonneg | exact ex_bs_nonneg]. Qed.

(** C05. Once the initial inversion succeeded, no later update raises, and the
    stored matrix is the inverse of the Gramian of all data seen. *)
Theorem C05_inverse_history : forall inv p forget b0 bs A0,
  matinv_spec inv -> 0 <= forget < 1 ->
  weights_nonneg b0 -> Forall weights_nonneg bs -> Forall nonempty bs ->
  init_inverted_gram inv p (Xs b0) (ws b0) forget = Ok A0 ->
  exists A, inv_history inv p forget b0 bs = Ok A /\
    is_inverse p (init_gram (Xs (b0 ++ concat bs)) (ws (b0 ++ concat bs)) forget) A.
Proof. exact inv_history_correct. Qed.
Print Assumptions C05_inverse_history.
(** The initial inversion fails exactly when there is no inverse. *)
Theorem C05_init_raises_iff : forall inv p forget b0,
  matinv_spec inv ->
  (init_inverted_gram inv p (Xs b0) (ws b0) forget = Raise ValueError <->
   ~ exists B, is_inverse p (init_gram (Xs b0) (ws b0) forget) B).
Proof. exact init_inverted_raises_iff. Qed.
Print Assumptions C05_init_raises_iff.
Example C05_matinv_spec_satisfiable : exists inv, matinv_spec inv.
Proof. exists choice_inv. exact choice_inv_spec. Qed.
Lemma ex_init_ok inv : matinv_spec inv ->
  exists A, init_inverted_gram inv 2 (Xs ex_b0) (ws ex_b0) (1/10) = Ok A.
Proof.
  intros [_ Hc]. unfold init_inverted_gram.
  destruct (Hc 2%nat (init_gram (Xs ex_b0) (ws ex_b0) (1/10))) as (B & HB).
  - apply inverse_2x2. rewrite !C02_init_gram by (exact ex_b0_nonneg || lra).
    unfold ex_b0. cbn. lra.
  - rewrite HB. eexists; reflexivity.
Qed.
Example C05_example : exists inv A, matinv_spec inv /\
  inv_history inv 2 (1/10) ex_b0 ex_bs = Ok A.
Proof.
  exists choice_inv. destruct (ex_init_ok choice_inv choice_inv_spec) as (A0 & E).
  destruct (C05_inverse_history choice_inv 2 (1/10) ex_b0 ex_bs A0) as (A & HA & _);
    auto using choice_inv_spec, ex_b0_nonneg, ex_bs_nonneg, ex_bs_nonempty; [lra|].
  exists A. split; [exact choice_inv_spec | exact HA].
Qed.

(** C06. [b1] is the part of the current batch already processed, [x], [w] the
    next row. *)
Theorem C06_divisor_positive : forall inv p forget b0 bs A b1 x w,
  matinv_spec inv -> 0 <= forget < 1 ->
  weights_nonneg b0 -> Forall weights_nonneg bs -> Forall nonempty bs -> weights_nonneg b1 ->
  inv_history inv p forget b0 bs = Ok A -> 0 <= w ->
  1 - forget <= inverted_divisor p (update_inverted_rows p A (Xs b1) forget (ws b1)) x forget w.
Proof. exact inv_history_divisor. Qed.
Print Assumptions C06_divisor_positive.
(** In the middle of the batch following the history of [C05_example]. *)
Example C06_example : exists inv A, matinv_spec inv /\ inv_history inv 2 (1/10) ex_b0 ex_bs = Ok A /\
  9/10 <= inverted_divisor 2 (update_inverted_rows 2 A [vec_of [1; 7]] (1/10) [2]) (vec_of [1; -4]) (1/10) 3.
Proof.
  destruct C05_example as (inv & A & Hs & HA). exists inv, A. split; [exact Hs|]. split; [exact HA|].
  replace (9/10) with (1 - 1/10) by lra.
  apply (C06_divisor_positive inv 2 (1/10) ex_b0 ex_bs A [mkobs (vec_of [1; 7]) 0 2]); try exact HA;
    auto using ex_b0_nonneg, ex_bs_nonneg, ex_bs_nonempty; try lra.
  repeat constructor; simpl; lra.
Qed.

(** C07. *)
Theorem C07_batch_equals_rowwise : forall G b forget i j,
  forget <= 1 -> weights_nonneg b -> (1 <= length b)%nat ->
  update_gram_nan G (Xs b) forget (ws b) i j = Some (update_gram_rowwise forget G b i j).
Proof. exact update_gram_agree. Qed.
Print Assumptions C07_batch_equals_rowwise.
Theorem C07_negative_weight_nan : forall G b forget i j,
  forget < 1 -> (2 <= length b)%nat -> (exists o, In o b /\ ow o < 0) ->
  update_gram_nan G (Xs b) forget (ws b) i j = None /\
  forall o, update_gram_nan G [ox o] forget [ow o] i j
            = Some ((1 - forget) * G i j + ow o * (ox o i * ox o j)).
Proof. exact update_gram_negative_both. Qed.
Print Assumptions C07_negative_weight_nan.
Example C07_example :
  update_gram_nan (fun _ _ => 1) (Xs [mkobs (vec_of [1]) 0 (-1); mkobs (vec_of [1]) 0 1]) 0
    (ws [mkobs (vec_of [1]) 0 (-1); mkobs (vec_of [1]) 0 1]) 0%nat 0%nat = None.
Proof.
  apply C07_negative_weight_nan; [lra | simpl; lia |].
  eexists. split; [left; reflexivity | simpl; lra].
Qed.

(** C08. *)
Theorem C08_ols_online_equals_batch : forall inv p forget b0 bs s0,
  matinv_spec inv -> 0 <= forget < 1 ->
  weights_nonneg b0 -> Forall weights_nonneg bs -> Forall nonempty bs ->
  ols_fit inv p forget b0 = Ok s0 ->
  exists s sb, ols_history inv p forget b0 bs = Ok s /\
    ols_fit inv p forget (b0 ++ concat bs) = Ok sb /\
    forall i, (i < p)%nat -> ols_coef s i = ols_coef sb i.
Proof. exact ols_online_batch. Qed.
Print Assumptions C08_ols_online_equals_batch.
(** Two chunkings of the same stream give the same coefficients. *)
Theorem C08_ols_chunking : forall inv p forget b0 bs b0' bs' s0 s0',
  matinv_spec inv -> 0 <= forget < 1 ->
  weights_nonneg b0 -> Forall weights_nonneg bs -> Forall nonempty bs -> Forall nonempty bs' ->
  b0 ++ concat bs = b0' ++ concat bs' ->
  ols_fit inv p forget b0 = Ok s0 -> ols_fit inv p forget b0' = Ok s0' ->
  exists s s', ols_history inv p forget b0 bs = Ok s /\ ols_history inv p forget b0' bs' = Ok s' /\
    forall i, (i < p)%nat -> ols_coef s i = ols_coef s' i.
Proof. exact ols_chunking. Qed.
Print Assumptions C08_ols_chunking.
Example C08_example : exists inv s, matinv_spec inv /\ ols_fit inv 2 (1/10) ex_b0 = Ok s.
Proof.
  exists choice_inv. destruct (ex_init_ok choice_inv choice_inv_spec) as (A0 & E).
  unfold ols_fit. rewrite E. eexists. split; [exact choice_inv_spec | reflexivity].
Qed.

(** C09. *)
Theorem C09_ols_optimal : forall inv p forget b0 bs s0,
  matinv_spec inv -> 0 <= forget < 1 ->
  weights_nonneg b0 -> Forall weights_nonneg bs -> Forall nonempty bs ->
  ols_fit inv p forget b0 = Ok s0 ->
  exists s, ols_history inv p forget b0 bs = Ok s /\
    forall b,
      wls_loss p forget (b0 ++ concat bs) (ols_coef s) <= wls_loss p forget (b0 ++ concat bs) b /\
      (wls_loss p forget (b0 ++ concat bs) b = wls_loss p forget (b0 ++ concat bs) (ols_coef s) ->
       forall i, (i < p)%nat -> b i = ols_coef s i).
Proof. exact ols_online_optimal. Qed.
Print Assumptions C09_ols_optimal.
(** A line through two points, then a third point off the line. *)
Example C09_example : exists inv s, matinv_spec inv /\
  ols_history inv 2 0 [mkobs (vec_of [1; 0]) 0 1; mkobs (vec_of [1; 1]) 1 1] [[mkobs (vec_of [1; 2]) 5 1]] = Ok s /\
  ols_coef s 0%nat = - (1/2) /\ ols_coef s 1%nat = 5/2.
Proof.
  exists choice_inv.
  set (b0 := [mkobs (vec_of [1; 0]) 0 1; mkobs (vec_of [1; 1]) 1 1]). set (bs := [[mkobs (vec_of [1; 2]) 5 1]]).
  assert (W0 : weights_nonneg b0) by (repeat constructor; simpl; lra).
  assert (W1 : Forall weights_nonneg bs) by (repeat constructor; simpl; lra).
  assert (N1 : Forall nonempty bs) by (repeat constructor; discriminate).
  assert (E : exists s0, ols_fit choice_inv 2 0 b0 = Ok s0).
  { destruct choice_inv_spec as [_ Hc]. unfold ols_fit, init_inverted_gram.
    destruct (Hc 2%nat (init_gram (Xs b0) (ws b0) 0)) as (B & HB).
    - apply inverse_2x2. rewrite !C02_init_gram by (exact W0 || lra). unfold b0. cbn. lra.
    - rewrite HB. eexists; reflexivity. }
  destruct E as (s0 & E).
  destruct (C09_ols_optimal choice_inv 2 0 b0 bs s0) as (s & H & O);
    auto using choice_inv_spec; [lra|].
  exists s. split; [exact choice_inv_spec|]. split; [exact H|].
  destruct (O (vec_of [- (1/2); 5/2])) as [L _]. clear O H E.
  unfold b0, bs, wls_loss, dot in L. cbn in L.
  remember (ols_coef s 0%nat) as c0. remember (ols_coef s 1%nat) as c1.
  assert (Q : 3 * (c0 + 1/2 + (c1 - 5/2)) ^ 2 + 2 * (c1 - 5/2) ^ 2 <= 0) by nra.
  pose proof (pow2_ge_0 (c0 + 1/2 + (c1 - 5/2))). pose proof (pow2_ge_0 (c1 - 5/2)).
  assert (Z1 : (c1 - 5/2) ^ 2 = 0) by lra. assert (Z0 : (c0 + 1/2 + (c1 - 5/2)) ^ 2 = 0) by lra.
  apply Rsqr_0_uniq_pow in Z1 || (assert (c1 - 5/2 = 0) by nra; assert (c0 + 1/2 + (c1 - 5/2) = 0) by nra; split; lra).
Qed.

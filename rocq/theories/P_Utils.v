(** Properties C27-C30 and C70: training length, running mean, information criteria, intercept. *)
From Coq Require Import Reals List Bool Arith Lia Lra.
From Verif Require Import Base S_Gram M_Utils S_Utils L_Utils.
Import ListNotations.
Open Scope R_scope.

(** C27. *)
Theorem C27_sum_of_weights : forall forget n, 0 <= forget < 1 ->
  effective_training_length forget (INR n) = bsum n (fun k => (1 - forget) ^ k).
Proof. exact C27_sum_lemma. Qed.
Print Assumptions C27_sum_of_weights.
Theorem C27_increasing : forall forget n m, 0 <= forget < 1 -> n < m ->
  effective_training_length forget n < effective_training_length forget m.
Proof. exact C27_increasing_lemma. Qed.
Print Assumptions C27_increasing.
Theorem C27_bounds : forall forget n, 0 <= forget < 1 ->
  effective_training_length forget (INR n) <= INR n /\
  (0 < forget -> forall x, effective_training_length forget x < asymptotic_training_length forget).
Proof. exact C27_bounds_lemma. Qed.
Print Assumptions C27_bounds.
Theorem C27_limit : forall forget eps, 0 < forget < 1 -> 0 < eps ->
  exists N, forall n, (N <= n)%nat ->
    asymptotic_training_length forget - effective_training_length forget (INR n) < eps.
Proof. exact C27_limit_lemma. Qed.
Print Assumptions C27_limit.
Example C27_example : effective_training_length (1 / 2) (INR 3) = 7 / 4 /\
  asymptotic_training_length (1 / 2) = 2.
Proof.
  split; [rewrite C27_sum_of_weights by lra; cbn; lra|].
  unfold asymptotic_training_length. rcase; lra.
Qed.

(** C28. *)
Theorem C28_discounted_mean : forall forget avg0 chunks, 0 <= forget < 1 -> concat chunks <> [] ->
  mean_stream forget avg0 0 chunks = dmean forget (concat chunks).
Proof. exact C28_lemma. Qed.
Print Assumptions C28_discounted_mean.
Theorem C28_arithmetic_mean : forall avg0 chunks, concat chunks <> [] ->
  mean_stream 0 avg0 0 chunks = lsum (concat chunks) / INR (length (concat chunks)).
Proof. exact C28_plain_lemma. Qed.
Print Assumptions C28_arithmetic_mean.
Example C28_example : mean_stream (1 / 2) 99 0 [[1; 2]; [4]] = 21 / 7.
Proof. rewrite C28_discounted_mean; [|lra|discriminate]. unfold dmean. cbn. lra. Qed.

(** C29. *)
Theorem C29_gaussian : forall c n p rss, 0 < n -> 0 < rss ->
  from_rss c n p rss = from_ll c n p (gauss_ll n rss (rss / n)) /\
  (forall s2, 0 < s2 -> gauss_ll n rss s2 <= gauss_ll n rss (rss / n)) /\
  (forall s2, 0 < s2 -> s2 <> rss / n -> gauss_ll n rss s2 < gauss_ll n rss (rss / n)).
Proof. exact C29_lemma. Qed.
Print Assumptions C29_gaussian.
Example C29_example : from_rss aic 2 1 2 = Ok (2 * (1 + ln (2 * PI)) + 2) /\
  gauss_ll 2 2 3 < gauss_ll 2 2 1.
Proof.
  split.
  - unfold from_rss, from_ll. f_equal. replace (2 / 2) with 1 by lra. rewrite ln_1. lra.
  - destruct (C29_gaussian aic 2 1 2) as (_ & _ & H); try lra. specialize (H 3).
    replace (2 / 2) with 1 in H by lra. apply H; lra.
Qed.

(** C30. *)
Theorem C30_scale_invariant_choice : forall c n ps rsss k v v',
  0 < n -> 0 < k -> Forall (fun r => 0 < r) rsss ->
  from_rss_array c n ps rsss = Ok v -> from_rss_array c n ps (map (Rmult k) rsss) = Ok v' ->
  argmin v' = argmin v.
Proof. exact C30_rescale_lemma. Qed.
Print Assumptions C30_scale_invariant_choice.
Theorem C30_choice_is_first_minimum : forall l k, argmin l = Ok k <-> first_min l k.
Proof. exact argmin_spec. Qed.
Print Assumptions C30_choice_is_first_minimum.
Theorem C30_more_likelihood : forall c n p ll ll' v v',
  ll <= ll' -> from_ll c n p ll = Ok v -> from_ll c n p ll' = Ok v' -> v' <= v.
Proof. exact C30_likelihood_lemma. Qed.
Print Assumptions C30_more_likelihood.
Theorem C30_fewer_parameters : forall c n p p' ll v v',
  0 <= p <= p' -> penalises c n p' ->
  from_ll c n p ll = Ok v -> from_ll c n p' ll = Ok v' -> v <= v'.
Proof. exact C30_parameters_lemma. Qed.
Print Assumptions C30_fewer_parameters.
Theorem C30_max_is_likelihood : forall n ps lls v k, length ps = length lls ->
  from_ll_array max_ll n ps lls = Ok v -> argmin v = Ok k ->
  (k < length lls)%nat /\ forall i, (i < length lls)%nat -> nth i lls 0 <= nth k lls 0.
Proof. exact C30_max_lemma. Qed.
Print Assumptions C30_max_is_likelihood.
(** With an effective sample shorter than e, hqc rewards additional parameters. *)
Theorem C30_hqc_short_sample : forall n p p' ll v v', 1 < n < exp 1 -> p < p' ->
  from_ll hqc n p ll = Ok v -> from_ll hqc n p' ll = Ok v' -> v' < v.
Proof. exact C30_hqc_lemma. Qed.
Print Assumptions C30_hqc_short_sample.
(** The corrected AIC cannot be evaluated for a path of two or more models. *)
Theorem C30_aicc_path_raises : forall n ps lls, (2 <= length ps)%nat ->
  from_ll_array aicc n ps lls = Raise ValueError.
Proof. exact C30_aicc_lemma. Qed.
Print Assumptions C30_aicc_path_raises.
Example C30_example : argmin [3; 1; 2; 1] = Ok 1%nat /\ from_ll_array aicc 9 [1; 2] [0; 0] = Raise ValueError.
Proof.
  split; [|reflexivity]. apply C30_choice_is_first_minimum. unfold first_min. simpl length.
  split; [lia|]. split.
  - intros [|[|[|[|i]]]] Hi; simpl; try lra; lia.
  - intros [|i] Hi; simpl; try lra; lia.
Qed.

(** C70. *)
Theorem C70_add_intercept : forall X, length (add_intercept X) = length X /\
  forall i, (i < length X)%nat ->
    length (nth i (add_intercept X) []) = S (length (nth i X [])) /\
    nth 0 (nth i (add_intercept X) []) 0 = 1 /\
    forall j, nth (S j) (nth i (add_intercept X) []) 0 = nth j (nth i X []) 0.
Proof. exact C70_lemma. Qed.
Print Assumptions C70_add_intercept.
Example C70_example : add_intercept [[5; 6]; [7; 8]] = [[1; 5; 6]; [1; 7; 8]].
Proof. reflexivity. Qed.

(** Lemmas for the utilities and information criteria. *)
From Coq Require Import Reals List Bool Arith Lia Lra Psatz.
From Verif Require Import Base S_Gram L_Gram M_Utils S_Utils L_Path.
Import ListNotations.
Open Scope R_scope.

(** ** Training lengths *)
Lemma geo_sum f n : f <> 0 -> bsum n (fun k => (1 - f) ^ k) = (1 - (1 - f) ^ n) / f.
Proof. intros Hf. induction n as [|n IH]; simpl; [field; auto|]. rewrite IH. field. auto. Qed.
Lemma eff_nat f n : 0 <= f < 1 -> effective_training_length f (INR n) = bsum n (fun k => (1 - f) ^ k).
Proof.
  intros Hf. unfold effective_training_length. rcase.
  - subst f. rewrite (bsum_ext n _ (fun _ => 1)) by (intros; rewrite Rminus_0_r, pow1; auto).
    induction n as [|n IH]; [reflexivity|]. rewrite S_INR. simpl bsum. rewrite <- IH. reflexivity.
  - rewrite Rpower_pow by lra. rewrite geo_sum; auto.
Qed.
Lemma eff_step f n : 0 <= f < 1 ->
  effective_training_length f (INR (S n)) = effective_training_length f (INR n) + (1 - f) ^ n.
Proof. intros Hf. rewrite !eff_nat by auto. reflexivity. Qed.
Lemma eff_0 f : 0 <= f < 1 -> effective_training_length f 0 = 0.
Proof. intros Hf. change 0 with (INR 0) at 1. rewrite eff_nat by auto. reflexivity. Qed.

Lemma C27_sum_lemma : forall forget n, 0 <= forget < 1 ->
  effective_training_length forget (INR n) = bsum n (fun k => (1 - forget) ^ k).
Proof. intros. apply eff_nat; auto. Qed.
Lemma Rpower_mono_dec q x y : 0 < q < 1 -> x < y -> Rpower q y < Rpower q x.
Proof.
  intros Hq H. unfold Rpower. apply exp_increasing.
  assert (ln q < 0) by (rewrite <- ln_1; apply ln_increasing; lra). nra.
Qed.
Lemma C27_increasing_lemma : forall forget n m, 0 <= forget < 1 -> n < m ->
  effective_training_length forget n < effective_training_length forget m.
Proof.
  intros f n m Hf H. unfold effective_training_length. rcase; [lra|].
  apply Rmult_lt_compat_r; [apply Rinv_0_lt_compat; lra|].
  pose proof (Rpower_mono_dec (1 - f) n m ltac:(lra) H). lra.
Qed.
Lemma C27_bounds_lemma : forall forget n, 0 <= forget < 1 ->
  effective_training_length forget (INR n) <= INR n /\
  (0 < forget -> forall x, effective_training_length forget x < asymptotic_training_length forget).
Proof.
  intros f n Hf. split.
  - rewrite eff_nat by auto.
    assert (E : INR n = bsum n (fun _ => 1)).
    { induction n as [|n IH]; [reflexivity|]. rewrite S_INR, IH. reflexivity. }
    rewrite E. apply bsum_le. intros i _. rewrite <- (pow1 i) at 2. apply pow_incr. lra.
  - intros Hp x. unfold effective_training_length, asymptotic_training_length.
    rcase; [lra|]. apply Rmult_lt_compat_r; [apply Rinv_0_lt_compat; lra|].
    pose proof (exp_pos (x * ln (1 - f))). unfold Rpower. lra.
Qed.
Lemma C27_limit_lemma : forall forget eps, 0 < forget < 1 -> 0 < eps ->
  exists N, forall n, (N <= n)%nat ->
    asymptotic_training_length forget - effective_training_length forget (INR n) < eps.
Proof.
  intros f eps Hf He. destruct (pow_lt_1_zero (1 - f)) with (y := eps * f) as (N & HN).
  - rewrite Rabs_right; lra.
  - apply Rmult_lt_0_compat; lra.
  - exists N. intros n Hn. specialize (HN n Hn). rewrite Rabs_right in HN.
    + rewrite eff_nat, geo_sum by lra. unfold asymptotic_training_length. rcase; [lra|].
      replace (1 / f - (1 - (1 - f) ^ n) / f) with ((1 - f) ^ n / f) by (field; lra).
      apply Rmult_lt_reg_r with f; [lra|]. unfold Rdiv. rewrite Rmult_assoc, Rinv_l; lra.
    + apply Rle_ge, pow_le. lra.
Qed.

(** ** Running mean *)
Lemma eff_pos f n : 0 <= f < 1 -> (0 < n)%nat -> 0 < effective_training_length f (INR n).
Proof.
  intros Hf Hn. rewrite <- (eff_0 f Hf). apply C27_increasing_lemma; auto. apply lt_0_INR; auto.
Qed.
Lemma mean1 f avg v n : 0 <= f < 1 -> (0 < n)%nat ->
  online_mean_update1 avg v f (INR n) = avg + (v - avg) / effective_training_length f (INR n).
Proof.
  intros Hf Hn. pose proof (eff_pos f n Hf Hn) as P. unfold online_mean_update1.
  destruct (Req_dec f 0) as [->|Hz].
  - rewrite Rmult_0_l. rcase; [lra|]. unfold effective_training_length. rcase; [reflexivity|lra].
  - pose proof (proj2 (C27_bounds_lemma f n Hf) ltac:(lra) (INR n)) as B.
    assert (A : asymptotic_training_length f = 1 / f).
    { unfold asymptotic_training_length. rcase; [lra|reflexivity]. }
    rewrite A in *. pose (E := effective_training_length f (INR n)). fold E in P, B |- *.
    assert (L : 1 <= 1 / f / E).
    { apply Rmult_le_reg_r with E; auto. unfold Rdiv at 1. rewrite Rmult_assoc, Rinv_l by lra. lra. }
    rewrite Rmax_left by exact L.
    replace (f * (1 / f / E)) with (/ E) by (field; lra).
    rcase; [unfold Rdiv; ring|]. exfalso. pose proof (Rinv_0_lt_compat E P). lra.
Qed.

Lemma dsum_one f l : 0 <= f < 1 ->
  dsum (1 - f) (fun _ : R => 1) l = effective_training_length f (INR (length l)).
Proof.
  intros Hf. rewrite eff_nat by auto. induction l as [|v l IH]; [reflexivity|].
  cbn [dsum length bsum]. rewrite IH. lra.
Qed.

(** One more value. *)
Lemma mean_step f avg v l : 0 <= f < 1 -> (l = [] \/ avg = dmean f l) ->
  online_mean_update1 avg v f (INR (length (l ++ [v]))) = dmean f (l ++ [v]).
Proof.
  intros Hf H. pose proof (app_length l [v]) as L. cbn [length] in L.
  rewrite mean1 by (auto; lia). pose proof (eff_pos f (length (l ++ [v])) Hf ltac:(lia)) as P.
  unfold dmean. rewrite dsum_one by auto. rewrite dsum_app. cbn [dsum length pow].
  assert (St : effective_training_length f (INR (length (l ++ [v])))
             = (1 - f) * effective_training_length f (INR (length l)) + 1).
  { rewrite <- !dsum_one by auto. rewrite dsum_app. cbn. ring. }
  destruct l as [|a l].
  - clear H. cbn [app length dsum] in *. rewrite St in *. cbn [length] in *. change (INR 0) with 0 in *.
    rewrite eff_0 in * by auto. field.
  - destruct H as [H | ->]; [discriminate|]. unfold dmean.
    rewrite dsum_one by auto. pose proof (eff_pos f (length (a :: l)) Hf ltac:(simpl; lia)) as P2.
    rewrite St in *. field. lra.
Qed.

Lemma mean_array f : 0 <= f < 1 -> forall values l avg, (l = [] \/ avg = dmean f l) ->
  (l ++ values) <> [] ->
  (values = [] -> avg = dmean f l) ->
  online_mean_update avg values f (INR (length (l ++ values))) = dmean f (l ++ values).
Proof.
  intros Hf. induction values as [|v rest IH]; intros l avg H Hn He; cbn [online_mean_update].
  { rewrite app_nil_r. auto. }
  replace (l ++ v :: rest) with ((l ++ [v]) ++ rest) by (rewrite <- app_assoc; reflexivity).
  replace (INR (length ((l ++ [v]) ++ rest)) - INR (length rest)) with (INR (length (l ++ [v])))
    by (rewrite (app_length (l ++ [v])), plus_INR; lra).
  rewrite mean_step by auto. apply IH; auto. destruct l; discriminate.
Qed.

Lemma mean_stream_gen f : 0 <= f < 1 -> forall chunks l avg, (l = [] \/ avg = dmean f l) ->
  l ++ concat chunks <> [] ->
  mean_stream f avg (INR (length l)) chunks = dmean f (l ++ concat chunks).
Proof.
  intros Hf. induction chunks as [|c cs IH]; intros l avg H Hn; cbn [mean_stream concat]; cbv zeta.
  { rewrite app_nil_r in *. destruct H as [->|H]; [destruct Hn; auto|auto]. }
  rewrite <- plus_INR, <- app_length. cbn [concat] in Hn. rewrite app_assoc in Hn |- *.
  apply IH; auto. destruct l as [|a l].
  - destruct c as [|v c]; [left; reflexivity|]. right. apply (mean_array f Hf (v :: c) [] avg); auto; discriminate.
  - right. apply mean_array; auto; [discriminate|]. intros _. destruct H; [discriminate|auto].
Qed.

Lemma C28_lemma : forall forget avg0 chunks, 0 <= forget < 1 -> concat chunks <> [] ->
  mean_stream forget avg0 0 chunks = dmean forget (concat chunks).
Proof.
  intros f avg0 chunks Hf Hn. change 0 with (INR (length (@nil R))).
  apply (mean_stream_gen f Hf chunks [] avg0); auto.
Qed.
Lemma C28_plain_lemma : forall avg0 chunks, concat chunks <> [] ->
  mean_stream 0 avg0 0 chunks = lsum (concat chunks) / INR (length (concat chunks)).
Proof.
  intros avg0 chunks Hn. rewrite C28_lemma by (auto; lra). unfold dmean. rewrite dsum_one by lra.
  unfold effective_training_length. rcase; [|lra]. f_equal.
  induction (concat chunks) as [|v l IH]; [reflexivity|]. cbn [dsum lsum].
  destruct l as [|a l]; [cbn; ring|]. rewrite IH by discriminate. rewrite Rminus_0_r, pow1. ring.
Qed.

(** ** Information criteria *)
Lemma ln_le_sub1 t : 0 < t -> ln t <= t - 1.
Proof.
  intros H. destruct (Req_dec t 1) as [->|N]; [rewrite ln_1; lra|].
  pose proof (exp_ineq1 (ln t)) as E. rewrite exp_ln in E by auto.
  assert (ln t <> 0). { intros Z. apply N. rewrite <- (exp_ln t), Z, exp_0; auto. }
  specialize (E H0). lra.
Qed.
Lemma ln_lt_sub1 t : 0 < t -> t <> 1 -> ln t < t - 1.
Proof.
  intros H N. pose proof (exp_ineq1 (ln t)) as E. rewrite exp_ln in E by auto.
  assert (ln t <> 0). { intros Z. apply N. rewrite <- (exp_ln t), Z, exp_0; auto. }
  specialize (E H0). lra.
Qed.

Lemma ln_div x y : 0 < x -> 0 < y -> ln (x / y) = ln x - ln y.
Proof. intros. unfold Rdiv. rewrite ln_mult, ln_Rinv; auto. apply Rinv_0_lt_compat; auto. Qed.

Lemma gauss_gap n rss s2 : 0 < n -> 0 < rss -> 0 < s2 ->
  gauss_ll n rss (rss / n) - gauss_ll n rss s2
  = n / 2 * ((rss / n / s2 - 1) - ln (rss / n / s2)).
Proof.
  intros Hn Hr Hs. assert (P : 0 < rss / n) by (apply Rdiv_lt_0_compat; auto).
  pose proof PI_RGT_0. unfold gauss_ll.
  rewrite !ln_mult by (try lra; auto). rewrite (ln_div (rss / n) s2) by auto.
  field. lra.
Qed.

Lemma C29_lemma : forall c n p rss, 0 < n -> 0 < rss ->
  from_rss c n p rss = from_ll c n p (gauss_ll n rss (rss / n)) /\
  (forall s2, 0 < s2 -> gauss_ll n rss s2 <= gauss_ll n rss (rss / n)) /\
  (forall s2, 0 < s2 -> s2 <> rss / n -> gauss_ll n rss s2 < gauss_ll n rss (rss / n)).
Proof.
  intros c n p rss Hn Hr. assert (P : 0 < rss / n) by (apply Rdiv_lt_0_compat; auto).
  pose proof PI_RGT_0. split; [|split; intros s2 Hs].
  - unfold from_rss. f_equal. unfold gauss_ll. rewrite (ln_mult (2 * PI)) by (try lra; auto). field. lra.
  - pose proof (gauss_gap n rss s2 Hn Hr Hs) as G.
    pose proof (ln_le_sub1 (rss / n / s2) ltac:(apply Rdiv_lt_0_compat; auto)). nra.
  - intros Hne. pose proof (gauss_gap n rss s2 Hn Hr Hs) as G.
    assert (rss / n / s2 <> 1).
    { intros E. apply Hne. replace (rss / n) with (rss / n / s2 * s2) by (field; lra). rewrite E. ring. }
    pose proof (ln_lt_sub1 (rss / n / s2) ltac:(apply Rdiv_lt_0_compat; auto) H0). nra.
Qed.

Lemma argmin_loop_spec : forall t pre k m,
  (k < length pre)%nat -> nth k pre 0 = m ->
  (forall i, (i < length pre)%nat -> m <= nth i pre 0) -> (forall i, (i < k)%nat -> m < nth i pre 0) ->
  first_min (pre ++ t) (argmin_loop t (length pre) k m).
Proof.
  induction t as [|x t IH]; intros pre k m Hk E Hle Hlt; cbn [argmin_loop].
  { rewrite app_nil_r. unfold first_min. rewrite E. auto. }
  replace (pre ++ x :: t) with ((pre ++ [x]) ++ t) by (rewrite <- app_assoc; reflexivity).
  replace (S (length pre)) with (length (pre ++ [x])) by (rewrite app_length; simpl; lia).
  destruct (Rltb x m) eqn:C.
  - apply Rltb_true in C. apply IH.
    + rewrite app_length; simpl; lia.
    + rewrite app_nth2, Nat.sub_diag by lia. reflexivity.
    + intros i Hi. rewrite app_length in Hi. simpl in Hi.
      destruct (Nat.eq_dec i (length pre)) as [->|]; [rewrite app_nth2, Nat.sub_diag by lia; simpl; lra|].
      rewrite app_nth1 by lia. specialize (Hle i ltac:(lia)). lra.
    + intros i Hi. rewrite app_nth1 by lia. specialize (Hle i Hi). lra.
  - apply Rltb_false in C. apply IH.
    + rewrite app_length; simpl; lia.
    + rewrite app_nth1 by lia. auto.
    + intros i Hi. rewrite app_length in Hi. simpl in Hi.
      destruct (Nat.eq_dec i (length pre)) as [->|]; [rewrite app_nth2, Nat.sub_diag by lia; simpl; lra|].
      rewrite app_nth1 by lia. apply Hle. lia.
    + intros i Hi. rewrite app_nth1 by lia. auto.
Qed.

Lemma first_min_unique l k k' : first_min l k -> first_min l k' -> k = k'.
Proof.
  intros (K1 & K2 & K3) (L1 & L2 & L3).
  destruct (lt_eq_lt_dec k k') as [[H|H]|H]; auto; exfalso.
  - specialize (L3 k H). specialize (K2 k' L1). lra.
  - specialize (K3 k' H). specialize (L2 k K1). lra.
Qed.
Lemma argmin_spec l k : argmin l = Ok k <-> first_min l k.
Proof.
  assert (A : forall k, argmin l = Ok k -> first_min l k).
  { intros j H. destruct l as [|x t]; [discriminate|]. injection H as <-.
    apply (argmin_loop_spec t [x] 0 x); simpl; auto; try lia.
    intros [|i] Hi; [simpl; lra|lia]. }
  split; auto. intros H. destruct (argmin l) as [j|] eqn:E.
  - f_equal. apply (first_min_unique l j k); auto.
  - destruct l as [|x t]; [|discriminate]. destruct H as (H & _). simpl in H. lia.
Qed.

Lemma first_min_shift l d k : first_min l k -> first_min (map (fun v => v + d) l) k.
Proof.
  intros (K1 & K2 & K3). unfold first_min. rewrite map_length.
  assert (N : forall i, (i < length l)%nat -> nth i (map (fun v => v + d) l) 0 = nth i l 0 + d).
  { intros i Hi. rewrite (nth_indep _ 0 (0 + d)) by (rewrite map_length; auto). apply (map_nth (fun v => v + d)). }
  split; auto. split; intros i Hi; rewrite !N by lia; [specialize (K2 i Hi)|specialize (K3 i Hi)]; lra.
Qed.

(** Shift of a criterion when every log-likelihood is shifted by the same amount. *)
Definition ic_shift (c : criterion) (d : R) : R := match c with max_ll => - d | _ => - 2 * d end.
Lemma from_ll_shift c n p ll d : from_ll c n p (ll + d) =
  (do v <- from_ll c n p ll; Ok (v + ic_shift c d)).
Proof.
  destruct c; cbn [from_ll bind ic_shift]; try (destruct (Reqb _ _); [reflexivity|]; cbn [bind]); f_equal; ring.
Qed.
Lemma seq_shift c n d : forall ps lls,
  sequence (map2 (from_ll c n) ps (map (fun x => x + d) lls)) =
  (do vs <- sequence (map2 (from_ll c n) ps lls); Ok (map (fun v => v + ic_shift c d) vs)).
Proof.
  induction ps as [|p ps IH]; intros [|ll lls]; cbn [map map2 sequence bind]; auto.
  rewrite from_ll_shift, IH. destruct (from_ll c n p ll); cbn [bind]; auto.
  destruct (sequence _); cbn [bind map]; auto.
Qed.
Lemma from_ll_array_shift c n ps lls d :
  from_ll_array c n ps (map (fun x => x + d) lls) =
  (do vs <- from_ll_array c n ps lls; Ok (map (fun v => v + ic_shift c d) vs)).
Proof.
  unfold from_ll_array. destruct c; try apply seq_shift. destruct (2 <=? length ps)%nat; [reflexivity|apply seq_shift].
Qed.

Lemma C30_rescale_lemma : forall c n ps rsss k v v',
  0 < n -> 0 < k -> Forall (fun r => 0 < r) rsss ->
  from_rss_array c n ps rsss = Ok v -> from_rss_array c n ps (map (Rmult k) rsss) = Ok v' ->
  argmin v' = argmin v.
Proof.
  intros c n ps rsss k v v' Hn Hk Hr H H'. unfold from_rss_array in *.
  pose (C := - n / 2 * (1 + ln (2 * PI))). fold C in H, H'.
  assert (E : map (fun rss => - n / 2 * ln (rss / n) + C) (map (Rmult k) rsss)
            = map (fun x => x + (- n / 2 * ln k)) (map (fun rss => - n / 2 * ln (rss / n) + C) rsss)).
  { rewrite !map_map. apply map_ext_in. intros r Hin. rewrite Forall_forall in Hr. specialize (Hr r Hin).
    replace (k * r / n) with (k * (r / n)) by (field; lra).
    rewrite ln_mult; auto; [ring|apply Rdiv_lt_0_compat; auto]. }
  rewrite E, from_ll_array_shift, H in H'. cbn [bind] in H'. injection H' as <-.
  destruct (argmin v) as [j|] eqn:A.
  - apply argmin_spec in A. apply argmin_spec, first_min_shift, A.
  - destruct v; [exact A|discriminate].
Qed.

Lemma C30_likelihood_lemma : forall c n p ll ll' v v',
  ll <= ll' -> from_ll c n p ll = Ok v -> from_ll c n p ll' = Ok v' -> v' <= v.
Proof.
  intros c n p ll ll' v v' H. destruct c; cbn [from_ll];
    try (destruct (Reqb _ _); [discriminate|]); intros [= <-] [= <-]; lra.
Qed.

Lemma C30_parameters_lemma : forall c n p p' ll v v',
  0 <= p <= p' -> penalises c n p' ->
  from_ll c n p ll = Ok v -> from_ll c n p' ll = Ok v' -> v <= v'.
Proof.
  intros c n p p' ll v v' Hp Hn. destruct c; cbn [from_ll penalises] in *;
    try (destruct (Reqb _ _); [discriminate|]); try (destruct (Reqb (n - p' - 1) 0); [discriminate|]);
    intros [= <-] [= <-].
  - lra.
  - assert (p * 2 * n / (n - p - 1) <= p' * 2 * n / (n - p' - 1)); [|lra].
    apply Rmult_le_compat; try (apply Rinv_le_contravar; lra); try nra.
    left. apply Rinv_0_lt_compat. lra.
  - assert (0 <= ln n). { destruct Hn as [Hn| <-]; [|rewrite ln_1; lra]. left. rewrite <- ln_1. apply ln_increasing; lra. }
    nra.
  - assert (0 <= ln (ln n)); [|nra].
    assert (1 <= ln n).
    { destruct Hn as [Hn| <-]; [|rewrite ln_exp; lra]. left. rewrite <- (ln_exp 1). apply ln_increasing; auto. apply exp_pos. }
    destruct H as [H| <-]; [|rewrite ln_1; lra]. left. rewrite <- ln_1. apply ln_increasing; lra.
  - lra.
Qed.

Lemma seq_max n : forall ps lls, length ps = length lls ->
  sequence (map2 (from_ll max_ll n) ps lls) = Ok (map Ropp lls).
Proof.
  induction ps as [|p ps IH]; intros [|l lls] H; simpl in *; try lia; auto. rewrite IH by lia. reflexivity.
Qed.
Lemma C30_max_lemma : forall n ps lls v k, length ps = length lls ->
  from_ll_array max_ll n ps lls = Ok v -> argmin v = Ok k ->
  (k < length lls)%nat /\ forall i, (i < length lls)%nat -> nth i lls 0 <= nth k lls 0.
Proof.
  intros n ps lls v k L H A. unfold from_ll_array in H. rewrite seq_max in H by auto. injection H as <-.
  apply argmin_spec in A. destruct A as (K1 & K2 & _). rewrite map_length in *. split; auto.
  intros i Hi. specialize (K2 i Hi).
  rewrite <- Ropp_0, !map_nth in K2. lra.
Qed.

(** Short effective sample: hqc rewards parameters. *)
Lemma C30_hqc_lemma : forall n p p' ll v v', 1 < n < exp 1 -> p < p' ->
  from_ll hqc n p ll = Ok v -> from_ll hqc n p' ll = Ok v' -> v' < v.
Proof.
  intros n p p' ll v v' Hn Hp. cbn [from_ll]. intros [= <-] [= <-].
  assert (0 < ln n < 1).
  { split; [rewrite <- ln_1; apply ln_increasing; lra|]. rewrite <- (ln_exp 1). apply ln_increasing; lra. }
  assert (ln (ln n) < 0) by (rewrite <- ln_1; apply ln_increasing; lra). nra.
Qed.
Lemma C30_aicc_lemma : forall n ps lls, (2 <= length ps)%nat ->
  from_ll_array aicc n ps lls = Raise ValueError.
Proof. intros n ps lls H. cbn [from_ll_array]. rewrite (proj2 (Nat.leb_le _ _) H). reflexivity. Qed.

Lemma map2_nth {A B C} (f : A -> B -> C) (l : list A) (m : list B) i a b c : (i < length l)%nat -> (i < length m)%nat ->
  nth i (map2 f l m) c = f (nth i l a) (nth i m b).
Proof.
  revert m i. induction l as [|x l IH]; intros [|y m] [|i] H1 H2; simpl in *; try lia; auto. apply IH; lia.
Qed.
Lemma C70_lemma : forall X, length (add_intercept X) = length X /\
  forall i, (i < length X)%nat ->
    length (nth i (add_intercept X) []) = S (length (nth i X [])) /\
    nth 0 (nth i (add_intercept X) []) 0 = 1 /\
    forall j, nth (S j) (nth i (add_intercept X) []) 0 = nth j (nth i X []) 0.
Proof.
  intros X. unfold add_intercept. split; [rewrite map2_length; apply repeat_length|].
  intros i Hi. rewrite (map2_nth _ _ _ _ [] []) by (auto; rewrite repeat_length; auto).
  rewrite nth_repeat_lt by auto. simpl. auto.
Qed.

(** Lemmas: forgetting the past; C119 and C120. *)
From Coq Require Import Reals List Bool Arith Lra Lia.
From Verif Require Import Base Lin Data M_Gram S_Gram L_Gram M_OLS L_OLS
  M_Scaler M_Utils S_Utils M_State M_LM S_LM L_LM L_LM2 L_LM3 S_Learn L_Learn.
Import ListNotations.
Open Scope R_scope.

Lemma mvec_gram_app p f l m u i :
  mvec p (gram_spec f (l ++ m)) u i
  = (1 - f) ^ length m * mvec p (gram_spec f l) u i + mvec p (gram_spec f m) u i.
Proof.
  unfold mvec. rewrite (bsum_ext p _ (fun k => (1 - f) ^ length m * (gram_spec f l i k * u k) + gram_spec f m i k * u k)).
  - rewrite bsum_plus, bsum_scal_l. reflexivity.
  - intros k _. rewrite gram_app. ring.
Qed.

Lemma quad_gram_app p f l m u :
  quad p (gram_spec f (l ++ m)) u = (1 - f) ^ length m * quad p (gram_spec f l) u + quad p (gram_spec f m) u.
Proof. rewrite !gram_spec_quad. apply dsum_app. Qed.

Lemma exciting_quad p f lam l m v : 0 <= f <= 1 -> weights_nonneg l -> exciting p f lam m ->
  lam * dot p v v <= quad p (gram_spec f (l ++ m)) v.
Proof.
  intros Hf Hw HE. rewrite quad_gram_app. specialize (HE v). rewrite <- gram_spec_quad in HE.
  pose proof (gram_spec_psd f l p ltac:(lra) Hw v) as P.
  pose proof (pow_le (1 - f) (length m) ltac:(lra)) as Q.
  assert (0 <= (1 - f) ^ length m * quad p (gram_spec f l) v) by (apply Rmult_le_pos; auto). lra.
Qed.

Lemma pow_le1 g n : 0 <= g <= 1 -> 0 <= g ^ n <= 1.
Proof.
  intros H. split; [apply pow_le; lra|]. rewrite <- (pow1 n). apply pow_incr; lra.
Qed.

Lemma dot_le_sq p r C : (forall i, (i < p)%nat -> Rabs (r i) <= C i) -> dot p r r <= dot p C C.
Proof.
  intros H. apply bsum_le. intros i Hi. specialize (H i Hi).
  pose proof (Rabs_pos (r i)). assert (E : r i * r i = Rabs (r i) * Rabs (r i)).
  { rewrite <- Rabs_mult. symmetry. apply Rabs_pos_eq. nra. }
  rewrite E. apply Rmult_le_compat; auto.
Qed.

Lemma sqrt_bound a b : 0 <= b -> a * a <= b -> Rabs a <= sqrt b.
Proof. intros Hb H. rewrite <- sqrt_Rsqr_abs. apply sqrt_le_1_alt. exact H. Qed.

Lemma ygram_bound p f B l i : 0 < f <= 1 -> 0 <= B -> bounded_rows p B l -> (i < p)%nat ->
  Rabs (ygram_spec f l i) <= B ^ 3 / f.
Proof.
  intros Hf HB H Hi. unfold ygram_spec. replace f with (1 - (1 - f)) at 2 by ring.
  apply dsum_bound; [lra|apply pow_le; auto|]. intros o Ho.
  unfold bounded_rows in H. rewrite Forall_forall in H. destruct (H o Ho) as (W & Y & X).
  specialize (X i Hi). rewrite !Rabs_mult, (Rabs_pos_eq (ow o)) by apply W.
  replace (B ^ 3) with (B * B * B) by ring.
  pose proof (Rabs_pos (ox o i)). pose proof (Rabs_pos (oy o)).
  repeat apply Rmult_le_compat; try lra. apply Rmult_le_pos; lra.
Qed.

Lemma forgetting p f lam B l1 l2 : 0 < f < 1 -> 0 < lam -> 0 <= B -> weights_nonneg l1 -> weights_nonneg l2 ->
  exists C, 0 <= C /\ forall m b1 b2, bounded_rows p B m -> exciting p f lam m ->
    normal_equations p f (l1 ++ m) b1 -> normal_equations p f (l2 ++ m) b2 ->
    forall j, (j < p)%nat -> Rabs (b1 j - b2 j) <= C * (1 - f) ^ length m.
Proof.
  intros Hf Hl HB W1 W2.
  set (A1 := gram_spec f l1). set (A2 := gram_spec f l2).
  set (a1 := ygram_spec f l1). set (a2 := ygram_spec f l2).
  set (c2 := fun i => Rabs (a2 i) + B ^ 3 / f).
  set (K := sqrt (dot p c2 c2 / lam ^ 2)).
  set (r := fun i => Rabs (a1 i) + Rabs (a2 i) + bsum p (fun k => (Rabs (A1 i k) + Rabs (A2 i k)) * K)).
  exists (sqrt (dot p r r / lam ^ 2)). split; [apply sqrt_pos|].
  intros m b1 b2 HB' HE N1 N2. set (g := (1 - f) ^ length m).
  assert (Hg : 0 <= g <= 1) by (apply pow_le1; lra).
  assert (P2 : 0 < lam ^ 2) by (apply pow_lt; auto).
  assert (B2 : dot p b2 b2 <= dot p c2 c2 / lam ^ 2).
  { eapply Rle_trans; [apply (young p lam b2 (fun i => g * a2 i + ygram_spec f m i) Hl)|].
    - eapply Rle_trans; [apply (exciting_quad p f lam l2 m b2 ltac:(lra) W2 HE)|]. right. unfold quad.
      apply dot_ext; [intros i _; reflexivity|]. intros i Hi. rewrite (N2 i Hi). apply ygram_app.
    - apply Rmult_le_compat_r; [left; apply Rinv_0_lt_compat; exact P2|]. apply dot_le_sq. intros i Hi.
      unfold c2. eapply Rle_trans; [apply Rabs_triang|]. rewrite Rabs_mult, (Rabs_pos_eq g) by apply Hg.
      pose proof (ygram_bound p f B m i ltac:(lra) HB HB' Hi). pose proof (Rabs_pos (a2 i)).
      assert (g * Rabs (a2 i) <= 1 * Rabs (a2 i)) by (apply Rmult_le_compat_r; lra). lra. }
  assert (BK : forall k, (k < p)%nat -> Rabs (b2 k) <= K).
  { intros k Hk. apply sqrt_bound.
    - apply Rmult_le_pos; [apply dot_self_nonneg|left; apply Rinv_0_lt_compat; exact P2].
    - eapply Rle_trans; [apply (coord_le_norm p b2 k Hk)|exact B2]. }
  set (v := fun k => b1 k - b2 k).
  set (q := fun i => g * ((a1 i - mvec p A1 b2 i) - (a2 i - mvec p A2 b2 i))).
  assert (D : eqv p (mvec p (gram_spec f (l1 ++ m)) v) q).
  { intros i Hi. unfold v. rewrite mvec_minus. pose proof (N1 i Hi) as E1. pose proof (N2 i Hi) as E2.
    rewrite E1. rewrite mvec_gram_app in E2 |- *. rewrite ygram_app in E2 |- *.
    fold A1 A2 a1 a2 g in E2 |- *. unfold q. lra. }
  assert (V : dot p v v <= (g ^ 2) * (dot p r r / lam ^ 2)).
  { eapply Rle_trans; [apply (young p lam v q Hl)|].
    - eapply Rle_trans; [apply (exciting_quad p f lam l1 m v ltac:(lra) W1 HE)|]. right. unfold quad.
      apply dot_ext; [intros i _; reflexivity|exact D].
    - replace (g ^ 2 * (dot p r r / lam ^ 2)) with ((g ^ 2 * dot p r r) / lam ^ 2) by (field; lra).
      apply Rmult_le_compat_r; [left; apply Rinv_0_lt_compat; exact P2|].
      replace (g ^ 2 * dot p r r) with (dot p (fun i => g * r i) (fun i => g * r i))
        by (rewrite dot_scal_l, dot_scal_r; ring).
      apply dot_le_sq. intros i Hi. unfold q. rewrite Rabs_mult, (Rabs_pos_eq g) by apply Hg.
      apply Rmult_le_compat_l; [apply Hg|].
      assert (M : forall A : mat, Rabs (mvec p A b2 i) <= bsum p (fun k => Rabs (A i k) * K)).
      { intros A. unfold mvec. clear - BK. 
        assert (Z : forall n (h : nat -> R) (H : nat -> R), (forall k, (k < n)%nat -> Rabs (h k) <= H k) -> Rabs (bsum n h) <= bsum n H).
        { induction n as [|n IH]; intros h H Q; cbn [bsum]; [rewrite Rabs_R0; lra|].
          eapply Rle_trans; [apply Rabs_triang|]. apply Rplus_le_compat; [apply IH; intros; apply Q; lia|apply Q; lia]. }
        apply Z. intros k Hk. rewrite Rabs_mult. apply Rmult_le_compat_l; [apply Rabs_pos|]. apply BK, Hk. }
      pose proof (M A1) as M1. pose proof (M A2) as M2.
      unfold r. rewrite (bsum_ext p _ (fun k => Rabs (A1 i k) * K + Rabs (A2 i k) * K)) by (intros; ring).
      rewrite bsum_plus.
      pose proof (Rabs_triang (a1 i - mvec p A1 b2 i) (- (a2 i - mvec p A2 b2 i))) as T1. rewrite Rabs_Ropp in T1.
      pose proof (Rabs_triang (a1 i) (- mvec p A1 b2 i)) as T2. rewrite Rabs_Ropp in T2.
      pose proof (Rabs_triang (a2 i) (- mvec p A2 b2 i)) as T3. rewrite Rabs_Ropp in T3.
      unfold Rminus in *. lra. }
  intros j Hj. change (b1 j - b2 j) with (v j).
  replace (sqrt (dot p r r / lam ^ 2) * g) with (sqrt (g ^ 2 * (dot p r r / lam ^ 2))).
  - apply sqrt_bound.
    + apply Rmult_le_pos; [apply pow2_ge_0|]. apply Rmult_le_pos; [apply dot_self_nonneg|left; apply Rinv_0_lt_compat; exact P2].
    + eapply Rle_trans; [apply (coord_le_norm p v j Hj)|exact V].
  - rewrite sqrt_mult_alt by apply pow2_ge_0. rewrite sqrt_pow2 by apply Hg. ring.
Qed.

(** * C119 *)
Lemma map_dot_eqs p (l : list vec) b b' : eqv p b b' ->
  map (fun x => dot p x b) l = map (fun x => dot p x b') l.
Proof. intros H. apply map_ext. intros x. apply dot_ext; [intros i _; reflexivity|exact H]. Qed.

Lemma C119_exact_lemma inv c b0 bs b s :
  matinv_spec inv -> 0 <= c_forget c < 1 -> ols_config c -> good_calls (b_p b0) (b0 :: bs ++ [b]) ->
  lm_history (ols_ops inv) c (b0 :: bs) new_lm = Ok s ->
  snd (lm_predict c (b_p b0) (Xs (b_rows b)) s) = Ok (ys (b_rows b)) ->
  exists s' beta beta', partial_fit (ols_ops inv) c b s = (s', Ok tt) /\
    a_coef s = Some beta /\ a_coef s' = Some beta' /\ eqv (n_cols (c_icpt c) (b_p b0)) beta' beta /\
    forall X, X <> [] -> snd (lm_predict c (b_p b0) X s') = snd (lm_predict c (b_p b0) X s).
Proof.
  intros HI Hf HC HG H HP. change (b0 :: bs ++ [b]) with ((b0 :: bs) ++ [b]) in HG.
  apply good_calls_app in HG. destruct HG as [G1 G2].
  destruct (ols_lm_state inv c b0 bs s HI Hf HC G1 H) as (L & n & o & R & I).
  destruct (ols_lm_more inv c (b_p b0) [b] s n o _ Hf L R I G2) as (s' & n' & o' & E & R' & I').
  assert (Eb : stream [b] = b_rows b) by (unfold stream; cbn; apply app_nil_r). rewrite Eb in I'.
  assert (Nb : b_rows b <> []) by (inversion G2 as [|? ? (_ & ? & _)]; auto).
  assert (K : eqv (n_cols (c_icpt c) (b_p b0)) (ols_coef o') (ols_coef o)).
  { apply (update_exact _ _ _ _ _ _ Hf I I'). intros a Ha. apply in_map_iff in Ha. destruct Ha as (a0 & <- & Ha).
    rewrite (ols_predict _ _ _ _ _ _ R L) in HP by (unfold Xs; destruct (b_rows b); [congruence|discriminate]).
    assert (HP' : map (fun x => dot (n_cols (c_icpt c) (b_p b0)) (ox (regressors (c_icpt c) (mkobs x 0 0))) (ols_coef o)) (Xs (b_rows b)) = ys (b_rows b)) by congruence.
    clear - HP' Ha. unfold Xs, ys in HP'. induction (b_rows b) as [|o1 l IH]; [contradiction|].
    cbn [map] in HP'. injection HP' as Q1 Q2. destruct Ha as [->|Ha]; [|auto].
    unfold regressors in *. cbn [oy ox] in *. symmetry. exact Q1. }
  exists s', (ols_coef o), (ols_coef o'). split; [apply partial_fit_history; exact E|].
  split; [apply R|]. split; [apply R'|]. split; [exact K|].
  intros X HX. rewrite (ols_predict _ _ _ _ _ X R), (ols_predict _ _ _ _ _ X R') by auto.
  f_equal. apply map_ext. intros x. apply dot_ext; [intros i _; reflexivity|exact K].
Qed.

Lemma C119_row_lemma inv c b0 bs b s x y w :
  matinv_spec inv -> 0 <= c_forget c < 1 -> ols_config c -> good_calls (b_p b0) (b0 :: bs ++ [b]) ->
  lm_history (ols_ops inv) c (b0 :: bs) new_lm = Ok s ->
  b_rows b = [mkobs x y w] ->
  exists s' v v' h, partial_fit (ols_ops inv) c b s = (s', Ok tt) /\
    snd (lm_predict c (b_p b0) [x] s) = Ok [v] /\ snd (lm_predict c (b_p b0) [x] s') = Ok [v'] /\
    0 <= h < 1 /\ v' = v + h * (y - v) /\
    (0 < w -> c_icpt c = true \/ (exists j, (j < b_p b0)%nat /\ x j <> 0) -> 0 < h).
Proof.
  intros HI Hf HC HG H Hb. change (b0 :: bs ++ [b]) with ((b0 :: bs) ++ [b]) in HG.
  apply good_calls_app in HG. destruct HG as [G1 G2].
  destruct (ols_lm_state inv c b0 bs s HI Hf HC G1 H) as (L & n & o & R & I).
  destruct (ols_lm_more inv c (b_p b0) [b] s n o _ Hf L R I G2) as (s' & n' & o' & E & R' & I').
  assert (Eb : stream [b] = [mkobs x y w]) by (unfold stream; cbn; rewrite app_nil_r; exact Hb).
  rewrite Eb in I'. cbn [map] in I'.
  destruct (update_row _ _ _ _ _ _ Hf I I') as (h & H1 & H2 & H3).
  exists s'. eexists _, _, h. split; [apply partial_fit_history; exact E|].
  split; [apply (ols_predict _ _ _ _ _ [x] R L); discriminate|].
  split; [apply (ols_predict _ _ _ _ _ [x] R' L); discriminate|].
  split; [exact H1|]. split; [exact H2|].
  intros Hw HX. apply H3; [exact Hw|]. unfold regressors, n_cols. cbn [ox].
  destruct (c_icpt c).
  - exists 0%nat. split; [lia|]. lra.
  - destruct HX as [HX|(j & Hj & Nj)]; [discriminate|]. exists j. split; [lia|exact Nj].
Qed.

Lemma batch_error_loss icpt p f l b :
  batch_error f l (map (fun x => dot p (ox (regressors icpt (mkobs x 0 0))) b) (Xs l))
  = wls_loss p f (map (regressors icpt) l) b.
Proof.
  unfold batch_error, wls_loss, Xs. induction l as [|a l IH]; cbn [map combine dsum]; [reflexivity|].
  rewrite IH. rewrite combine_length, !map_length, Nat.min_id. reflexivity.
Qed.

Lemma C119_batch_lemma inv c b0 bs b s :
  matinv_spec inv -> 0 <= c_forget c < 1 -> ols_config c -> good_calls (b_p b0) (b0 :: bs ++ [b]) ->
  lm_history (ols_ops inv) c (b0 :: bs) new_lm = Ok s ->
  exists s' beta beta' pred pred', partial_fit (ols_ops inv) c b s = (s', Ok tt) /\
    a_coef s = Some beta /\ a_coef s' = Some beta' /\
    snd (lm_predict c (b_p b0) (Xs (b_rows b)) s) = Ok pred /\
    snd (lm_predict c (b_p b0) (Xs (b_rows b)) s') = Ok pred' /\
    (eqv (n_cols (c_icpt c) (b_p b0)) beta' beta \/
     batch_error (c_forget c) (b_rows b) pred' < batch_error (c_forget c) (b_rows b) pred).
Proof.
  intros HI Hf HC HG H. change (b0 :: bs ++ [b]) with ((b0 :: bs) ++ [b]) in HG.
  apply good_calls_app in HG. destruct HG as [G1 G2].
  destruct (ols_lm_state inv c b0 bs s HI Hf HC G1 H) as (L & n & o & R & I).
  destruct (ols_lm_more inv c (b_p b0) [b] s n o _ Hf L R I G2) as (s' & n' & o' & E & R' & I').
  assert (Eb : stream [b] = b_rows b) by (unfold stream; cbn; apply app_nil_r). rewrite Eb in I'.
  assert (Nb : Xs (b_rows b) <> []).
  { inversion G2 as [|? ? (_ & Q & _)]. unfold Xs. destruct (b_rows b); [congruence|discriminate]. }
  exists s', (ols_coef o), (ols_coef o'). eexists _, _.
  split; [apply partial_fit_history; exact E|]. split; [apply R|]. split; [apply R'|].
  split; [apply (ols_predict _ _ _ _ _ _ R L Nb)|]. split; [apply (ols_predict _ _ _ _ _ _ R' L Nb)|].
  rewrite !batch_error_loss. destruct (update_loss _ _ _ _ _ _ Hf I I') as ([K|K] & J); [right; exact K|left; auto].
Qed.

(** * C120 *)
Lemma C120_forgets_lemma inv c p a0 a d0 d s1 s2 B lam :
  matinv_spec inv -> 0 < c_forget c < 1 -> ols_config c -> 0 < lam -> 0 <= B ->
  b_p a0 = p -> b_p d0 = p -> good_calls p (a0 :: a) -> good_calls p (d0 :: d) ->
  lm_history (ols_ops inv) c (a0 :: a) new_lm = Ok s1 -> lm_history (ols_ops inv) c (d0 :: d) new_lm = Ok s2 ->
  let cols := n_cols (c_icpt c) p in
  exists C, 0 <= C /\ forall tail, good_calls p tail ->
    let later := map (regressors (c_icpt c)) (stream tail) in
    bounded_rows cols B later -> exciting cols (c_forget c) lam later ->
    exists t1 t2 beta1 beta2,
      lm_history (ols_ops inv) c tail s1 = Ok t1 /\ lm_history (ols_ops inv) c tail s2 = Ok t2 /\
      a_coef t1 = Some beta1 /\ a_coef t2 = Some beta2 /\
      forall j, (j < cols)%nat -> Rabs (beta1 j - beta2 j) <= C * (1 - c_forget c) ^ length later.
Proof.
  intros HI Hf HC Hl HB P1 P2 G1 G2 H1 H2 cols. assert (Hf' : 0 <= c_forget c < 1) by lra.
  rewrite <- P1 in G1. rewrite <- P2 in G2.
  destruct (ols_lm_state inv c a0 a s1 HI Hf' HC G1 H1) as (L1 & n1 & o1 & R1 & I1). rewrite P1 in L1, R1, I1.
  destruct (ols_lm_state inv c d0 d s2 HI Hf' HC G2 H2) as (L2 & n2 & o2 & R2 & I2). rewrite P2 in L2, R2, I2.
  destruct (forgetting cols (c_forget c) lam B _ _ Hf Hl HB (ols_inv_weights _ _ _ _ I1) (ols_inv_weights _ _ _ _ I2)) as (C & HC0 & K).
  exists C. split; [exact HC0|]. intros tail GT later HBd HE.
  destruct (ols_lm_more inv c p tail s1 _ _ _ Hf' L1 R1 I1 GT) as (t1 & m1 & u1 & E1 & T1 & J1).
  destruct (ols_lm_more inv c p tail s2 _ _ _ Hf' L1 R2 I2 GT) as (t2 & m2 & u2 & E2 & T2 & J2).
  exists t1, t2, (ols_coef u1), (ols_coef u2). split; [exact E1|]. split; [exact E2|].
  split; [apply T1|]. split; [apply T2|].
  exact (K later _ _ HBd HE (ols_inv_coef _ _ _ _ J1) (ols_inv_coef _ _ _ _ J2)).
Qed.

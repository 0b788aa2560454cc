(** Lemmas for C131. *)
From Coq Require Import Reals List Bool Arith Lra Lia.
From Verif Require Import Base Lin Data M_Gram S_Gram L_Gram M_OLS L_OLS
  M_Scaler M_Utils S_Utils M_State M_LM S_LM L_LM L_LM2 L_LM3 L_LM4 S_Learn L_Learn L_Learn2 L_LearnEx S_Windup.
Import ListNotations.
Open Scope R_scope.

Lemma evidence_regressors f icpt n u l :
  evidence f icpt n u l = quad n (gram_spec f (map (regressors icpt) l)) u.
Proof.
  rewrite gram_spec_quad. unfold evidence. induction l as [|a l IH]; [reflexivity|].
  cbn [map dsum]. rewrite IH, map_length. reflexivity.
Qed.

Lemma evidence_app f icpt n u l m :
  evidence f icpt n u (l ++ m) = (1 - f) ^ length m * evidence f icpt n u l + evidence f icpt n u m.
Proof. unfold evidence. rewrite dsum_app. ring. Qed.

Lemma evidence_unseen f icpt n u l : unseen icpt n u l -> evidence f icpt n u l = 0.
Proof.
  intros H. unfold evidence. rewrite (dsum_ext _ _ (fun _ => 0)); [apply dsum_zero|].
  intros o Ho. unfold unseen in H. rewrite Forall_forall in H. rewrite (H o Ho). ring.
Qed.

Lemma evidence_nonneg f icpt n u l : f <= 1 -> weights_nonneg l -> 0 <= evidence f icpt n u l.
Proof.
  intros Hf Hw. unfold evidence. apply dsum_nonneg; [lra|]. intros o Ho.
  unfold weights_nonneg in Hw. rewrite Forall_forall in Hw. apply Rmult_le_pos; [auto|apply pow2_ge_0].
Qed.

(** Cauchy-Schwarz for a positive semi-definite form. *)
Lemma psd_cauchy p G u d : symmetric p G -> psd p G ->
  (dot p u (mvec p G d)) ^ 2 <= quad p G u * quad p G d.
Proof.
  intros SG PG. set (A := quad p G u). set (B := dot p u (mvec p G d)). set (C := quad p G d).
  assert (Q : forall t, 0 <= t * t * A + 2 * t * B + C).
  { intros t. pose proof (PG (fun i => t * u i + d i)) as H.
    replace (t * t * A + 2 * t * B + C) with (quad p G (fun i => t * u i + d i)); [exact H|].
    unfold quad.
    rewrite (dot_ext p _ (fun i => t * u i + d i) _ (fun i => t * mvec p G u i + mvec p G d i) (fun i _ => eq_refl)).
    - rewrite dot_plus_r, dot_scal_r, !(dot_comm p (fun i => t * u i + d i)), !dot_plus_r, !dot_scal_r.
      rewrite !(dot_comm p (mvec p G u)), !(dot_comm p (mvec p G d)).
      assert (E : dot p d (mvec p G u) = B).
      { unfold B. rewrite dot_mvec_sym by exact SG. apply dot_comm. }
      rewrite E. fold B. unfold A, C, quad. ring.
    - intros i _. unfold mvec. rewrite <- bsum_scal_l, <- bsum_plus. apply bsum_ext. intros; ring. }
  assert (PA : 0 <= A) by apply PG.
  destruct (Req_dec A 0) as [Z|Z].
  - destruct (Req_dec B 0) as [ZB|ZB]; [rewrite ZB, Z; lra|].
    exfalso. specialize (Q (- (C + 1) / (2 * B))). rewrite Z in Q.
    replace (2 * (- (C + 1) / (2 * B)) * B) with (- (C + 1)) in Q by (field; exact ZB). lra.
  - specialize (Q (- B / A)).
    replace (- B / A * (- B / A) * A + 2 * (- B / A) * B + C) with ((A * C - B ^ 2) / A) in Q by (field; exact Z).
    assert (0 < A) by lra.
    assert (0 <= (A * C - B ^ 2) / A * A) by (apply Rmult_le_pos; lra).
    replace ((A * C - B ^ 2) / A * A) with (A * C - B ^ 2) in H0 by (field; lra). lra.
Qed.

Lemma row_leverage p f l a o o' u : 0 <= f < 1 -> ols_inv p f l o -> ols_inv p f (l ++ [a]) o' ->
  ow a * (dot p (ox a) u) ^ 2 * Rabs (oy a - dot p (ox a) (ols_coef o'))
  <= (1 - f) * quad p (gram_spec f l) u * Rabs (oy a - dot p (ox a) (ols_coef o)).
Proof.
  intros Hf I I'. pose proof (ols_inv_coef _ _ _ _ I) as N. pose proof (ols_inv_coef _ _ _ _ I') as N'.
  unfold normal_equations in N, N'. pose proof (ols_inv_weights _ _ _ _ I) as W. pose proof (ols_inv_weights _ _ _ _ I') as W'.
  set (G := gram_spec f l) in *. set (G' := gram_spec f (l ++ [a])) in *.
  set (b := ols_coef o) in *. set (b' := ols_coef o') in *.
  set (x := ox a) in *. set (w := ow a) in *. set (e := oy a - dot p x b). set (e' := oy a - dot p x b').
  assert (Hw : 0 <= w) by (apply Forall_app in W'; destruct W' as [_ W']; inversion W'; auto).
  assert (SG : symmetric p G) by apply gram_spec_sym.
  assert (PG : psd p G) by (apply gram_spec_psd; auto; lra).
  assert (EG : forall u i, mvec p G' u i = (1 - f) * mvec p G u i + w * x i * dot p x u).
  { intros v i. unfold mvec, G'. rewrite (bsum_ext p _ (fun k => (1 - f) * (G i k * v k) + w * x i * (x k * v k))).
    - rewrite bsum_plus, !bsum_scal_l. reflexivity.
    - intros k _. rewrite gram_spec_snoc. fold G x w. unfold outer. ring. }
  set (d := fun k => b' k - b k).
  assert (D : eqv p (fun i => (1 - f) * mvec p G d i) (fun i => w * e' * x i)).
  { intros i Hi. unfold d. rewrite mvec_minus. rewrite (N i Hi).
    pose proof (N' i Hi) as E. rewrite EG in E. unfold ygram_spec in E at 1. rewrite dsum_app in E.
    cbn [length dsum] in E. fold x w in E. fold (ygram_spec f l i) in E. unfold e'. lra. }
  assert (D1 : (1 - f) * dot p u (mvec p G d) = w * e' * dot p x u).
  { rewrite <- dot_scal_r. rewrite (dot_ext p u u _ _ (fun i _ => eq_refl) D), dot_scal_r, (dot_comm p u x). reflexivity. }
  assert (D2 : (1 - f) * quad p G d = w * e' * (e - e')).
  { unfold quad. rewrite <- dot_scal_r. rewrite (dot_ext p d d _ _ (fun i _ => eq_refl) D), dot_scal_r, (dot_comm p d x).
    unfold d. rewrite dot_minus_r. unfold e, e'. ring. }
  pose proof (psd_cauchy p G u d SG PG) as CS.
  pose proof (PG u) as PA. set (A := quad p G u) in *. set (ux := dot p x u) in *. clearbody A ux e e' w.
  assert (K : w * (w * (e' ^ 2 * ux ^ 2)) <= w * ((1 - f) * A * (e' * (e - e')))).
  { replace (w * (w * (e' ^ 2 * ux ^ 2))) with (((1 - f) * dot p u (mvec p G d)) ^ 2) by (rewrite D1; ring).
    replace (w * ((1 - f) * A * (e' * (e - e')))) with ((1 - f) ^ 2 * (A * quad p G d)).
    - rewrite Rpow_mult_distr. apply Rmult_le_compat_l; [apply pow2_ge_0|exact CS].
    - replace ((1 - f) ^ 2 * (A * quad p G d)) with ((1 - f) * A * ((1 - f) * quad p G d)) by ring. rewrite D2. ring. }
  assert (PgA : 0 <= (1 - f) * A) by (apply Rmult_le_pos; lra).
  destruct (Req_dec w 0) as [Z|Z].
  { rewrite Z. rewrite !Rmult_0_l. apply Rmult_le_pos; [exact PgA|apply Rabs_pos]. }
  apply Rmult_le_reg_l in K; [|lra].
  destruct (Req_dec e' 0) as [Z'|Z'].
  { rewrite Z', Rabs_R0, Rmult_0_r. apply Rmult_le_pos; [exact PgA|apply Rabs_pos]. }
  assert (Pe : 0 < Rabs e') by (apply Rabs_pos_lt; exact Z').
  apply (Rmult_le_reg_l (Rabs e')); [exact Pe|].
  replace (Rabs e' * (w * ux ^ 2 * Rabs e')) with (w * ((Rabs e') ^ 2 * ux ^ 2)) by ring.
  rewrite <- (pow2_abs e') in K.
  replace (Rabs e' * ((1 - f) * A * Rabs e)) with ((1 - f) * A * (Rabs e' * Rabs e)) by ring.
  eapply Rle_trans; [exact K|]. apply Rmult_le_compat_l; [exact PgA|].
  rewrite <- Rabs_mult. pose proof (Rle_abs (e' * e)). pose proof (pow2_ge_0 e'). nra.
Qed.

Lemma C131_one_row_lemma inv c b0 bs b s x y w u :
  matinv_spec inv -> 0 <= c_forget c < 1 -> ols_config c -> good_calls (b_p b0) (b0 :: bs ++ [b]) ->
  lm_history (ols_ops inv) c (b0 :: bs) new_lm = Ok s -> b_rows b = [mkobs x y w] ->
  exists s' v v', partial_fit (ols_ops inv) c b s = (s', Ok tt) /\
    snd (lm_predict c (b_p b0) [x] s) = Ok [v] /\ snd (lm_predict c (b_p b0) [x] s') = Ok [v'] /\
    w * (dot (n_cols (c_icpt c) (b_p b0)) (ox (regressors (c_icpt c) (mkobs x y w))) u) ^ 2 * Rabs (y - v')
    <= (1 - c_forget c) * evidence (c_forget c) (c_icpt c) (n_cols (c_icpt c) (b_p b0)) u (stream (b0 :: bs)) * Rabs (y - v).
Proof.
  intros HI Hf HC HG H Hb. change (b0 :: bs ++ [b]) with ((b0 :: bs) ++ [b]) in HG.
  apply good_calls_app in HG. destruct HG as [G1 G2].
  destruct (ols_lm_state inv c b0 bs s HI Hf HC G1 H) as (L & n & o & R & I).
  destruct (ols_lm_more inv c (b_p b0) [b] s n o _ Hf L R I G2) as (s' & n' & o' & E & R' & I').
  assert (Eb : stream [b] = [mkobs x y w]) by (unfold stream; cbn; rewrite app_nil_r; exact Hb).
  rewrite Eb in I'. cbn [map] in I'.
  exists s'. eexists _, _. split; [apply partial_fit_history; exact E|].
  split; [apply (ols_predict _ _ _ _ _ [x] R L); discriminate|].
  split; [apply (ols_predict _ _ _ _ _ [x] R' L); discriminate|].
  pose proof (row_leverage _ _ _ _ _ _ u Hf I I') as K. rewrite <- evidence_regressors in K.
  exact K.
Qed.

Lemma C131_windup_lemma inv c b0 bs qs b s x y w u :
  matinv_spec inv -> 0 <= c_forget c < 1 -> ols_config c -> good_calls (b_p b0) (b0 :: bs ++ qs ++ [b]) ->
  lm_history (ols_ops inv) c (b0 :: bs) new_lm = Ok s -> b_rows b = [mkobs x y w] ->
  unseen (c_icpt c) (n_cols (c_icpt c) (b_p b0)) u (stream qs) ->
  exists s1 s2 v v', lm_history (ols_ops inv) c qs s = Ok s1 /\ partial_fit (ols_ops inv) c b s1 = (s2, Ok tt) /\
    snd (lm_predict c (b_p b0) [x] s1) = Ok [v] /\ snd (lm_predict c (b_p b0) [x] s2) = Ok [v'] /\
    w * (dot (n_cols (c_icpt c) (b_p b0)) (ox (regressors (c_icpt c) (mkobs x y w))) u) ^ 2 * Rabs (y - v')
    <= (1 - c_forget c) ^ S (length (stream qs))
       * evidence (c_forget c) (c_icpt c) (n_cols (c_icpt c) (b_p b0)) u (stream (b0 :: bs)) * Rabs (y - v).
Proof.
  intros HI Hf HC HG H Hb HU.
  assert (HG2 : good_calls (b_p b0) ((b0 :: bs) ++ qs ++ [b])) by exact HG.
  apply good_calls_app in HG2. destruct HG2 as [G1 G2]. apply good_calls_app in G2. destruct G2 as [G2 G3].
  destruct (ols_lm_state inv c b0 bs s HI Hf HC G1 H) as (L & n & o & R & I).
  destruct (ols_lm_more inv c (b_p b0) qs s n o _ Hf L R I G2) as (s1 & n' & o' & E & _ & _).
  assert (H1 : lm_history (ols_ops inv) c (b0 :: bs ++ qs) new_lm = Ok s1).
  { change (b0 :: bs ++ qs) with ((b0 :: bs) ++ qs). rewrite lm_history_app, H. cbn [bind]. exact E. }
  rewrite app_assoc in HG.
  destruct (C131_one_row_lemma inv c b0 (bs ++ qs) b s1 x y w u HI Hf HC HG H1 Hb) as (s2 & v & v' & P & V & V' & K).
  exists s1, s2, v, v'. split; [exact E|]. split; [exact P|]. split; [exact V|]. split; [exact V'|].
  eapply Rle_trans; [exact K|]. apply Req_le.
  change (b0 :: bs ++ qs) with ((b0 :: bs) ++ qs). rewrite stream_app, evidence_app, (evidence_unseen _ _ _ _ (stream qs)) by exact HU.
  cbn [pow]. ring.
Qed.

Lemma C131_limit_lemma inv c b0 bs s u delta eps :
  matinv_spec inv -> 0 < c_forget c < 1 -> ols_config c -> good_calls (b_p b0) (b0 :: bs) ->
  lm_history (ols_ops inv) c (b0 :: bs) new_lm = Ok s -> 0 < delta -> 0 < eps ->
  exists N, forall qs b x y w,
    good_calls (b_p b0) (qs ++ [b]) -> unseen (c_icpt c) (n_cols (c_icpt c) (b_p b0)) u (stream qs) ->
    (N <= length (stream qs))%nat -> b_rows b = [mkobs x y w] ->
    delta <= w * (dot (n_cols (c_icpt c) (b_p b0)) (ox (regressors (c_icpt c) (mkobs x y w))) u) ^ 2 ->
    exists s1 s2 v v', lm_history (ols_ops inv) c qs s = Ok s1 /\ partial_fit (ols_ops inv) c b s1 = (s2, Ok tt) /\
      snd (lm_predict c (b_p b0) [x] s1) = Ok [v] /\ snd (lm_predict c (b_p b0) [x] s2) = Ok [v'] /\
      Rabs (y - v') <= eps * Rabs (y - v).
Proof.
  intros HI Hf HC HG H Hd He.
  set (E := evidence (c_forget c) (c_icpt c) (n_cols (c_icpt c) (b_p b0)) u (stream (b0 :: bs))).
  assert (HE : 0 <= E).
  { apply evidence_nonneg; [lra|]. destruct (good_calls_lists (c_icpt c) _ _ HG) as (_ & _ & _ & W). exact W. }
  assert (Q : 0 < delta * eps / (E + 1)) by (apply Rdiv_lt_0_compat; [apply Rmult_lt_0_compat; lra|lra]).
  destruct (pow_lt_1_zero (1 - c_forget c) ltac:(rewrite Rabs_right; lra) _ Q) as (N & HN).
  exists N. intros qs b x y w HG' HU HL Hb Hw.
  destruct (C131_windup_lemma inv c b0 bs qs b s x y w u HI ltac:(lra) HC) as (s1 & s2 & v & v' & A & B & V & V' & K); auto.
  { change (b0 :: bs ++ qs ++ [b]) with ((b0 :: bs) ++ qs ++ [b]). apply good_calls_app. split; assumption. }
  exists s1, s2, v, v'. do 4 (split; [assumption|]). fold E in K.
  specialize (HN (S (length (stream qs))) ltac:(lia)). rewrite Rabs_right in HN by (apply Rle_ge, pow_le; lra).
  set (g := (1 - c_forget c) ^ S (length (stream qs))) in *. clearbody g.
  assert (g * E <= delta * eps).
  { apply Rle_trans with (delta * eps / (E + 1) * E); [apply Rmult_le_compat_r; lra|].
    replace (delta * eps / (E + 1) * E) with (delta * eps * (E / (E + 1))) by (field; lra).
    rewrite <- (Rmult_1_r (delta * eps)) at 2. apply Rmult_le_compat_l; [nra|].
    apply (Rmult_le_reg_r (E + 1)); [lra|]. unfold Rdiv. rewrite Rmult_assoc, Rinv_l by lra. lra. }
  apply (Rmult_le_reg_l delta); [exact Hd|].
  apply Rle_trans with (g * E * Rabs (y - v)).
  - eapply Rle_trans; [|exact K]. apply Rmult_le_compat_r; [apply Rabs_pos|exact Hw].
  - rewrite <- Rmult_assoc. apply Rmult_le_compat_r; [apply Rabs_pos|assumption].
Qed.

Lemma dsum_map {A B} g (f : B -> R) (h : A -> B) l : dsum g f (map h l) = dsum g (fun a => f (h a)) l.
Proof. induction l as [|a l IH]; [reflexivity|]. cbn [map dsum]. rewrite IH, map_length. reflexivity. Qed.

Lemma column_normal f icpt cols k l b : (k < cols)%nat -> separate icpt cols k l ->
  mvec cols (gram_spec f (map (regressors icpt) l)) b k
  = dsum (1 - f) (fun o => ow o * ox (regressors icpt o) k ^ 2) l * b k.
Proof.
  intros Hk HS. unfold mvec.
  rewrite (bsum_ext cols _ (fun j => if Nat.eqb j k then dsum (1 - f) (fun o => ow o * ox (regressors icpt o) k ^ 2) l * b j else 0)).
  - rewrite (bsum_delta cols k (fun j => dsum (1 - f) (fun o => ow o * ox (regressors icpt o) k ^ 2) l * b j) Hk). reflexivity.
  - intros j Hj. unfold gram_spec. rewrite dsum_map.
    destruct (Nat.eqb_spec j k) as [->|N].
    + f_equal. apply dsum_ext. intros o _. cbn [regressors ow]. ring.
    + rewrite (dsum_ext _ _ (fun _ => 0)); [rewrite dsum_zero; ring|].
      intros o Ho. unfold separate in HS. rewrite Forall_forall in HS. pose proof (HS o Ho j Hj N).
      rewrite Rmult_assoc, H. ring.
Qed.

Lemma ols_column_mean f icpt cols k l o : 0 <= f < 1 -> (k < cols)%nat -> separate icpt cols k l ->
  ols_inv cols f (map (regressors icpt) l) o -> is_column_mean f icpt k l (ols_coef o k).
Proof.
  intros Hf Hk HS I. pose proof (ols_inv_coef _ _ _ _ I) as N. unfold normal_equations in N.
  pose proof (ols_inv_weights _ _ _ _ I) as W.
  specialize (N k Hk). rewrite column_normal in N by assumption.
  unfold ygram_spec in N. rewrite dsum_map in N.
  assert (P : 0 < dsum (1 - f) (fun o => ow o * ox (regressors icpt o) k ^ 2) l).
  { assert (Q : quad cols (gram_spec f (map (regressors icpt) l)) (L_CD.unitv k)
        = dsum (1 - f) (fun o => ow o * ox (regressors icpt o) k ^ 2) l).
    { rewrite gram_spec_quad, dsum_map. apply dsum_ext. intros a _. rewrite L_CD.dot_unit by exact Hk. reflexivity. }
    rewrite <- Q. set (G := gram_spec f (map (regressors icpt) l)) in *.
    assert (SG : symmetric cols G) by apply gram_spec_sym.
    assert (PG : psd cols G) by (apply gram_spec_psd; auto; lra).
    destruct (PG (L_CD.unitv k)) as [P|P]; [exact P|]. exfalso. symmetry in P.
    destruct I as ((IA & _) & _).
    pose proof (inverse_pd cols G (ols_x o) _ SG PG IA P k Hk) as Z. unfold L_CD.unitv in Z.
    rewrite Nat.eqb_refl in Z. lra. }
  split; [exact P|]. cbn zeta. apply (Rmult_eq_reg_l (dsum (1 - f) (fun o => ow o * ox (regressors icpt o) k ^ 2) l)); [|lra].
  rewrite N. field_simplify; [|lra]. apply dsum_ext. intros a _. cbn [regressors ow oy]. ring.
Qed.

Lemma C131_category_lemma inv c b0 bs s k :
  matinv_spec inv -> 0 <= c_forget c < 1 -> ols_config c -> good_calls (b_p b0) (b0 :: bs) ->
  lm_history (ols_ops inv) c (b0 :: bs) new_lm = Ok s -> (k < n_cols (c_icpt c) (b_p b0))%nat ->
  separate (c_icpt c) (n_cols (c_icpt c) (b_p b0)) k (stream (b0 :: bs)) ->
  exists beta, a_coef s = Some beta /\ is_column_mean (c_forget c) (c_icpt c) k (stream (b0 :: bs)) (beta k).
Proof.
  intros HI Hf HC HG H Hk HS. destruct (ols_lm_state inv c b0 bs s HI Hf HC HG H) as (L & n & o & R & I).
  exists (ols_coef o). split; [apply R|]. exact (ols_column_mean _ _ _ _ _ _ Hf Hk HS I).
Qed.

Lemma C131_frozen_lemma inv c b0 bs qs s k :
  matinv_spec inv -> 0 <= c_forget c < 1 -> ols_config c -> good_calls (b_p b0) (b0 :: bs ++ qs) ->
  lm_history (ols_ops inv) c (b0 :: bs) new_lm = Ok s -> (k < n_cols (c_icpt c) (b_p b0))%nat ->
  separate (c_icpt c) (n_cols (c_icpt c) (b_p b0)) k (stream (b0 :: bs)) ->
  Forall (fun o => ox (regressors (c_icpt c) o) k = 0) (stream qs) ->
  exists s1 beta beta1, lm_history (ols_ops inv) c qs s = Ok s1 /\
    a_coef s = Some beta /\ a_coef s1 = Some beta1 /\ beta1 k = beta k.
Proof.
  intros HI Hf HC HG H Hk HS HQ.
  assert (HG2 : good_calls (b_p b0) ((b0 :: bs) ++ qs)) by exact HG.
  apply good_calls_app in HG2. destruct HG2 as [G1 G2].
  destruct (ols_lm_state inv c b0 bs s HI Hf HC G1 H) as (L & n & o & R & I).
  destruct (ols_lm_more inv c (b_p b0) qs s n o _ Hf L R I G2) as (s1 & n' & o' & E & R' & I').
  exists s1, (ols_coef o), (ols_coef o'). split; [exact E|]. split; [apply R|]. split; [apply R'|].
  rewrite <- map_app in I'.
  assert (HS' : separate (c_icpt c) (n_cols (c_icpt c) (b_p b0)) k (stream (b0 :: bs) ++ stream qs)).
  { apply Forall_app. split; [exact HS|]. eapply Forall_impl; [|exact HQ]. intros a Ha j _ _. cbn beta in Ha. rewrite Ha. ring. }
  destruct (ols_column_mean _ _ _ _ _ _ Hf Hk HS I) as (P & ->).
  destruct (ols_column_mean _ _ _ _ _ _ Hf Hk HS' I') as (P' & ->).
  cbn zeta in *. rewrite Forall_forall in HQ.
  assert (Z : forall h, (forall a, In a (stream qs) -> h a = 0) ->
     dsum (1 - c_forget c) h (stream (b0 :: bs) ++ stream qs)
     = (1 - c_forget c) ^ length (stream qs) * dsum (1 - c_forget c) h (stream (b0 :: bs))).
  { intros h Hh. rewrite dsum_app. rewrite (dsum_ext _ h (fun _ => 0) (stream qs) Hh), dsum_zero. ring. }
  rewrite !Z by (intros a Ha; rewrite (HQ a Ha); ring).
  assert (0 < (1 - c_forget c) ^ length (stream qs)) by (apply pow_lt; lra). field. split; lra.
Qed.

(** Lemmas for C133. *)
From Coq Require Import Reals List Bool Arith Lra Lia.
From Verif Require Import Base Lin Data M_Gram S_Gram L_Gram M_OLS L_OLS M_CD M_Path M_Ridge
  M_Scaler M_Utils S_Utils M_State M_LM S_LM L_LM L_LM2 L_LM3 L_LM4 S_Learn L_Learn L_Learn2 L_LearnEx
  S_Recode L_Recode S_Super L_Super S_Penal L_Penal S_Windup L_Windup S_RidgeLM L_RidgeLM S_Mask.
Import ListNotations.
Open Scope R_scope.

Lemma dsum_masked f (h : obs -> R) l q : (forall a, In a q -> h a = 0) ->
  dsum (1 - f) h (l ++ q) = (1 - f) ^ length q * dsum (1 - f) h l.
Proof. intros Hh. rewrite dsum_app, (dsum_ext _ h (fun _ => 0) q Hh), dsum_zero. ring. Qed.

Lemma masked_coef p f l q o o' : 0 <= f < 1 -> masked q -> ols_inv p f l o -> ols_inv p f (l ++ q) o' ->
  eqv p (ols_coef o') (ols_coef o).
Proof.
  intros Hf HM I I'. pose proof (ols_inv_coef _ _ _ _ I) as N. pose proof (ols_inv_coef _ _ _ _ I') as N'.
  pose proof (ols_inv_weights _ _ _ _ I) as W. destruct I as ((IA & _) & _).
  assert (Hg : 0 < (1 - f) ^ length q) by (apply pow_lt; lra).
  apply (normal_unique p f l (ols_x o)); [exact IA|lra|exact W|exact N|].
  unfold masked in HM. rewrite Forall_forall in HM.
  intros i Hi. pose proof (N' i Hi) as E. unfold ygram_spec in E. rewrite dsum_masked in E by (intros a Ha; rewrite (HM a Ha); ring).
  fold (ygram_spec f l i) in E. apply (Rmult_eq_reg_l ((1 - f) ^ length q)); [|lra]. rewrite <- E.
  unfold mvec. rewrite <- bsum_scal_l. apply bsum_ext. intros k Hk. unfold gram_spec.
  rewrite dsum_masked by (intros a Ha; rewrite (HM a Ha); ring). ring.
Qed.

Lemma masked_regressors icpt l : masked l -> masked (map (regressors icpt) l).
Proof. unfold masked. rewrite Forall_map. auto. Qed.

Lemma C133_unchanged_lemma inv c b0 bs qs s :
  matinv_spec inv -> 0 <= c_forget c < 1 -> ols_config c -> good_calls (b_p b0) (b0 :: bs ++ qs) ->
  lm_history (ols_ops inv) c (b0 :: bs) new_lm = Ok s -> masked (stream qs) ->
  exists s', lm_history (ols_ops inv) c qs s = Ok s' /\
    forall X, X <> [] -> exists v, snd (lm_predict c (b_p b0) X s) = Ok v /\ snd (lm_predict c (b_p b0) X s') = Ok v.
Proof.
  intros HI Hf HC HG H HM.
  change (b0 :: bs ++ qs) with ((b0 :: bs) ++ qs) in HG. apply good_calls_app in HG. destruct HG as [G1 G2].
  destruct (ols_lm_state inv c b0 bs s HI Hf HC G1 H) as (L & n & o & R & I).
  destruct (ols_lm_more inv c (b_p b0) qs s n o _ Hf L R I G2) as (s' & n' & o' & E & R' & I').
  exists s'. split; [exact E|]. intros X HX. eexists. split; [apply (ols_predict _ _ _ _ _ X R L HX)|].
  rewrite (ols_predict _ _ _ _ _ X R' L HX). f_equal. apply map_ext. intros x. apply dot_ext; [intros i _; reflexivity|].
  exact (masked_coef _ _ _ _ _ _ Hf (masked_regressors (c_icpt c) _ HM) I I').
Qed.

Lemma evidence_masked f icpt n u l : masked l -> evidence f icpt n u l = 0.
Proof.
  intros H. unfold evidence. rewrite (dsum_ext _ _ (fun _ => 0)); [apply dsum_zero|].
  intros o Ho. unfold masked in H. rewrite Forall_forall in H. rewrite (H o Ho). ring.
Qed.

Lemma C133_ages_lemma inv c b0 bs qs b s x y w u :
  matinv_spec inv -> 0 <= c_forget c < 1 -> ols_config c -> good_calls (b_p b0) (b0 :: bs ++ qs ++ [b]) ->
  lm_history (ols_ops inv) c (b0 :: bs) new_lm = Ok s -> b_rows b = [mkobs x y w] -> masked (stream qs) ->
  exists s1 s2 v v', lm_history (ols_ops inv) c qs s = Ok s1 /\ partial_fit (ols_ops inv) c b s1 = (s2, Ok tt) /\
    snd (lm_predict c (b_p b0) [x] s) = Ok [v] /\ snd (lm_predict c (b_p b0) [x] s2) = Ok [v'] /\
    w * (dot (n_cols (c_icpt c) (b_p b0)) (ox (regressors (c_icpt c) (mkobs x y w))) u) ^ 2 * Rabs (y - v')
    <= (1 - c_forget c) ^ S (length (stream qs))
       * evidence (c_forget c) (c_icpt c) (n_cols (c_icpt c) (b_p b0)) u (stream (b0 :: bs)) * Rabs (y - v).
Proof.
  intros HI Hf HC HG H Hb HM.
  assert (HG2 : good_calls (b_p b0) (b0 :: bs ++ qs)).
  { rewrite app_assoc in HG. change (b0 :: (bs ++ qs) ++ [b]) with ((b0 :: bs ++ qs) ++ [b]) in HG.
    apply good_calls_app in HG. apply HG. }
  destruct (C133_unchanged_lemma inv c b0 bs qs s HI Hf HC HG2 H HM) as (s1 & E & K).
  assert (H1 : lm_history (ols_ops inv) c (b0 :: bs ++ qs) new_lm = Ok s1).
  { change (b0 :: bs ++ qs) with ((b0 :: bs) ++ qs). rewrite lm_history_app, H. cbn [bind]. exact E. }
  rewrite app_assoc in HG.
  destruct (C131_one_row_lemma inv c b0 (bs ++ qs) b s1 x y w u HI Hf HC HG H1 Hb) as (s2 & v & v' & P & V & V' & Q).
  destruct (K [x] ltac:(discriminate)) as (vs & K1 & K2). rewrite K2 in V. injection V as ->.
  exists s1, s2, v, v'. split; [exact E|]. split; [exact P|]. split; [exact K1|]. split; [exact V'|].
  eapply Rle_trans; [exact Q|]. apply Req_le.
  change (b0 :: bs ++ qs) with ((b0 :: bs) ++ qs). rewrite stream_app, evidence_app, (evidence_masked _ _ _ _ (stream qs)) by exact HM.
  cbn [pow]. ring.
Qed.

Lemma C133_limit_lemma inv c b0 bs s x y w eps :
  matinv_spec inv -> 0 < c_forget c < 1 -> ols_config c -> good_calls (b_p b0) (b0 :: bs) ->
  lm_history (ols_ops inv) c (b0 :: bs) new_lm = Ok s ->
  0 < w -> c_icpt c = true \/ (exists j, (j < b_p b0)%nat /\ x j <> 0) -> 0 < eps ->
  exists N, forall qs b, good_calls (b_p b0) (qs ++ [b]) -> masked (stream qs) -> (N <= length (stream qs))%nat ->
    b_rows b = [mkobs x y w] ->
    exists s1 s2 v', lm_history (ols_ops inv) c qs s = Ok s1 /\ partial_fit (ols_ops inv) c b s1 = (s2, Ok tt) /\
      snd (lm_predict c (b_p b0) [x] s2) = Ok [v'] /\ Rabs (y - v') <= eps.
Proof.
  intros HI Hf HC HG H Hw HX He. set (cols := n_cols (c_icpt c) (b_p b0)).
  destruct (ols_lm_state inv c b0 bs s HI ltac:(lra) HC HG H) as (L & n & o & R & I).
  assert (V : exists v, snd (lm_predict c (b_p b0) [x] s) = Ok [v]).
  { eexists. apply (ols_predict _ _ _ _ _ [x] R L). discriminate. }
  destruct V as (v & V).
  set (r := ox (regressors (c_icpt c) (mkobs x y w))). set (S2 := dot cols r r).
  assert (PS : 0 < S2).
  { destruct (dot_self_nonneg cols r) as [P|P]; [exact P|]. exfalso. symmetry in P.
    pose proof (dot_self_zero cols r P) as Z. unfold cols, r, regressors, n_cols in Z. destruct (c_icpt c).
    - specialize (Z 0%nat ltac:(lia)). cbn [ox] in Z. lra.
    - destruct HX as [HX|(j & Hj & Nj)]; [discriminate|]. apply Nj. apply (Z j). lia. }
  set (E := evidence (c_forget c) (c_icpt c) cols r (stream (b0 :: bs))).
  assert (HE : 0 <= E).
  { apply evidence_nonneg; [lra|]. destruct (good_calls_lists (c_icpt c) _ _ HG) as (_ & _ & _ & W). exact W. }
  set (Q := E * Rabs (y - v)). assert (PQ : 0 <= Q) by (apply Rmult_le_pos; [exact HE|apply Rabs_pos]).
  set (d := w * S2 ^ 2). assert (Pd : 0 < d) by (unfold d; apply Rmult_lt_0_compat; [exact Hw|apply pow_lt; exact PS]).
  assert (PE : 0 < d * eps / (Q + 1)) by (apply Rdiv_lt_0_compat; nra).
  destruct (pow_lt_1_zero (1 - c_forget c) ltac:(rewrite Rabs_right; lra) _ PE) as (N & HN).
  exists N. intros qs b HG' HM HL Hb.
  destruct (C133_ages_lemma inv c b0 bs qs b s x y w r HI ltac:(lra) HC) as (s1 & s2 & v0 & v' & A & B & V0 & V' & K); auto.
  { change (b0 :: bs ++ qs ++ [b]) with ((b0 :: bs) ++ qs ++ [b]). apply good_calls_app. split; assumption. }
  pose proof (eq_trans (eq_sym V0) V) as EV. injection EV as ->.
  exists s1, s2, v'. do 3 (split; [assumption|]). fold cols r E in K. fold S2 in K. fold d in K.
  specialize (HN (S (length (stream qs))) ltac:(lia)). rewrite Rabs_right in HN by (apply Rle_ge, pow_le; lra).
  set (g := (1 - c_forget c) ^ S (length (stream qs))) in *. clearbody g.
  apply (Rmult_le_reg_l d); [exact Pd|]. eapply Rle_trans; [exact K|]. rewrite Rmult_assoc. fold Q.
  apply Rle_trans with (d * eps / (Q + 1) * Q); [apply Rmult_le_compat_r; lra|].
  apply (Rmult_le_reg_r (Q + 1)); [lra|]. replace (d * eps / (Q + 1) * Q * (Q + 1)) with (d * eps * Q) by (field; lra). nra.
Qed.

Lemma column_masked f k l q : masked q ->
  column_weight f k (l ++ q) = (1 - f) ^ length q * column_weight f k l /\
  column_response f k (l ++ q) = (1 - f) ^ length q * column_response f k l.
Proof.
  intros HM. unfold masked in HM. rewrite Forall_forall in HM. unfold column_weight, column_response.
  split; apply dsum_masked; intros a Ha; rewrite (HM a Ha); ring.
Qed.

(** The absence lemma of C132 for masked rows; the rows need not be zero in the column. *)
Lemma C133_ridge_lemma inv perms c m b0 bs qs k : ridge_config c m -> first_call c m b0 -> c_icpt c = false -> orders perms (b_p b0) ->
  good_calls (b_p b0) (b0 :: bs ++ qs) -> (k < b_p b0)%nat -> disjoint_column (b_p b0) k (stream (b0 :: bs ++ qs)) -> masked (stream qs) ->
  exists s s' beta beta', lm_history (ridge_ops inv perms) c (b0 :: bs) new_lm = Ok s /\ lm_history (ridge_ops inv perms) c qs s = Ok s' /\
    a_coef s = Some beta /\ a_coef s' = Some beta' /\
    let g := (1 - c_forget c) ^ length (stream qs) in
    let D := column_weight (c_forget c) k (stream (b0 :: bs)) in
    let lam := penalty_of c m b0 in
    beta' k = beta k * (g * (D + lam) / (g * D + lam)) /\
    (0 < c_forget c -> qs <> [] -> beta k <> 0 -> Rabs (beta' k) < Rabs (beta k)).
Proof.
  intros HC HF Hi HO HG Hk HD HM.
  assert (N : n_cols (c_icpt c) (b_p b0) = b_p b0) by (rewrite Hi; unfold n_cols; lia).
  assert (HO' : orders perms (n_cols (c_icpt c) (b_p b0))) by (rewrite N; exact HO).
  change (b0 :: bs ++ qs) with ((b0 :: bs) ++ qs) in HG, HD. rewrite stream_app in HD.
  apply good_calls_app in HG. destruct HG as [G1 G2].
  destruct (ridge_history inv perms c m HC b0 bs HF HO' G1) as (s & beta & E & R).
  destruct HF as (_ & Hp & _ & _ & Hl).
  destruct (ridge_lm_more inv perms c m HC _ _ qs _ _ _ R Hl Hp HO' G2) as (s' & beta' & E' & R').
  exists s, s', beta, beta'. split; [exact E|]. split; [exact E'|]. split; [apply R|]. split; [apply R'|].
  cbv zeta. set (lam := penalty_of c m b0) in *.
  assert (HD1 : disjoint_column (b_p b0) k (stream (b0 :: bs))) by (apply Forall_app in HD; apply HD).
  destruct (ridge_column _ _ _ _ _ _ _ k HC Hi Hl Hk HD1 R) as (Q & P).
  rewrite <- map_app in R'.
  destruct (ridge_column _ _ _ _ _ _ _ k HC Hi Hl Hk HD R') as (Q' & P').
  destruct (column_masked (c_forget c) k (stream (b0 :: bs)) (stream qs) HM) as (W1 & W2). rewrite W1, W2 in *.
  destruct HC as (_ & _ & _ & Hf & _).
  assert (HG1 : 0 < c_forget c -> qs <> [] -> (1 - c_forget c) ^ length (stream qs) < 1).
  { intros F0 NQ. destruct qs as [|q qs]; [congruence|]. inversion G2 as [|? ? (_ & Nq & _) _]; subst.
    change (stream (q :: qs)) with (b_rows q ++ stream qs). destruct (b_rows q) as [|a r]; [congruence|].
    cbn [app length pow]. destruct (pow_le1 (1 - c_forget c) (length (r ++ stream qs)) ltac:(lra)).
    assert (0 < (1 - c_forget c) ^ length (r ++ stream qs)) by (apply pow_lt; lra). nra. }
  set (g := (1 - c_forget c) ^ length (stream qs)) in *. set (D := column_weight (c_forget c) k (stream (b0 :: bs))) in *.
  assert (Hg : 0 < g) by (apply pow_lt; lra).
  rewrite <- Q in Q'. clearbody g D lam. set (x := beta k) in *. set (x' := beta' k) in *. clearbody x x'.
  assert (PD : 0 < g * D + lam) by nra.
  assert (V : x' = x * (g * (D + lam) / (g * D + lam))).
  { apply (Rmult_eq_reg_r (g * D + lam)); [|lra]. rewrite Q'. field. lra. }
  split; [exact V|]. intros F0 NQ NX. specialize (HG1 F0 NQ).
  assert (B : 0 <= g * (D + lam) / (g * D + lam)).
  { apply Rmult_le_pos; [nra|]. left. now apply Rinv_0_lt_compat. }
  rewrite V, Rabs_mult, (Rabs_right (g * (D + lam) / (g * D + lam))) by lra.
  rewrite <- (Rmult_1_r (Rabs x)) at 2. apply Rmult_lt_compat_l; [now apply Rabs_pos_lt|].
  apply (Rmult_lt_reg_r (g * D + lam)); [exact PD|]. unfold Rdiv. rewrite Rmult_assoc, Rinv_l by lra. nra.
Qed.

Lemma w133_history inv bs : matinv_spec inv -> good_calls 1 (w133_b0 :: bs) ->
  exists s beta, lm_history (ols_ops inv) w133_c (w133_b0 :: bs) new_lm = Ok s /\ a_coef s = Some beta /\
    beta 0%nat * gram_spec (1 / 2) (stream (w133_b0 :: bs)) 0%nat 0%nat
      = ygram_spec (1 / 2) (stream (w133_b0 :: bs)) 0%nat /\
    forall x, snd (lm_predict w133_c 1 [x] s) = Ok [x 0%nat * beta 0%nat].
Proof.
  intros HI HG. apply (one_col_history inv w133_c); auto.
  - cbn; lra.
  - repeat split.
  - unfold total_weight; cbn; lra.
  - unfold gram_spec; cbn; lra.
Qed.

Lemma w133_good : good_calls 1 [w133_b0; w133_mask; w133_next] /\ good_calls 1 [w133_b0; w133_next] /\
  good_calls 1 [w133_b0; w133_mask].
Proof.
  assert (A : forall b, In b [w133_b0; w133_mask; w133_next] -> good_calls 1 [b]).
  { intros b [<-|[<-|[<-|[]]]]; (apply Forall_cons; [|apply Forall_nil]);
      (apply good_one; [|discriminate|reflexivity]); unfold weights_nonneg; cbn;
      repeat (apply Forall_cons; [cbn; lra|]); apply Forall_nil. }
  pose proof (A w133_b0 (or_introl eq_refl)) as A0. pose proof (A w133_mask (or_intror (or_introl eq_refl))) as A1.
  pose proof (A w133_next (or_intror (or_intror (or_introl eq_refl)))) as A2.
  split; [|split].
  - apply (proj2 (good_calls_app 1 [w133_b0] _)). split; [exact A0|].
    apply (proj2 (good_calls_app 1 [w133_mask] _)). split; assumption.
  - apply (proj2 (good_calls_app 1 [w133_b0] _)). split; assumption.
  - apply (proj2 (good_calls_app 1 [w133_b0] _)). split; assumption.
Qed.

Lemma C133_not_dropped_lemma inv : matinv_spec inv ->
  exists s1 s2, lm_history (ols_ops inv) w133_c [w133_b0; w133_next] new_lm = Ok s1 /\
    lm_history (ols_ops inv) w133_c [w133_b0; w133_mask; w133_next] new_lm = Ok s2 /\
    snd (lm_predict w133_c 1 [fun _ => 1] s1) = Ok [4 / 7] /\
    snd (lm_predict w133_c 1 [fun _ => 1] s2) = Ok [8 / 11].
Proof.
  intros HI. destruct w133_good as (G3 & G2 & _).
  destruct (w133_history inv [w133_next] HI G2) as (s1 & b1 & E1 & _ & Q1 & V1).
  destruct (w133_history inv [w133_mask; w133_next] HI G3) as (s2 & b2 & E2 & _ & Q2 & V2).
  exists s1, s2. split; [exact E1|]. split; [exact E2|].
  unfold gram_spec, ygram_spec in Q1, Q2. cbn in Q1, Q2.
  split; [rewrite V1|rewrite V2]; do 2 f_equal; lra.
Qed.

Lemma C133_example_lemma inv : matinv_spec inv ->
  good_calls 1 ([w133_b0] ++ [w133_mask]) /\ masked (stream [w133_mask]) /\ ols_config w133_c /\
  exists s s', lm_history (ols_ops inv) w133_c [w133_b0] new_lm = Ok s /\
    lm_history (ols_ops inv) w133_c [w133_mask] s = Ok s' /\
    snd (lm_predict w133_c 1 [fun _ => 1] s) = Ok [0] /\ snd (lm_predict w133_c 1 [fun _ => 1] s') = Ok [0].
Proof.
  intros HI. destruct w133_good as (_ & _ & G). assert (HC : ols_config w133_c) by repeat split.
  assert (HM : masked (stream [w133_mask])) by (apply Forall_cons; [reflexivity|apply Forall_nil]).
  split; [exact G|]. split; [exact HM|]. split; [exact HC|].
  assert (G1 : good_calls 1 [w133_b0]) by (apply (proj1 (good_calls_app 1 [w133_b0] [w133_mask])) in G; apply G).
  destruct (w133_history inv [] HI G1) as (s & b & E & _ & Q & V).
  destruct (C133_unchanged_lemma inv w133_c w133_b0 [] [w133_mask] s HI ltac:(cbn; lra) HC G E HM) as (s' & E' & K).
  unfold gram_spec, ygram_spec in Q. cbn in Q.
  assert (V0 : snd (lm_predict w133_c 1 [fun _ => 1] s) = Ok [0]) by (rewrite V; do 2 f_equal; lra).
  destruct (K [fun _ => 1] ltac:(discriminate)) as (v & K1 & K2).
  exists s, s'. split; [exact E|]. split; [exact E'|]. split; [exact V0|].
  change (b_p w133_b0) with 1%nat in K1, K2. pose proof (eq_trans (eq_sym K1) V0) as EV. injection EV as ->. exact K2.
Qed.

Lemma ws_masked l : masked l -> lsum (ws l) = 0.
Proof. induction 1 as [|o l Ho _ IH]; cbn; [reflexivity|]. unfold ws in IH. rewrite Ho, IH. ring. Qed.

Lemma C133_counts_lemma {M} (ops : method_ops M) c qs : forall s s' n, qs <> [] ->
  lm_history ops c qs s = Ok s' -> masked (stream qs) -> a_nobs s = Some n ->
  a_nobs s' = Some n /\ a_ntrain s' = Some (effective_training_length (c_forget c) n).
Proof.
  induction qs as [|b qs IH]; intros s s' n NQ H HM Hn; [congruence|].
  assert (F : is_fitted s = true) by (unfold is_fitted; rewrite Hn; reflexivity).
  change (stream (b :: qs)) with (b_rows b ++ stream qs) in HM. apply Forall_app in HM. destruct HM as [M1 M2].
  cbn [lm_history] in H. unfold partial_fit in H. rewrite F in H.
  destruct (lm_update ops c b s) as [s1 r] eqn:E.
  destruct r as [u|e]; [|discriminate H].
  destruct (accepted_dec (a_nfin s) b) as [A|A].
  2:{ rewrite lm_update_rejected in E by exact A. discriminate E. }
  destruct (lm_update_counts ops c b s s1 _ A E) as (_ & C). rewrite Hn, (ws_masked _ M1), Rplus_0_r in C.
  destruct C as (C1 & C2). destruct qs as [|q qs].
  - cbn in H. injection H as <-. auto.
  - exact (IH s1 s' n ltac:(discriminate) H M2 C1).
Qed.

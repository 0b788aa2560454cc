(** Lemmas: one update of a least-squares model; forgetting the past. *)
From Coq Require Import Reals List Bool Arith Lra Lia.
From Verif Require Import Base Lin Data M_Gram S_Gram L_Gram M_OLS L_OLS
  M_Scaler M_Utils S_Utils M_State M_LM S_LM L_LM L_LM2 L_LM3 S_Learn.
Import ListNotations.
Open Scope R_scope.

(** * The state of a least-squares model *)
Lemma lm_history_app {M} (ops : method_ops M) c bs cs : forall s,
  lm_history ops c (bs ++ cs) s = (do s1 <- lm_history ops c bs s; lm_history ops c cs s1).
Proof.
  induction bs as [|b bs IH]; intros s; cbn [app lm_history bind]; [reflexivity|].
  destruct (partial_fit ops c b s) as [s1 [[]|e]]; cbn [bind]; auto.
Qed.

Lemma good_calls_app p bs cs : good_calls p (bs ++ cs) <-> good_calls p bs /\ good_calls p cs.
Proof. apply Forall_app. Qed.

Lemma stream_app bs cs : stream (bs ++ cs) = stream bs ++ stream cs.
Proof. unfold stream. rewrite map_app, concat_app. reflexivity. Qed.

Lemma ols_lm_state inv c b0 bs s :
  matinv_spec inv -> 0 <= c_forget c < 1 -> ols_config c -> good_calls (b_p b0) (b0 :: bs) ->
  lm_history (ols_ops inv) c (b0 :: bs) new_lm = Ok s ->
  (1 <= b_p b0)%nat /\
  exists n o, ols_rel c (b_p b0) n o s /\
    ols_inv (n_cols (c_icpt c) (b_p b0)) (c_forget c) (map (regressors (c_icpt c)) (stream (b0 :: bs))) o.
Proof.
  intros HI Hf HC HG H. inversion HG as [|? ? (G1 & G2 & G3) G4]; subst.
  cbn [lm_history] in H.
  destruct (partial_fit (ols_ops inv) c b0 new_lm) as [s0 [[]|e]] eqn:H0; [|discriminate H].
  unfold partial_fit in H0. change (is_fitted new_lm) with false in H0. cbn iota in H0.
  destruct (ols_lm_fit inv c b0 _ _ HC H0) as (L1 & L2 & Hn & Hr & o & Ho & R0).
  destruct (good_calls_lists (c_icpt c) _ _ G4) as (W & N & F & WS).
  destruct (ols_history_inv inv _ (c_forget c) (map (regressors (c_icpt c)) (b_rows b0))
     (map (fun b => map (regressors (c_icpt c)) (b_rows b)) bs) o HI Hf (regressors_nonneg _ _ G1) W N Ho)
    as (o1 & E1 & E3).
  unfold ols_history in E1. rewrite Ho in E1. cbn [bind] in E1.
  destruct (ols_lm_history inv c (b_p b0) bs s0 _ o o1 R0 L2 F E1) as (s' & E4 & R4).
  assert (s' = s) by congruence. subst s'. split; [exact L2|].
  eexists _, o1. split; [exact R4|]. rewrite stream_regressors. exact E3.
Qed.

(** Further calls succeed. *)
Lemma ols_lm_more inv c p tl s n o l :
  0 <= c_forget c < 1 -> (1 <= p)%nat -> ols_rel c p n o s ->
  ols_inv (n_cols (c_icpt c) p) (c_forget c) l o -> good_calls p tl ->
  exists s' n' o', lm_history (ols_ops inv) c tl s = Ok s' /\ ols_rel c p n' o' s' /\
    ols_inv (n_cols (c_icpt c) p) (c_forget c) (l ++ map (regressors (c_icpt c)) (stream tl)) o'.
Proof.
  intros Hf Hp HR HI HG. destruct (good_calls_lists (c_icpt c) _ _ HG) as (W & N & F & WS).
  destruct (ols_updates_inv _ _ Hf _ l o HI W N) as (o' & E & I').
  destruct (ols_lm_history inv c p tl s n o o' HR Hp F E) as (s' & E4 & R4).
  eexists s', _, o'. split; [exact E4|]. split; [exact R4|]. rewrite stream_regressors. exact I'.
Qed.

Lemma partial_fit_history {M} (ops : method_ops M) c b s s' :
  lm_history ops c [b] s = Ok s' -> partial_fit ops c b s = (s', Ok tt).
Proof.
  cbn [lm_history]. destruct (partial_fit ops c b s) as [s1 [[]|e]]; [|discriminate].
  intros E. injection E as ->. reflexivity.
Qed.

(** * The algebra of one update *)
Lemma gram_app f l m i j :
  gram_spec f (l ++ m) i j = (1 - f) ^ length m * gram_spec f l i j + gram_spec f m i j.
Proof. unfold gram_spec. apply dsum_app. Qed.
Lemma ygram_app f l m i :
  ygram_spec f (l ++ m) i = (1 - f) ^ length m * ygram_spec f l i + ygram_spec f m i.
Proof. unfold ygram_spec. apply dsum_app. Qed.
Lemma loss_app p f l m b :
  wls_loss p f (l ++ m) b = (1 - f) ^ length m * wls_loss p f l b + wls_loss p f m b.
Proof. unfold wls_loss. apply dsum_app. Qed.

Lemma ols_inv_weights p f l o : ols_inv p f l o -> weights_nonneg l.
Proof. intros ((_ & H) & _). exact H. Qed.

Lemma ols_inv_best p f l o b : 0 <= f < 1 -> ols_inv p f l o ->
  wls_loss p f l (ols_coef o) <= wls_loss p f l b /\
  (wls_loss p f l b = wls_loss p f l (ols_coef o) -> eqv p b (ols_coef o)).
Proof.
  intros Hf HI. pose proof (ols_inv_coef _ _ _ _ HI) as N. destruct HI as ((HA & Hw) & _).
  apply (wls_optimal p f l (ols_x o)); auto; lra.
Qed.

Lemma pow_pos' g n : 0 < g -> 0 < g ^ n.
Proof. apply pow_lt. Qed.

Lemma update_loss p f l m o o' : 0 <= f < 1 -> ols_inv p f l o -> ols_inv p f (l ++ m) o' ->
  wls_loss p f m (ols_coef o') <= wls_loss p f m (ols_coef o) /\
  (wls_loss p f m (ols_coef o') = wls_loss p f m (ols_coef o) -> eqv p (ols_coef o') (ols_coef o)).
Proof.
  intros Hf I I'.
  destruct (ols_inv_best p f l o (ols_coef o') Hf I) as (B1 & B2).
  destruct (ols_inv_best p f (l ++ m) o' (ols_coef o) Hf I') as (C1 & _).
  rewrite !loss_app in C1. pose proof (pow_pos' (1 - f) (length m) ltac:(lra)) as Hg.
  split; [nra|]. intros E. apply B2. apply Rle_antisym; [|exact B1].
  rewrite E in C1. apply Rmult_le_reg_l with ((1 - f) ^ length m); lra.
Qed.

Lemma loss_nonneg p f l b : f <= 1 -> weights_nonneg l -> 0 <= wls_loss p f l b.
Proof.
  intros Hf Hw. apply dsum_nonneg; [lra|]. intros o Ho. apply Rmult_le_pos; [|apply pow2_ge_0].
  unfold weights_nonneg in Hw. rewrite Forall_forall in Hw. auto.
Qed.

Lemma update_exact p f l m o o' : 0 <= f < 1 -> ols_inv p f l o -> ols_inv p f (l ++ m) o' ->
  (forall a, In a m -> oy a = dot p (ox a) (ols_coef o)) -> eqv p (ols_coef o') (ols_coef o).
Proof.
  intros Hf I I' H. destruct (update_loss p f l m o o' Hf I I') as (L & K). apply K.
  assert (Z : wls_loss p f m (ols_coef o) = 0).
  { unfold wls_loss. rewrite (dsum_ext _ _ (fun _ => 0)); [apply dsum_zero|].
    intros a Ha. rewrite (H a Ha). ring. }
  rewrite Z in *. apply Rle_antisym; [exact L|]. apply loss_nonneg; [lra|].
  pose proof (ols_inv_weights _ _ _ _ I') as W. apply Forall_app in W. apply W.
Qed.

Lemma inverse_pd p G A u : symmetric p G -> psd p G -> is_inverse p G A -> quad p G u = 0 -> eqv p u (fun _ => 0).
Proof.
  intros HS HP HI Z i Hi. pose proof (psd_quad_zero p G u HS HP Z) as Hz.
  rewrite <- (inverse_mvec p A G u (inverse_sym_rel _ _ _ HI) i Hi).
  unfold mvec at 1. rewrite (bsum_ext p _ (fun _ => 0)); [apply bsum_0|].
  intros k Hk. rewrite Hz by auto. ring.
Qed.

Lemma update_row p f l a o o' : 0 <= f < 1 -> ols_inv p f l o -> ols_inv p f (l ++ [a]) o' ->
  exists h, 0 <= h < 1 /\
    dot p (ox a) (ols_coef o') = dot p (ox a) (ols_coef o) + h * (oy a - dot p (ox a) (ols_coef o)) /\
    (0 < ow a -> (exists j, (j < p)%nat /\ ox a j <> 0) -> 0 < h).
Proof.
  intros Hf I I'. pose proof (ols_inv_coef _ _ _ _ I) as N. pose proof (ols_inv_coef _ _ _ _ I') as N'.
  unfold normal_equations in N, N'.   pose proof (ols_inv_weights _ _ _ _ I) as W. pose proof (ols_inv_weights _ _ _ _ I') as W'.
  destruct I as ((IA & _) & _). destruct I' as ((IA' & _) & _).
  set (G := gram_spec f l) in *. set (G' := gram_spec f (l ++ [a])) in *.
  set (A' := ols_x o') in *. set (b := ols_coef o) in *. set (b' := ols_coef o') in *.
  set (x := ox a) in *. set (w := ow a) in *. set (e := oy a - dot p x b).
  assert (Hw : 0 <= w) by (apply Forall_app in W'; destruct W' as [_ W']; inversion W'; auto).
  assert (EG : forall u i, mvec p G' u i = (1 - f) * mvec p G u i + w * x i * dot p x u).
  { intros u i. unfold mvec, G'. rewrite (bsum_ext p _ (fun k => (1 - f) * (G i k * u k) + w * x i * (x k * u k))).
    - rewrite bsum_plus, !bsum_scal_l. reflexivity.
    - intros k _. rewrite gram_spec_snoc. fold G x w. unfold outer. ring. }
  assert (D : eqv p (mvec p G' (fun k => b' k - b k)) (fun i => w * e * x i)).
  { intros i Hi. rewrite mvec_minus. rewrite (N' i Hi), EG, (N i Hi).
    unfold ygram_spec. rewrite dsum_app. cbn [length dsum]. fold x w. unfold e. ring. }
  set (u := mvec p A' x).
  assert (Du : eqv p (fun k => b' k - b k) (fun k => w * e * u k)).
  { intros i Hi. transitivity (mvec p A' (mvec p G' (fun k => b' k - b k)) i).
    - symmetry. apply (inverse_mvec p A' G' (fun k => b' k - b k) (inverse_sym_rel _ _ _ IA') i Hi).
    - rewrite (mvec_ext p A' A' _ _ (fun i j _ _ => eq_refl) D i Hi). apply mvec_scal. }
  set (q := dot p x u).
  assert (SG : symmetric p G) by apply gram_spec_sym.
  assert (PG : psd p G) by (apply gram_spec_psd; auto; lra).
  assert (SG' : symmetric p G') by apply gram_spec_sym.
  assert (PG' : psd p G') by (apply gram_spec_psd; auto; lra).
  assert (Gu : eqv p (mvec p G' u) x) by (apply inverse_mvec; exact IA').
  assert (Q1 : quad p G' u = q).
  { unfold quad. rewrite (dot_ext p u u _ x (fun i _ => eq_refl) Gu). apply dot_comm. }
  assert (Q2 : quad p G' u = (1 - f) * quad p G u + w * q ^ 2).
  { unfold quad. rewrite (dot_ext p u u _ (fun i => (1 - f) * mvec p G u i + (w * q) * x i) (fun i _ => eq_refl)).
    - rewrite dot_plus_r, !dot_scal_r. rewrite (dot_comm p u x). fold q. ring.
    - intros i _. rewrite EG. fold q. ring. }
  assert (Hq : 0 <= q) by (rewrite <- Q1; apply PG').
  exists (w * q). split; [split|split].
  - apply Rmult_le_pos; auto.
  - destruct (Req_dec q 0) as [Z|Z]; [rewrite Z; lra|].
    assert (P : 0 < quad p G u).
    { destruct (PG u) as [P|P]; [exact P|]. exfalso. apply Z. symmetry in P.
      pose proof (inverse_pd p G (ols_x o) u SG PG IA P) as U.
      unfold q. rewrite (dot_ext p x x u (fun _ => 0) (fun i _ => eq_refl) U).
      unfold dot. rewrite (bsum_ext p _ (fun _ => 0)); [apply bsum_0|]. intros; ring. }
    assert (0 < q) by lra.
    assert (Y : 0 < (1 - f) * quad p G u) by (apply Rmult_lt_0_compat; lra).
    assert (Z1 : 0 < q * (1 - w * q)) by (replace (q * (1 - w * q)) with ((1 - f) * quad p G u) by (rewrite Q1 in Q2; lra); exact Y).
    destruct (Rlt_le_dec (w * q) 1) as [L|L]; auto.
    assert (q * (1 - w * q) <= q * 0) by (apply Rmult_le_compat_l; lra). lra.
  - assert (E : dot p x (fun k => b' k - b k) = w * e * q).
    { rewrite (dot_ext p x x _ _ (fun i _ => eq_refl) Du), dot_scal_r. reflexivity. }
    rewrite (dot_minus_r p x b' b) in E. unfold e in *. lra.
  - intros Pw (j & Hj & Nj). apply Rmult_lt_0_compat; auto.
    destruct Hq as [Hq|Hq]; [exact Hq|]. exfalso. apply Nj.
    assert (Z : quad p G' u = 0) by lra.
    pose proof (psd_quad_zero p G' u SG' PG' Z j Hj) as K. rewrite (Gu j Hj) in K. exact K.
Qed.

(** * Forgetting *)
Lemma dsum_bound {A} g (f : A -> R) K l : 0 <= g < 1 -> 0 <= K -> (forall a, In a l -> Rabs (f a) <= K) ->
  Rabs (dsum g f l) <= K / (1 - g).
Proof.
  intros Hg HK H.
  assert (B : Rabs (dsum g f l) * (1 - g) <= K * (1 - g ^ length l)).
  { induction l as [|a l IH]; cbn [dsum length].
    - rewrite Rabs_R0. cbn. lra.
    - assert (IH' := IH (fun b Hb => H b (or_intror Hb))). specialize (H a (or_introl eq_refl)).
      pose proof (Rabs_triang (g ^ length l * f a) (dsum g f l)) as T. rewrite Rabs_mult in T.
      pose proof (pow_le g (length l) (proj1 Hg)) as P. rewrite (Rabs_pos_eq _ P) in T.
      cbn [pow]. set (P1 := g ^ length l) in *.
      assert (P1 * Rabs (f a) <= P1 * K) by (apply Rmult_le_compat_l; auto).
      assert ((Rabs (P1 * f a + dsum g f l)) * (1 - g) <= (P1 * K + Rabs (dsum g f l)) * (1 - g))
        by (apply Rmult_le_compat_r; lra). lra. }
  apply Rmult_le_reg_r with (1 - g); [lra|]. replace (K / (1 - g) * (1 - g)) with K by (field; lra).
  pose proof (pow_le g (length l) (proj1 Hg)). nra.
Qed.

(** From [lam |v|^2 <= v . r] the length of [v]. *)
Lemma young p lam v r : 0 < lam -> lam * dot p v v <= dot p v r -> dot p v v <= dot p r r / lam ^ 2.
Proof.
  intros Hl H.
  assert (S : 0 <= dot p (fun i => lam * v i - r i) (fun i => lam * v i - r i)) by apply dot_self_nonneg.
  rewrite dot_minus_l, !dot_minus_r, !dot_scal_l, !dot_scal_r in S. rewrite (dot_comm p r v) in S.
  apply Rmult_le_reg_r with (lam ^ 2); [apply pow_lt; auto|].
  replace (dot p r r / lam ^ 2 * lam ^ 2) with (dot p r r) by (field; lra). nra.
Qed.

Lemma coord_le_norm p v j : (j < p)%nat -> v j * v j <= dot p v v.
Proof.
  intros Hj. unfold dot. rewrite (bsum_split p j) by exact Hj.
  assert (0 <= bsum p (fun i => if Nat.eqb i j then 0 else v i * v i)).
  { apply bsum_nonneg. intros i _. destruct (Nat.eqb i j); [lra|nra]. }
  lra.
Qed.

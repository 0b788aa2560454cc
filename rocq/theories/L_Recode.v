(** Lemmas: recoding of the columns; nested models. *)
From Coq Require Import Reals List Bool Arith Lra Lia.
From Verif Require Import Base Lin Data M_Gram S_Gram L_Gram M_OLS L_OLS
  M_Scaler M_Utils S_Utils M_State M_LM S_LM L_LM L_LM2 L_LM3 S_Learn L_Learn S_Recode.
Import ListNotations.
Open Scope R_scope.

Lemma eqm_refl p A : eqm p A A.
Proof. intros i j _ _. reflexivity. Qed.

Lemma inverse_mmul p A B C D : is_inverse p A B -> is_inverse p C D -> is_inverse p (mmul p A C) (mmul p D B).
Proof.
  assert (K : forall A B C D, eqm p (mmul p A B) mid -> eqm p (mmul p C D) mid -> eqm p (mmul p (mmul p A C) (mmul p D B)) mid).
  { clear. intros A B C D H1 H2.
    eapply eqm_trans; [apply mmul_assoc|].
    eapply eqm_trans; [|exact H1]. apply mmul_ext; [apply eqm_refl|].
    eapply eqm_trans; [apply eqm_sym, mmul_assoc|].
    eapply eqm_trans; [|apply mmul_id_l]. apply mmul_ext; [exact H2|apply eqm_refl]. }
  intros [H1 H2] [H3 H4]. split; apply K; auto.
Qed.

(** * Data under a linear map of the regressors *)
Section MAPPED.
Variable (p : nat) (T : mat) (u v : obs -> obs).
Hypothesis Ht : forall o, (forall i, (i < p)%nat -> ox (v o) i = mvec p T (ox (u o)) i) /\ oy (v o) = oy (u o) /\ ow (v o) = ow (u o).

Lemma dot_mapped o b : dot p (ox (v o)) b = dot p (ox (u o)) (mvec p (transp T) b).
Proof.
  destruct (Ht o) as (H & _). unfold dot, mvec, transp.
  rewrite (bsum_ext p _ (fun i => bsum p (fun k => T i k * ox (u o) k * b i))).
  2:{ intros i Hi. rewrite (H i Hi). unfold mvec. rewrite bsum_scal_r. reflexivity. }
  rewrite bsum_swap. apply bsum_ext. intros k _. rewrite <- bsum_scal_l. apply bsum_ext. intros; ring.
Qed.

Lemma loss_mapped f l b : wls_loss p f (map v l) b = wls_loss p f (map u l) (mvec p (transp T) b).
Proof.
  unfold wls_loss. induction l as [|o l IH]; cbn [map dsum]; [reflexivity|].
  rewrite IH, !map_length, dot_mapped. destruct (Ht o) as (_ & -> & ->). reflexivity.
Qed.

Lemma gram_mapped f l : eqm p (gram_spec f (map v l)) (mmul p (mmul p T (gram_spec f (map u l))) (transp T)).
Proof.
  intros i j Hi Hj. induction l as [|o l IH].
  - unfold mmul, gram_spec, transp. cbn [map dsum].
    rewrite (bsum_ext p _ (fun _ => 0)); [symmetry; apply bsum_0|].
    intros k _. rewrite (bsum_ext p _ (fun _ => 0)); [rewrite bsum_0; ring|]. intros; ring.
  - unfold mmul, transp in *.
    assert (E : forall a b, gram_spec f (map u (o :: l)) a b
      = (1 - f) ^ length l * (ow (u o) * ox (u o) a * ox (u o) b) + gram_spec f (map u l) a b).
    { intros a b. unfold gram_spec. cbn [map dsum]. rewrite map_length. reflexivity. }
    assert (E' : gram_spec f (map v (o :: l)) i j
      = (1 - f) ^ length l * (ow (v o) * ox (v o) i * ox (v o) j) + gram_spec f (map v l) i j).
    { unfold gram_spec. cbn [map dsum]. rewrite map_length. reflexivity. }
    rewrite E', IH. destruct (Ht o) as (H & _ & ->). rewrite (H i Hi), (H j Hj).
    set (G := gram_spec f (map u l)) in *. set (g := (1 - f) ^ length l) in *. set (w := ow (u o)). set (x := ox (u o)) in *.
    rewrite (bsum_ext p (fun k => bsum p (fun k0 => T i k0 * gram_spec f (map u (o :: l)) k0 k) * T j k)
      (fun k => g * w * mvec p T x i * (T j k * x k) + bsum p (fun k0 => T i k0 * G k0 k) * T j k)).
    + rewrite bsum_plus, bsum_scal_l. change (bsum p (fun k => T j k * x k)) with (mvec p T x j). ring.
    + intros k _. unfold mvec.
      rewrite (bsum_ext p (fun k0 => T i k0 * gram_spec f (map u (o :: l)) k0 k)
        (fun k0 => (g * w * x k) * (T i k0 * x k0) + T i k0 * G k0 k)).
      * rewrite bsum_plus, bsum_scal_l. ring.
      * intros k0 _. rewrite E. fold w x g G. ring.
Qed.

Lemma weights_mapped l : weights_nonneg (map u l) -> weights_nonneg (map v l).
Proof.
  unfold weights_nonneg. rewrite !Forall_map. apply Forall_impl. intros o H.
  destruct (Ht o) as (_ & _ & ->). exact H.
Qed.

Lemma fit_mapped inv f l o T' : matinv_spec inv -> 0 <= f < 1 -> weights_nonneg (map u l) -> is_inverse p T T' ->
  ols_fit inv p f (map u l) = Ok o -> exists o', ols_fit inv p f (map v l) = Ok o'.
Proof.
  intros HI Hf Hw HT Ho. destruct (ols_fit_inv inv p f _ o HI Hf Hw Ho) as ((IA & _) & _).
  unfold ols_fit, init_inverted_gram.
  destruct (proj2 HI p (init_gram (Xs (map v l)) (ws (map v l)) f)) as (B & ->); [|cbn [bind]; eauto].
  exists (mmul p (transp T') (mmul p (ols_x o) T')).
  eapply is_inverse_ext; [|apply eqm_refl|].
  - eapply eqm_trans; [apply eqm_sym, gram_mapped|]. intros i j _ _. symmetry.
    apply init_gram_spec; [lra|apply weights_mapped, Hw].
  - apply inverse_mmul; [|apply is_inverse_transp, HT].
    apply inverse_mmul; [exact HT|exact IA].
Qed.

Lemma coef_mapped f l o o' T' : 0 <= f < 1 -> is_inverse p T T' ->
  ols_inv p f (map u l) o -> ols_inv p f (map v l) o' -> eqv p (mvec p (transp T) (ols_coef o')) (ols_coef o).
Proof.
  intros Hf HT I I'.
  destruct (ols_inv_best p f _ o (mvec p (transp T) (ols_coef o')) Hf I) as (B1 & B2).
  apply B2. apply Rle_antisym; [|exact B1]. rewrite <- loss_mapped.
  destruct (ols_inv_best p f _ o' (mvec p (transp T') (ols_coef o)) Hf I') as (C1 & _).
  eapply Rle_trans; [exact C1|]. right. rewrite loss_mapped. unfold wls_loss. apply dsum_ext. intros a _.
  do 3 f_equal. apply dot_ext; [intros i _; reflexivity|].
  intros i Hi. apply (inverse_mvec p (transp T) (transp T') (ols_coef o)); auto.
  apply is_inverse_transp, HT.
Qed.
End MAPPED.

(** * The matrix of a recoding with an intercept *)
Definition full (icpt : bool) (A : mat) (a : vec) : mat :=
  if icpt then fun i j => match i, j with
    | O, O => 1 | O, S _ => 0 | S i', O => a i' | S i', S j' => A i' j' end
  else A.

Lemma bsum_shift n f : bsum (S n) f = f 0%nat + bsum n (fun k => f (S k)).
Proof. induction n as [|n IH]; [cbn; ring|]. change (bsum (S (S n)) f) with (bsum (S n) f + f (S n)). rewrite IH. cbn [bsum]. ring. Qed.

Lemma n_cols_true p : n_cols true p = S p.
Proof. unfold n_cols. lia. Qed.
Lemma n_cols_false p : n_cols false p = p.
Proof. unfold n_cols. lia. Qed.

Lemma full_inverse icpt p A A' a : is_inverse p A A' ->
  is_inverse (n_cols icpt p) (full icpt A a) (full icpt A' (fun i => - mvec p A' a i)).
Proof.
  intros [H1 H2]. destruct icpt; [|rewrite n_cols_false; split; auto]. rewrite n_cols_true.
  unfold full. split; intros i j Hi Hj; unfold mmul; rewrite bsum_shift; destruct i as [|i], j as [|j].
  - rewrite (bsum_ext p _ (fun _ => 0)) by (intros; ring). rewrite bsum_0. unfold mid; cbn. ring.
  - rewrite (bsum_ext p _ (fun _ => 0)) by (intros; ring). rewrite bsum_0. unfold mid; cbn. ring.
  - rewrite (bsum_ext p _ (fun k => - 1 * (A i k * mvec p A' a k))) by (intros; ring). rewrite bsum_scal_l.
    fold (mvec p A (mvec p A' a) i).
    assert (E : mvec p A (mvec p A' a) i = a i) by (apply (inverse_mvec p A A' a (conj H1 H2)); lia).
    rewrite E. unfold mid; cbn. ring.
  - fold (mmul p A A' i j). rewrite H1 by lia. unfold mid. cbn. ring.
  - rewrite (bsum_ext p _ (fun _ => 0)) by (intros; ring). rewrite bsum_0. unfold mid; cbn. ring.
  - rewrite (bsum_ext p _ (fun _ => 0)) by (intros; ring). rewrite bsum_0. unfold mid; cbn. ring.
  - fold (mvec p A' a i). unfold mid; cbn. ring.
  - fold (mmul p A' A i j). rewrite H2 by lia. unfold mid. cbn. ring.
Qed.

Lemma full_regressors icpt p A a o i : (icpt = true \/ forall j, (j < p)%nat -> a j = 0) -> (i < n_cols icpt p)%nat ->
  ox (regressors icpt (mkobs (recode p A a (ox o)) (oy o) (ow o))) i
  = mvec (n_cols icpt p) (full icpt A a) (ox (regressors icpt o)) i.
Proof.
  intros Ha Hi. unfold regressors, recode, full. cbn [ox]. destruct icpt.
  - rewrite n_cols_true in *. unfold mvec. rewrite bsum_shift. destruct i as [|i].
    + rewrite (bsum_ext p _ (fun _ => 0)) by (intros; ring). rewrite bsum_0. ring.
    + ring.
  - rewrite n_cols_false in *. destruct Ha as [Ha|Ha]; [discriminate|]. rewrite (Ha i Hi). ring.
Qed.

(** * C121 *)
Lemma recode_stream p A a bs : Forall (fun b => b_p b = p) bs ->
  stream (map (recode_batch A a) bs) = map (fun o => mkobs (recode p A a (ox o)) (oy o) (ow o)) (stream bs).
Proof.
  unfold stream. induction 1 as [|b bs H _ IH]; cbn [map concat]; [reflexivity|].
  rewrite IH, map_app. unfold recode_batch at 1. cbn [b_rows]. rewrite H. reflexivity.
Qed.

Lemma recode_good p A a bs : good_calls p bs -> good_calls p (map (recode_batch A a) bs).
Proof.
  unfold good_calls. rewrite Forall_map. apply Forall_impl. intros b (H1 & H2 & H3).
  split; [|split; [|exact H3]].
  - unfold recode_batch, weights_nonneg. cbn [b_rows]. rewrite Forall_map. exact H1.
  - cbn [recode_batch b_rows]. destruct (b_rows b); [congruence|discriminate].
Qed.

Lemma total_weight_map (h : obs -> obs) l : (forall o, ow (h o) = ow o) -> total_weight (map h l) = total_weight l.
Proof.
  intros H. unfold total_weight, ws. rewrite map_map. f_equal. apply map_ext. exact H.
Qed.

Lemma C121_recode_lemma inv c b0 bs s A A' a :
  matinv_spec inv -> 0 <= c_forget c < 1 -> ols_config c -> good_calls (b_p b0) (b0 :: bs) ->
  is_inverse (b_p b0) A A' -> (c_icpt c = true \/ forall j, (j < b_p b0)%nat -> a j = 0) ->
  lm_history (ols_ops inv) c (b0 :: bs) new_lm = Ok s ->
  exists s', lm_history (ols_ops inv) c (map (recode_batch A a) (b0 :: bs)) new_lm = Ok s' /\
    (forall X, X <> [] ->
      snd (lm_predict c (b_p b0) (map (recode (b_p b0) A a) X) s') = snd (lm_predict c (b_p b0) X s)) /\
    forall b, b_p b = b_p b0 -> b_rows b <> [] ->
      snd (lm_score c (recode_batch A a b) s') = snd (lm_score c b s).
Proof.
  intros HI Hf HC HG HA Ha H.
  set (p := b_p b0) in *. set (cols := n_cols (c_icpt c) p). set (T := full (c_icpt c) A a).
  set (u := regressors (c_icpt c)). set (v := fun o => u (mkobs (recode p A a (ox o)) (oy o) (ow o))).
  assert (Ht : forall o, (forall i, (i < cols)%nat -> ox (v o) i = mvec cols T (ox (u o)) i) /\ oy (v o) = oy (u o) /\ ow (v o) = ow (u o)).
  { intros o. split; [|split; reflexivity]. intros i Hi. apply full_regressors; auto. }
  assert (HT : is_inverse cols T (full (c_icpt c) A' (fun i => - mvec p A' a i))) by (apply full_inverse, HA).
  destruct (ols_lm_state inv c b0 bs s HI Hf HC HG H) as (L & n & o & R & I). fold p cols u in R, I, L.
  assert (HP : Forall (fun b => b_p b = p) (b0 :: bs)).
  { eapply Forall_impl; [|exact HG]. intros b (_ & _ & E). exact E. }
  pose proof (recode_good p A a _ HG) as HG'. cbn [map] in HG'.
  (* the first call *)
  assert (F0 : exists s0, lm_fit (ols_ops inv) c (recode_batch A a b0) new_lm = (s0, Ok tt)).
  { cbn [lm_history] in H. destruct (partial_fit (ols_ops inv) c b0 new_lm) as [s0 [[]|e]] eqn:H0; [|discriminate H].
    unfold partial_fit in H0. change (is_fitted new_lm) with false in H0. cbn iota in H0.
    destruct (ols_lm_fit inv c b0 _ _ HC H0) as (L1 & L2 & Hn & Hr & o0 & Ho & _). fold p cols u in Ho, Hn, L2.
    inversion HG as [|? ? (G1 & _)]; subst.
    destruct (fit_mapped cols T u v Ht inv (c_forget c) (b_rows b0) o0 _ HI Hf (regressors_nonneg _ _ G1) HT Ho) as (o1 & Ho1).
    destruct (ols_lm_fit_intro inv c (recode_batch A a b0) new_lm o1 HC) as (s1 & E1 & _).
    - cbn [recode_batch b_rows]. rewrite map_length. exact L1.
    - exact L2.
    - cbn [recode_batch b_rows b_p]. rewrite total_weight_map by reflexivity. exact Hn.
    - exact Hr.
    - cbn [recode_batch b_rows b_p]. fold p cols. rewrite map_map. exact Ho1.
    - exists s1. exact E1. }
  destruct F0 as (s0 & F0).
  destruct (C47_optimal_lemma inv c (recode_batch A a b0) (map (recode_batch A a) bs) s0 HI Hf HC HG' F0) as (s' & _ & E' & _).
  destruct (ols_lm_state inv c (recode_batch A a b0) (map (recode_batch A a) bs) s' HI Hf HC HG' E') as (_ & n' & o' & R' & I').
  change (b_p (recode_batch A a b0)) with p in R', I'. fold cols in I'.
  change (recode_batch A a b0 :: map (recode_batch A a) bs) with (map (recode_batch A a) (b0 :: bs)) in I', E'.
  rewrite (recode_stream p A a _ HP), map_map in I'. fold u in I'.
  change (map (fun x => u (mkobs (recode p A a (ox x)) (oy x) (ow x))) (stream (b0 :: bs))) with (map v (stream (b0 :: bs))) in I'.
  pose proof (coef_mapped cols T u v Ht (c_forget c) _ _ _ _ Hf HT I I') as K.
  assert (P : forall X, X <> [] -> snd (lm_predict c p (map (recode p A a) X) s') = snd (lm_predict c p X s)).
  { intros X HX. rewrite (ols_predict _ _ _ _ _ X R L HX).
    rewrite (ols_predict _ _ _ _ _ _ R' L) by (destruct X; [congruence|discriminate]).
    f_equal. rewrite map_map. apply map_ext. intros x. fold cols u.
    change (dot cols (ox (v (mkobs x 0 0))) (ols_coef o') = dot cols (ox (u (mkobs x 0 0))) (ols_coef o)).
    rewrite (dot_mapped cols T u v Ht). apply dot_ext; [intros i _; reflexivity|exact K]. }
  exists s'. split; [exact E'|]. split; [exact P|].
  intros b Hb Nb. unfold lm_score.
  assert (EX : Xs (b_rows (recode_batch A a b)) = map (recode p A a) (Xs (b_rows b))).
  { unfold Xs, recode_batch. cbn [b_rows]. rewrite !map_map, Hb. reflexivity. }
  assert (EY : ys (b_rows (recode_batch A a b)) = ys (b_rows b)).
  { unfold ys, recode_batch. cbn [b_rows]. rewrite !map_map. reflexivity. }
  assert (NX : Xs (b_rows b) <> []) by (unfold Xs; destruct (b_rows b); [congruence|discriminate]).
  specialize (P _ NX). rewrite EX, EY. change (b_p (recode_batch A a b)) with (b_p b). rewrite Hb.
  unfold bnd. 
  destruct (lm_predict c p (map (recode p A a) (Xs (b_rows b))) s') as [z1 r1].
  destruct (lm_predict c p (Xs (b_rows b)) s) as [z2 r2]. cbn [snd] in P. subst r2.
  destruct r1; reflexivity.
Qed.

(** * C122 *)
Lemma intercept_residuals p f l b : normal_equations (S p) f l b -> (forall o, In o l -> ox o 0%nat = 1) ->
  dsum (1 - f) (fun o => ow o * (oy o - dot (S p) (ox o) b)) l = 0.
Proof.
  intros N H1. specialize (N 0%nat ltac:(lia)). unfold mvec, gram_spec, ygram_spec in N.
  rewrite (bsum_ext (S p) _ (fun k => dsum (1 - f) (fun o => ow o * ox o 0%nat * ox o k * b k) l)) in N
    by (intros; rewrite <- dsum_scal_r; reflexivity).
  rewrite <- dsum_bsum in N.
  rewrite (dsum_ext _ _ (fun o => ow o * ox o 0%nat * oy o - bsum (S p) (fun k => ow o * ox o 0%nat * ox o k * b k))).
  - rewrite dsum_minus. lra.
  - intros o Ho. rewrite (bsum_ext (S p) _ (fun k => (ow o * ox o 0%nat) * (ox o k * b k))) by (intros; ring).
    rewrite bsum_scal_l, (H1 o Ho). unfold dot. ring.
Qed.

Lemma C122_residuals_lemma inv c b0 bs s :
  matinv_spec inv -> 0 <= c_forget c < 1 -> ols_config c -> c_icpt c = true -> good_calls (b_p b0) (b0 :: bs) ->
  lm_history (ols_ops inv) c (b0 :: bs) new_lm = Ok s ->
  exists pred, snd (lm_predict c (b_p b0) (Xs (stream (b0 :: bs))) s) = Ok pred /\
    residual_sum (c_forget c) (stream (b0 :: bs)) pred = 0.
Proof.
  intros HI Hf HC Hi HG H.
  destruct (ols_lm_state inv c b0 bs s HI Hf HC HG H) as (L & n & o & R & I).
  pose proof (ols_inv_coef _ _ _ _ I) as N. rewrite Hi, n_cols_true in N.
  inversion HG as [|? ? (_ & G & _)]; subst.
  eexists. split; [apply (ols_predict _ _ _ _ _ _ R L)|].
  - unfold stream, Xs. cbn [map concat]. destruct (b_rows b0); [congruence|discriminate].
  - rewrite Hi, n_cols_true.
    transitivity (dsum (1 - c_forget c) (fun x => ow x * (oy x - dot (S (b_p b0)) (ox x) (ols_coef o))) (map (regressors true) (stream (b0 :: bs)))).
    + unfold residual_sum, Xs. clear. induction (stream (b0 :: bs)) as [|x l IH]; cbn [map combine dsum]; [reflexivity|].
      rewrite IH, combine_length, !map_length, Nat.min_id. reflexivity.
    + apply (intercept_residuals _ _ _ _ N). intros x Hx. rewrite ?Hi in Hx. apply in_map_iff in Hx. destruct Hx as (y & <- & _). reflexivity.
Qed.

(** The training score: no weights, no forgetting. *)
Lemma unit_weights_app l m : unit_weights (l ++ m) <-> unit_weights l /\ unit_weights m.
Proof. apply Forall_app. Qed.

Lemma dsum_one {A} (f : A -> R) l : dsum (1 - 0) f l = lsum (map f l).
Proof.
  induction l as [|a l IH]; cbn [dsum map lsum]; [reflexivity|]. rewrite IH.
  replace (1 - 0) with 1 by ring. rewrite pow1. ring.
Qed.

Lemma unit_loss p l b : unit_weights l -> wls_loss p 0 l b = lsum (map (fun o => (oy o - dot p (ox o) b) ^ 2) l).
Proof.
  intros H. unfold wls_loss. rewrite dsum_one. f_equal. apply map_ext_in. intros o Ho.
  unfold unit_weights in H. rewrite Forall_forall in H. rewrite (H o Ho). ring.
Qed.

Lemma rss_loss icpt p l b : unit_weights l ->
  lsum (map2 (fun a c => (a - c) ^ 2) (ys l) (map (fun x => dot p (ox (regressors icpt (mkobs x 0 0))) b) (Xs l)))
  = wls_loss p 0 (map (regressors icpt) l) b.
Proof.
  intros H. rewrite unit_loss; [|unfold unit_weights; rewrite Forall_map; exact H].
  unfold ys, Xs. clear H. induction l as [|o l IH]; cbn [map map2 lsum]; [reflexivity|]. rewrite IH. reflexivity.
Qed.

Lemma tss_loss p l m : unit_weights l ->
  lsum (map (fun a => (a - m) ^ 2) (ys l)) = wls_loss (S p) 0 (map (regressors true) l) (fun j => match j with O => m | _ => 0 end).
Proof.
  intros H. rewrite unit_loss; [|unfold unit_weights; rewrite Forall_map; exact H].
  unfold ys. rewrite !map_map. f_equal. apply map_ext. intros o. unfold dot. rewrite bsum_shift.
  rewrite (bsum_ext p _ (fun _ => 0)) by (intros; ring). rewrite bsum_0. cbn [regressors ox oy]. f_equal. ring.
Qed.

Lemma score_of {M} (c : lm_cfg M) b s pred : snd (lm_predict c (b_p b) (Xs (b_rows b)) s) = Ok pred ->
  snd (lm_score c b s) = Ok (r2 (ys (b_rows b)) pred).
Proof.
  intros H. unfold lm_score, bnd. destruct (lm_predict c (b_p b) (Xs (b_rows b)) s) as [z r]. cbn [snd] in H. subst r. reflexivity.
Qed.

Lemma C122_score_lemma inv c b0 bs s :
  matinv_spec inv -> c_forget c = 0 -> ols_config c -> c_icpt c = true -> good_calls (b_p b0) (b0 :: bs) ->
  unit_weights (stream (b0 :: bs)) ->
  lm_history (ols_ops inv) c (b0 :: bs) new_lm = Ok s ->
  exists r, snd (lm_score c (mk_batch (b_p b0) (stream (b0 :: bs))) s) = Ok r /\
    forall q, r = Some q -> 0 <= q <= 1.
Proof.
  intros HI Hf0 HC Hi HG HU H. assert (Hf : 0 <= c_forget c < 1) by lra.
  destruct (ols_lm_state inv c b0 bs s HI Hf HC HG H) as (L & n & o & R & I).
  assert (NX : Xs (stream (b0 :: bs)) <> []).
  { inversion HG as [|? ? (_ & G & _)]; subst. unfold stream, Xs. cbn [map concat]. destruct (b_rows b0); [congruence|discriminate]. }
  eexists. split; [apply score_of; cbn [b_p b_rows]; apply (ols_predict _ _ _ _ _ _ R L NX)|].
  cbn [b_p b_rows]. set (l := stream (b0 :: bs)) in *. unfold r2.
  rewrite rss_loss by exact HU. rewrite Hi, n_cols_true in *. rewrite (tss_loss (b_p b0)) by exact HU.
  set (m := lsum (ys l) / INR (length (ys l))).
  set (b' := fun j : nat => match j with O => m | S _ => 0 end).
  rewrite Hf0 in I. destruct (ols_inv_best (S (b_p b0)) 0 _ o b' ltac:(lra) I) as (B & _).
  assert (W : weights_nonneg (map (regressors true) l)) by exact (ols_inv_weights _ _ _ _ I).
  pose proof (loss_nonneg (S (b_p b0)) 0 _ (ols_coef o) ltac:(lra) W) as N.
  set (rss := wls_loss _ _ _ (ols_coef o)) in *. set (tss := wls_loss _ _ _ b') in *.
  intros q Hq. destruct (Reqb tss 0) eqn:E; [discriminate|]. apply Reqb_false in E. injection Hq as <-.
  assert (0 < tss) by lra. split.
  - assert (rss / tss <= 1); [|lra]. apply Rmult_le_reg_r with tss; auto. unfold Rdiv. rewrite Rmult_assoc, Rinv_l by auto. lra.
  - assert (0 <= rss / tss); [|lra]. apply Rmult_le_pos; auto. left; apply Rinv_0_lt_compat; auto.
Qed.

(** More columns. *)
Lemma stream_with_columns p bs : stream (map (with_columns p) bs) = stream bs.
Proof. unfold stream. rewrite map_map. reflexivity. Qed.

Lemma dot_pad p q x b : (p <= q)%nat -> dot q x (fun k => if Nat.ltb k p then b k else 0) = dot p x b.
Proof.
  intros H. replace q with (p + (q - p))%nat by lia. generalize (q - p)%nat as d. clear H. intros d.
  unfold dot. induction d as [|d IH].
  - rewrite Nat.add_0_r. apply bsum_ext. intros i Hi. destruct (Nat.ltb_spec i p); [ring|lia].
  - rewrite Nat.add_succ_r. cbn [bsum]. rewrite IH. destruct (Nat.ltb_spec (p + d) p); [lia|ring].
Qed.

Lemma C122_nested_lemma inv c b0 bs q s s' r r' :
  matinv_spec inv -> c_forget c = 0 -> ols_config c -> good_calls (b_p b0) (b0 :: bs) ->
  unit_weights (stream (b0 :: bs)) -> (b_p b0 <= q)%nat ->
  lm_history (ols_ops inv) c (b0 :: bs) new_lm = Ok s ->
  lm_history (ols_ops inv) c (map (with_columns q) (b0 :: bs)) new_lm = Ok s' ->
  snd (lm_score c (mk_batch (b_p b0) (stream (b0 :: bs))) s) = Ok (Some r) ->
  snd (lm_score c (mk_batch q (stream (b0 :: bs))) s') = Ok (Some r') ->
  r <= r'.
Proof.
  intros HI Hf0 HC HG HU Hq H H' S1 S2. assert (Hf : 0 <= c_forget c < 1) by lra.
  destruct (ols_lm_state inv c b0 bs s HI Hf HC HG H) as (L & n & o & R & I).
  assert (HG' : good_calls q (map (with_columns q) (b0 :: bs))).
  { unfold good_calls. rewrite Forall_map. eapply Forall_impl; [|exact HG]. intros b (G1 & G2 & G3). split; [exact G1|]. split; [exact G2|reflexivity]. }
  destruct (ols_lm_state inv c (with_columns q b0) (map (with_columns q) bs) s' HI Hf HC HG' H') as (L' & n' & o' & R' & I').
  change (b_p (with_columns q b0)) with q in *.
  change (with_columns q b0 :: map (with_columns q) bs) with (map (with_columns q) (b0 :: bs)) in I'.
  rewrite stream_with_columns in I'.
  assert (NX : Xs (stream (b0 :: bs)) <> []).
  { inversion HG as [|? ? (_ & G & _)]; subst. unfold stream, Xs. cbn [map concat]. destruct (b_rows b0); [congruence|discriminate]. }
  set (l := stream (b0 :: bs)) in *.
  rewrite (score_of c (mk_batch (b_p b0) l) s _ (ols_predict _ _ _ _ _ _ R L NX)) in S1. cbn [b_rows] in S1.
  rewrite (score_of c (mk_batch q l) s' _ (ols_predict _ _ _ _ _ _ R' L' NX)) in S2. cbn [b_rows] in S2.
  unfold r2 in S1, S2. rewrite rss_loss in S1, S2 by exact HU.
  set (tss := lsum (map _ (ys l))) in *.
  destruct (Reqb tss 0) eqn:E; [discriminate S1|]. apply Reqb_false in E.
  injection S1 as <-. injection S2 as <-.
  set (b' := fun k => if Nat.ltb k (n_cols (c_icpt c) (b_p b0)) then ols_coef o k else 0).
  rewrite Hf0 in I'. destruct (ols_inv_best _ 0 _ o' b' ltac:(lra) I') as (B & _).
  assert (EB : wls_loss (n_cols (c_icpt c) q) 0 (map (regressors (c_icpt c)) l) b'
             = wls_loss (n_cols (c_icpt c) (b_p b0)) 0 (map (regressors (c_icpt c)) l) (ols_coef o)).
  { unfold wls_loss. apply dsum_ext. intros a _. do 3 f_equal. apply dot_pad. unfold n_cols. lia. }
  rewrite EB in B.
  assert (0 < tss).
  { assert (0 <= tss); [|lra]. unfold tss. generalize (lsum (ys l) / INR (length (ys l))) as m. clear. intros m.
    induction (ys l) as [|a z IH]; cbn [map lsum]; [lra|].
    assert (0 <= (a - m) ^ 2) by apply pow2_ge_0. lra. }
  assert (K : wls_loss (n_cols (c_icpt c) q) 0 (map (regressors (c_icpt c)) l) (ols_coef o') / tss
     <= wls_loss (n_cols (c_icpt c) (b_p b0)) 0 (map (regressors (c_icpt c)) l) (ols_coef o) / tss); [|lra].
  apply Rmult_le_compat_r; [left; apply Rinv_0_lt_compat; auto|exact B].
Qed.

(** Lemmas: least squares under a linear change of the columns and a shift of the response. *)
From Coq Require Import Reals List Bool Arith Lra Lia.
From Verif Require Import Base Lin Data M_Gram S_Gram L_Gram M_OLS L_OLS L_Learn L_Recode.
Import ListNotations.
Open Scope R_scope.

Lemma F2_length {A B} (Q : A -> B -> Prop) l l' : Forall2 Q l l' -> length l = length l'.
Proof. induction 1; cbn; congruence. Qed.

Section Equi.
Variables (k : nat) (T T' : mat) (u : vec) (c : R).
Hypothesis HT : is_inverse k T T'.

(** The row [x'] is [T] times [x], and [u] is a combination of the columns that is [c]. *)
Definition row_rel (x x' : vec) : Prop := (forall i, (i < k)%nat -> x' i = mvec k T x i) /\ dot k x u = c.
Definition obs_rel (o o' : obs) : Prop := row_rel (ox o) (ox o') /\ oy o' = oy o + c /\ ow o' = ow o.
(** The coefficients that give the predictors plus [c]. *)
Definition coef_rel (b b' : vec) : Prop := eqv k (mvec k (transp T) b') (fun i => b i + u i).

Lemma dot_row x x' b : (forall i, (i < k)%nat -> x' i = mvec k T x i) -> dot k x' b = dot k x (mvec k (transp T) b).
Proof.
  intros H. unfold dot, mvec, transp.
  rewrite (bsum_ext k _ (fun i => bsum k (fun j => T i j * x j * b i))).
  2:{ intros i Hi. rewrite (H i Hi). unfold mvec. rewrite bsum_scal_r. reflexivity. }
  rewrite bsum_swap. apply bsum_ext. intros j _. rewrite <- bsum_scal_l. apply bsum_ext. intros; ring.
Qed.
Lemma dot_rel x x' b b' : row_rel x x' -> coef_rel b b' -> dot k x' b' = dot k x b + c.
Proof.
  intros [Hx Hc] Hb. rewrite (dot_row x x' b' Hx).
  rewrite (dot_ext k x x _ (fun i => b i + u i)); [|intros i _; reflexivity|exact Hb]. rewrite dot_plus_r. lra.
Qed.
Lemma loss_rel f l l' b' : Forall2 obs_rel l l' ->
  wls_loss k f l' b' = wls_loss k f l (fun i => mvec k (transp T) b' i - u i).
Proof.
  unfold wls_loss. induction 1 as [|o o' l l' ([Hx Hc] & Hy & Hw) H IH]; cbn [dsum]; [reflexivity|].
  rewrite IH, (F2_length _ _ _ H), (dot_row _ _ b' Hx), Hy, Hw, dot_minus_r, Hc. f_equal. f_equal. f_equal. f_equal. ring.
Qed.
Lemma gram_rel f l l' : Forall2 obs_rel l l' -> eqm k (gram_spec f l') (mmul k (mmul k T (gram_spec f l)) (transp T)).
Proof.
  intros H i j Hi Hj. induction H as [|o o' l l' ([Hx _] & _ & Hw) H IH].
  - unfold mmul, gram_spec, transp. cbn [dsum].
    rewrite (bsum_ext k _ (fun _ => 0)); [symmetry; apply bsum_0|].
    intros m _. rewrite (bsum_ext k _ (fun _ => 0)); [rewrite bsum_0; ring|]. intros; ring.
  - unfold mmul, transp in *.
    assert (E : forall a b, gram_spec f (o :: l) a b = (1 - f) ^ length l * (ow o * ox o a * ox o b) + gram_spec f l a b) by reflexivity.
    assert (E' : gram_spec f (o' :: l') i j = (1 - f) ^ length l * (ow o' * ox o' i * ox o' j) + gram_spec f l' i j).
    { unfold gram_spec. cbn [dsum]. now rewrite (F2_length _ _ _ H). }
    rewrite E', IH, Hw, (Hx i Hi), (Hx j Hj).
    set (G := gram_spec f l) in *. set (g := (1 - f) ^ length l) in *. set (w := ow o). set (x := ox o) in *.
    rewrite (bsum_ext k (fun m => bsum k (fun m0 => T i m0 * gram_spec f (o :: l) m0 m) * T j m)
      (fun m => g * w * mvec k T x i * (T j m * x m) + bsum k (fun m0 => T i m0 * G m0 m) * T j m)).
    + rewrite bsum_plus, bsum_scal_l. change (bsum k (fun m => T j m * x m)) with (mvec k T x j). ring.
    + intros m _. unfold mvec.
      rewrite (bsum_ext k (fun m0 => T i m0 * gram_spec f (o :: l) m0 m)
        (fun m0 => (g * w * x m) * (T i m0 * x m0) + T i m0 * G m0 m)).
      * rewrite bsum_plus, bsum_scal_l. ring.
      * intros m0 _. rewrite E. fold w x g G. ring.
Qed.
Lemma weights_rel l l' : Forall2 obs_rel l l' -> weights_nonneg l -> weights_nonneg l'.
Proof.
  induction 1 as [|o o' l l' (_ & _ & Hw) H IH]; intros K; [constructor|]. inversion K; subst. constructor; [now rewrite Hw|now apply IH].
Qed.

(** The stored moments of two streams that differ by the change. *)
Definition pair_rel (f : R) (x : mat) (y : vec) (x' : mat) (y' : vec) : Prop :=
  exists l l', Forall2 obs_rel l l' /\ ols_inv k f l (mk_ols x y (ols_beta k x y)) /\ ols_inv k f l' (mk_ols x' y' (ols_beta k x' y')).

Lemma pair_coef f x y x' y' : 0 <= f < 1 -> pair_rel f x y x' y' -> coef_rel (ols_beta k x y) (ols_beta k x' y').
Proof.
  intros Hf (l & l' & H & I & I'). set (b := ols_beta k x y) in *. set (b' := ols_beta k x' y') in *.
  assert (Q : eqv k (fun i => mvec k (transp T) b' i - u i) b).
  { destruct (ols_inv_best k f l _ (fun i => mvec k (transp T) b' i - u i) Hf I) as (B1 & B2). apply B2. cbn [ols_coef] in *.
    apply Rle_antisym; [|exact B1]. rewrite <- (loss_rel f l l' b' H).
    destruct (ols_inv_best k f l' _ (mvec k (transp T') (fun i => b i + u i)) Hf I') as (C1 & _). cbn [ols_coef] in C1.
    eapply Rle_trans; [exact C1|]. right. rewrite (loss_rel f l l' _ H). unfold wls_loss. apply dsum_ext. intros a _.
    do 3 f_equal. apply dot_ext; [intros i _; reflexivity|]. intros i Hi.
    rewrite (inverse_mvec k (transp T) (transp T') (fun i => b i + u i) (is_inverse_transp _ _ _ HT) i Hi). ring. }
  intros i Hi. specialize (Q i Hi). cbv beta in Q. lra.
Qed.
Lemma fit_rel inv f l l' x : matinv_spec inv -> 0 <= f < 1 -> weights_nonneg l -> Forall2 obs_rel l l' ->
  init_inverted_gram inv k (Xs l) (ws l) f = Ok x -> exists x', init_inverted_gram inv k (Xs l') (ws l') f = Ok x' /\
    pair_rel f x (init_y_gram (Xs l) (ys l) (ws l) f) x' (init_y_gram (Xs l') (ys l') (ws l') f).
Proof.
  intros HI Hf Hw H E.
  assert (E1 : ols_fit inv k f l = Ok (mk_ols x (init_y_gram (Xs l) (ys l) (ws l) f) (ols_beta k x (init_y_gram (Xs l) (ys l) (ws l) f)))).
  { unfold ols_fit. now rewrite E. }
  pose proof (ols_fit_inv inv k f _ _ HI Hf Hw E1) as I. pose proof I as ((IA & _) & _). cbn [ols_x] in IA.
  assert (Hw' : weights_nonneg l') by now apply (weights_rel l).
  destruct (proj2 HI k (init_gram (Xs l') (ws l') f)) as (x' & Ex).
  { exists (mmul k (transp T') (mmul k x T')). eapply is_inverse_ext; [|apply eqm_refl|].
    - eapply eqm_trans; [apply eqm_sym, (gram_rel f l l' H)|]. intros i j _ _. symmetry. apply init_gram_spec; [lra|exact Hw'].
    - apply inverse_mmul; [|apply is_inverse_transp, HT]. apply inverse_mmul; [exact HT|exact IA]. }
  exists x'. assert (E2 : init_inverted_gram inv k (Xs l') (ws l') f = Ok x') by (unfold init_inverted_gram; now rewrite Ex).
  split; [exact E2|]. exists l, l'. split; [exact H|]. split; [exact I|].
  apply (ols_fit_inv inv k f l' _ HI Hf Hw'). unfold ols_fit. now rewrite E2.
Qed.
Lemma update_rel f x y x' y' l l' x1 : 0 <= f < 1 -> pair_rel f x y x' y' -> weights_nonneg l -> Forall2 obs_rel l l' ->
  update_inverted_gram k x (Xs l) f (ws l) = Ok x1 -> exists x1', update_inverted_gram k x' (Xs l') f (ws l') = Ok x1' /\
    pair_rel f x1 (update_y_gram y (Xs l) (ys l) f (ws l)) x1' (update_y_gram y' (Xs l') (ys l') f (ws l')).
Proof.
  intros Hf (h & h' & Hh & I & I') Hw H E.
  assert (Hn : nonempty l) by (intros ->; discriminate E).
  assert (Hn' : nonempty l') by (intros ->; inversion H; subst; now apply Hn).
  assert (Hw' : weights_nonneg l') by now apply (weights_rel l).
  destruct (ols_update_inv k f h _ l Hf I Hw Hn) as (s & Es & Is).
  destruct (ols_update_inv k f h' _ l' Hf I' Hw' Hn') as (s' & Es' & Is').
  unfold ols_update in Es, Es'. cbn [ols_x ols_y] in Es, Es'. rewrite E in Es. cbn [bind] in Es. injection Es as <-.
  destruct (update_inverted_gram k x' (Xs l') f (ws l')) as [x1'|]; [|discriminate]. cbn [bind] in Es'. injection Es' as <-.
  exists x1'. split; [reflexivity|]. exists (h ++ l), (h' ++ l'). split; [now apply Forall2_app|]. split; assumption.
Qed.
End Equi.

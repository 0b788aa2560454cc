From Coq Require Import Reals List Bool Arith Lra Lia FunctionalExtensionality Permutation.
From Verif Require Import Base Lin Data M_Gram S_Gram M_OLS M_CD M_Path M_Ridge M_Scaler M_Utils M_State M_LM S_LM L_LM S_Target L_Target L_Target2 S_CD L_CD L_CD2 S_Recode L_Weight L_Weight2.
Import ListNotations.
Open Scope R_scope.

Section W.
Variable t : R.
Hypothesis Ht : 0 < t.

(** * OLS *)
Lemma is_inverse_wt p G B : is_inverse p G B -> is_inverse p (mscale t G) (mscale (/ t) B).
Proof.
  assert (E : forall A B, eqm p (mmul p (mscale t A) (mscale (/ t) B)) (mmul p A B)).
  { intros A C i j Hi Hj. unfold mmul, mscale. apply bsum_ext. intros k Hk. field. lra. }
  assert (E' : forall A B, eqm p (mmul p (mscale (/ t) A) (mscale t B)) (mmul p A B)).
  { intros A C i j Hi Hj. unfold mmul, mscale. apply bsum_ext. intros k Hk. field. lra. }
  intros [H1 H2]. split; [eapply eqm_trans; [apply E|exact H1]|eapply eqm_trans; [apply E'|exact H2]].
Qed.
Definition ols_x_wt (p : nat) (A A' : mat) : Prop := eqm p A (mscale t A').
Lemma ols_init_wt inv p X w f x : matinv_spec inv -> op_init_x (ols_ops inv) p X w f = Ok x ->
  exists x', op_init_x (ols_ops inv) p X (map (Rmult t) w) f = Ok x' /\ ols_x_wt p x x'.
Proof.
  intros [I1 I2]. cbn. unfold init_inverted_gram. rewrite init_gram_wt by exact Ht.
  destruct (inv p (init_gram X w f)) as [B|] eqn:E; [|discriminate]. intros K. injection K as <-. apply I1 in E.
  pose proof (is_inverse_wt _ _ _ E) as E'. destruct (I2 p (mscale t (init_gram X w f)) (ex_intro _ _ E')) as [B' E2]. rewrite E2.
  exists B'. split; [reflexivity|]. apply I1 in E2. pose proof (is_inverse_unique _ _ _ _ E2 E') as U.
  intros i j Hi Hj. unfold mscale at 1. rewrite (U i j Hi Hj). unfold mscale. field. lra.
Qed.
Lemma inverted1_wt p A A' x f w : ols_x_wt p A A' -> ols_x_wt p (update_inverted_gram1 p A x f w) (update_inverted_gram1 p A' x f (t * w)).
Proof.
  intros H i j Hi Hj. unfold update_inverted_gram1, mscale.
  assert (Ed : dot p (fun j => bsum p (fun k => w * x k * A k j)) x = dot p (fun j => bsum p (fun k => t * w * x k * A' k j)) x).
  { unfold dot. apply bsum_ext. intros l Hl. f_equal. apply bsum_ext. intros k Hk. rewrite (H k l Hk Hl). unfold mscale. ring. }
  rewrite Ed.
  assert (En : mmul p (mmul p (fun i j => w * A i j) (outer x x)) A i j = t * mmul p (mmul p (fun i j => t * w * A' i j) (outer x x)) A' i j).
  { unfold mmul. rewrite <- bsum_scal_l. apply bsum_ext. intros k Hk. rewrite (H k j Hk Hj). unfold mscale.
    transitivity (bsum p (fun k0 => t * w * A' i k0 * outer x x k0 k) * (t * A' k j)); [|ring].
    f_equal. apply bsum_ext. intros l Hl. rewrite (H i l Hi Hl). unfold mscale. ring. }
  rewrite En, (H i j Hi Hj). unfold mscale, Rdiv. ring.
Qed.
Lemma ols_update_wt inv p x0 x0' X f w x : ols_x_wt p x0 x0' -> op_update_x (ols_ops inv) p x0 X f w = Ok x ->
  exists x', op_update_x (ols_ops inv) p x0' X f (map (Rmult t) w) = Ok x' /\ ols_x_wt p x x'.
Proof.
  cbn. unfold update_inverted_gram. intros H K. assert (E : x = update_inverted_rows p x0 X f w) by (destruct X; [discriminate|injection K as <-; reflexivity]).
  exists (update_inverted_rows p x0' X f (map (Rmult t) w)). split; [destruct X; [discriminate|reflexivity]|].
  subst x. clear K. revert x0 x0' w H. induction X as [|v X IH]; intros x0 x0' [|a w] H; cbn; auto.
  apply IH. apply inverted1_wt. exact H.
Qed.
Lemma ols_beta_wt p x x' y : ols_x_wt p x x' -> eqv p (ols_beta p x y) (ols_beta p x' (vscale t y)).
Proof.
  intros H i Hi. unfold ols_beta, mvec, dot. apply bsum_ext. intros k Hk. rewrite (H i k Hi Hk). unfold mscale, vscale. ring.
Qed.

(** * Coordinate descent *)
Definition cd_wt (a a' : cd_args) : Prop :=
  cd_J a' = cd_J a /\ cd_lo a' = cd_lo a /\ cd_up a' = cd_up a /\ cd_isreg a' = cd_isreg a /\ cd_alpha a' = cd_alpha a /\
  cd_x a' = mscale t (cd_x a) /\ cd_y a' = vscale t (cd_y a) /\ cd_reg a' = t * cd_reg a.
Lemma cd_coord_wt a a' beta j : cd_wt a a' -> cd_coord a' beta j = cd_coord a beta j.
Proof.
  intros (EJ & El & Eu & Er & Ea & Ex & Ey & Eg). unfold cd_coord.
  assert (Ep : cd_partial a' beta j = t * cd_partial a beta j).
  { unfold cd_partial. rewrite EJ, Ex, Ey. unfold mscale, vscale.
    replace (bsum (cd_J a) (fun k => t * cd_x a j k * beta k)) with (t * bsum (cd_J a) (fun k => cd_x a j k * beta k)); [ring|].
    rewrite <- bsum_scal_l. apply bsum_ext. intros. ring. }
  assert (En : cd_num a' beta j = t * cd_num a beta j).
  { unfold cd_num. rewrite Er, Ep, Ea, Eg. destruct (cd_isreg a j); auto. rewrite <- soft_scal by exact Ht. f_equal. ring. }
  assert (Ed : cd_den a' j = t * cd_den a j).
  { unfold cd_den. rewrite Er, Ex, Ea, Eg. unfold mscale. destruct (cd_isreg a j); ring. }
  rewrite En, Ed, Reqb_scal, div_wt, El, Eu by exact Ht. reflexivity.
Qed.
Lemma cd_visit_wt a a' first beta j : cd_wt a a' -> cd_visit a' first beta j = cd_visit a first beta j.
Proof. intros H. unfold cd_visit. rewrite (cd_coord_wt a a' beta j H). reflexivity. Qed.
Lemma cd_sweep_wt a a' first : cd_wt a a' -> forall JJ beta, cd_sweep a' first JJ beta = cd_sweep a first JJ beta.
Proof.
  intros H. induction JJ as [|j JJ IH]; intros beta; cbn; auto. rewrite (cd_visit_wt a a' first beta j H).
  destruct (cd_visit a first beta j); cbn; auto.
Qed.
Lemma cd_loop_wt a a' random perm tol maxit : cd_wt a a' -> forall fuel i beta,
  cd_loop fuel a' random perm tol maxit i beta = cd_loop fuel a random perm tol maxit i beta.
Proof.
  intros H. induction fuel as [|fuel IH]; intros i beta; cbn [cd_loop]; auto.
  assert (EJ : cd_J a' = cd_J a) by apply H. unfold cd_order. rewrite EJ, (cd_sweep_wt a a' _ H).
  destruct (cd_sweep a _ _ beta) as [b|e]; cbn [bind]; auto. destruct (Rleb _ _); auto. destruct (maxit <? S i)%nat; auto.
Qed.
Lemma path_loop_wt a a' random perm tol maxit stop w Q :
  cd_J a' = cd_J a -> cd_lo a' = cd_lo a -> cd_up a' = cd_up a -> cd_isreg a' = cd_isreg a -> cd_alpha a' = cd_alpha a ->
  cd_x a' = mscale t (cd_x a) -> cd_y a' = vscale t (cd_y a) -> forall ls i P its,
  path_loop a' random perm tol maxit stop w Q i (map (Rmult t) ls) P its = path_loop a random perm tol maxit stop w Q i ls P its.
Proof.
  intros EJ El Eu Er Ea Ex Ey. induction ls as [|l ls IH]; intros i P its; cbn [path_loop map]; auto. rewrite EJ.
  destruct (_ && _); [apply IH|].
  unfold online_coordinate_descent. rewrite (cd_loop_wt (with_reg a l) (with_reg a' (t * l))) by (unfold cd_wt; cbn; auto 10).
  destruct (cd_loop _ _ _ _ _ _ _ _) as [r|e]; cbn [bind]; auto.
Qed.
Lemma lambda_max_wt J x y r : get_lambda_max J (mscale t x) (vscale t y) r = res_map (Rmult t) (get_lambda_max J x y r).
Proof.
  unfold get_lambda_max. destruct (unregularized J r) as [|u [|u' l]]; auto.
  - apply np_max_scal. exact Ht.
  - unfold mscale at 1. rewrite Reqb_scal by exact Ht. destruct (Reqb (x u u) 0); auto. cbv zeta.
    replace (fun k => Rabs (vscale t y k - mscale t x u k * (vscale t y u / mscale t x u u))) with (vscale t (fun k => Rabs (y k - x u k * (y u / x u u)))).
    + apply np_max_scal. exact Ht.
    + apply functional_extensionality. intros k. unfold vscale, mscale. rewrite div_wt, <- (Rabs_scal t) by exact Ht. f_equal. ring.
Qed.
Lemma fit_path_wt c perm J x y r : fit_beta_path c perm J (mscale t x) (vscale t y) r = fit_beta_path c perm J x y r.
Proof.
  unfold fit_beta_path. destruct (set_and_validate_bounds c J) as [c1|]; cbn [bind]; auto. rewrite lambda_max_wt.
  destruct (get_lambda_max J x y r) as [L|]; cbn [bind res_map]; auto. rewrite geomspace_scal by exact Ht.
  destruct (geomspace _ _ _) as [ls|]; cbn [bind res_map]; auto. unfold online_coordinate_descent_path.
  rewrite (path_loop_wt (en_args c1 J x y r) (en_args c1 J (mscale t x) (vscale t y) r)) by reflexivity. reflexivity.
Qed.
Lemma update_path_wt c perm J x y Q r : update_beta_path c perm J (mscale t x) (vscale t y) Q r = update_beta_path c perm J x y Q r.
Proof.
  unfold update_beta_path. rewrite lambda_max_wt.
  destruct (get_lambda_max J x y r) as [L|]; cbn [bind res_map]; auto. rewrite geomspace_scal by exact Ht.
  destruct (geomspace _ _ _) as [ls|]; cbn [bind res_map]; auto. unfold online_coordinate_descent_path.
  rewrite (path_loop_wt (en_args c J x y r) (en_args c J (mscale t x) (vscale t y) r)) by reflexivity. reflexivity.
Qed.

(** * Coordinate descent from a start that agrees on the columns *)
Definition res_rel {A B} (P : A -> B -> Prop) (r : res A) (r' : res B) : Prop :=
  match r, r' with Ok v, Ok v' => P v v' | Raise e, Raise e' => e = e' | _, _ => False end.
Lemma cd_visit_ext a first b b' j : eqv (cd_J a) b b' -> (j < cd_J a)%nat -> res_rel (eqv (cd_J a)) (cd_visit a first b j) (cd_visit a first b' j).
Proof.
  intros H Hj. unfold cd_visit. rewrite <- (H j Hj), <- (coord_ext a b b' j H Hj). destruct (first || _); [|exact H].
  destruct (cd_coord a b j) as [v|e]; cbn; auto. intros k Hk. unfold vset. destruct (Nat.eqb k j); auto.
Qed.
Lemma cd_sweep_ext a first : forall JJ b b', Forall (fun j => (j < cd_J a)%nat) JJ -> eqv (cd_J a) b b' ->
  res_rel (eqv (cd_J a)) (cd_sweep a first JJ b) (cd_sweep a first JJ b').
Proof.
  induction JJ as [|j JJ IH]; intros b b' HF H; cbn; auto. inversion HF as [|? ? Hj HF']; subst.
  pose proof (cd_visit_ext a first b b' j H Hj) as V.
  destruct (cd_visit a first b j) as [v|e], (cd_visit a first b' j) as [v'|e']; cbn in *; auto; try contradiction.
Qed.
Lemma max_abs_ext n u v : eqv n u v -> max_abs n u = max_abs n v.
Proof.
  induction n as [|n IH]; intros H; cbn; auto. rewrite (H n) by lia. rewrite IH; auto. intros k Hk. apply H. lia.
Qed.
Lemma cd_loop_ext a random perm tol maxit : (forall i, random = true -> Forall (fun j => (j < cd_J a)%nat) (perm i)) -> forall fuel i b b',
  eqv (cd_J a) b b' ->
  res_rel (fun r r' => eqv (cd_J a) (fst r) (fst r')) (cd_loop fuel a random perm tol maxit i b) (cd_loop fuel a random perm tol maxit i b').
Proof.
  intros HP. induction fuel as [|fuel IH]; intros i b b' H; cbn [cd_loop]; [reflexivity|].
  assert (HO : Forall (fun j => (j < cd_J a)%nat) (cd_order a random perm (S i))).
  { unfold cd_order. destruct random; cbn [andb]; [destruct (2 <=? S i)%nat; [apply HP; reflexivity|]|]; apply Forall_forall; intros j Hj; apply in_seq in Hj; lia. }
  pose proof (cd_sweep_ext a (S i <? 2)%nat _ b b' HO H) as V.
  destruct (cd_sweep a _ _ b) as [v|e], (cd_sweep a _ _ b') as [v'|e']; cbn [bind res_rel] in *; auto; try contradiction.
  rewrite (max_abs_ext _ _ _ V). rewrite (max_abs_ext (cd_J a) (fun k => v k - b k) (fun k => v' k - b' k)) by (intros k Hk; rewrite (V k Hk), (H k Hk); reflexivity).
  destruct (Rleb _ _); [exact V|]. destruct (maxit <? S i)%nat; [exact V|]. apply IH. exact V.
Qed.

(** * Ridge *)
Definition ridge_wt (m m' : ridge_cfg * nat) : Prop :=
  snd m' = snd m /\ ri_start (fst m') = ri_start (fst m) /\ ri_random (fst m') = ri_random (fst m) /\
  ri_lower (fst m') = ri_lower (fst m) /\ ri_upper (fst m') = ri_upper (fst m) /\ ri_tol (fst m') = ri_tol (fst m) /\
  ri_maxit (fst m') = ri_maxit (fst m) /\ ri_lambda (fst m') = option_map (Rmult t) (ri_lambda (fst m)).

Lemma ridge_bounds_inv c J c1 : ridge_bounds c J = Ok c1 ->
  c1 = mk_ridge (ri_lambda c) (ri_start c) (ri_random c) (Some (fill_bound (ri_lower c) J)) (Some (fill_bound (ri_upper c) J)) (ri_tol c) (ri_maxit c) /\
  length (fill_bound (ri_lower c) J) = J /\ length (fill_bound (ri_upper c) J) = J.
Proof.
  unfold ridge_bounds. destruct (Nat.eqb (length (fill_bound (ri_lower c) J)) J) eqn:E1; [|discriminate].
  destruct (Nat.eqb (length (fill_bound (ri_upper c) J)) J) eqn:E2; [|discriminate]. cbn. intros E. injection E as <-.
  apply Nat.eqb_eq in E1. apply Nat.eqb_eq in E2. auto.
Qed.
Lemma mtrace_wt J x : mtrace J (mscale t x) = t * mtrace J x.
Proof. unfold mtrace, mscale. apply bsum_scal_l. Qed.
Lemma ridge_start_wt inv c c' J x y : matinv_spec inv -> ri_start c' = ri_start c ->
  eqv J (ridge_start inv c J x y) (ridge_start inv c' J (mscale t x) (vscale t y)).
Proof.
  intros [I1 I2] E. unfold ridge_start. rewrite E. destruct (ri_start c) as [b|]; [intros i Hi; reflexivity|].
  destruct (inv J x) as [B|] eqn:EB.
  - apply I1 in EB. pose proof (is_inverse_wt _ _ _ EB) as E'. destruct (I2 _ _ (ex_intro _ _ E')) as [B' E2]. rewrite E2.
    apply I1 in E2. pose proof (is_inverse_unique _ _ _ _ E2 E') as U.
    intros i Hi. unfold mvec, dot. apply bsum_ext. intros k Hk. rewrite (U i k Hi Hk). unfold mscale, vscale. field. lra.
  - destruct (inv J (mscale t x)) as [B'|] eqn:EB'; [|intros i Hi; reflexivity]. exfalso.
    apply I1 in EB'. assert (K : is_inverse J x (mscale t B')).
    { destruct EB' as [H1 H2]. split; [eapply eqm_trans; [|exact H1]|eapply eqm_trans; [|exact H2]]; intros i j Hi Hj; unfold mmul, mscale; apply bsum_ext; intros; ring. }
    destruct (I2 _ _ (ex_intro _ _ K)) as [B2 E2]. congruence.
Qed.
Lemma ridge_args_wt c c' lam J x y r : ri_lower c' = ri_lower c -> ri_upper c' = ri_upper c ->
  cd_wt (ridge_args c lam J x y r) (ridge_args c' (t * lam) J (mscale t x) (vscale t y) r).
Proof. intros E1 E2. unfold cd_wt, ridge_args. cbn. rewrite E1, E2. auto 10. Qed.
Lemma ridge_fit_wt inv perms m m' p x y r m1 b : matinv_spec inv -> (ri_random (fst m) = true -> forall k, perm_ok p (perms k)) ->
  ri_lambda (fst m) = None -> ridge_wt m m' ->
  op_fit_beta (ridge_ops inv perms) m p x y r = Ok (m1, b) ->
  exists m1' b', op_fit_beta (ridge_ops inv perms) m' p (mscale t x) (vscale t y) r = Ok (m1', b') /\ ridge_wt m1 m1' /\ ri_random (fst m1) = ri_random (fst m) /\ eqv p b b'.
Proof.
  intros HI HP HN (W1 & W2 & W3 & W4 & W5 & W6 & W7 & W8) H. cbn in H |- *. unfold ridge_fit in *.
  destruct (ridge_bounds (fst m) p) as [c1|] eqn:E1; [|discriminate]. cbn [bind] in *.
  destruct (ridge_bounds_inv _ _ _ E1) as (-> & L1 & L2).
  assert (E1' : ridge_bounds (fst m') p = Ok (mk_ridge None (ri_start (fst m)) (ri_random (fst m)) (Some (fill_bound (ri_lower (fst m)) p)) (Some (fill_bound (ri_upper (fst m)) p)) (ri_tol (fst m)) (ri_maxit (fst m)))).
  { unfold ridge_bounds. rewrite W2, W3, W4, W5, W6, W7, W8, HN, L1, L2, Nat.eqb_refl. reflexivity. }
  rewrite E1'. cbn [bind ri_lambda ri_start ri_random ri_lower ri_upper ri_tol ri_maxit] in *. rewrite W1.
  set (c1 := mk_ridge (ri_lambda (fst m)) _ _ _ _ _ _) in *. set (c1' := mk_ridge None _ _ _ _ _ _).
  assert (El : ridge_lambda c1' p (mscale t x) = t * ridge_lambda c1 p x).
  { unfold ridge_lambda, c1', c1. cbn [ri_lambda]. rewrite HN, mtrace_wt. unfold Rdiv. ring. }
  rewrite El. set (lam := ridge_lambda c1 p x) in *. clearbody lam. clear El.
  set (c2 := mk_ridge (Some lam) _ _ _ _ _ _) in *. set (c2' := mk_ridge (Some (t * lam)) _ _ _ _ _ _).
  unfold online_coordinate_descent in *.
  rewrite (cd_loop_wt (ridge_args c2 lam p x y r) (ridge_args c2' (t * lam) p (mscale t x) (vscale t y) r)) by (apply ridge_args_wt; reflexivity).
  pose proof (cd_loop_ext (ridge_args c2 lam p x y r) (ri_random (fst m)) (perms (snd m)) (ri_tol (fst m)) (ri_maxit (fst m))) as X.
  cbn [cd_J ridge_args] in X.
  specialize (X ltac:(intros i Hi; apply Forall_forall; intros j Hj; eapply (Permutation_in j) in Hj; [|apply (HP Hi)]; apply in_seq in Hj; lia)
    (S (ri_maxit (fst m))) 0%nat _ _ (ridge_start_wt inv c1 c1' p x y HI eq_refl)).
  destruct (cd_loop _ _ _ _ _ _ _ (ridge_start inv c1 p x y)) as [[v n]|]; [|discriminate].
  destruct (cd_loop _ _ _ _ _ _ _ (ridge_start inv c1' p _ _)) as [[v' n']|]; [|contradiction].
  cbn in X, H |- *. injection H as <- <-. eexists. eexists. split; [reflexivity|]. split; [|split; [reflexivity|exact X]].
  unfold ridge_wt. cbn. auto 10.
Qed.
Lemma ridge_update_wt inv perms m m' p x y r b0 b0' m1 b : (ri_random (fst m) = true -> forall k, perm_ok p (perms k)) ->
  ridge_wt m m' -> eqv p b0 b0' ->
  op_update_beta (ridge_ops inv perms) m p x y b0 r = Ok (m1, b) ->
  exists m1' b', op_update_beta (ridge_ops inv perms) m' p (mscale t x) (vscale t y) b0' r = Ok (m1', b') /\ ridge_wt m1 m1' /\ ri_random (fst m1) = ri_random (fst m) /\ eqv p b b'.
Proof.
  intros HP (W1 & W2 & W3 & W4 & W5 & W6 & W7 & W8) HB H. cbn in H |- *. unfold ridge_update in *.
  rewrite W8, W1, W3, W6, W7. destruct (ri_lambda (fst m)) as [lam|] eqn:EL; [|discriminate]. cbn [option_map].
  unfold online_coordinate_descent in *.
  rewrite (cd_loop_wt (ridge_args (fst m) lam p x y r) (ridge_args (fst m') (t * lam) p (mscale t x) (vscale t y) r)) by (apply ridge_args_wt; assumption).
  pose proof (cd_loop_ext (ridge_args (fst m) lam p x y r) (ri_random (fst m)) (perms (snd m)) (ri_tol (fst m)) (ri_maxit (fst m))) as X.
  cbn [cd_J ridge_args] in X.
  specialize (X ltac:(intros i Hi; apply Forall_forall; intros j Hj; eapply (Permutation_in j) in Hj; [|apply (HP Hi)]; apply in_seq in Hj; lia)
    (S (ri_maxit (fst m))) 0%nat _ _ HB).
  destruct (cd_loop _ _ _ _ _ _ _ b0) as [[v n]|]; [|discriminate].
  destruct (cd_loop _ _ _ _ _ _ _ b0') as [[v' n']|]; [|contradiction].
  cbn in X, H |- *. injection H as <- <-. eexists. eexists. split; [reflexivity|]. split; [|split; [reflexivity|exact X]].
  unfold ridge_wt. cbn. rewrite EL. auto 12.
Qed.
End W.

From Coq Require Import Reals List Bool Arith Lra Lia FunctionalExtensionality.
From Verif Require Import Base Lin Data M_Gram M_OLS M_CD M_Path M_Ridge M_Scaler M_Utils M_State M_LM L_LM S_Target L_Target.
Import ListNotations.
Open Scope R_scope.

Section Scal.
Variable t : R.
Hypothesis Ht : 0 < t.

Lemma Rltb_scal a b : Rltb (t * a) (t * b) = Rltb a b.
Proof.
  unfold Rltb. destruct (Rlt_dec (t * a) (t * b)) as [H|H], (Rlt_dec a b) as [K|K]; auto.
  - destruct K. apply (Rmult_lt_reg_l t); auto.
  - destruct H. apply Rmult_lt_compat_l; auto.
Qed.
Lemma Rleb_scal a b : Rleb (t * a) (t * b) = Rleb a b.
Proof.
  unfold Rleb. destruct (Rle_dec (t * a) (t * b)) as [H|H], (Rle_dec a b) as [K|K]; auto.
  - destruct K. apply (Rmult_le_reg_l t); auto.
  - destruct H. apply Rmult_le_compat_l; auto. lra.
Qed.
Lemma Reqb_scal a : Reqb (t * a) 0 = Reqb a 0.
Proof.
  unfold Reqb. destruct (Req_EM_T (t * a) 0) as [H|H], (Req_EM_T a 0) as [K|K]; auto.
  - apply Rmult_integral in H. lra.
  - subst a. lra.
Qed.
Lemma Rmax_scal a b : Rmax (t * a) (t * b) = t * Rmax a b.
Proof. apply RmaxRmult. lra. Qed.
Lemma Rmin_scal a b : Rmin (t * a) (t * b) = t * Rmin a b.
Proof.
  unfold Rmin. destruct (Rle_dec (t * a) (t * b)) as [H|H], (Rle_dec a b) as [K|K]; auto.
  - destruct K. apply (Rmult_le_reg_l t); auto.
  - destruct H. apply Rmult_le_compat_l; auto. lra.
Qed.
Lemma Rabs_scal a : Rabs (t * a) = t * Rabs a.
Proof. rewrite Rabs_mult, (Rabs_pos_eq t); lra. Qed.
Lemma rsign_scal a : rsign (t * a) = rsign a.
Proof.
  unfold rsign. replace (Rltb 0 (t * a)) with (Rltb 0 a) by (rewrite <- Rltb_scal, Rmult_0_r; reflexivity).
  replace (Rltb (t * a) 0) with (Rltb a 0) by (rewrite <- Rltb_scal, Rmult_0_r; reflexivity). reflexivity.
Qed.
Lemma soft_scal v r : soft_threshold (t * v) (t * r) = t * soft_threshold v r.
Proof.
  unfold soft_threshold. rewrite rsign_scal, Rabs_scal.
  replace (t * Rabs v - t * r) with (t * (Rabs v - r)) by ring.
  replace (Rmax (t * (Rabs v - r)) 0) with (t * Rmax (Rabs v - r) 0) by (rewrite <- Rmax_scal, Rmult_0_r; reflexivity). ring.
Qed.
Lemma max_lo_scal v lo : lo = None \/ lo = Some 0 -> max_lo (t * v) lo = t * max_lo v lo.
Proof. intros [->| ->]; cbn; auto. rewrite <- Rmax_scal, Rmult_0_r. reflexivity. Qed.
Lemma min_up_scal v up : up = None \/ up = Some 0 -> min_up (t * v) up = t * min_up v up.
Proof. intros [->| ->]; cbn; auto. rewrite <- Rmin_scal, Rmult_0_r. reflexivity. Qed.
Lemma max_abs_scal n v : max_abs n (vscale t v) = t * max_abs n v.
Proof. induction n as [|n IH]; cbn; [ring|]. rewrite IH. unfold vscale at 1. rewrite Rabs_scal. apply Rmax_scal. Qed.

(** The arguments of coordinate descent in the other units. *)
Definition cd_scaled (a a' : cd_args) : Prop :=
  cd_J a' = cd_J a /\ cd_lo a' = cd_lo a /\ cd_up a' = cd_up a /\
  (forall j, cd_lo a j = None \/ cd_lo a j = Some 0) /\ (forall j, cd_up a j = None \/ cd_up a j = Some 0) /\
  (forall j, cd_den a' j = cd_den a j) /\ (forall beta j, cd_num a' (vscale t beta) j = t * cd_num a beta j).

Lemma cd_coord_scal a a' beta j : cd_scaled a a' -> cd_coord a' (vscale t beta) j = res_map (Rmult t) (cd_coord a beta j).
Proof.
  intros (EJ & El & Eu & Hl & Hu & Hd & Hn). unfold cd_coord. rewrite Hd, Hn, El, Eu.
  destruct (Reqb _ 0); cbn [res_map]; auto. f_equal. unfold Rdiv. rewrite Rmult_assoc.
  rewrite max_lo_scal, min_up_scal; auto.
Qed.
Lemma vset_scal b j v : vset (vscale t b) j (t * v) = vscale t (vset b j v).
Proof. apply functional_extensionality. intros k. unfold vset, vscale. destruct (Nat.eqb k j); auto. Qed.
Lemma cd_visit_scal a a' first beta j : cd_scaled a a' -> cd_visit a' first (vscale t beta) j = res_map (vscale t) (cd_visit a first beta j).
Proof.
  intros H. unfold cd_visit. unfold vscale at 1. rewrite Reqb_scal. destruct (first || _); auto.
  rewrite (cd_coord_scal a a') by auto. destruct (cd_coord a beta j); cbn; auto. rewrite vset_scal. reflexivity.
Qed.
Lemma cd_sweep_scal a a' first : cd_scaled a a' -> forall JJ beta, cd_sweep a' first JJ (vscale t beta) = res_map (vscale t) (cd_sweep a first JJ beta).
Proof.
  intros H. induction JJ as [|j JJ IH]; intros beta; cbn; auto. rewrite (cd_visit_scal a a') by auto.
  destruct (cd_visit a first beta j); cbn; auto.
Qed.
Definition scale_fst {A} (r : vec * A) : vec * A := (vscale t (fst r), snd r).
Lemma cd_loop_scal a a' random perm tol maxit : cd_scaled a a' -> forall fuel i beta,
  cd_loop fuel a' random perm tol maxit i (vscale t beta) = res_map scale_fst (cd_loop fuel a random perm tol maxit i beta).
Proof.
  intros H. induction fuel as [|fuel IH]; intros i beta; cbn [cd_loop]; auto.
  replace (cd_order a' random perm (S i)) with (cd_order a random perm (S i)) by (unfold cd_order; destruct H as (-> & _); reflexivity).
  rewrite (cd_sweep_scal a a') by auto.
  destruct (cd_sweep a _ _ beta) as [b|e]; cbn [bind res_map]; auto.
  replace (cd_J a') with (cd_J a) by (destruct H as (-> & _); reflexivity).
  replace (fun k => vscale t b k - vscale t beta k) with (vscale t (fun k => b k - beta k))
    by (apply functional_extensionality; intros; unfold vscale; ring).
  rewrite !max_abs_scal. replace (tol * (t * max_abs (cd_J a) b)) with (t * (tol * max_abs (cd_J a) b)) by ring.
  rewrite Rleb_scal. destruct (Rleb _ _); auto. destruct (maxit <? S i)%nat; auto.
Qed.
Lemma cd_scal a a' random perm tol maxit beta : cd_scaled a a' ->
  online_coordinate_descent a' random perm tol maxit (vscale t beta) = res_map scale_fst (online_coordinate_descent a random perm tol maxit beta).
Proof. intros H. apply cd_loop_scal; auto. Qed.

Lemma cd_partial_scal a a' beta j : cd_J a' = cd_J a -> cd_x a' = cd_x a -> cd_y a' = vscale t (cd_y a) ->
  cd_partial a' (vscale t beta) j = t * cd_partial a beta j.
Proof.
  intros E1 E2 E3. unfold cd_partial. rewrite E1, E2, E3. unfold vscale.
  replace (bsum (cd_J a) (fun k => cd_x a j k * (t * beta k))) with (t * bsum (cd_J a) (fun k => cd_x a j k * beta k)); [ring|].
  rewrite <- bsum_scal_l. apply bsum_ext. intros. ring.
Qed.

(** * Lasso path *)
Lemma bound_unitless b : unitless_bound b -> forall j, bound_fun b j = None \/ bound_fun b j = Some 0.
Proof.
  intros H j. destruct b as [l|]; cbn; auto. destruct (nth_in_or_default j l None) as [K|K]; [eapply H; eauto|left; exact K].
Qed.
Lemma fill_unitless b J : unitless_bound b -> unitless_bound (Some (fill_bound b J)).
Proof.
  intros H l o E Hin. injection E as <-. destruct b as [l|]; cbn in Hin; [eapply H; eauto|]. left. eapply repeat_spec; eauto.
Qed.

Definition args_in_units (a : cd_args) : cd_args :=
  mk_cd (cd_J a) (cd_x a) (vscale t (cd_y a)) (t * cd_reg a) (cd_isreg a) (cd_alpha a) (cd_lo a) (cd_up a).
Lemma lasso_scaled a : cd_alpha a = 1 -> (forall j, cd_lo a j = None \/ cd_lo a j = Some 0) -> (forall j, cd_up a j = None \/ cd_up a j = Some 0) ->
  cd_scaled a (args_in_units a).
Proof.
  intros Ha Hl Hu. unfold cd_scaled. repeat (split; [auto; reflexivity|]). split.
  - intros j. unfold cd_den. cbn [args_in_units cd_isreg cd_x cd_reg cd_alpha]. rewrite Ha. destruct (cd_isreg a j); ring.
  - intros beta j. unfold cd_num. rewrite (cd_partial_scal a (args_in_units a)) by reflexivity.
    cbn [args_in_units cd_isreg cd_reg cd_alpha]. rewrite Ha. destruct (cd_isreg a j); auto.
    replace (1 * (t * cd_reg a)) with (t * (1 * cd_reg a)) by ring. apply soft_scal.
Qed.

Definition pscale (P : nat -> vec) : nat -> vec := fun l => vscale t (P l).
Lemma rset_scal P i b : rset (pscale P) i (vscale t b) = pscale (rset P i b).
Proof. apply functional_extensionality. intros k. unfold rset, pscale. destruct (Nat.eqb k i); auto. Qed.
Lemma path_start_scal w P Q i : path_start w (pscale P) (pscale Q) i = vscale t (path_start w P Q i).
Proof. unfold path_start, pscale. destruct (is_previous_lambda w); reflexivity. Qed.
Lemma count_nonzero_scal n v : count_nonzero n (vscale t v) = count_nonzero n v.
Proof. induction n as [|n IH]; cbn; auto. rewrite IH. unfold vscale. rewrite Reqb_scal. reflexivity. Qed.
Definition scale_path (r : (nat -> vec) * list nat) : (nat -> vec) * list nat := (pscale (fst r), snd r).
Lemma path_loop_scal a random perm tol maxit stop w Q : cd_alpha a = 1 ->
  (forall j, cd_lo a j = None \/ cd_lo a j = Some 0) -> (forall j, cd_up a j = None \/ cd_up a j = Some 0) ->
  forall ls i P its,
  path_loop (args_in_units a) random perm tol maxit stop w (pscale Q) i (map (Rmult t) ls) (pscale P) its
  = res_map scale_path (path_loop a random perm tol maxit stop w Q i ls P its).
Proof.
  intros Ha Hl Hu. induction ls as [|l ls IH]; intros i P its; cbn [path_loop map]; auto.
  rewrite path_start_scal, count_nonzero_scal. cbn [cd_J args_in_units].
  destruct (_ && _).
  - rewrite rset_scal. apply IH.
  - change (with_reg (args_in_units a) (t * l)) with (args_in_units (with_reg a l)).
    rewrite (cd_scal (with_reg a l)) by (apply lasso_scaled; auto).
    destruct (online_coordinate_descent _ _ _ _ _ _) as [r|e]; cbn [bind res_map scale_fst fst snd]; auto.
    rewrite rset_scal. apply IH.
Qed.

Lemma vmax_scal n v : vmax n (vscale t v) = t * vmax n v.
Proof. induction n as [|n IH]; cbn; auto. rewrite IH. unfold vscale. apply Rmax_scal. Qed.
Lemma np_max_scal J v : np_max J (vscale t v) = res_map (Rmult t) (np_max J v).
Proof. destruct J; cbn; auto. rewrite vmax_scal. reflexivity. Qed.
Lemma lambda_max_scal J x y r : get_lambda_max J x (vscale t y) r = res_map (Rmult t) (get_lambda_max J x y r).
Proof.
  unfold get_lambda_max. destruct (unregularized J r) as [|u [|u' l]]; auto.
  - apply np_max_scal.
  - destruct (Reqb (x u u) 0); auto. cbv zeta.
    replace (fun k => Rabs (vscale t y k - x u k * (vscale t y u / x u u))) with (vscale t (fun k => Rabs (y k - x u k * (y u / x u u)))).
    + apply np_max_scal.
    + apply functional_extensionality. intros k. unfold vscale. rewrite <- Rabs_scal. f_equal. unfold Rdiv. ring.
Qed.
Lemma geomspace_scal L e n : geomspace (t * L) (t * L * e) n = res_map (map (Rmult t)) (geomspace L (L * e) n).
Proof.
  unfold geomspace. rewrite Rmult_assoc, !Reqb_scal. destruct (Reqb L 0) eqn:E; cbn [orb res_map]; auto.
  destruct (Reqb (L * e) 0); auto. cbn [res_map]. f_equal. rewrite map_map. apply map_ext. intros i.
  apply Reqb_false in E. replace (t * (L * e) / (t * L)) with (L * e / L) by (field; split; lra). ring.
Qed.
Lemma pscale_zero : pscale (fun _ _ => 0) = fun _ _ => 0.
Proof. apply functional_extensionality. intros l. unfold pscale. apply vscale_zero. Qed.

Lemma cd_path_scal a random perm tol maxit stop w Q ls : cd_alpha a = 1 -> cd_reg a = 0 ->
  (forall j, cd_lo a j = None \/ cd_lo a j = Some 0) -> (forall j, cd_up a j = None \/ cd_up a j = Some 0) ->
  online_coordinate_descent_path (mk_cd (cd_J a) (cd_x a) (vscale t (cd_y a)) 0 (cd_isreg a) (cd_alpha a) (cd_lo a) (cd_up a)) random perm tol maxit stop w (pscale Q) (map (Rmult t) ls)
  = res_map scale_path (online_coordinate_descent_path a random perm tol maxit stop w Q ls).
Proof.
  intros Ha Hr Hl Hu. unfold online_coordinate_descent_path. rewrite <- pscale_zero at 1.
  rewrite <- path_loop_scal by auto. unfold args_in_units. rewrite Hr, Rmult_0_r. reflexivity.
Qed.

(** The Lasso object. *)
Definition lasso_unitless (m : en_cfg * nat) : Prop :=
  en_alpha (fst m) = 1 /\ unitless_bound (en_lower (fst m)) /\ unitless_bound (en_upper (fst m)).

Lemma fit_path_scal c perm J x y r c' P : en_alpha c = 1 -> unitless_bound (en_lower c) -> unitless_bound (en_upper c) ->
  fit_beta_path c perm J x y r = Ok (c', P) ->
  (en_alpha c' = 1 /\ unitless_bound (en_lower c') /\ unitless_bound (en_upper c')) /\
  fit_beta_path c perm J x (vscale t y) r = Ok (c', pscale P).
Proof.
  intros Ha Hl Hu H. unfold fit_beta_path in *.
  destruct (set_and_validate_bounds c J) as [c1|] eqn:E1; [|discriminate]. cbn [bind] in *.
  assert (K : en_alpha c1 = 1 /\ unitless_bound (en_lower c1) /\ unitless_bound (en_upper c1)).
  { unfold set_and_validate_bounds in E1. destruct (negb _); [discriminate|]. destruct (negb _); [discriminate|].
    injection E1 as <-. cbn. split; auto. split; apply fill_unitless; auto. }
  rewrite lambda_max_scal. destruct (get_lambda_max J x y r) as [L|]; [|discriminate]. cbn [bind res_map] in *.
  rewrite geomspace_scal. destruct (geomspace _ _ _) as [ls|]; [|discriminate]. cbn [bind res_map] in *.
  rewrite <- pscale_zero.
  pose proof (cd_path_scal (en_args c1 J x y r) (en_random c1) perm (en_tol c1) (en_maxit c1) (en_early_stop c1) (en_start_initial c1) (fun _ _ => 0) ls) as S.
  cbn [en_args cd_J cd_x cd_y cd_isreg cd_alpha cd_lo cd_up] in S. destruct K as (K1 & K2 & K3).
  unfold en_args at 1. rewrite S; auto; try (apply bound_unitless; auto). clear S.
  fold (en_args c1 J x y r).
  destruct (online_coordinate_descent_path _ _ _ _ _ _ _ _ _) as [q|]; [|discriminate]. cbn [bind res_map scale_path fst] in *.
  injection H as <- <-. auto.
Qed.
Lemma update_path_scal c perm J x y Q r P : en_alpha c = 1 -> unitless_bound (en_lower c) -> unitless_bound (en_upper c) ->
  update_beta_path c perm J x y Q r = Ok P ->
  update_beta_path c perm J x (vscale t y) (pscale Q) r = Ok (pscale P).
Proof.
  intros Ha Hl Hu H. unfold update_beta_path in *.
  rewrite lambda_max_scal. destruct (get_lambda_max J x y r) as [L|]; [|discriminate]. cbn [bind res_map] in *.
  rewrite geomspace_scal. destruct (geomspace _ _ _) as [ls|]; [|discriminate]. cbn [bind res_map] in *.
  pose proof (cd_path_scal (en_args c J x y r) (en_random c) perm (en_tol c) (en_maxit c) (en_early_stop c) (en_start_update c) Q ls) as S.
  cbn [en_args cd_J cd_x cd_y cd_isreg cd_alpha cd_lo cd_up] in S.
  unfold en_args at 1. rewrite S; auto; try (apply bound_unitless; auto). clear S.
  fold (en_args c J x y r).
  destruct (online_coordinate_descent_path _ _ _ _ _ _ _ _ _) as [q|]; [|discriminate]. cbn [bind res_map scale_path fst] in *.
  injection H as <-. auto.
Qed.
Lemma lasso_fit_hyp perms m p x y r m' path : lasso_unitless m -> op_fit_path (en_ops perms) m p x y r = Ok (m', path) ->
  lasso_unitless m' /\ op_fit_path (en_ops perms) m p x (vscale t y) r = Ok (m', map (vscale t) path).
Proof.
  intros (Q1 & Q2 & Q3) H. cbn in H |- *. destruct (fit_beta_path _ _ _ _ _ _) as [[c' P]|] eqn:E; [|discriminate].
  destruct (fit_path_scal _ _ _ _ _ _ _ _ Q1 Q2 Q3 E) as [K E']. rewrite E'. cbn in *. injection H as <- <-.
  split; [exact K|]. rewrite map_map. reflexivity.
Qed.
Lemma lasso_update_hyp perms m p x y r path0 m' path : lasso_unitless m -> op_update_path (en_ops perms) m p x y path0 r = Ok (m', path) ->
  lasso_unitless m' /\ op_update_path (en_ops perms) m p x (vscale t y) (map (vscale t) path0) r = Ok (m', map (vscale t) path).
Proof.
  intros (Q1 & Q2 & Q3) H. cbn in H |- *. destruct (update_beta_path _ _ _ _ _ _ _) as [P|] eqn:E; [|discriminate].
  pose proof (update_path_scal _ _ _ _ _ _ _ _ Q1 Q2 Q3 E) as E'.
  replace (fun k => nth k (map (vscale t) path0) (fun _ => 0)) with (pscale (fun k => nth k path0 (fun _ => 0)))
    by (apply functional_extensionality; intros k; unfold pscale; rewrite nth_vscale; reflexivity).
  rewrite E'. cbn in *. injection H as <- <-. split; [repeat split; auto|]. rewrite map_map. reflexivity.
Qed.

(** * Ridge *)
Lemma ridge_scaled c lam J x y r : unitless_bound (ri_lower c) -> unitless_bound (ri_upper c) ->
  cd_scaled (ridge_args c lam J x y r) (ridge_args c lam J x (vscale t y) r).
Proof.
  intros Hl Hu. unfold cd_scaled. split; [reflexivity|]. split; [reflexivity|]. split; [reflexivity|].
  split; [apply bound_unitless; exact Hl|]. split; [apply bound_unitless; exact Hu|]. split; [reflexivity|].
  intros beta j. unfold cd_num. rewrite (cd_partial_scal (ridge_args c lam J x y r) (ridge_args c lam J x (vscale t y) r)) by reflexivity.
  cbn [ridge_args cd_isreg cd_reg cd_alpha]. destruct (r j); auto. rewrite Rmult_0_l.
  rewrite <- soft_scal, Rmult_0_r. reflexivity.
Qed.
Definition ridge_unitless (m : ridge_cfg * nat) : Prop :=
  ri_start (fst m) = None /\ unitless_bound (ri_lower (fst m)) /\ unitless_bound (ri_upper (fst m)).
Lemma ridge_start_scal inv c J x y : ri_start c = None -> ridge_start inv c J x (vscale t y) = vscale t (ridge_start inv c J x y).
Proof.
  intros H. unfold ridge_start. rewrite H. destruct (inv J x).
  - apply functional_extensionality. intros i. apply mvec_scal.
  - symmetry. apply vscale_zero.
Qed.
Lemma ridge_fit_hyp inv perms m p x y r m' beta : ridge_unitless m -> op_fit_beta (ridge_ops inv perms) m p x y r = Ok (m', beta) ->
  ridge_unitless m' /\ op_fit_beta (ridge_ops inv perms) m p x (vscale t y) r = Ok (m', vscale t beta).
Proof.
  intros (Q1 & Q2 & Q3) H. cbn in H |- *. unfold ridge_fit in *.
  destruct (ridge_bounds (fst m) p) as [c1|] eqn:E1; [|discriminate]. cbn [bind] in *.
  assert (K : ri_start c1 = None /\ unitless_bound (ri_lower c1) /\ unitless_bound (ri_upper c1)).
  { unfold ridge_bounds in E1. destruct (negb _); [discriminate|]. destruct (negb _); [discriminate|].
    injection E1 as <-. cbn. split; auto. split; apply fill_unitless; auto. }
  destruct K as (K1 & K2 & K3). rewrite ridge_start_scal by auto.
  set (c2 := mk_ridge _ _ _ _ _ _ _) in *.
  rewrite (cd_scal (ridge_args c2 (ridge_lambda c1 p x) p x y r)) by (apply ridge_scaled; auto).
  destruct (online_coordinate_descent _ _ _ _ _ _) as [q|]; [|discriminate]. cbn in *. injection H as <- <-.
  split; [repeat split; auto|reflexivity].
Qed.
Lemma ridge_update_hyp inv perms m p x y r beta0 m' beta : ridge_unitless m -> op_update_beta (ridge_ops inv perms) m p x y beta0 r = Ok (m', beta) ->
  ridge_unitless m' /\ op_update_beta (ridge_ops inv perms) m p x (vscale t y) (vscale t beta0) r = Ok (m', vscale t beta).
Proof.
  intros (Q1 & Q2 & Q3) H. cbn in H |- *. unfold ridge_update in *. destruct (ri_lambda (fst m)) as [l|]; [|discriminate].
  rewrite (cd_scal (ridge_args (fst m) l p x y r)) by (apply ridge_scaled; auto).
  destruct (online_coordinate_descent _ _ _ _ _ _) as [q|]; [|discriminate]. cbn in *. injection H as <- <-.
  split; [repeat split; auto|reflexivity].
Qed.
End Scal.

Lemma C106_ridge_lemma inv perms c cfg t d ds s : 0 < t ->
  c_method c = Ok (cfg, 0%nat) -> ri_start cfg = None -> unitless_bound (ri_lower cfg) -> unitless_bound (ri_upper cfg) ->
  lm_history (ridge_ops inv perms) c (d :: ds) new_lm = Ok s ->
  exists s', lm_history (ridge_ops inv perms) c (map (target_units t) (d :: ds)) new_lm = Ok s' /\
    a_coef s' = option_map (vscale t) (a_coef s) /\
    (forall p X, snd (lm_predict c p X s') = res_map (map (Rmult t)) (snd (lm_predict c p X s))) /\
    (forall b, snd (lm_score c (target_units t b) s') = snd (lm_score c b s)).
Proof.
  intros Ht Hm Hs Hl Hu H.
  destruct (lm_history_scaled (ridge_ops inv perms) c t d ridge_unitless) with (ds := ds) (s := s) as (s' & E' & TW); auto; try discriminate.
  { intros m E. rewrite Hm in E. injection E as <-. repeat split; auto. }
  { intros _ m p x y r m' beta Q K. apply ridge_fit_hyp; auto. }
  { intros _ m p x y r beta0 m' beta Q K. apply ridge_update_hyp; auto. }
  exists s'. split; [exact E'|].
  assert (C : a_coef s' = option_map (vscale t) (a_coef s)).
  { destruct TW as (_ & _ & _ & coef' & -> & Hb & _). cbn [a_coef]. apply Hb. reflexivity. }
  split; [exact C|]. split.
  - intros p X. eapply lm_scaled_predict; eauto.
  - intros b. eapply lm_scaled_score; eauto. lra.
Qed.

Lemma lasso_history perms c cfg t d ds s : 0 < t -> c_ic c <> aicc ->
  c_method c = Ok (cfg, 0%nat) -> en_alpha cfg = 1 -> unitless_bound (en_lower cfg) -> unitless_bound (en_upper cfg) ->
  lm_history (en_ops perms) c (d :: ds) new_lm = Ok s ->
  exists s', lm_history (en_ops perms) c (map (target_units t) (d :: ds)) new_lm = Ok s' /\ lm_scaled (en_ops perms) c t d lasso_unitless s s'.
Proof.
  intros Ht Hic Hm Ha Hl Hu H.
  apply lm_history_scaled; auto; try discriminate.
  { intros m E. rewrite Hm in E. injection E as <-. repeat split; auto. }
  { intros _ m p x y r m' beta Q K. apply lasso_fit_hyp; auto. }
  { intros _ m p x y r beta0 m' beta Q K. apply lasso_update_hyp; auto. }
Qed.
Lemma C107_lemma perms c cfg t d ds s : 0 < t -> c_ic c <> aicc ->
  c_method c = Ok (cfg, 0%nat) -> en_alpha cfg = 1 -> unitless_bound (en_lower cfg) -> unitless_bound (en_upper cfg) ->
  lm_history (en_ops perms) c (d :: ds) new_lm = Ok s ->
  exists s', lm_history (en_ops perms) c (map (target_units t) (d :: ds)) new_lm = Ok s' /\
    a_path s' = option_map (map (vscale t)) (a_path s) /\
    (forall p X, snd (lm_predict_path c p X s') = res_map (map (map (Rmult t))) (snd (lm_predict_path c p X s))) /\
    forall path rss n, a_path s = Some path -> a_rss s = Some rss -> a_ntrain s = Some n ->
      same_zeros t (n_cols (c_icpt c) (b_p d)) path -> (forall r, In r rss -> 0 < r) -> 0 < n ->
      a_coef s' = option_map (vscale t) (a_coef s) /\
      (forall p X, snd (lm_predict c p X s') = res_map (map (Rmult t)) (snd (lm_predict c p X s))) /\
      (forall b, snd (lm_score c (target_units t b) s') = snd (lm_score c b s)).
Proof.
  intros Ht Hic Hm Ha Hl Hu H.
  destruct (lasso_history perms c cfg t d ds s) as (s' & E' & TW); auto.
  exists s'. split; [exact E'|]. split; [|split].
  - destruct TW as (_ & _ & _ & coef' & -> & _). reflexivity.
  - intros p X. eapply lm_scaled_predict_path; eauto.
  - intros path rss n E1 E2 E3 Z P N.
    assert (C : a_coef s' = option_map (vscale t) (a_coef s)) by (eapply lm_scaled_coef; eauto).
    split; [exact C|]. split.
    + intros p X. eapply lm_scaled_predict; eauto.
    + intros b. eapply lm_scaled_score; eauto. lra.
Qed.

(** * Small units *)
Lemma path_bounded p (path : list vec) : exists B, 0 < B /\ forall v j, In v path -> (j < p)%nat -> Rabs (v j) <= B.
Proof.
  induction path as [|v path (B & HB & IH)]; [exists 1; split; [lra|intros ? ? []]|].
  assert (K : exists C, 0 < C /\ forall j, (j < p)%nat -> Rabs (v j) <= C).
  { clear. induction p as [|p (C & HC & IH)]; [exists 1; split; [lra|lia]|].
    exists (Rmax C (Rabs (v p))). split; [eapply Rlt_le_trans; [exact HC|apply Rmax_l]|].
    intros j Hj. destruct (Nat.eq_dec j p) as [->|]; [apply Rmax_r|]. eapply Rle_trans; [apply IH; lia|apply Rmax_l]. }
  destruct K as (C & HC & K). exists (Rmax B C). split; [eapply Rlt_le_trans; [exact HB|apply Rmax_l]|].
  intros u j [<-|Hin] Hj; [eapply Rle_trans; [apply K; auto|apply Rmax_r]|eapply Rle_trans; [apply IH; auto|apply Rmax_l]].
Qed.
Lemma n_nonzero_small p v : (forall j, (j < p)%nat -> counts_as_zero (v j)) -> n_nonzero p v = 0.
Proof.
  intros H. unfold n_nonzero.
  replace (filter _ _) with (@nil nat); [reflexivity|]. symmetry.
  assert (K : forall l : list nat, (forall j, In j l -> (j < p)%nat) -> filter (fun j => negb (Rleb (Rabs (v j)) (1 / 100000000))) l = []).
  { induction l as [|j l IH]; intros Hl; cbn; auto.
    replace (Rleb (Rabs (v j)) (1 / 100000000)) with true; [cbn; apply IH; intros; apply Hl; right; auto|].
    symmetry. apply Rleb_true. apply H, Hl. left. auto. }
  apply K. intros j Hj. apply in_seq in Hj. lia.
Qed.
(** With equal penalties the criterion is a decreasing function of the likelihood. *)
Lemma argmin_loop_mono (f : R -> R) l : (forall x y, In x l -> In y l -> (f x < f y <-> x < y)) ->
  forall l' i k m, incl l' l -> In m l -> argmin_loop (map f l') i k (f m) = argmin_loop l' i k m.
Proof.
  intros H. induction l' as [|x l' IH]; intros i k m Hi Hm; cbn; auto.
  assert (Hx : In x l) by (apply Hi; left; auto). assert (Hi' : incl l' l) by (intros z Hz; apply Hi; right; auto).
  replace (Rltb (f x) (f m)) with (Rltb x m).
  { destruct (Rltb x m); apply IH; auto. }
  unfold Rltb. specialize (H x m Hx Hm). destruct (Rlt_dec x m), (Rlt_dec (f x) (f m)); auto; tauto.
Qed.
Lemma argmin_mono (f : R -> R) l : (forall x y, In x l -> In y l -> (f x < f y <-> x < y)) -> argmin (map f l) = argmin l.
Proof.
  intros H. destruct l as [|x l]; cbn; auto. f_equal. apply (argmin_loop_mono f (x :: l)); auto.
  - intros z Hz; right; auto.
  - left; auto.
Qed.
Lemma from_rss_zeros c n q : c <> aicc -> forall rss, 
  from_rss_array c n (map (fun _ => 0) rss) (map (Rmult q) rss)
  = Ok (map (fun r => (match c with max_ll => 1 | _ => 2 end) * (n / 2 * ln (q * r / n) + n / 2 * (1 + ln (2 * PI)))) rss).
Proof.
  intros H rss. unfold from_rss_array, from_ll_array.
  assert (E : sequence (map2 (from_ll c n) (map (fun _ => 0) rss) (map (fun rss0 => - n / 2 * ln (rss0 / n) + - n / 2 * (1 + ln (2 * PI))) (map (Rmult q) rss)))
    = Ok (map (fun r => (match c with max_ll => 1 | _ => 2 end) * (n / 2 * ln (q * r / n) + n / 2 * (1 + ln (2 * PI)))) rss)).
  { induction rss as [|r rss IH]; cbn [map map2 sequence]; auto. rewrite IH.
    unfold from_ll. destruct c; try congruence; cbn [bind]; do 2 f_equal; generalize (ln (q * r / n)) (ln (2 * PI)); intros; field. }
  destruct c; auto. congruence.
Qed.
Lemma ln_lt_iff x y : 0 < x -> 0 < y -> (ln x < ln y <-> x < y).
Proof. intros Hx Hy. split; [apply ln_lt_inv; auto|apply ln_increasing; auto]. Qed.

Lemma C107_small_lemma perms c cfg d ds s path rss n : c_ic c <> aicc ->
  c_method c = Ok (cfg, 0%nat) -> en_alpha cfg = 1 -> unitless_bound (en_lower cfg) -> unitless_bound (en_upper cfg) ->
  lm_history (en_ops perms) c (d :: ds) new_lm = Ok s ->
  a_path s = Some path -> a_rss s = Some rss -> a_ntrain s = Some n -> (forall r, In r rss -> 0 < r) -> 0 < n ->
  exists t0, 0 < t0 /\ forall t, 0 < t < t0 ->
    exists s' k, lm_history (en_ops perms) c (map (target_units t) (d :: ds)) new_lm = Ok s' /\
      argmin rss = Ok k /\ a_coef s' = Some (vscale t (nth k path (fun _ => 0))).
Proof.
  intros Hic Hm Ha Hl Hu H E1 E2 E3 P N.
  destruct (path_bounded (n_cols (c_icpt c) (b_p d)) path) as (B & HB & KB).
  exists (1 / 100000000 / B). split; [apply Rdiv_lt_0_compat; lra|]. intros t [Ht Hs].
  destruct (lasso_history perms c cfg t d ds s) as (s' & E' & TW); auto.
  destruct TW as (_ & _ & _ & coef' & -> & _ & Hp).
  destruct (Hp eq_refl) as (path1 & rss1 & nt1 & ic & k & ic' & k' & B1 & B2 & B3 & BL & B4 & B5 & B6 & B7 & B8 & ->).
  rewrite E1 in B1. injection B1 as <-. rewrite E2 in B2. injection B2 as <-. rewrite E3 in B3. injection B3 as <-.
  eexists; exists k'. split; [exact E'|]. split; [|reflexivity].
  assert (Z : map (n_nonzero (n_cols (c_icpt c) (b_p d))) (map (vscale t) path) = map (fun _ => 0) path).
  { rewrite map_map. apply map_ext_in. intros v Hv. apply n_nonzero_small. intros j Hj. unfold counts_as_zero, vscale.
    rewrite Rabs_mult, (Rabs_pos_eq t) by lra. specialize (KB v j Hv Hj).
    apply Rle_trans with (t * B); [apply Rmult_le_compat_l; lra|].
    apply (Rmult_lt_compat_r B) in Hs; auto. unfold Rdiv in Hs. rewrite Rmult_assoc, Rinv_l in Hs by lra. lra. }
  replace (map (fun _ : vec => 0) path) with (map (fun _ : R => 0) rss) in Z.
  2:{ clear - BL. revert path BL. induction rss as [|r rss IH]; intros [|v path] L; cbn in *; try discriminate; auto. f_equal. apply IH. lia. }
  rewrite Z, from_rss_zeros in B6 by auto. injection B6 as <-.
  change (t * (t * 1)) with (t ^ 2) in B7.
  rewrite argmin_mono in B7; [exact B7|].
  intros x y Hx Hy. apply P in Hx, Hy.
  assert (Q : 0 < t ^ 2) by (apply pow_lt; auto).
  assert (S : ln (t ^ 2 * x / n) < ln (t ^ 2 * y / n) <-> x < y).
  { rewrite ln_lt_iff; try (apply Rdiv_lt_0_compat; auto; apply Rmult_lt_0_compat; auto).
    unfold Rdiv. split; intros K.
    - apply Rmult_lt_reg_r in K; [|apply Rinv_0_lt_compat; auto]. apply Rmult_lt_reg_l in K; auto.
    - apply Rmult_lt_compat_r; [apply Rinv_0_lt_compat; auto|]. apply Rmult_lt_compat_l; auto. }
  cbv beta. rewrite <- S. set (a := ln (t ^ 2 * x / n)). set (b := ln (t ^ 2 * y / n)). clearbody a b.
  assert (W : forall w u v z, 0 < w -> (w * (n / 2 * u + z) < w * (n / 2 * v + z) <-> u < v)).
  { intros w u v z Hw. split; intros K.
    - apply Rmult_lt_reg_l in K; auto. assert (n / 2 * u < n / 2 * v) by lra. apply Rmult_lt_reg_l in H0; auto. lra.
    - apply Rmult_lt_compat_l; auto. assert (n / 2 * u < n / 2 * v) by (apply Rmult_lt_compat_l; lra). lra. }
  apply W. destruct (c_ic c); lra.
Qed.

(** Proofs behind the statements of P_Path.v. *)
From Coq Require Import Reals List Bool Arith Lia Lra Psatz Permutation.
From Verif Require Import Base Lin S_Gram M_CD M_Path M_Ridge S_CD L_CD1 L_CD L_CD2 L_Path L_Path2 L_CD3 L_CD4.
Import ListNotations.
Open Scope R_scope.

Lemma C19_lemma : forall lmax eps n, 0 < lmax -> 0 < eps < 1 -> (2 <= n)%nat ->
  exists g q, geomspace lmax (lmax * eps) n = Ok g /\ length g = n /\
    nth 0 g 0 = lmax /\ nth (n - 1) g 0 = lmax * eps /\ 0 < q < 1 /\
    (forall i, (S i < n)%nat -> nth (S i) g 0 = q * nth i g 0) /\
    (forall i k, (i < k < n)%nat -> nth k g 0 < nth i g 0) /\
    (forall i, (i < n)%nat -> 0 < nth i g 0).
Proof.
  intros lmax eps n Hl He Hn.
  assert (Q : lmax * eps / lmax = eps) by (field; lra).
  assert (P : 0 < INR (n - 1)) by (apply lt_0_INR; lia).
  exists (map (grid_point lmax (lmax * eps) n) (seq 0 n)), (Rpower eps (/ INR (n - 1))).
  assert (Hq : 0 < Rpower eps (/ INR (n - 1)) < 1)
    by (apply Rpower_lt1; auto; apply Rinv_0_lt_compat; auto).
  assert (Hr : forall i, (S i < n)%nat -> grid_point lmax (lmax * eps) n (S i)
             = Rpower eps (/ INR (n - 1)) * grid_point lmax (lmax * eps) n i).
  { intros i Hi. rewrite grid_ratio by auto. rewrite Q. ring. }
  assert (Hpos : forall i, 0 < grid_point lmax (lmax * eps) n i) by (intros; apply grid_sign_pos; auto).
  split; [apply geomspace_ok; nra|]. split; [apply grid_length|].
  split; [rewrite grid_nth by lia; apply grid_first|].
  split; [rewrite grid_nth by lia; apply grid_last; auto; [rewrite Q|]; lra|].
  split; [auto|]. split.
  { intros i Hi. rewrite !grid_nth by lia. auto. }
  split; [|intros i Hi; rewrite grid_nth by auto; auto].
  intros i k [Hik Hk]. rewrite !grid_nth by lia.
  induction k as [|k IH]; [lia|].
  assert (S1 : grid_point lmax (lmax * eps) n (S k) < grid_point lmax (lmax * eps) n k).
  { rewrite Hr by lia. specialize (Hpos k). nra. }
  destruct (Nat.eq_dec i k) as [->|]; auto. eapply Rlt_trans; [exact S1|]. apply IH; lia.
Qed.

Lemma C21_rows_lemma : forall c perm J x y bp isreg P,
  update_beta_path c perm J x y bp isreg = Ok P ->
  exists g lmax, get_lambda_max J x y isreg = Ok lmax /\ geomspace lmax (lmax * en_eps c) (en_n c) = Ok g /\
  forall k, (k < en_n c)%nat ->
    let s := match en_start_update c with
             | previous_lambda => match k with O => fun _ => 0 | S k' => P k' end
             | _ => bp k
             end in
    ((0 < en_early_stop c <= count_nonzero J s)%nat /\ P k = s)
    \/ (~ (0 < en_early_stop c <= count_nonzero J s)%nat /\
        exists m, online_coordinate_descent
               (mk_cd J x y (nth k g 0) isreg (en_alpha c) (bound_fun (en_lower c)) (bound_fun (en_upper c)))
               (en_random c) (perm k) (en_tol c) (en_maxit c) s = Ok (P k, m)).
Proof.
  intros c perm J x y bp isreg P H. apply update_inv in H. destruct H as (lm & out & E1 & E2 & E3 & H).
  exists (map (grid_point lm (lm * en_eps c) (en_n c)) (seq 0 (en_n c))), lm.
  split; [auto|]. split; [apply geomspace_ok; auto|]. intros k Hk.
  apply path_rows in H. destruct H as [_ H]. rewrite grid_length in H. specialize (H k Hk).
  unfold row_ok in H. cbv zeta in *.
  change (row_start (en_start_update c) P bp k) with
    (match en_start_update c with
     | previous_lambda => match k with O => fun _ => 0 | S k' => P k' end | _ => bp k end) in H.
  change (cd_J (en_args c J x y isreg)) with J in H.
  destruct (Nat.ltb_spec 0 (en_early_stop c)) as [L|L]; cbn [andb] in H.
  - match type of H with context [(_ <=? ?n)%nat] => destruct (Nat.leb_spec (en_early_stop c) n) as [L2|L2] end.
    + left. destruct H as [-> _]. auto.
    + right. split; [lia|]. eexists. exact H.
  - right. split; [lia|]. eexists. exact H.
Qed.

(** ** Ridge *)

Lemma ridge_den J x y lambda isreg lo up : (forall j, (j < J)%nat -> 0 < x j j) -> 0 <= lambda ->
  forall j, (j < J)%nat -> cd_den (mk_cd J x y lambda isreg 0 lo up) j <> 0.
Proof.
  intros Hd Hl j Hj. specialize (Hd j Hj). unfold cd_den. cbn [cd_x cd_isreg cd_reg cd_alpha].
  destruct (isreg j); lra.
Qed.

Lemma C67_keep_lemma : forall c perm J x y isreg lambda b,
  ri_lambda c = Some lambda ->
  (forall j, bound_fun (ri_lower c) j = None /\ bound_fun (ri_upper c) j = None) ->
  (forall j, (j < J)%nat -> 0 < x j j) -> 0 <= lambda ->
  (forall i, Permutation (perm i) (seq 0 J)) ->
  ridge_equations J x y lambda isreg b ->
  exists b', ridge_update c perm J x y b isreg = Ok b' /\ eqv J b' b.
Proof.
  intros c perm J x y isreg lambda b Hl Hb Hd Hp0 Hp H. unfold ridge_update. rewrite Hl.
  pose (a := ridge_args c lambda J x y isreg).
  assert (F : cd_fixed a b).
  { apply (ridge_fixed_iff a b eq_refl Hb); auto. apply (ridge_den J x y lambda isreg); auto. }
  destruct (cd_fixed_start a (ri_random c) perm (ri_tol c) (ri_maxit c) b b F Hp (fun k _ => eq_refl)) as (b' & n & E & Q).
  fold a. rewrite E. cbn [bind fst]. eauto.
Qed.

Lemma C67_fixed_lemma : forall c perm J x y isreg lambda b b',
  ri_lambda c = Some lambda -> ri_maxit c = 0%nat ->
  (forall j, bound_fun (ri_lower c) j = None /\ bound_fun (ri_upper c) j = None) ->
  (forall j, (j < J)%nat -> 0 < x j j) -> 0 <= lambda ->
  ridge_update c perm J x y b isreg = Ok b' -> eqv J b' b ->
  ridge_equations J x y lambda isreg b.
Proof.
  intros c perm J x y isreg lambda b b' Hl Hm Hb Hd Hp0 H E. unfold ridge_update in H. rewrite Hl, Hm in H.
  pose (a := ridge_args c lambda J x y isreg). fold a in H.
  destruct (online_coordinate_descent a _ _ _ _ _) as [[b1 n]|] eqn:R; cbn [bind fst] in H; [|discriminate].
  injection H as <-.
  refine (proj1 (ridge_fixed_iff a b eq_refl Hb _) (single_sweep_fixed a _ _ _ b b1 n R E)).
  apply (ridge_den J x y lambda isreg); auto.
Qed.

Lemma C67_fit_lemma : forall inv c perm J x y isreg b,
  ri_lower c = None -> ri_upper c = None ->
  (forall j, (j < J)%nat -> 0 < x j j) ->
  match ri_lambda c with Some l => 0 <= l | None => (1 <= J)%nat end ->
  (forall i, Permutation (perm i) (seq 0 J)) ->
  ri_start c = Some b ->
  ridge_equations J x y (match ri_lambda c with Some l => l | None => bsum J (fun j => x j j) / INR J end) isreg b ->
  exists c' b', ridge_fit inv c perm J x y isreg = Ok (c', b') /\ eqv J b' b /\
    ri_lambda c' = Some (match ri_lambda c with Some l => l | None => bsum J (fun j => x j j) / INR J end).
Proof.
  intros inv c perm J x y isreg b HL HU Hd Hl Hp Hs H.
  unfold ridge_fit, ridge_bounds. rewrite HL, HU. cbn [fill_bound].
  rewrite repeat_length, Nat.eqb_refl. cbn [negb bind]. cbv zeta. unfold ridge_start.
  cbn [ri_start ri_lower ri_upper ri_random ri_tol ri_maxit ri_lambda]. rewrite Hs.
  unfold ridge_lambda. cbn [ri_lambda].
  change (mtrace J x) with (bsum J (fun j => x j j)).
  remember (match ri_lambda c with Some l => l | None => bsum J (fun j => x j j) / INR J end) as lam eqn:Elam.
  assert (L0 : 0 <= lam).
  { rewrite Elam. destruct (ri_lambda c); auto. apply Rle_mult_inv_pos; [|apply lt_0_INR; lia].
    apply bsum_nonneg. intros j Hj. specialize (Hd j Hj). lra. }
  match goal with |- context [online_coordinate_descent ?a0 _ _ _ _ _] => pose (a := a0) end.
  assert (Hub : unbounded a).
  { intros j. unfold a, ridge_args; cbn [cd_lo cd_up ri_lower ri_upper bound_fun]. split; apply nth_repeat_none. }
  assert (F : cd_fixed a b).
  { apply (ridge_fixed_iff a b eq_refl Hub); [|exact H]. apply (ridge_den J x y lam isreg); auto. }
  destruct (cd_fixed_start a (ri_random c) perm (ri_tol c) (ri_maxit c) b b F Hp (fun k _ => eq_refl)) as (b' & n & E & Q).
  fold a. rewrite E. cbn [bind fst]. do 2 eexists. split; [reflexivity|]. split; auto.
Qed.

(** Without a start value the inverse is used, so with penalty zero ridge is least squares. *)
Lemma C67_zero_lemma : forall inv c perm J x y isreg xi,
  ri_lower c = None -> ri_upper c = None -> (forall j, (j < J)%nat -> 0 < x j j) ->
  ri_lambda c = Some 0 -> (forall i, Permutation (perm i) (seq 0 J)) ->
  ri_start c = None -> inv J x = Some xi -> is_inverse J x xi ->
  exists c' b', ridge_fit inv c perm J x y isreg = Ok (c', b') /\
    forall j, (j < J)%nat -> mvec J x b' j = y j.
Proof.
  intros inv c perm J x y isreg xi HL HU Hd Hl Hp Hs Hi HI.
  pose (c2 := mk_ridge (ri_lambda c) (Some (mvec J xi y)) (ri_random c) (ri_lower c) (ri_upper c) (ri_tol c) (ri_maxit c)).
  assert (S2 : forall j, (j < J)%nat -> mvec J x (mvec J xi y) j = y j).
  { intros j Hj. rewrite <- (mvec_mmul J x xi y j Hj). destruct HI as [HI _].
    rewrite (mvec_ext J _ mid y y HI (fun k _ => eq_refl) j Hj). apply mvec_id; auto. }
  destruct (C67_fit_lemma inv c2 perm J x y isreg (mvec J xi y)) as (c' & b' & E & Q & _); auto.
  { cbn. rewrite Hl. lra. }
  { cbn. rewrite Hl. intros j Hj. rewrite S2 by auto. destruct (isreg j); lra. }
  unfold ridge_fit in E |- *. unfold ridge_bounds in *. cbn [ri_lower ri_upper c2] in E.
  destruct (negb _); cbn [bind] in *; [discriminate|]. destruct (negb _); cbn [bind] in *; [discriminate|].
  cbv zeta in *. unfold ridge_start in *. cbn [ri_start ri_lower ri_upper ri_random ri_tol ri_maxit ri_lambda c2] in *.
  rewrite Hs, Hi. unfold ridge_lambda in *. cbn [ri_lambda] in *.
  destruct (online_coordinate_descent _ _ _ _ _ _) as [[b1 n]|]; cbn [bind fst] in *; [|discriminate].
  injection E as _ ->. do 2 eexists. split; [reflexivity|]. intros j Hj.
  rewrite (mvec_ext J x x b' (mvec J xi y) (fun i k _ _ => eq_refl) Q j Hj). auto.
Qed.

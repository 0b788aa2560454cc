(** Lemmas: the data of the model selection. *)
From Coq Require Import Reals List Bool Arith ZArith Lra Lia.
From Verif Require Import Base Lin Data M_Gram S_Gram L_Gram M_OLS L_OLS M_Scaler M_Utils M_Links M_State M_LM M_Equation S_Equation L_Equation M_GAMLSS S_GAMLSS S_GAMSelect.
From Verif Require Import L_GAM1 L_GAM2 L_GAM8 L_GAM9 L_GAM10 L_GAM11 L_GAM12 L_GAM13 L_GAM14 L_GAM15.
Import ListNotations.
Open Scope R_scope.

Lemma all_some_forall2 {A} (l : list (option A)) : forall r, all_some l = Ok r -> l = map Some r.
Proof.
  induction l as [|[a|] l IH]; intros r H; cbn in H; try discriminate; [now injection H as <-|].
  destruct (all_some l) as [r'|]; [|discriminate]. cbn in H. injection H as <-. cbn. f_equal. now apply IH.
Qed.
Lemma npdiv_inv a b r : npdiv a b = Some r -> r = a / b /\ b <> 0.
Proof. unfold npdiv. rcase; [discriminate|]. intros H. injection H as <-. auto. Qed.

(** * Sums *)
Lemma sum_weights g (l : list R) : forall w wt, length w = length l -> length wt = length l ->
  forall X z, length X = length l -> length z = length l ->
  lsum (mult3 wt w (geo g (length l))) = dsum g ow (zip_obs X z (map2 Rmult w wt)) /\
  forall k b, lsum (map2 (fun x q => fst q * (snd q - dot k x b) ^ 2) X (combine (mult3 w wt (geo g (length l))) z)) =
     dsum g (fun o => ow o * (oy o - dot k (ox o) b) ^ 2) (zip_obs X z (map2 Rmult w wt)).
Proof.
  induction l as [|u l IH]; intros [|a w] [|t wt] H1 H2 [|x X] [|y z] H3 H4; cbn in H1, H2, H3, H4; try discriminate; [split; reflexivity|].
  destruct (IH w wt ltac:(lia) ltac:(lia) X z ltac:(lia) ltac:(lia)) as [E1 E2].
  assert (L : length (zip_obs X z (map2 Rmult w wt)) = length l) by (rewrite zip_obs_length; rewrite ?map2_length; lia).
  unfold mult3 in *. cbn [length geo map2 combine lsum zip_obs dsum ow oy ox fst snd]. split.
  - rewrite E1, L. ring.
  - intros k b. rewrite E2, L. ring.
Qed.
Lemma sum_lls g V : forall L, length L = length V -> forall w, w = ws V ->
  lsum (map2 Rmult (map2 Rmult w (geo g (length V))) L) = dsum g (fun vl => ow (fst vl) * snd vl) (combine V L).
Proof.
  induction V as [|v V IH]; intros [|l L] H w ->; cbn in H; try discriminate; [reflexivity|].
  cbn [length geo ws map map2 lsum combine dsum fst snd]. fold (ws V). rewrite (IH L ltac:(lia) _ eq_refl). rewrite combine_length.
  replace (Nat.min (length V) (length L)) with (length V) by lia. ring.
Qed.
Lemma map2_ones l : forall n, n = length l -> map2 Rmult (repeat 1 n) l = l.
Proof. induction l as [|a l IH]; intros [|n] H; cbn in *; try discriminate; [reflexivity|]. rewrite IH by lia. f_equal. ring. Qed.

(** * Log-likelihoods *)
Section Env.
Context {M : Type} (e : env M).
Notation d := (o_dist (e_cfg e)).
Lemma path_ll_meaning p fv V b v : length fv = length (e_y e) -> length V = length (e_y e) -> ys V = e_y e -> Xs V = snd (e_X e p) ->
  path_ll e p fv (map2 Rmult (ws V) (forget_vector e p)) b = Ok v ->
  candidate_ll d p (fst (e_X e p)) (p_forget (e_prep e) p) V fv b v.
Proof.
  intros Hf Hl Hy HX H. unfold path_ll in H. destruct (e_X e p) as [k X]. cbn [fst snd] in *. subst X.
  destruct (all_some _) as [L|] eqn:EL; [|discriminate]. cbn [bind] in H. injection H as <-.
  apply all_some_forall2 in EL. exists L.
  assert (Q : forall V y fv L, ys V = y -> length fv = length V ->
     map2 (d_logpdf d) y (set_col fv p (map (fun x => d_inv d p (dot k x b)) (Xs V))) = map Some L ->
     List.Forall2 (candidate_logpdf d p k b) (combine V fv) L).
  { clear. intros V. induction V as [|v V IH]; intros y [|th fv] L <- Hl H; cbn in *; try discriminate.
    - destruct L; [constructor|discriminate].
    - destruct L as [|l L]; [discriminate|]. injection H as H1 H2. constructor; [exact H1|]. eapply IH; [reflexivity|lia|exact H2]. }
  assert (LL : length L = length V).
  { pose proof (f_equal (@length _) EL) as E. rewrite !map_length in E. rewrite <- E.
    unfold set_col. rewrite !map2_length; rewrite ?map_length, ?map2_length; rewrite ?map_length, ?Xs_length; congruence. }
  split; [apply (Q V (e_y e)); [exact Hy|congruence|exact EL]|].
  unfold forget_vector. rewrite init_forget_vector_geo, <- Hl. now apply sum_lls.
Qed.
Lemma path_lls_meaning p fv V path : forall data, length fv = length (e_y e) -> length V = length (e_y e) -> ys V = e_y e -> Xs V = snd (e_X e p) ->
  path_lls e p fv (map2 Rmult (ws V) (forget_vector e p)) path = Ok data ->
  List.Forall2 (candidate_ll d p (fst (e_X e p)) (p_forget (e_prep e) p) V fv) path data.
Proof.
  induction path as [|b path IH]; intros data H1 H2 H3 H4 H; cbn in H; [injection H as <-; constructor|].
  destruct (path_ll _ _ _ _ b) as [l|] eqn:E; [|discriminate]. cbn [bind] in H.
  destruct (path_lls _ _ _ _ path) as [r|] eqn:Er; [|discriminate]. cbn [bind] in H. injection H as <-.
  constructor; [apply path_ll_meaning; auto|]. now apply IH.
Qed.

(** * One selection *)
Lemma fit_select_rss s p wv wt path b data i : o_global_ll (e_cfg e) = false ->
  length (e_w e) = length (e_y e) -> length wt = length (e_y e) -> length wv = length (e_y e) -> length (snd (e_X e p)) = length (e_y e) ->
  fit_select e s p wv wt path = Ok (b, data, i) ->
  let V := zip_obs (snd (e_X e p)) wv (map2 Rmult (e_w e) wt) in
  INR (length (e_y e)) <> 0 /\ dsum (1 - p_forget (e_prep e) p) ow V / INR (length V) <> 0 /\ data = map (relative_loss (fst (e_X e p)) (p_forget (e_prep e) p) V) path.
Proof.
  intros G L1 L2 L3 L4 H. pose proof (fit_select_ok e s p wv wt path b data i H) as (_ & Hne & _). unfold fit_select in H. rewrite G in H.
  destruct (number_or_nan _) as [mw|] eqn:Em; [|discriminate]. cbn [bind] in H.
  destruct (all_some _) as [rss|] eqn:E1; [|discriminate]. cbn [bind] in H.
  destruct (from_rss_array _ _ _ _) as [ic|]; [|discriminate]. cbn [bind] in H.
  destruct (argmin ic) as [best|]; [|discriminate]. cbn [bind] in H. injection H as _ <- _. cbv zeta.
  apply all_some_forall2 in E1.
  unfold forget_vector in *. rewrite init_forget_vector_geo in *.
  destruct (sum_weights (1 - p_forget (e_prep e) p) (e_y e) (e_w e) wt L1 L2 (snd (e_X e p)) wv L4 L3) as [S1 S2].
  assert (LV : length (zip_obs (snd (e_X e p)) wv (map2 Rmult (e_w e) wt)) = length (e_y e))
    by (rewrite zip_obs_length; rewrite ?map2_length; congruence).
  set (V := zip_obs _ _ _) in *.
  unfold mean in Em. destruct (npdiv _ _) as [m|] eqn:Ed; [|discriminate]. cbn in Em. injection Em as ->. apply npdiv_inv in Ed. destruct Ed as [Em Hn].
  rewrite S1 in Em. replace (length (mult3 wt (e_w e) (geo (1 - p_forget (e_prep e) p) (length (e_y e))))) with (length V) in Em
    by (unfold mult3; rewrite !map2_length; rewrite ?map2_length, ?geo_length; congruence).
  split.
  { intros Z. apply Hn. rewrite <- Z. f_equal. unfold mult3; rewrite !map2_length; rewrite ?map2_length, ?geo_length; congruence. }
  clear Hn. split.
  { rewrite <- Em. destruct path as [|c path]; cbn in E1.
    - cbn in Hne. lia.
    - destruct rss as [|r rss]; [discriminate|]. injection E1 as E0 _. apply npdiv_inv in E0. apply E0. }
  clear Hne. try clear Lo. revert rss E1. induction path as [|c path IH]; intros [|r rss] E1; cbn in E1; try discriminate; [reflexivity|].
  injection E1 as E0 E1. cbn [map]. f_equal; [|now apply IH].
  apply npdiv_inv in E0. destruct E0 as [-> _]. unfold relative_loss, wls_loss. rewrite <- Em. f_equal.
  unfold wrss. destruct (e_X e p) as [k X]. cbn [fst snd] in *. apply S2.
Qed.
Lemma fit_select_ll s p wv wt path b data i : o_global_ll (e_cfg e) = true ->
  fit_select e s p wv wt path = Ok (b, data, i) -> path_lls e p (w_fv s) (forget_vector e p) path = Ok data.
Proof.
  intros G H. unfold fit_select in H. rewrite G in H.
  destruct (path_lls _ _ _ _ _) as [ll|] eqn:E1; [|discriminate]. cbn [bind] in H.
  destruct (from_ll_array _ _ _ _) as [ic|] eqn:E2; [|discriminate]. cbn [bind] in H.
  destruct (argmin ic) as [best|] eqn:E3; [|discriminate]. cbn [bind] in H. injection H as _ <- _. reflexivity.
Qed.
Lemma update_select_rss s p wv wt path old mw b data i : o_global_ll (e_cfg e) = false ->
  length (e_w e) = length (e_y e) -> length wt = length (e_y e) -> length wv = length (e_y e) -> length (snd (e_X e p)) = length (e_y e) ->
  update_select e s p wv wt path old mw = Ok (b, data, i) ->
  let V := zip_obs (snd (e_X e p)) wv (map2 Rmult (e_w e) wt) in let f := p_forget (e_prep e) p in
  length old = length path /\ online_mean_update mw wt f (e_nobs e) <> 0 /\
  data = map2 (fun b o => (wls_loss (fst (e_X e p)) f V b + (1 - f) ^ length (e_y e) * (o * mw)) / online_mean_update mw wt f (e_nobs e)) path old.
Proof.
  intros G L1 L2 L3 L4 H. pose proof (update_select_ok e s p wv wt path old mw b data i H) as (_ & Hne & _). unfold update_select in H. rewrite G in H.
  destruct (Nat.eqb_spec (length old) (length path)) as [Lo|]; [|discriminate]. cbn [negb] in H. cbv zeta. split; [exact Lo|].
  destruct (all_some _) as [rss|] eqn:E1; [|discriminate]. cbn [bind] in H.
  destruct (from_rss_array _ _ _ _) as [ic|]; [|discriminate]. cbn [bind] in H.
  destruct (argmin ic) as [best|]; [|discriminate]. cbn [bind] in H. injection H as _ <- _.
  apply all_some_forall2 in E1.
  unfold forget_vector in *. rewrite init_forget_vector_geo in *.
  destruct (sum_weights (1 - p_forget (e_prep e) p) (e_y e) (e_w e) wt L1 L2 (snd (e_X e p)) wv L4 L3) as [_ S2].
  set (V := zip_obs _ _ _) in *. split.
  { destruct path as [|c path]; [cbn in Hne; lia|]. destruct old as [|o old]; [discriminate|]. cbn in E1.
    destruct rss as [|r rss]; [discriminate|]. injection E1 as E0 _. apply npdiv_inv in E0. apply E0. }
  clear Hne. try clear Lo.
  revert old rss E1. induction path as [|c path IH]; intros [|o old] [|r rss] E1; cbn in E1; try discriminate; try reflexivity.
  injection E1 as E0 E1. cbn [map2]. f_equal; [|now apply IH].
  apply npdiv_inv in E0. destruct E0 as [-> _]. unfold wls_loss. f_equal. f_equal.
  unfold wrss. destruct (e_X e p) as [k X]. cbn [fst snd] in *. apply S2.
Qed.
Lemma update_select_ll s p wv wt path old mw b data i : o_global_ll (e_cfg e) = true ->
  update_select e s p wv wt path old mw = Ok (b, data, i) ->
  exists ll, length old = length path /\ path_lls e p (w_fv s) (map2 Rmult (e_w e) (forget_vector e p)) path = Ok ll /\
    data = map2 (fun l o => l + (1 - p_forget (e_prep e) p) ^ length (e_y e) * o) ll old.
Proof.
  intros G H. unfold update_select in H. rewrite G in H.
  destruct (Nat.eqb_spec (length old) (length path)) as [Lo|]; [|discriminate]. cbn [negb] in H.
  destruct (path_lls _ _ _ _ _) as [ll|] eqn:E1; [|discriminate]. cbn [bind] in H.
  destruct (from_ll_array _ _ _ _) as [ic|] eqn:E2; [|discriminate]. cbn [bind] in H.
  destruct (argmin ic) as [best|] eqn:E3; [|discriminate]. cbn [bind] in H. injection H as _ <- _. eauto.
Qed.
End Env.

(** * Model rows *)
Lemma working_rows_of' {M} (c : gam_cfg M) d p fl pr ncol sc X fv rows V A : o_dist c = d ->
  arrays c pr ncol (map (scaler_transform sc) (Xs rows)) = Ok A -> (p < d_n d)%nat -> X = snd (A p) -> length V = length rows ->
  (forall i v o, nth_error V i = Some v -> oy o = nth i (ys rows) 0 -> ow o = nth i (ws rows) 0 ->
      ox v = nth i X (fun _ => 0) /\ working_obs d p fl (nth i fv (fun _ => 0)) o v) ->
  List.Forall2 (working_row d p fl pr ncol sc) rows V.
Proof.
  intros <- EA Hp -> Hl H. apply Forall2_nth_error; [congruence|]. intros i o v Ho Hv.
  destruct (nth_map_oy rows i o Ho) as (E1 & E2 & E3).
  destruct (H i v o Hv (eq_sym E1) (eq_sym E2)) as [Kx K]. split; [exists (nth i fv (fun _ => 0)); exact K|].
  intros Hsel. rewrite Kx, <- E3. apply (arrays_row c pr ncol sc (Xs rows) A p i EA Hp); [|exact Hsel].
  unfold Xs. rewrite map_length. apply nth_error_Some. congruence.
Qed.
(** The rows of the model matrix with responses and weights. *)
Definition plain_obs (X : list vec) (rows : list obs) (weight : obs -> R) : list obs := zip_obs X (ys rows) (map weight rows).
Lemma plain_rows {M} (c : gam_cfg M) weight p pr ncol sc rows A : 
  arrays c pr ncol (map (scaler_transform sc) (Xs rows)) = Ok A -> (p < d_n (o_dist c))%nat -> length (snd (A p)) = length rows ->
  let V := plain_obs (snd (A p)) rows weight in
  List.Forall2 (design_row weight pr ncol p sc) rows V /\ Xs V = snd (A p) /\ ys V = ys rows /\ ws V = map weight rows /\ length V = length rows.
Proof.
  intros EA Hp HL V.
  destruct (zip_obs_fields (snd (A p)) (ys rows) (map weight rows)) as (E1 & E2 & E3); [rewrite ys_length; congruence|rewrite map_length; congruence|].
  assert (E4 : length V = length rows) by (unfold V, plain_obs; rewrite zip_obs_length; rewrite ?ys_length, ?map_length; congruence).
  split; [|auto].
  apply Forall2_nth_error; [congruence|]. intros i o v Ho Hv.
  destruct (nth_map_oy rows i o Ho) as (F1 & F2 & F3). destruct (nth_map_oy V i v Hv) as (G1 & G2 & G3).
  assert (Hi : (i < length rows)%nat) by (apply nth_error_Some; congruence).
  unfold V, plain_obs in G1, G2, G3. rewrite E1, E2, E3 in *.
  split; [congruence|]. split.
  - rewrite <- G2. rewrite (nth_indep _ 0 (weight o)) by (now rewrite map_length). rewrite map_nth. f_equal. apply nth_error_nth. exact Ho.
  - intros Hsel. rewrite <- G3, <- F3. apply (arrays_row c pr ncol sc (Xs rows) A p i EA Hp); [|exact Hsel]. now rewrite Xs_length.
Qed.

(** Lemmas: coefficients as weighted least squares solutions of the working observations. *)
From Coq Require Import Reals List Bool Arith ZArith Lra Lia.
From Verif Require Import Base Lin Data M_Gram S_Gram L_Gram M_OLS L_OLS M_Scaler M_Utils M_Links M_State M_LM M_Equation S_Equation L_Equation M_GAMLSS S_GAMLSS.
From Verif Require Import L_GAM1 L_GAM2 L_GAM8 L_GAM9 L_GAM10 L_GAM11 L_GAM12 L_GAM13.
Import ListNotations.
Open Scope R_scope.

(** * Rows *)
Fixpoint zip_obs (X : list vec) (z w : list R) : list obs :=
  match X, z, w with x :: X', a :: z', b :: w' => mkobs x a b :: zip_obs X' z' w' | _, _, _ => [] end.
Lemma zip_obs_fields X : forall z w, length z = length X -> length w = length X ->
  Xs (zip_obs X z w) = X /\ ys (zip_obs X z w) = z /\ ws (zip_obs X z w) = w.
Proof.
  induction X as [|x X IH]; intros [|a z] [|b w] H1 H2; cbn in *; try discriminate; [auto|].
  destruct (IH z w) as (E1 & E2 & E3); [lia|lia|]. unfold Xs, ys, ws in *. now rewrite E1, E2, E3.
Qed.
Lemma zip_obs_nth X z w i : length z = length X -> length w = length X -> (i < length X)%nat ->
  exists v, nth_error (zip_obs X z w) i = Some v /\ ox v = nth i X (fun _ => 0) /\ oy v = nth i z 0 /\ ow v = nth i w 0.
Proof.
  revert z w i. induction X as [|x X IH]; intros [|a z] [|b w] i H1 H2 Hi; cbn in *; try lia.
  destruct i as [|i]; [eexists; cbn; auto|]. apply IH; lia.
Qed.
Lemma zip_obs_length X z w : length z = length X -> length w = length X -> length (zip_obs X z w) = length X.
Proof. intros H1 H2. destruct (zip_obs_fields X z w H1 H2) as (E & _). rewrite <- E at 2. unfold Xs. now rewrite map_length. Qed.
Lemma Forall2_nth_error {A B} (Q : A -> B -> Prop) l : forall m, length l = length m ->
  (forall i a b, nth_error l i = Some a -> nth_error m i = Some b -> Q a b) -> List.Forall2 Q l m.
Proof.
  induction l as [|a l IH]; intros [|b m] H K; cbn in *; try discriminate; constructor.
  - exact (K O a b eq_refl eq_refl).
  - apply IH; [lia|]. intros i. exact (K (S i)).
Qed.

(** * Working observations *)
Lemma weight_meaning (u : bool) h di :
  (if u then update_weight else fit_weight) h di = Rmin (10 ^ 10) (Rmax (if u then - 10 ^ 10 else 1 / 10 ^ 10) (- h * di ^ 2)).
Proof.
  assert (E : raw_weight h di = - h * di ^ 2).
  { unfold raw_weight. rcase; [subst; ring|]. field. auto. }
  destruct u; unfold update_weight, fit_weight, clip; rewrite E; reflexivity.
Qed.
Lemma response_meaning eta a di wt z : working_response eta a di wt = Some z -> wt * (z - eta) = a * di.
Proof.
  unfold working_response, npdiv. rcase.
  - subst di. rcase; [discriminate|]. intros H. injection H as <-. ring.
  - rcase; [discriminate|]. cbn. intros H. injection H as <-.
    assert (wt <> 0) by (intros ->; match goal with H : 1 / di * 0 <> 0 |- _ => apply H; ring end). field. auto.
Qed.

Lemma working_obs_of {M} (e : env M) u p fv eta g k X : working e u p fv = Ok (eta, g) -> length fv = length (e_y e) ->
  e_X e p = (k, X) -> length X = length (e_y e) -> length (e_w e) = length (e_y e) ->
  let V := zip_obs X (g_wv g) (map2 Rmult (e_w e) (g_wt g)) in
  Xs V = X /\ ys V = g_wv g /\ ws V = map2 Rmult (e_w e) (g_wt g) /\ length V = length (e_y e) /\
  forall i v o, nth_error V i = Some v -> oy o = nth i (e_y e) 0 -> ow o = nth i (e_w e) 0 ->
    ox v = nth i X (fun _ => 0) /\
    working_obs (o_dist (e_cfg e)) p (if u then - 10 ^ 10 else 1 / 10 ^ 10) (nth i fv (fun _ => 0)) o v.
Proof.
  intros H Hf HX HlX Hlw V. apply working_rows in H; [|exact Hf]. cbv zeta in H. destruct H as (L1 & L2 & L3 & H).
  assert (Lw : length (map2 Rmult (e_w e) (g_wt g)) = length X) by (rewrite map2_length; congruence).
  assert (Lz : length (g_wv g) = length X) by congruence.
  destruct (zip_obs_fields X (g_wv g) _ Lz Lw) as (E1 & E2 & E3).
  split; [exact E1|]. split; [exact E2|]. split; [exact E3|]. split; [unfold V; rewrite zip_obs_length; congruence|].
  intros i v o Hv Hy Hw.
  assert (Hi : (i < length (e_y e))%nat).
  { assert (nth_error V i <> None) by congruence. apply nth_error_Some in H0. unfold V in H0. rewrite zip_obs_length in H0; congruence. }
  destruct (zip_obs_nth X (g_wv g) (map2 Rmult (e_w e) (g_wt g)) i Lz Lw ltac:(congruence)) as (v' & Ev & Ex & Ez & Ew).
  unfold V in Hv. rewrite Hv in Ev. injection Ev as <-. split; [exact Ex|].
  destruct (H i Hi) as (a1 & a2 & K1 & K2 & K3 & K4 & K5).
  exists (nth i eta 0), a1, a2. rewrite Hy. do 3 (split; [assumption|]). cbv zeta.
  rewrite <- (weight_meaning u). rewrite <- K4. split; [|rewrite Ez; apply response_meaning; exact K5].
  rewrite Ew, Hw. rewrite (nth_indep _ 0 (0 * 0)) by (rewrite Lw; lia).
  assert (Q : forall l m j, length l = length m -> nth j (map2 Rmult l m) (0 * 0) = nth j l 0 * nth j m 0).
  { intros l. induction l as [|x l IH]; intros [|b m] j Hl; cbn in *; try discriminate; destruct j; auto. }
  apply Q. congruence.
Qed.
Lemma working_weights {M} (e : env M) (u : bool) p fv eta g : working e u p fv = Ok (eta, g) -> length fv = length (e_y e) ->
  length (e_w e) = length (e_y e) -> List.Forall (fun a => 0 <= a) (e_w e) ->
  (u = true -> concave_in (o_dist (e_cfg e)) p) ->
  List.Forall (fun a => 0 <= a) (map2 Rmult (e_w e) (g_wt g)).
Proof.
  intros H Hf Hl Hw Hc. apply working_rows in H; [|exact Hf]. cbv zeta in H. destruct H as (_ & L2 & _ & H).
  assert (P : forall i, (i < length (e_y e))%nat -> 0 <= nth i (g_wt g) 0).
  { intros i Hi. destruct (H i Hi) as (a1 & a2 & K1 & K2 & K3 & -> & _). rewrite weight_meaning.
    assert (0 < 1 / 10 ^ 10) by (apply Rdiv_lt_0_compat; [lra|apply pow_lt; lra]).
    assert (0 < 10 ^ 10) by (apply pow_lt; lra).
    apply Rmin_glb; [lra|]. destruct u.
    - eapply Rle_trans; [|apply Rmax_r]. pose proof (Hc eq_refl _ _ _ K3).
      pose proof (pow2_ge_0 (d_dinv (o_dist (e_cfg e)) p (nth i eta 0))). nra.
    - eapply Rle_trans; [|apply Rmax_l]. lra. }
  rewrite <- Hl in P, L2. clear H Hl. revert L2 P Hw. generalize (g_wt g). induction (e_w e) as [|a l IH]; intros [|b m] L P Hw; cbn in *; try discriminate; constructor.
  - inversion Hw; subst. apply Rmult_le_pos; [assumption|]. apply (P O). lia.
  - apply IH; [lia|intros i Hi; apply (P (S i)); lia|now inversion Hw].
Qed.

Lemma C63_weights_lemma {M} (ops : method_ops M) (c : gam_cfg M) b s s' pr p :
  gam_update ops c b s = (s', Ok tt) -> cycles s' <> Some O -> s_prep s = Some pr -> In p (p_order pr) ->
  exists W wts, weight_sum s p = Some W /\
    List.Forall2 (working_weight (o_dist c) p (- 10 ^ 10)) (b_rows b) wts /\
    weight_sum s' p = Some (lsum (map2 Rmult (ws (b_rows b)) wts) + (1 - p_forget pr p) * W).
Proof.
  intros H Hc Epr Ho. destruct (C63_law_lemma ops c b s s' pr p H Hc Epr Ho) as (W & n0 & isreg & X & fv & eta & g & E1 & _ & El & E2 & E3).
  exists W, (g_wt g). split; [exact E1|]. split; [|exact E3].
  assert (Ey : length (e_y (again_env c pr isreg n0 b X)) = length (b_rows b)) by (cbn; apply ys_length).
  destruct (working_rows _ _ _ _ _ _ E2 ltac:(congruence)) as (_ & L & _ & K).
  apply Forall2_nth_error; [congruence|]. intros i o wt Ho' Hwt.
  assert (Hi : (i < length (b_rows b))%nat) by (apply nth_error_Some; congruence).
  destruct (K i ltac:(congruence)) as (a1 & a2 & K1 & _ & K2 & K3 & _).
  assert (Eo : nth i (ys (b_rows b)) 0 = oy o).
  { unfold ys. rewrite (nth_indep _ 0 (oy o)) by (rewrite map_length; exact Hi). rewrite map_nth. f_equal. apply nth_error_nth. exact Ho'. }
  cbn [again_env e_y e_cfg] in *. rewrite Eo in K2.
  exists (nth i fv (fun _ => 0)), (nth i eta 0), a2. split; [exact K1|]. split; [exact K2|].
  rewrite <- (weight_meaning true). rewrite <- K3. symmetry. apply nth_error_nth. exact Hwt.
Qed.

(** * The normal equations *)
Lemma normal_residual k f V b : normal_equations k f V b <->
  forall j, (j < k)%nat -> dsum (1 - f) (fun v => ow v * (oy v - dot k (ox v) b) * ox v j) V = 0.
Proof.
  assert (E : forall j, dsum (1 - f) (fun v => ow v * (oy v - dot k (ox v) b) * ox v j) V = ygram_spec f V j - mvec k (gram_spec f V) b j).
  { intros j. unfold ygram_spec, mvec, gram_spec, dot.
    rewrite (bsum_ext k _ (fun l => dsum (1 - f) (fun o => ow o * ox o j * (ox o l * b l)) V)).
    - rewrite <- (dsum_bsum (1 - f) k (fun l o => ow o * ox o j * (ox o l * b l))).
      rewrite <- dsum_minus. apply dsum_ext. intros o _. rewrite bsum_scal_l. ring.
    - intros l _. rewrite <- dsum_scal_r. apply dsum_ext. intros; ring. }
  unfold normal_equations, eqv. split; intros H j Hj; specialize (H j Hj); rewrite ?E in *; lra.
Qed.
Lemma dsum_seq {A} g (F : A -> R) (def : A) l : dsum g F l = dsum g (fun i => F (nth i l def)) (seq 0 (length l)).
Proof.
  assert (Q : forall m n, dsum g (fun i => F (nth i (m ++ l) def)) (seq n (length l)) = dsum g F l -> True) by auto. clear Q.
  assert (Q : forall l m, dsum g F l = dsum g (fun i => F (nth i (m ++ l) def)) (seq (length m) (length l))).
  { clear l. intros l. induction l as [|a l IH]; intros m; cbn [length seq dsum]; [reflexivity|].
    rewrite seq_length. rewrite app_nth2 by lia. rewrite Nat.sub_diag. cbn [nth]. f_equal.
    rewrite (IH (m ++ [a])). rewrite <- app_assoc. rewrite app_length. cbn [length app]. rewrite Nat.add_1_r. reflexivity. }
  exact (Q l []).
Qed.

Section Candidate.
Context (inv : nat -> mat -> option mat) (e : env unit).
Hypothesis Hinv : matinv_spec inv.
Notation d := (o_dist (e_cfg e)).
Hypothesis Hlw : length (e_w e) = length (e_y e).
Hypothesis Hw : List.Forall (fun a => 0 <= a) (e_w e).

Lemma nonneg_obs V : List.Forall (fun a => 0 <= a) (ws V) -> weights_nonneg V.
Proof. unfold ws, weights_nonneg. rewrite Forall_map. auto. Qed.

(** The coefficients of one inner iteration of fit. *)
Lemma fit_candidate_wls p io it step dvo fv pth s s' q : 0 <= p_forget (e_prep e) p < 1 ->
  fit_candidate (ols_ops inv) e p io it step dvo fv pth s = (s', Ok q) ->
  length fv = length (e_y e) -> length (snd (e_X e p)) = length (e_y e) ->
  let k := fst (e_X e p) in let f := p_forget (e_prep e) p in
  exists V, length V = length (e_y e) /\ weights_nonneg V /\
    is_inverse k (gram_spec f V) (c_x q) /\ (forall i, c_y q i = ygram_spec f V i) /\ c_beta q = ols_beta k (c_x q) (c_y q) /\
    forall i v o, nth_error V i = Some v -> oy o = nth i (e_y e) 0 -> ow o = nth i (e_w e) 0 ->
      ox v = nth i (snd (e_X e p)) (fun _ => 0) /\ working_obs d p (1 / 10 ^ 10) (nth i fv (fun _ => 0)) o v.
Proof.
  intros Hf H Hl HX. apply fit_candidate_full in H. cbv zeta in H.
  destruct H as (eta & gd & m & Hwk & _ & Hx & Hy & _ & _ & _ & H). cbn [op_path_based ols_ops] in H.
  destruct H as (m' & H & _). cbn [op_fit_beta ols_ops] in H. injection H as _ Hb.
  cbn [op_init_x ols_ops] in Hx.
  destruct (e_X e p) as [k X] eqn:EX. cbn [fst snd] in *. cbv zeta.
  pose proof (working_obs_of e false p fv eta gd k X Hwk Hl EX HX Hlw) as K. cbv zeta in K.
  set (V := zip_obs X (g_wv gd) (map2 Rmult (e_w e) (g_wt gd))) in *. destruct K as (E1 & E2 & E3 & E4 & K).
  exists V. split; [exact E4|].
  assert (HV : weights_nonneg V).
  { apply nonneg_obs. rewrite E3. apply (working_weights e false p fv eta gd Hwk Hl Hlw Hw). discriminate. }
  split; [exact HV|]. rewrite <- E1, <- E3 in Hx. apply (init_inverted_inv inv) in Hx; [|exact Hinv|lra|exact HV].
  split; [apply Hx|]. split.
  { intros i. rewrite Hy. rewrite <- E1, <- E3, <- E2. apply init_y_gram_spec; [lra|exact HV]. }
  split; [symmetry; exact Hb|exact K].
Qed.

(** The coefficients of one inner iteration of update. *)
Lemma update_candidate_wls gdev p io it fv s s' q V0 : 0 <= p_forget (e_prep e) p < 1 -> concave_in d p ->
  update_candidate (ols_ops inv) e gdev p io it fv s = (s', Ok q) ->
  length fv = length (e_y e) -> length (snd (e_X e p)) = length (e_y e) -> (1 <= length (e_y e))%nat ->
  let k := fst (e_X e p) in let f := p_forget (e_prep e) p in
  weights_nonneg V0 ->
  (exists G h, w_x s p = Some G /\ w_y s p = Some h /\ is_inverse k (gram_spec f V0) G /\ forall i, h i = ygram_spec f V0 i) ->
  exists V, length V = length (e_y e) /\ weights_nonneg (V0 ++ V) /\
    is_inverse k (gram_spec f (V0 ++ V)) (c_x q) /\ (forall i, c_y q i = ygram_spec f (V0 ++ V) i) /\ c_beta q = ols_beta k (c_x q) (c_y q) /\
    forall i v o, nth_error V i = Some v -> oy o = nth i (e_y e) 0 -> ow o = nth i (e_w e) 0 ->
      ox v = nth i (snd (e_X e p)) (fun _ => 0) /\ working_obs d p (- 10 ^ 10) (nth i fv (fun _ => 0)) o v.
Proof.
  intros Hf Hcv H Hl HX Hn k f HV0 (G & h & EG & Eh & HG & Hh). subst k f. apply update_candidate_ok in H. cbv zeta in H.
  destruct H as (eta & gd & m & x0 & y0 & mw & dv & Hwk & _ & Ex & Ey & _ & Hx & Hy & _ & _ & _ & _ & H). cbn [op_path_based ols_ops] in H.
  destruct H as (m' & H & _). cbn [op_update_beta ols_ops] in H. injection H as _ Hb.
  cbn [op_update_x ols_ops] in Hx. replace x0 with G in * by congruence. replace y0 with h in * by congruence.
  destruct (e_X e p) as [k X] eqn:EX. cbn [fst snd] in *.
  pose proof (working_obs_of e true p fv eta gd k X Hwk Hl EX HX Hlw) as K. cbv zeta in K.
  set (V := zip_obs X (g_wv gd) (map2 Rmult (e_w e) (g_wt gd))) in *. destruct K as (E1 & E2 & E3 & E4 & K).
  exists V. split; [exact E4|].
  assert (HV : weights_nonneg V).
  { apply nonneg_obs. rewrite E3. apply (working_weights e true p fv eta gd Hwk Hl Hlw Hw). auto. }
  rewrite <- E1, <- E3 in Hx. rewrite update_inverted_gram_ok in Hx by (intros Z; rewrite Z in E4; cbn in E4; lia). injection Hx as Hx.
  pose proof (update_rows_inv k (p_forget (e_prep e) p) Hf V V0 G (conj HG HV0) HV) as [HI HW]. rewrite Hx in HI.
  split; [exact HW|]. split; [exact HI|]. split.
  { intros i. rewrite Hy. rewrite <- E1, <- E3, <- E2. rewrite (update_y_gram_spec h (p_forget (e_prep e) p) V0 V i); auto. lra. }
  split; [symmetry; exact Hb|exact K].
Qed.

Lemma wls_of_parts k f V G h : 0 <= f < 1 -> weights_nonneg V -> is_inverse k (gram_spec f V) G -> (forall i, h i = ygram_spec f V i) ->
  forall b, wls_loss k f V (ols_beta k G h) <= wls_loss k f V b /\
            (wls_loss k f V b = wls_loss k f V (ols_beta k G h) -> eqv k b (ols_beta k G h)).
Proof.
  intros Hf HV HG Hh. apply (wls_optimal k f V G); auto; [lra|]. apply ols_beta_normal; [exact HG|intros i _; apply Hh].
Qed.

(** Where an iteration of fit stands still. *)
Lemma C80_lemma p io it step dvo fv pth s s' q : 0 <= p_forget (e_prep e) p < 1 ->
  fit_candidate (ols_ops inv) e p io it step dvo fv pth s = (s', Ok q) ->
  length fv = length (e_y e) -> length (snd (e_X e p)) = length (e_y e) ->
  let k := fst (e_X e p) in let n := length (e_y e) in
  let x := fun i => nth i (snd (e_X e p)) (fun _ => 0) in
  exists eta a, 
    (forall i, (i < n)%nat -> d_link d p (nth i fv (fun _ => 0) p) = Some (eta i) /\ d_dl1 d p (nth i (e_y e) 0) (nth i fv (fun _ => 0)) = Some (a i)) /\
    let score := fun j => dsum (1 - p_forget (e_prep e) p) (fun i => nth i (e_w e) 0 * (a i * d_dinv d p (eta i)) * x i j) (seq 0 n) in
    ((forall i, (i < n)%nat -> dot k (x i) (c_beta q) = eta i) -> forall j, (j < k)%nat -> score j = 0) /\
    (forall b, (forall i, (i < n)%nat -> dot k (x i) b = eta i) -> (forall j, (j < k)%nat -> score j = 0) -> eqv k (c_beta q) b).
Proof.
  intros Hf H Hl HX k n x. destruct (fit_candidate_wls p io it step dvo fv pth s s' q Hf H Hl HX) as (V & E4 & HV & HI & Hh & Hb & K).
  apply fit_candidate_full in H. cbv zeta in H. destruct H as (eta & gd & m & Hwk & _).
  apply working_rows in Hwk; [|exact Hl]. cbv zeta in Hwk. destruct Hwk as (_ & _ & _ & R0).
  assert (RA : forall i, exists ai, (i < n)%nat -> d_dl1 d p (nth i (e_y e) 0) (nth i fv (fun _ => 0)) = Some ai).
  { intros i. destruct (lt_dec i n) as [Hi|Hi]; [|exists 0; lia]. destruct (R0 i Hi) as (a1 & a2 & _ & K2 & _). exists a1. auto. }
  assert (EA : exists a, forall i, (i < n)%nat -> d_dl1 d p (nth i (e_y e) 0) (nth i fv (fun _ => 0)) = Some (a i)).
  { exists (fun i => match d_dl1 d p (nth i (e_y e) 0) (nth i fv (fun _ => 0)) with Some r => r | None => 0 end).
    intros i Hi. destruct (RA i) as (r & Er). rewrite (Er Hi). reflexivity. }
  destruct EA as (a & Ha). exists (fun i => nth i eta 0), a. split.
  { intros i Hi. destruct (R0 i Hi) as (a1 & a2 & K1 & _). auto. }
  assert (Hres : forall b j, (forall i, (i < n)%nat -> dot k (x i) b = nth i eta 0) ->
    dsum (1 - p_forget (e_prep e) p) (fun v => ow v * (oy v - dot k (ox v) b) * ox v j) V =
    dsum (1 - p_forget (e_prep e) p) (fun i => nth i (e_w e) 0 * (a i * d_dinv d p (nth i eta 0)) * x i j) (seq 0 n)).
  { intros b j Hd. rewrite (dsum_seq _ _ (mkobs (fun _ => 0) 0 0)). rewrite E4. fold n. apply dsum_ext. intros i Hi. apply in_seq in Hi.
    assert (Ei : nth_error V i = Some (nth i V (mkobs (fun _ => 0) 0 0))) by (apply nth_error_nth'; rewrite E4; fold n; lia).
    destruct (K i _ (mkobs (fun _ => 0) (nth i (e_y e) 0) (nth i (e_w e) 0)) Ei eq_refl eq_refl) as (Kx & eta' & a' & h' & K1 & K2 & K3 & K4 & K5).
    cbn [oy ow] in *. destruct (R0 i ltac:(fold n; lia)) as (a1 & a2 & R1 & R2 & _). rewrite R1 in K1. injection K1 as <-.
    rewrite Ha in K2 by lia. injection K2 as <-. rewrite Kx. change (nth i (snd (e_X e p)) (fun _ => 0)) with (x i). rewrite Hd by lia.
    rewrite K4. rewrite <- K5. ring. }
  change (c_beta q = ols_beta k (c_x q) (c_y q)) in Hb.
  pose proof (ols_beta_normal k (p_forget (e_prep e) p) V (c_x q) (c_y q) HI (fun i _ => Hh i)) as HN. rewrite <- Hb in HN.
  split.
  - intros Hd j Hj. cbv zeta. rewrite <- (Hres _ j Hd). exact (proj1 (normal_residual k _ V _) HN j Hj).
  - intros b Hd Hs. destruct (wls_of_parts k _ V (c_x q) (c_y q) Hf HV HI Hh b) as [W1 W2]. rewrite <- Hb in W1, W2.
    assert (HNb : normal_equations k (p_forget (e_prep e) p) V b).
    { apply normal_residual. intros j Hj. rewrite (Hres _ j Hd). apply Hs, Hj. }
    destruct (wls_optimal k (p_forget (e_prep e) p) V (c_x q) b ltac:(lra) HV HI HNb (c_beta q)) as [W3 W4].
    apply W4. lra.
Qed.
End Candidate.

(** Lemmas for C115: iterations of the inner loop and the log-likelihood. *)
From Coq Require Import Reals List Bool Arith ZArith Lra Lia.
From Coquelicot Require Import Coquelicot.
From Verif Require Import Base Lin Data M_Gram S_Gram L_Gram M_OLS L_OLS M_Scaler M_Utils M_Links S_Links L_Links2 M_DistTable M_Dist S_Dist P_Dist M_State M_LM M_Equation M_GAMLSS M_GAMDist S_GAMLSS S_Fitted S_Newton.
From Verif Require Import L_GAM1 L_GAM8 L_GAM9 L_GAM10 L_GAM14 L_FittedEx.
Import ListNotations.
Open Scope R_scope.

Lemma dot_along k x b v t : dot k x (along b v t) = dot k x b + t * dot k x v.
Proof. unfold dot, along. rewrite <- bsum_scal_l, <- bsum_plus. apply bsum_ext. intros; ring. Qed.

Lemma theta_ok_valid D th : valid_theta D th -> theta_ok D th = true.
Proof.
  destruct D; cbn [valid_theta theta_ok]; unfold between; intros H;
    repeat match goal with H : _ /\ _ |- _ => destruct H end;
    repeat (apply andb_true_iff; split); apply Rltb_true; assumption.
Qed.

Lemma score_partial lgam dg D y th p : is_digamma lgam dg -> valid_theta D th -> y_support D y -> (p < n_params D)%nat ->
  partial (logpdf lgam D y) th p (score dg D y th p).
Proof.
  intros Hd Hv Hy Hp. destruct (C39_score lgam dg D y th p Hd Hv Hy Hp) as (s & E & H).
  assert (Q : score dg D y th p = s); [|rewrite Q; exact H].
  unfold dl1_dp1, validate_param in E. rewrite Nat2Z.id in E.
  assert (Z0 : (0 <=? Z.of_nat p)%Z = true) by (apply Z.leb_le; lia). rewrite Z0 in E.
  assert (Z1 : (Z.of_nat (n_params D) <=? Z.of_nat p)%Z = false) by (apply Z.leb_gt; lia). rewrite Z1 in E.
  assert (Z2 : n_params D = 2%nat -> (Z.of_nat p <? 2)%Z = true) by (intros Z2; apply Z.ltb_lt; lia).
  destruct D; cbn [bind] in E; try (injection E as <-; reflexivity);
    rewrite Z2 in E by reflexivity; injection E as <-; reflexivity.
Qed.

(** One row, in the direction given by [c]. *)
Lemma row_slope lgam D y th p l eta c s :
  partial (logpdf lgam D y) th p s -> th p = link_inv l eta -> dinv_range l eta ->
  has_derivative (fun t => logpdf lgam D y (upd th p (link_inv l (eta + t * c)))) 0 (s * link_inv_d l eta * c).
Proof.
  intros (g & Hg & Dg) E HR. rewrite E in Hg, Dg.
  pose proof (C34_inverse_derivative_lemma l eta HR) as DI.
  assert (DI0 : is_derive (fun t => link_inv l (eta + t * c)) 0 (link_inv_d l eta * c)).
  { replace (link_inv_d l eta * c) with (scal c (link_inv_d l eta)) by (unfold scal; cbn; unfold mult; cbn; ring).
    apply (is_derive_comp (link_inv l) (fun t => eta + t * c)).
    - replace (eta + 0 * c) with eta by ring. exact DI.
    - auto_derive; [exact I|ring]. }
  exists (fun t => g (link_inv l (eta + t * c))). split.
  - assert (Cn : continuous (fun t => link_inv l (eta + t * c)) 0) by (apply (ex_derive_continuous (fun t => link_inv l (eta + t * c)) 0); eexists; exact DI0).
    specialize (Cn (fun v => logpdf lgam D y (upd th p v) = Some (g v))). cbv beta in Cn. replace (eta + 0 * c) with eta in Cn by ring. exact (Cn Hg).
  - replace (s * link_inv_d l eta * c) with (scal (link_inv_d l eta * c) s) by (unfold scal; cbn; unfold mult; cbn; ring).
    apply (is_derive_comp g (fun t => link_inv l (eta + t * c))); [|exact DI0].
    replace (eta + 0 * c) with eta by ring. exact Dg.
Qed.

Lemma opt_dsum_slope {A} g (f : A -> R -> option R) (d : A -> R) l : (forall a, In a l -> has_derivative (f a) 0 (d a)) ->
  has_derivative (fun t => opt_dsum g (fun a => f a t) l) 0 (dsum g d l).
Proof.
  induction l as [|a l IH]; intros H; cbn [opt_dsum dsum].
  - exists (fun _ => 0). split; [apply filter_forall; reflexivity|auto_derive; [exact I|reflexivity]].
  - destruct (H a (or_introl eq_refl)) as (u & U1 & U2). destruct IH as (v & V1 & V2); [intros; apply H; now right|].
    exists (fun t => g ^ length l * u t + v t). split.
    + generalize (filter_and _ _ U1 V1). apply filter_imp. intros t [-> ->]. reflexivity.
    + apply (is_derive_plus (fun t => g ^ length l * u t) v); [apply is_derive_scal; exact U2|exact V2].
Qed.

Lemma scale_slope (f : R -> option R) w s : has_derivative f 0 s -> has_derivative (fun t => option_map (Rmult w) (f t)) 0 (w * s).
Proof.
  intros (g & G1 & G2). exists (fun t => w * g t). split.
  - revert G1. apply filter_imp. intros t ->. reflexivity.
  - apply is_derive_scal. exact G2.
Qed.

Lemma has_derivative_ext (f g : R -> option R) x s : (forall t, f t = g t) -> has_derivative f x s -> has_derivative g x s.
Proof. intros H (u & U1 & U2). exists u. split; [|exact U2]. revert U1. apply filter_imp. intros t. now rewrite H. Qed.

Lemma loglik_slope lgam dg D l p g k X fv wts ys b : is_digamma lgam dg -> (p < n_params D)%nat ->
  from_coefs D l p k X fv ys b -> forall v,
  slope (loglik lgam D l p g k X fv wts ys) b v
    (dsum g (fun i => nth i wts 0 * (score dg D (nth i ys 0) (nth i fv (fun _ => 0)) p * link_inv_d l (dot k (nth i X (fun _ => 0)) b) * dot k (nth i X (fun _ => 0)) v))
       (seq 0 (length ys))).
Proof.
  intros Hd Hp H v. unfold slope, loglik. apply opt_dsum_slope. intros i Hi. apply in_seq in Hi.
  destruct (H i ltac:(lia)) as (H1 & H2 & H3 & H4 & H5). apply scale_slope.
  eapply has_derivative_ext; [|apply (row_slope lgam D (nth i ys 0) (nth i fv (fun _ => 0)) p l (dot k (nth i X (fun _ => 0)) b) (dot k (nth i X (fun _ => 0)) v))].
  - intros t. cbv beta. now rewrite dot_along.
  - apply score_partial; auto.
  - exact H3.
  - exact H5.
Qed.

(** * Weighted least squares *)
Lemma normal_direction k f V b v : normal_equations k f V b ->
  dsum (1 - f) (fun o => ow o * (oy o - dot k (ox o) b) * dot k (ox o) v) V = 0.
Proof.
  intros H. pose proof (proj1 (normal_residual k f V b) H) as H0. clear H. rename H0 into H.
  transitivity (dsum (1 - f) (fun o => bsum k (fun j => ow o * (oy o - dot k (ox o) b) * ox o j * v j)) V).
  - apply dsum_ext. intros o _. unfold dot at 2. rewrite <- bsum_scal_l. apply bsum_ext. intros; ring.
  - rewrite dsum_bsum. rewrite (bsum_ext k _ (fun _ => 0)).
    + clear. induction k as [|k IH]; cbn; lra.
    + intros j Hj. rewrite dsum_scal_r. rewrite H by exact Hj. ring.
Qed.

Lemma dot_minus k x a b : dot k x (fun j => a j - b j) = dot k x a - dot k x b.
Proof. unfold dot. rewrite <- bsum_minus. apply bsum_ext. intros; ring. Qed.
Lemma dot_eqv k x a b : eqv k a b -> dot k x a = dot k x b.
Proof. intros H. unfold dot. apply bsum_ext. intros j Hj. now rewrite H. Qed.

Section Step.
Context (inv : nat -> mat -> option mat) (e : env unit).
Context (lgam dg tg : R -> R) (ft : list R -> R * R * R) (fj : list R -> R * R * R * R) (gi : bool)
  (pf : dist -> R -> vec -> option R) (cd : dist -> list R -> list vec -> nat -> res (list vec)) (D : dist) (links : list link).
Hypothesis Hinv : matinv_spec inv.
Hypothesis Hd : o_dist (e_cfg e) = shipped lgam dg tg ft fj gi pf cd D links.
Hypothesis Hdg : is_digamma lgam dg.
Hypothesis Hlw : length (e_w e) = length (e_y e).
Hypothesis Hw : List.Forall (fun a => 0 <= a) (e_w e).

Lemma step_slopes p io it step dvo fv pth s s' q b : (p < n_params D)%nat -> 0 <= p_forget (e_prep e) p < 1 ->
  fit_candidate (ols_ops inv) e p io it step dvo fv pth s = (s', Ok q) ->
  length fv = length (e_y e) -> length (snd (e_X e p)) = length (e_y e) ->
  let k := fst (e_X e p) in let l := nth p links Identity in
  from_coefs D l p k (snd (e_X e p)) fv (e_y e) b ->
  exists sl : vec -> R,
    (forall v, slope (loglik lgam D l p (1 - p_forget (e_prep e) p) k (snd (e_X e p)) fv (e_w e) (e_y e)) b v (sl v)) /\
    (eqv k (c_beta q) b <-> forall v, sl v = 0) /\
    (~ eqv k (c_beta q) b -> 0 < sl (fun j => c_beta q j - b j)).
Proof.
  intros Hp Hf H Hl HX k l Hb.
  destruct (fit_candidate_wls inv e Hinv Hlw Hw p io it step dvo fv pth s s' q Hf H Hl HX) as (V & E4 & HV & HI & Hh & Hbe & K).
  fold k in HI, Hbe. set (f := p_forget (e_prep e) p) in *. set (X := snd (e_X e p)) in *. set (c := c_beta q) in *.
  set (sl := fun v : vec => dsum (1 - f) (fun i => nth i (e_w e) 0 * (score dg D (nth i (e_y e) 0) (nth i fv (fun _ => 0)) p *
    link_inv_d l (dot k (nth i X (fun _ => 0)) b) * dot k (nth i X (fun _ => 0)) v)) (seq 0 (length (e_y e)))).
  exists sl. split; [intros v; apply (loglik_slope lgam dg D l p (1 - f) k X fv (e_w e) (e_y e) b Hdg Hp Hb v)|].
  assert (Ev : forall v, sl v = dsum (1 - f) (fun o => ow o * (oy o - dot k (ox o) b) * dot k (ox o) v) V).
  { intros v. unfold sl. symmetry. rewrite (dsum_seq _ _ (mkobs (fun _ => 0) 0 0)). rewrite E4. apply dsum_ext. intros i Hi. apply in_seq in Hi.
    assert (Ei : nth_error V i = Some (nth i V (mkobs (fun _ => 0) 0 0))) by (apply nth_error_nth'; rewrite E4; lia).
    destruct (K i _ (mkobs (fun _ => 0) (nth i (e_y e) 0) (nth i (e_w e) 0)) Ei eq_refl eq_refl) as (Kx & eta' & a' & h' & K1 & K2 & K3 & K4 & K5).
    cbn [oy ow] in *. destruct (Hb i ltac:(lia)) as (B1 & B2 & B3 & B4 & B5).
    rewrite Hd in K1, K2, K4, K5. cbn [shipped d_link d_dl1 d_dinv] in K1, K2, K4, K5. fold l in K1, K4, K5.
    rewrite B4 in K1. injection K1 as <-. unfold guarded in K2. rewrite theta_ok_valid in K2 by exact B1. injection K2 as <-.
    rewrite Kx. rewrite K4.
    rewrite <- K5. ring. }
  assert (HN : normal_equations k f V c).
  { rewrite Hbe. apply (ols_beta_normal k f V (c_x q) (c_y q) HI (fun i _ => Hh i)). }
  assert (Eq : forall v, sl v = dsum (1 - f) (fun o => ow o * dot k (ox o) (fun j => c j - b j) * dot k (ox o) v) V).
  { intros v. rewrite Ev. match goal with |- _ = ?r => transitivity (0 + r); [|ring] end.
    rewrite <- (normal_direction k f V c v HN). rewrite <- dsum_plus. apply dsum_ext. intros o _. rewrite dot_minus. ring. }
  assert (Z : sl (fun j => c j - b j) = 0 -> eqv k c b).
  { intros Z. destruct (wls_of_parts k f V (c_x q) (c_y q) Hf HV HI Hh b) as [_ W2]. rewrite <- Hbe in W2.
    intros j Hj. symmetry. apply W2; [|exact Hj].
    assert (E : wls_loss k f V b = wls_loss k f V c + (2 * dsum (1 - f) (fun o => ow o * (oy o - dot k (ox o) c) * dot k (ox o) (fun j => c j - b j)) V + sl (fun j => c j - b j))).
    { rewrite Eq. rewrite <- dsum_scal. unfold wls_loss. rewrite <- !dsum_plus. apply dsum_ext. intros o _. rewrite dot_minus. ring. }
    rewrite E, Z, (normal_direction k f V c _ HN). ring. }
  assert (P : 0 <= sl (fun j => c j - b j)).
  { rewrite Eq. apply dsum_nonneg; [lra|]. intros o Ho.
    assert (0 <= ow o) by (unfold weights_nonneg in HV; rewrite Forall_forall in HV; exact (HV o Ho)).
    rewrite Rmult_assoc. apply Rmult_le_pos; [assumption|]. apply Rle_0_sqr. }
  split; [split|].
  - intros Ec v. rewrite Eq. rewrite (dsum_ext _ _ (fun _ => 0)); [apply dsum_zero|]. intros o _. rewrite dot_minus, (dot_eqv k (ox o) c b Ec). ring.
  - intros A. apply Z, A.
  - intros N. destruct P as [P|P]; [exact P|]. exfalso. apply N, Z. symmetry; exact P.
Qed.
End Step.

(** * Deviance and log-likelihood *)
Lemma opt_dsum_shift {A} g (F : A -> option R) (h : nat -> A) n a : opt_dsum g (fun i => F (h i)) (seq (S a) n) = opt_dsum g (fun i => F (h (S i))) (seq a n).
Proof. revert a. induction n as [|n IH]; intros a; cbn [seq opt_dsum]; [reflexivity|]. rewrite !seq_length, IH. reflexivity. Qed.
Lemma opt_dsum_ext {A} g (F G : A -> option R) l : (forall a, In a l -> F a = G a) -> opt_dsum g F l = opt_dsum g G l.
Proof. induction l as [|a l IH]; intros H; cbn [opt_dsum]; [reflexivity|]. rewrite IH, (H a (or_introl eq_refl)); [reflexivity|]. intros; apply H; now right. Qed.

Lemma dev_loglik d : forall ys fv wts dv, length fv = length ys -> length wts = length ys ->
  bind (all_some (map2 (d_logpdf d) ys fv)) (fun ll => Ok (lsum (map2 (fun l w => - 2 * l * w) ll wts))) = Ok dv ->
  opt_dsum 1 (fun i => option_map (Rmult (nth i wts 0)) (d_logpdf d (nth i ys 0) (nth i fv (fun _ => 0)))) (seq 0 (length ys)) = Some (- dv / 2).
Proof.
  induction ys as [|y ys IH]; intros [|th fv] [|w wts] dv L1 L2 H; cbn [length] in *; try discriminate.
  - cbn in H. injection H as <-. cbn. f_equal. lra.
  - cbn [map2] in H. cbn [all_some] in H. destruct (d_logpdf d y th) as [a|] eqn:Ea; [|discriminate H].
    destruct (all_some (map2 (d_logpdf d) ys fv)) as [ll|] eqn:El; [|discriminate H].
    cbn [bind map2 lsum] in H. injection H as <-. cbn [seq opt_dsum nth]. rewrite Ea. cbn [option_map].
    rewrite (opt_dsum_shift 1 (fun i => option_map (Rmult (nth i (w :: wts) 0)) (d_logpdf d (nth i (y :: ys) 0) (nth i (th :: fv) (fun _ => 0)))) (fun i => i)).
    cbn [nth]. specialize (IH fv wts _ ltac:(lia) ltac:(lia) ltac:(rewrite El; cbn [bind]; reflexivity)). rewrite IH.
    f_equal. rewrite pow1. lra.
Qed.

Lemma rising (f : R -> option R) s : has_derivative f 0 s -> 0 < s ->
  exists delta, 0 < delta /\ forall t a b, 0 < t < delta -> f 0 = Some a -> f t = Some b -> a < b.
Proof.
  intros (g & G1 & G2) Hs. apply is_derive_Reals in G2. destruct (G2 (s / 2) ltac:(lra)) as [d1 H1]. destruct G1 as [d2 H2].
  exists (Rmin d1 d2). split; [apply Rmin_glb_lt; apply cond_pos|]. intros t a b Ht Ea Eb.
  pose proof (Rmin_l d1 d2). pose proof (Rmin_r d1 d2).
  rewrite (H2 0) in Ea. 2:{ change (ball 0 d2 0). apply ball_center. }
  rewrite (H2 t) in Eb. 2:{ change (Rabs (t - 0) < d2). rewrite Rabs_right; lra. }
  injection Ea as <-. injection Eb as <-.
  assert (K : Rabs ((g (0 + t) - g 0) / t - s) < s / 2) by (apply H1; [lra|rewrite Rabs_right; lra]). rewrite Rplus_0_l in K.
  apply Rabs_def2 in K. assert (P : 0 < (g t - g 0) / t) by lra.
  assert (0 < (g t - g 0) / t * t) by (apply Rmult_lt_0_compat; lra). replace ((g t - g 0) / t * t) with (g t - g 0) in H3 by (field; lra). lra.
Qed.

Section Uphill.
Context (inv : nat -> mat -> option mat) (e : env unit).
Context (lgam dg tg : R -> R) (ft : list R -> R * R * R) (fj : list R -> R * R * R * R) (gi : bool)
  (pf : dist -> R -> vec -> option R) (cd : dist -> list R -> list vec -> nat -> res (list vec)) (D : dist) (links : list link).
Hypothesis Hinv : matinv_spec inv.
Hypothesis Hd : o_dist (e_cfg e) = shipped lgam dg tg ft fj gi pf cd D links.
Hypothesis Hdg : is_digamma lgam dg.
Hypothesis Hlw : length (e_w e) = length (e_y e).
Hypothesis Hw : List.Forall (fun a => 0 <= a) (e_w e).

(** The coefficients of an iteration do not depend on the step size. *)
Lemma candidate_beta p io it step dvo fv pth s s' q io' it' step' dvo' pth' t t' q' :
  fit_candidate (ols_ops inv) e p io it step dvo fv pth s = (s', Ok q) ->
  fit_candidate (ols_ops inv) e p io' it' step' dvo' fv pth' t = (t', Ok q') -> c_beta q = c_beta q'.
Proof.
  intros H H'. apply fit_candidate_full in H, H'. cbv zeta in H, H'. destruct H as (eta & gd & m & W & _ & X1 & Y1 & _ & _ & _ & H).
  destruct H' as (eta' & gd' & m' & W' & _ & X2 & Y2 & _ & _ & _ & H'). rewrite W in W'. injection W' as <- <-.
  cbn [op_path_based ols_ops op_init_x op_fit_beta] in *. destruct H as (u & H & _). destruct H' as (u' & H' & _).
  injection H as _ H. injection H' as _ H'. rewrite <- H, <- H'. rewrite X1 in X2. injection X2 as E. rewrite Y1, Y2, E. reflexivity.
Qed.

Lemma candidate_loglik p io it step dvo fv pth s s' q b : (p < n_params D)%nat ->
  fit_candidate (ols_ops inv) e p io it step dvo fv pth s = (s', Ok q) -> w_fv s = fv ->
  length fv = length (e_y e) -> length (snd (e_X e p)) = length (e_y e) ->
  let k := fst (e_X e p) in let l := nth p links Identity in
  from_coefs D l p k (snd (e_X e p)) fv (e_y e) b ->
  loglik lgam D l p 1 k (snd (e_X e p)) fv (e_w e) (e_y e) (along b (fun j => c_beta q j - b j) step) = Some (- c_dv q / 2).
Proof.
  intros Hp H Efv Hl HX k l Hb. apply fit_candidate_full in H. cbv zeta in H.
  destruct H as (eta & gd & m & Wk & _ & _ & _ & _ & Ec & Edv & _). apply working_rows in Wk; [|exact Hl]. cbv zeta in Wk.
  destruct Wk as (Le & _ & _ & Wk). fold k in Ec. rewrite Efv in Ec. unfold deviance in Edv.
  set (pred := map2 _ (snd (e_X e p)) eta) in Ec.
  assert (Lp : length pred = length (e_y e)) by (unfold pred; rewrite map2_length; congruence).
  apply dev_loglik in Edv; [|rewrite Ec; apply set_col_length; [exact Hl|rewrite map_length; exact Lp]|exact Hlw].
  rewrite <- Edv. unfold loglik. apply opt_dsum_ext. intros i Hi. apply in_seq in Hi. f_equal. rewrite Hd. cbn [shipped d_logpdf].
  f_equal. rewrite Ec. unfold set_col.
  rewrite (map2_nth' (fun (th : vec) (a : R) => set_entry th p a) (fun _ : nat => 0) 0 (fun _ : nat => 0)) by (rewrite ?map_length; congruence || lia).
  unfold upd, set_entry.
  rewrite (nth_indep _ 0 (d_inv (o_dist (e_cfg e)) p 0)) by (rewrite map_length; lia). rewrite map_nth. rewrite Hd. cbn [shipped d_inv]. fold l.
  unfold pred. rewrite (map2_nth' (fun (x : vec) (et : R) => step * dot k x (c_beta q) + (1 - step) * et) (fun _ : nat => 0) 0 0) by (congruence || lia).
  destruct (Wk i ltac:(lia)) as (a1 & a2 & K1 & _). rewrite Hd in K1. cbn [shipped d_link] in K1. fold l in K1.
  destruct (Hb i ltac:(lia)) as (B1 & B2 & B3 & B4 & B5). rewrite B4 in K1. injection K1 as <-.
  rewrite dot_along, dot_minus. 
  replace (dot k (nth i (snd (e_X e p)) (fun _ => 0)) b + step * (dot k (nth i (snd (e_X e p)) (fun _ => 0)) (c_beta q) - dot k (nth i (snd (e_X e p)) (fun _ => 0)) b))
    with (step * dot k (nth i (snd (e_X e p)) (fun _ => 0)) (c_beta q) + (1 - step) * dot k (nth i (snd (e_X e p)) (fun _ => 0)) b) by ring.
  reflexivity.
Qed.

Lemma start_loglik p fv dv b v : (p < n_params D)%nat -> deviance e fv = Ok dv -> length fv = length (e_y e) ->
  let k := fst (e_X e p) in let l := nth p links Identity in
  from_coefs D l p k (snd (e_X e p)) fv (e_y e) b ->
  loglik lgam D l p 1 k (snd (e_X e p)) fv (e_w e) (e_y e) (along b v 0) = Some (- dv / 2).
Proof.
  intros Hp H Hl k l Hb. apply dev_loglik in H; [|exact Hl|exact Hlw]. rewrite <- H. unfold loglik. apply opt_dsum_ext.
  intros i Hi. apply in_seq in Hi. f_equal. rewrite Hd. destruct (Hb i ltac:(lia)) as (B1 & B2 & B3 & B4 & B5).
  rewrite dot_along, Rmult_0_l, Rplus_0_r, <- B3.
  apply (shipped_reads lgam dg tg ft fj gi pf cd D links). intros r Hr. unfold upd. destruct (Nat.eqb_spec r p); [subst; reflexivity|reflexivity].
Qed.

Lemma uphill_lemma p io it step dvo fv pth s s' q b dv : (p < n_params D)%nat -> p_forget (e_prep e) p = 0 ->
  fit_candidate (ols_ops inv) e p io it step dvo fv pth s = (s', Ok q) ->
  length fv = length (e_y e) -> length (snd (e_X e p)) = length (e_y e) ->
  from_coefs D (nth p links Identity) p (fst (e_X e p)) (snd (e_X e p)) fv (e_y e) b ->
  deviance e fv = Ok dv -> ~ eqv (fst (e_X e p)) (c_beta q) b ->
  exists delta, 0 < delta /\ forall io' it' step' dvo' pth' t t' q', 0 < step' < delta -> w_fv t = fv ->
    fit_candidate (ols_ops inv) e p io' it' step' dvo' fv pth' t = (t', Ok q') -> c_dv q' < dv.
Proof.
  intros Hp Hf H Hl HX Hb Hdv Hne.
  destruct (step_slopes inv e lgam dg tg ft fj gi pf cd D links Hinv Hd Hdg Hlw Hw p io it step dvo fv pth s s' q b Hp ltac:(lra) H Hl HX Hb) as (sl & S1 & _ & S3).
  specialize (S3 Hne). specialize (S1 (fun j => c_beta q j - b j)). unfold slope in S1. rewrite Hf in S1.
  replace (1 - 0) with 1 in S1 by ring. destruct (rising _ _ S1 S3) as (delta & Hdelta & Q). exists delta. split; [exact Hdelta|].
  intros io' it' step' dvo' pth' t t' q' Hs Et H'.
  pose proof (candidate_loglik p io' it' step' dvo' fv pth' t t' q' b Hp H' Et Hl HX Hb) as L1. cbv zeta in L1.
  rewrite <- (candidate_beta p io it step dvo fv pth s s' q io' it' step' dvo' pth' t t' q' H H') in L1.
  pose proof (start_loglik p fv dv b (fun j => c_beta q j - b j) Hp Hdv Hl Hb) as L0. cbv zeta in L0.
  specialize (Q step' _ _ Hs L0 L1). lra.
Qed.
End Uphill.

(** * Weights *)
Lemma expectation_unique supp E f a b : expectation supp E -> E f a -> E f b -> a = b.
Proof.
  intros H Ha Hb.
  assert (Q : forall a b, E f a -> E f b -> b <= a).
  { clear a b Ha Hb. intros a b Ha Hb. pose proof (E_scal _ _ H (-1) f b Hb) as Hm. pose proof (E_plus _ _ H f _ _ _ Ha Hm) as Hs.
    apply (E_pos _ _ H) in Hs; [lra|]. intros y _. lra. }
  apply Rle_antisym; apply Q; assumption.
Qed.

Lemma hess_constant dg tg D th p y y' : (forall z, ~ inflated_point D z p) -> exact_hessian D = true -> hess dg tg D y th p = hess dg tg D y' th p.
Proof.
  intros H HE. destruct D; try discriminate HE; try reflexivity;
    (destruct p as [|[|p]]; [exfalso; apply (H 0); split; [lia|auto]|exfalso; apply (H 0); split; [lia|auto]|reflexivity]).
Qed.

Section Weights.
Context {M : Type} (e : env M).
Context (lgam dg tg : R -> R) (ft : list R -> R * R * R) (fj : list R -> R * R * R * R) (gi : bool)
  (pf : dist -> R -> vec -> option R) (cd : dist -> list R -> list vec -> nat -> res (list vec)) (D : dist) (links : list link).
Hypothesis Hd : o_dist (e_cfg e) = shipped lgam dg tg ft fj gi pf cd D links.

Lemma weight_row u p fv eta g i : working e u p fv = Ok (eta, g) -> length fv = length (e_y e) -> (i < length (e_y e))%nat ->
  valid_theta D (nth i fv (fun _ => 0)) ->
  nth i (g_wt g) 0 = Rmin (10 ^ 10) (Rmax (if u then - 10 ^ 10 else 1 / 10 ^ 10)
    (- hess dg tg D (nth i (e_y e) 0) (nth i fv (fun _ => 0)) p * (link_inv_d (nth p links Identity) (nth i eta 0)) ^ 2)).
Proof.
  intros H Hl Hi Hv. apply working_rows in H; [|exact Hl]. cbv zeta in H. destruct H as (_ & _ & _ & H).
  destruct (H i Hi) as (a1 & a2 & _ & _ & K3 & K4 & _). rewrite K4, weight_meaning. rewrite Hd in *. cbn [shipped d_dl2 d_dinv] in *.
  unfold guarded in K3. rewrite theta_ok_valid in K3 by exact Hv. injection K3 as <-. reflexivity.
Qed.

Lemma expected_weight_lemma u p fv eta g i : working e u p fv = Ok (eta, g) -> length fv = length (e_y e) -> (i < length (e_y e))%nat ->
  let th := nth i fv (fun _ => 0) in
  is_digamma lgam dg -> is_trigamma dg tg -> exact_hessian D = true -> (p < n_params D)%nat -> valid_theta D th -> unclipped tg D th p ->
  (forall z, ~ inflated_point D z p) ->
  exists (h : R -> R) (c : R),
    (forall y, y_support D y -> partial2 (logpdf lgam D y) th p p (h y)) /\
    (forall E, expectation (y_support D) E -> has_moments E (moments dg D th) -> E h c) /\
    nth i (g_wt g) 0 = Rmin (10 ^ 10) (Rmax (if u then - 10 ^ 10 else 1 / 10 ^ 10) (- c * (link_inv_d (nth p links Identity) (nth i eta 0)) ^ 2)).
Proof.
  intros H Hl Hi th Hdg Htg He Hp Hv Hu Hn. destruct (C40_diagonal lgam dg tg D th p Hdg Htg He Hv Hp Hu) as (h & H1 & H2).
  exists h, (hess dg tg D (nth i (e_y e) 0) th p). split; [exact H1|]. split; [|apply (weight_row u p fv eta g i H Hl Hi Hv)].
  intros E HE HM. destruct (H2 E (fun _ => hess dg tg D (nth i (e_y e) 0) th p) HE HM) as (v & V1 & V2).
  - intros y. rewrite L_Dist6.dl2_valid by exact Hp. rewrite (hess_constant dg tg D th p y (nth i (e_y e) 0) Hn He). reflexivity.
  - rewrite <- (expectation_unique _ _ _ _ _ HE V2 (E_const _ _ HE _)). exact V1.
Qed.

Lemma jsu_weight_lemma u p fv eta g i : working e u p fv = Ok (eta, g) -> length fv = length (e_y e) -> (i < length (e_y e))%nat ->
  let th := nth i fv (fun _ => 0) in D = JSU -> (p < 4)%nat -> valid_theta JSU th ->
  exists s, partial (logpdf lgam JSU (nth i (e_y e) 0)) th p s /\
    nth i (g_wt g) 0 = Rmin (10 ^ 10) (Rmax (if u then - 10 ^ 10 else 1 / 10 ^ 10) ((s * link_inv_d (nth p links Identity) (nth i eta 0)) ^ 2)).
Proof.
  intros H Hl Hi th ED Hp Hv. pose proof (weight_row u p fv eta g i H Hl Hi) as K. rewrite ED in K. specialize (K Hv).
  destruct (C38_score lgam dg JSU (nth i (e_y e) 0) th p eq_refl Hv I Hp) as (s & E & P). exists s. split; [exact P|]. rewrite K.
  rewrite (L_Dist3.dl1_valid dg JSU) in E by exact Hp.
  assert (Es : score dg JSU (nth i (e_y e) 0) th p = s) by congruence. fold th.
  change (hess dg tg JSU (nth i (e_y e) 0) th p) with (- (score dg JSU (nth i (e_y e) 0) th p * score dg JSU (nth i (e_y e) 0) th p)).
  rewrite Es. do 2 f_equal. ring.
Qed.
End Weights.

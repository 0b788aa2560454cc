(** Property theorems: the distributional regression (online_gamlss.py), part 2. *)
From Coq Require Import Reals List Bool Arith ZArith Lra Lia.
From Verif Require Import Base Lin Data M_Gram S_Gram M_OLS M_Scaler M_Utils S_Utils M_Links S_Links M_DistTable M_Dist S_Dist
  M_State M_LM S_LM M_Equation S_Equation M_GAMLSS M_GAMDist S_GAMLSS.
From Verif Require Import L_Inv L_GAM2 L_GAM3 L_GAM6 L_GAM7 L_GAM14 L_GAM15 L_GAM16 L_GAM17 L_GAMEx L_GAMEx2 L_GAMEx3 L_GAMEx4 L_GAMEx5.
Import ListNotations.
Open Scope R_scope.

(** ** C73: a failed first fit poisons partial_fit *)

(** Once the first call has failed after the observations were counted, no later call of
    partial_fit succeeds, whatever its data. *)
Theorem C73_failed_first_fit {M} (ops : method_ops M) (c : gam_cfg M) bs s : incomplete s -> all_fail ops c bs s.
Proof. exact (C73_lemma ops c bs s). Qed.
Print Assumptions C73_failed_first_fit.

(** A first batch with a single row, otherwise acceptable, does this. *)
Theorem C73_one_row_first {M} (ops : method_ops M) (c : gam_cfg M) pr methods fv js b bs :
  prepare c = Ok (pr, methods) -> (1 <= b_p b)%nat -> length (b_rows b) = 1%nat ->
  ~ some_outside (o_dist c) b -> d_init (o_dist c) (ys (b_rows b)) = Ok fv ->
  all_J pr (b_p b) (seq 0 (d_n (o_dist c))) = Ok js ->
  all_fail ops c (b :: bs) new_gam.
Proof. exact (C73_one_row_lemma ops c pr methods fv js b bs). Qed.
Print Assumptions C73_one_row_first.

(** [ex_b0] alone can be fitted; after [ex_b1] it cannot. *)
Example C73_example : (exists s, gpartial_fit ex_ops ex_cfg ex_b0 new_gam = (s, Ok tt)) /\
  all_fail ex_ops ex_cfg [ex_b1; ex_b0; ex_b0] new_gam.
Proof.
  split; [destruct ex_fit as (s & H & _); exists s; exact H|].
  apply (C73_one_row_first ex_ops ex_cfg ex_prep (fun p => nth_error [tt] p) [fun k => nth k [1] 0] [1%nat] ex_b1); try reflexivity.
  - intros (o & [<-|[]] & [H|H]); [|exact H]. change (1 < next0) in H. pose proof next0_half. lra.
  - cbn. unfold M_Init.np_mean, npdiv. cbn. rewrite eqb_f by lra. cbn. replace ((1 + 0) / 1) with 1 by lra. reflexivity.
Qed.

(** ** C74: a refit rejected for its support makes a fitted model unusable *)

Theorem C74_failed_refit {M} (ops : method_ops M) (c : gam_cfg M) pr methods b s :
  prepare c = Ok (pr, methods) -> data_ok b -> some_outside (o_dist c) b ->
  exists s', gam_fit ops c b s = (s', Raise OutOfSupportErr) /\
    (forall r p X, exists x, snd (predict_parameters c r p X s') = Raise x) /\
    (forall b', exists x, snd (gam_update ops c b' s') = Raise x).
Proof. exact (C74_lemma ops c pr methods b s). Qed.
Print Assumptions C74_failed_refit.

Example C74_example : exists s s' out, gam_fit ex_ops ex_cfg ex_b0 new_gam = (s, Ok tt) /\
  snd (predict_parameters ex_cfg true 1 [fun _ => 5] s) = Ok out /\
  gam_fit ex_ops ex_cfg ex_bad s = (s', Raise OutOfSupportErr) /\
  exists x, snd (predict_parameters ex_cfg true 1 [fun _ => 5] s') = Raise x.
Proof.
  destruct ex_fit as (s & Hf & w & nt & Hw & E).
  destruct (C74_failed_refit ex_ops ex_cfg _ _ ex_bad s ex_prepare) as (s' & H1 & H2 & _).
  { split; cbn; lia. }
  { exists (ex_row (- 1)). split; [cbn; auto|]. left. change (-1 < next0). unfold next0.
    assert (0 < powerRZ 2 (-1074)) by (apply powerRZ_lt; lra). lra. }
  exists s, s'. eexists. split; [exact Hf|]. split; [|split; [exact H1|apply H2]].
  rewrite (predict_parameters_run ex_cfg true 1 [fun _ => 5] s (ex_scaler 2) ex_prep (ex_X 1) w); try (rewrite E; reflexivity); try reflexivity; try (cbn; lia).
  rewrite E. intros q Eq. injection Eq as <-. reflexivity.
Qed.

(** ** C75: lists of column names *)

Theorem C75_names_always_raise {M} (ops : method_ops M) (c : gam_cfg M) b s d p a l : o_equation c = Some d -> (p < d_n (o_dist c))%nat ->
  lookup d p = Some (EqNames (a :: l)) -> exists x, snd (gam_fit ops c b s) = Raise x.
Proof. exact (C75_lemma ops c b s d p a l). Qed.
Print Assumptions C75_names_always_raise.

Definition names_cfg : gam_cfg unit :=
  mk_gcfg unit ex_dist true (Some [(0%nat, EqNames [0%nat])]) (fun _ => Ok tt) (Scalar 0) (Scalar aic) (Scalar true)
    (Scalar false) (Scalar 1) None ScaleNone false 0 0 3 1 1 (1 / 1000) (1 / 1000) (1 / 1000) (1 / 1000)
    false false false.
Example C75_example : exists x, snd (gam_fit ex_ops names_cfg ex_b0 new_gam) = Raise x.
Proof. exact (C75_names_always_raise ex_ops names_cfg ex_b0 new_gam _ 0%nat _ _ eq_refl (le_n 1) eq_refl). Qed.

(** ** C76: cautious updates accept one row only *)

Theorem C76_cautious_updates {M} (ops : method_ops M) (c : gam_cfg M) b s : o_cautious c = true -> length (b_rows b) <> 1%nat ->
  exists x, snd (gam_update ops c b s) = Raise x.
Proof. exact (C76_lemma ops c b s). Qed.
Print Assumptions C76_cautious_updates.

Definition cautious_cfg : gam_cfg unit :=
  mk_gcfg unit n_dist true (Some [(0%nat, EqIntercept); (1%nat, EqIntercept)]) (fun _ => Ok tt) (Scalar 0) (Scalar aic) (Scalar true)
    (Scalar false) (Scalar 1) None ScaleNone false 0 0 3 1 1 (1 / 1000) (1 / 1000) (1 / 1000) (1 / 1000)
    false true false.
(** The same object and data: without the option the update succeeds. *)
Example C76_example : exists s s' x, gam_fit ex_ops n_cfg n_b0 new_gam = (s, Ok tt) /\
  gam_update ex_ops n_cfg n_b1 s = (s', Ok tt) /\ snd (gam_update ex_ops cautious_cfg n_b1 s) = Raise x.
Proof.
  destruct n_fit as (s & dv & Hf & Hs). destruct (n_update 2 dv 1 s n_b1 (or_introl eq_refl) ltac:(lra) Hs) as (s' & dv' & Hu & _).
  destruct (C76_cautious_updates ex_ops cautious_cfg n_b1 s eq_refl) as (x & Hx); [cbn; lia|].
  exists s, s', x. auto.
Qed.

(** ** C77: the minimum number of cycles of fit stays in force for updates *)

Theorem C77_minimum_carries_over {M} (ops : method_ops M) (c : gam_cfg M) b0 b1 s s1 s2 :
  (1 <= d_n (o_dist c))%nat -> o_cautious c = false -> o_prefit_update c = O ->
  gam_fit ops c b0 s = (s1, Ok tt) -> gam_update ops c b1 s1 = (s2, Ok tt) ->
  exists dv n, s_dev s2 = Some (dv, n) /\ (fit_minimum c <= n)%nat.
Proof. exact (C77_lemma ops c b0 b1 s s1 s2). Qed.
Print Assumptions C77_minimum_carries_over.

(** In general: the minimum used by an update is [prefit_update] if positive and otherwise
    that of the previous call. *)
Theorem C77_minimum_of_an_update {M} (ops : method_ops M) (c : gam_cfg M) b s s' w : has_order s -> o_cautious c = false ->
  s_work s = Some w -> gam_update ops c b s = (s', Ok tt) ->
  exists dv n w', s_dev s' = Some (dv, n) /\ s_work s' = Some w' /\
    w_min w' = (if (0 <? o_prefit_update c)%nat then o_prefit_update c else w_min w) /\ (w_min w' <= n)%nat.
Proof. exact (C77_carry_lemma ops c b s s' w). Qed.
Print Assumptions C77_minimum_of_an_update.

Example C77_example : exists s1 s2 dv, gam_fit ex_ops ex_cfg ex_b0 new_gam = (s1, Ok tt) /\
  gam_update ex_ops ex_cfg ex_b1 s1 = (s2, Ok tt) /\ s_dev s2 = Some (dv, fit_minimum ex_cfg).
Proof.
  destruct ex_fit as (s & Hf & Hs). destruct (ex_update 2 4 1 s ltac:(lra) Hs) as (s' & Hu & w & nt & _ & ->).
  exists s. eexists. eexists. split; [exact Hf|]. split; [exact Hu|]. reflexivity.
Qed.

(** ** C78: a failed update keeps the Gramians but counts its observations *)

Theorem C78_failed_update_keeps_the_accumulated {M} (ops : method_ops M) (c : gam_cfg M) b s s' x :
  gam_update ops c b s = (s', Raise x) -> accumulated s' = accumulated s.
Proof. exact (C78_accumulated_lemma ops c b s s' x). Qed.
Print Assumptions C78_failed_update_keeps_the_accumulated.

Theorem C78_every_update_is_counted {M} (ops : method_ops M) (c : gam_cfg M) b s n0 :
  shape_ok s b -> ~ some_outside (o_dist c) b -> s_nobs s = Some n0 ->
  s_nobs (fst (gam_update ops c b s)) = Some (n0 + lsum (ws (b_rows b))).
Proof. exact (C78_counted_lemma ops c b s n0). Qed.
Print Assumptions C78_every_update_is_counted.

Example C78_example : exists s s' x, gam_fit ex_ops n_cfg n_b0 new_gam = (s, Ok tt) /\
  gam_update ex_ops cautious_cfg n_b1 s = (s', Raise x) /\
  accumulated s' = accumulated s /\ s_nobs s = Some 2 /\ s_nobs s' = Some (2 + 2).
Proof.
  destruct n_fit as (s & dv & Hf & w & nt & Hw & E).
  destruct (C76_cautious_updates ex_ops cautious_cfg n_b1 s eq_refl) as (x & Hx); [cbn; lia|].
  pose proof (C78_every_update_is_counted ex_ops cautious_cfg n_b1 s 2) as Hn.
  destruct (gam_update ex_ops cautious_cfg n_b1 s) as [s' r] eqn:Eu. cbn [fst snd] in *. subst r.
  exists s, s', x. split; [exact Hf|]. split; [exact Eu|].
  split; [exact (C78_failed_update_keeps_the_accumulated _ _ _ _ _ _ Eu)|].
  split; [rewrite E; reflexivity|]. rewrite Hn.
  - do 2 f_equal. cbn. lra.
  - rewrite E. split; [split; cbn; lia|right; reflexivity].
  - intros (o & _ & [[]|[]]).
  - rewrite E. reflexivity.
Qed.

(** ** C84: the coefficients are weighted least squares of the working observations *)

Theorem C84_after_fit inv (c : gam_cfg unit) b s s' pr p : matinv_spec inv ->
  gam_fit (ols_ops inv) c b s = (s', Ok tt) -> cycles s' <> Some O ->
  rowwise (o_dist c) -> o_cond_start c = false -> weights_nonneg (b_rows b) ->
  s_prep s' = Some pr -> (p < d_n (o_dist c))%nat -> 0 <= p_forget pr p < 1 ->
  exists V sc, s_scaler s' = Some (Some sc) /\ List.Forall2 (working_row (o_dist c) p weight_floor pr (b_p b) sc) (b_rows b) V /\
    least_squares_state s' pr (b_p b) p V.
Proof. exact (fun Hi => C84_fit_lemma inv c Hi b s s' pr p). Qed.
Print Assumptions C84_after_fit.

Theorem C84_after_update inv (c : gam_cfg unit) b s s' pr ncol p V :
  gam_update (ols_ops inv) c b s = (s', Ok tt) -> cycles s' <> Some O ->
  weights_nonneg (b_rows b) -> In p (p_order pr) -> (p < d_n (o_dist c))%nat -> 0 <= p_forget pr p < 1 -> concave_in (o_dist c) p ->
  least_squares_state s pr ncol p V ->
  exists V' sc, s_scaler s' = Some (Some sc) /\ List.Forall2 (working_row (o_dist c) p (- weight_ceiling) pr ncol sc) (b_rows b) V' /\
    least_squares_state s' pr ncol p (V ++ V').
Proof. exact (C84_update_lemma inv c b s s' pr ncol p V). Qed.
Print Assumptions C84_after_update.

Theorem C84_after_a_stream inv (c : gam_cfg unit) bs pr ncol p s s' V :
  In p (p_order pr) -> (p < d_n (o_dist c))%nat -> 0 <= p_forget pr p < 1 -> concave_in (o_dist c) p ->
  updates_run (ols_ops inv) c s bs s' -> List.Forall (fun b => weights_nonneg (b_rows b)) bs ->
  least_squares_state s pr ncol p V ->
  exists V', List.Forall2 (some_row (o_dist c) pr ncol p (- weight_ceiling)) (stream bs) V' /\ least_squares_state s' pr ncol p (V ++ V').
Proof. exact (fun Ho Hp Hf Hc Hr Hw => C84_stream_lemma inv c bs pr ncol p Ho Hp Hf Hc s s' Hr Hw V). Qed.
Print Assumptions C84_after_a_stream.

(** ** C79: the location of a normal distribution *)

Theorem C79_normal_location lgam dg tg fit_t fit_jsu gi ppf cond inv (c : gam_cfg unit) D b bs s s1 s' pr : matinv_spec inv ->
  D = Normal \/ D = NormalMeanVariance -> o_dist c = shipped_default lgam dg tg fit_t fit_jsu gi ppf cond D ->
  o_cond_start c = false ->
  gam_fit (ols_ops inv) c b s = (s1, Ok tt) -> cycles s1 <> Some O -> updates_run (ols_ops inv) c s1 bs s' ->
  weights_nonneg (b_rows b) -> List.Forall (fun b => weights_nonneg (b_rows b)) bs ->
  s_prep s1 = Some pr -> 0 <= p_forget pr 0%nat < 1 ->
  exists V, List.Forall2 (normal_row pr (b_p b) 0) (b_rows b ++ stream bs) V /\ least_squares_state s' pr (b_p b) 0 V.
Proof. exact (C79_lemma lgam dg tg fit_t fit_jsu gi ppf cond inv c D b bs s s1 s' pr). Qed.
Print Assumptions C79_normal_location.

(** Three batches; the mean of all observations is 0, and so is the fitted location. *)
Example C79_example : exists s1 s' w, matinv_spec ex_inv /\
  gam_fit (ols_ops ex_inv) n_cfg n_b0 new_gam = (s1, Ok tt) /\ cycles s1 = Some 1%nat /\
  updates_run (ols_ops ex_inv) n_cfg s1 [n_b1; n_b2] s' /\ s_work s' = Some w /\ w_coef w 0%nat 0%nat = 0.
Proof.
  destruct n_fit as (s1 & dv & Hf & Hs).
  assert (C1 : cycles s1 = Some 1%nat) by (destruct Hs as (w & nt & _ & ->); reflexivity).
  destruct (n_update 2 dv 1 s1 n_b1 (or_introl eq_refl) ltac:(lra) Hs) as (s2 & dv2 & Hu2 & Hs2).
  assert (C2 : cycles s2 = Some 1%nat) by (destruct Hs2 as (w & nt & _ & ->); reflexivity).
  destruct (n_update (2 + 2) dv2 1 s2 n_b2 (or_intror eq_refl) ltac:(lra) Hs2) as (s3 & dv3 & Hu3 & Hs3).
  assert (C3 : cycles s3 = Some 1%nat) by (destruct Hs3 as (w & nt & _ & ->); reflexivity).
  destruct Hs3 as (w & nt & ((_ & _ & Hc & _) & _) & E3).
  exists s1, s3, w. split; [exact ex_inv_spec|]. split; [exact Hf|]. split; [exact C1|]. split.
  - eapply ur_cons; [exact Hu2|rewrite C2; discriminate|]. eapply ur_cons; [exact Hu3|rewrite C3; discriminate|]. constructor.
  - split; [rewrite E3; reflexivity|exact Hc].
Qed.

(** The same run with the theorem: seven working observations and their least squares. *)
Example C84_example : exists s1 pr V sc, gam_fit (ols_ops ex_inv) n_cfg n_b0 new_gam = (s1, Ok tt) /\
  List.Forall2 (working_row n_dist 1 weight_floor pr 1 sc) (b_rows n_b0) V /\ least_squares_state s1 pr 1 1 V.
Proof.
  destruct n_fit as (s1 & dv & Hf & Hs). destruct Hs as (w & nt & _ & E).
  destruct (C84_after_fit ex_inv n_cfg n_b0 new_gam s1 n_prep 1 ex_inv_spec Hf) as (V & sc & _ & H1 & H2).
  - rewrite E. discriminate.
  - apply shipped_rowwise.
  - reflexivity.
  - repeat constructor; cbn; lra.
  - rewrite E. reflexivity.
  - cbn; lia.
  - cbn. lra.
  - exists s1, n_prep, V, sc. auto.
Qed.

(** ** C80: stationary points solve the score equations *)

Theorem C80_stationary_points inv (e : env unit) p io it step dvo fv pth s s' q : matinv_spec inv ->
  length (e_w e) = length (e_y e) -> List.Forall (fun a => 0 <= a) (e_w e) -> 0 <= p_forget (e_prep e) p < 1 ->
  fit_candidate (ols_ops inv) e p io it step dvo fv pth s = (s', Ok q) ->
  length fv = length (e_y e) -> length (snd (e_X e p)) = length (e_y e) ->
  let d := o_dist (e_cfg e) in
  let k := fst (e_X e p) in let n := length (e_y e) in
  let x := fun i => nth i (snd (e_X e p)) (fun _ => 0) in
  exists eta a,
    (forall i, (i < n)%nat -> d_link d p (nth i fv (fun _ => 0) p) = Some (eta i) /\ d_dl1 d p (nth i (e_y e) 0) (nth i fv (fun _ => 0)) = Some (a i)) /\
    let score := fun j => dsum (1 - p_forget (e_prep e) p) (fun i => nth i (e_w e) 0 * (a i * d_dinv d p (eta i)) * x i j) (seq 0 n) in
    ((forall i, (i < n)%nat -> dot k (x i) (c_beta q) = eta i) -> forall j, (j < k)%nat -> score j = 0) /\
    (forall b, (forall i, (i < n)%nat -> dot k (x i) b = eta i) -> (forall j, (j < k)%nat -> score j = 0) -> eqv k (c_beta q) b).
Proof. exact (fun Hi Hl Hw => C80_lemma inv e Hi Hl Hw p io it step dvo fv pth s s' q). Qed.
Print Assumptions C80_stationary_points.

(** Observations 1/2 and 3/2 at mean 1: the scores y - 1 sum to zero and the iteration
    gives the coefficient 1 again. *)
Example C80_example : exists s s' q, (1 / 2 - 1) + (3 / 2 - 1) = 0 /\
  fit_candidate (ols_ops ex_inv) (start_env ex_cfg ex_prep ex_b0 (ex_X 2)) 0 1 0 1 4 [fun _ => 1; fun _ => 1] None s = (s', Ok q) /\
  c_beta q 0%nat = 1.
Proof.
  destruct (ex_candidate _ eq_refl) as (q & H & Hb). eexists. eexists. exists q. split; [lra|]. split; [exact H|exact Hb].
Qed.

(** ** C81: zeros are accepted for the log-normal and inverse gamma families *)

Theorem C81_zeros_accepted_but_never_fitted {M} (ops : method_ops M) (c : gam_cfg M) lgam dg tg ft fj gi ppf cond D links b s :
  o_dist c = shipped lgam dg tg ft fj gi ppf cond D links ->
  D = LogNormal \/ D = LogNormalMedian \/ D = InverseGamma ->
  ~ outside (o_dist c) 0 /\
  (observes 0 b -> snd (gam_fit ops c b s) <> Ok tt /\ snd (gam_update ops c b s) <> Ok tt).
Proof. exact (C81_shipped_lemma ops c lgam dg tg ft fj gi ppf cond D links b s). Qed.
Print Assumptions C81_zeros_accepted_but_never_fitted.

Definition zero_cfg : gam_cfg unit :=
  mk_gcfg unit (shipped_default (fun _ => 0) (fun _ => 0) (fun _ => 0) (fun _ => (0, 1, 1)) (fun _ => (0, 1, 0, 1)) false
    (fun _ _ _ => None) (fun _ _ _ _ => Raise ValueError) LogNormal) true None (fun _ => Ok tt) (Scalar 0) (Scalar aic) (Scalar true)
    (Scalar false) (Scalar 1) None ScaleNone false 0 0 3 1 1 (1 / 1000) (1 / 1000) (1 / 1000) (1 / 1000)
    false false false.
Example C81_example : ~ some_outside (o_dist zero_cfg) (mk_batch 1 [ex_row 1; ex_row 0; ex_row 2]) /\
  snd (gam_fit ex_ops zero_cfg (mk_batch 1 [ex_row 1; ex_row 0; ex_row 2]) new_gam) <> Ok tt.
Proof.
  destruct (C81_zeros_accepted_but_never_fitted ex_ops zero_cfg _ _ _ _ _ _ _ _ LogNormal _ (mk_batch 1 [ex_row 1; ex_row 0; ex_row 2]) new_gam
    eq_refl (or_introl eq_refl)) as [A B].
  split; [|apply B; exists (ex_row 0); cbn; auto].
  intros (o & [<-|[<-|[<-|[]]]] & [H|H]); cbn in H; lra.
Qed.

(** ** C82: an update stores a worse candidate *)

(** Ordinary least squares does not depend on the step size or the previous coefficients,
    so if the first candidate is worse, all inner iterations repeat it, at most six of them,
    and it is stored. *)
Theorem C82_worse_candidate_is_stored inv (e : env unit) g p io (s s0 s' : work unit) q0 dv0 r :
  inner_update (ols_ops inv) e g p io s = (s', Ok r) ->
  update_candidate (ols_ops inv) e g p io 0 (w_fv s) s = (s0, Ok q0) ->
  deviance e (w_fv s) = Ok dv0 ->
  dv0 + (1 - p_forget (e_prep e) 0) ^ length (e_y e) * g < c_dv q0 ->
  r = c_dv q0 /\ w_coef s' p = c_beta q0 /\ w_fv s' = set_col (w_fv s) p (col (c_fv q0) p) /\
  w_xn s' p = Some (c_x q0) /\ w_yn s' p = Some (c_y q0) /\ (w_itinner s' p <= 5)%nat.
Proof. exact (C82_lemma inv e g p io s s0 s' q0 dv0 r). Qed.
Print Assumptions C82_worse_candidate_is_stored.

Example C82_example : exists s', deviance t_env (w_fv (t_work 100)) = Ok (t_dev (1 / 2)) /\
  inner_update ex_ops t_env 7 0 1 (t_work 100) = (s', Ok (t_dev (1365 / 1321 - 1 / 2) + 7)) /\
  t_dev (1 / 2) < t_dev (1365 / 1321 - 1 / 2).
Proof.
  destruct t_update as (s' & H). exists s'. split; [apply t_deviance; cbn; lra|]. split; [exact H|]. apply t_dev_lt; lra.
Qed.

(** ** C83: selection by the log-likelihood and sample weights *)

(** In fit the selection does not depend on the sample weights at all. *)
Theorem C83_fit_selection_ignores_weights {M} (e : env M) w s p wv wt path : o_global_ll (e_cfg e) = true ->
  fit_select (with_weights e w) s p wv wt path = fit_select e s p wv wt path.
Proof. exact (C83_lemma e w s p wv wt path). Qed.
Print Assumptions C83_fit_selection_ignores_weights.

(** Observations 1, 1, 2 with weights 0, 0, 1: fit selects the coefficient 1, update 2. *)
Example C83_example : exists l1 l2, 
  fit_select g_env g_work 0 [1; 1; 2] [1; 1; 1] [fun _ => 1; fun _ => 2] = Ok (fun _ => 1, l1, 0%nat) /\
  update_select g_env g_work 0 [1; 1; 2] [1; 1; 1] [fun _ => 1; fun _ => 2] [0; 0] 1 = Ok (fun _ => 2, l2, 1%nat).
Proof.
  destruct (g_fit_select [1; 1; 2] [1; 1; 1]) as (l1 & H1). destruct (g_update_select [1; 1; 2] [1; 1; 1] 1) as (l2 & H2).
  exists l1, l2. auto.
Qed.

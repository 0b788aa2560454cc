(** Properties C88 and C90-C93 for single parameter rows: means, quantiles, random
    variates and conditional start values. *)
From Coq Require Import Reals List Bool Arith Lia Lra String ClassicalEpsilon.
From Verif Require Import Base Lin M_Links M_DistTable M_Dist M_Mixed M_Scipy S_Dist S_Mixed S_Scipy L_Dist1 L_Links L_Links3 L_Mixed L_GAMEx L_Scipy L_Scipy2 L_Scipy3 P_Dist.
Import ListNotations.
Open Scope R_scope.

(** ** C88: mean *)

Theorem C88_mean_of_the_family euler d th :
  ~ mixed d -> valid_theta d th -> moderate d th ->
  dist_mean euler d th = Ok (expected_mean euler d th).
Proof. exact (C88_values_lemma euler d th). Qed.
Print Assumptions C88_mean_of_the_family.

(** The mean is the one for which the first score of the class has expectation zero. *)
Theorem C88_mean_and_score euler dg d th E :
  linear_score d -> valid_theta d th -> expectation E ->
  E (fun y => score dg d y th 0) = 0 ->
  dist_mean euler d th = Ok (Some (E (fun y => y))).
Proof. exact (C88_mean_score_lemma euler dg d th E). Qed.
Print Assumptions C88_mean_and_score.

(** The families that are symmetric have their mean at the centre. *)
Theorem C88_symmetric lgam euler d th v :
  symmetric_family d -> valid_theta d th -> dist_mean euler d th = Ok (Some v) ->
  forall t, logpdf lgam d (v + t) th = logpdf lgam d (v - t) th.
Proof. exact (C88_centre_lemma lgam euler d th v). Qed.
Print Assumptions C88_symmetric.

Example C88_example :
  dist_mean (1 / 2) InverseGamma (fun k => nth k [3; 1 / 2] 0) = Ok (Some 5) /\
  dist_mean (1 / 2) Gumbel (fun k => nth k [3; 4] 0) = Ok (Some 1) /\
  dist_mean (1 / 2) StudentT (fun k => nth k [3; 4; 1] 0) = Ok None /\
  dist_mean (1 / 2) BetaInflated (fun _ => 1 / 2) = Raise AttributeError.
Proof.
  assert (NM : forall d, (d = InverseGamma \/ d = Gumbel \/ d = StudentT) -> ~ mixed d).
  { intros d H [K|[K|K]]; subst d; destruct H as [H|[H|H]]; discriminate. }
  repeat split.
  - rewrite (C88_mean_of_the_family (1 / 2) InverseGamma); [|apply NM; auto|cbn; lra|intros H; discriminate].
    cbn. rewrite ltb_t by lra. do 2 f_equal. field.
  - rewrite (C88_mean_of_the_family (1 / 2) Gumbel); [|apply NM; auto|cbn; lra|intros H; discriminate].
    cbn. do 2 f_equal. field.
  - rewrite (C88_mean_of_the_family (1 / 2) StudentT); [|apply NM; auto|cbn; lra|intros H; discriminate].
    cbn. rewrite ltb_f by lra. reflexivity.
Qed.

(** ** C90: quantiles *)

Theorem C90_quantile_function std_cdf std_ppf d th q :
  scipy_laws std_cdf std_ppf -> valid_theta d th -> 0 < q < 1 ->
  exists x, dist_ppf std_ppf d q th = Some x /\
    is_quantile (cdf_domain d) (fun y => dist_cdf std_cdf d y th) q x.
Proof. exact (fun L => C90_quantile_lemma std_cdf std_ppf L d th q). Qed.
Print Assumptions C90_quantile_function.

Theorem C90_never_cross std_cdf std_ppf d th q1 q2 :
  scipy_laws std_cdf std_ppf -> valid_theta d th -> 0 < q1 -> q1 <= q2 -> q2 < 1 ->
  exists x1 x2, dist_ppf std_ppf d q1 th = Some x1 /\ dist_ppf std_ppf d q2 th = Some x2 /\ x1 <= x2.
Proof. exact (fun L => C90_monotone_lemma std_cdf std_ppf L d th q1 q2). Qed.
Print Assumptions C90_never_cross.

(** The laws are satisfiable. *)
Definition e_cdf (f : family) : R -> R :=
  match f with f_beta _ _ => unif | f_gamma _ => halfline | _ => logistic_cdf end.
Definition e_ppf (f : family) (q : R) : option R :=
  match f with f_beta _ _ => Some q | f_gamma _ => Some (q / (1 - q)) | _ => Some (ln (q / (1 - q))) end.
Example C90_example_laws : scipy_laws e_cdf e_ppf.
Proof.
  pose proof C44_example_unit as U. pose proof C44_example_positive as P. pose proof C44_example_line as N. constructor.
  - intros f _. destruct f; cbn [e_cdf]; first [exact (lu_mono _ _ U)|exact (lp_mono _ _ P)|exact (ll_mono _ _ N)].
  - intros f _. destruct f; cbn [e_cdf]; first [exact (lu_quantile _ _ U)|exact (lp_quantile _ _ P)|exact (ll_quantile _ _ N)].
  - exact N.
  - intros a b _ _. exact U.
  - intros a _. exact P.
Qed.
Example C90_example :
  dist_ppf e_ppf Beta (3 / 4) (fun k => nth k [1 / 2; 1 / 2] 0) = Some (3 / 4) /\
  dist_ppf e_ppf Gamma (3 / 4) (fun k => nth k [2; 1] 0) = Some 6.
Proof.
  split.
  - unfold dist_ppf, frozen. cbn [has_own_cdf scipy_dist theta_to_scipy_params bind nth].
    unfold freeze. cbn -[located Rmult Rplus Rminus Rdiv IZR]. unfold located. cbn [shapes_ok].
    rewrite (ltb_t 0 1), (ltb_t 0) by lra. rewrite ltb_t by lra. cbn. f_equal. lra.
  - unfold dist_ppf, frozen. cbn [has_own_cdf scipy_dist theta_to_scipy_params bind nth].
    unfold freeze. cbn -[located Rmult Rplus Rminus Rdiv IZR pow]. unfold located. cbn [shapes_ok].
    replace (1 / (1 / (1 ^ 2 * 2))) with 2 by field. rewrite (ltb_t 0 2), ltb_t by lra. cbn. f_equal. field.
Qed.

(** ** C91: random variates *)

(** [draw f k i]: variate [k] for row [i] of the standardised family [f]. Each of the
    [size] values in row [i] is at most [y] when its draw is at most the standardised [y],
    and the standardised [y] is where [cdf] evaluates that family. *)
Theorem C91_scipy_families std_cdf draw d size fv :
  ~ mixed d -> List.Forall (valid_theta d) fv ->
  exists out, scipy_rvs draw d size fv = Ok out /\ List.length out = List.length fv /\
    forall i th, nth_error fv i = Some th -> exists row, nth_error out i = Some row /\ List.length row = size /\
      exists f loc scale, 0 < scale /\
        (has_own_cdf d = false -> forall y, dist_cdf std_cdf d y th = Some (std_cdf f ((y - loc) / scale))) /\
        forall k, (k < size)%nat -> exists v, nth_error row k = Some (Some v) /\
          forall y, v <= y <-> draw f k i <= (y - loc) / scale.
Proof. exact (C91_scipy_lemma std_cdf draw d size fv). Qed.
Print Assumptions C91_scipy_families.

(** One uniform number per row: row [i] has the quantile of its own distribution. *)
Theorem C91_mixed_families std_cdf std_ppf d u fv out i th ui :
  scipy_laws std_cdf std_ppf -> List.length u = List.length fv -> valid_theta d th ->
  mixed_rvs std_ppf d u fv = Ok out -> nth_error fv i = Some th -> nth_error u i = Some ui -> 0 < ui < 1 ->
  List.length out = List.length fv /\
  exists v, nth_error out i = Some (Some v) /\ is_quantile (cdf_domain d) (fun y => dist_cdf std_cdf d y th) ui v.
Proof. exact (fun L => C91_mixed_lemma std_cdf std_ppf L d u fv out i th ui). Qed.
Print Assumptions C91_mixed_families.

(** The documented [size] draws for each of several rows cannot be had. *)
Theorem C91_mixed_shape std_ppf d u fv :
  (List.length u <> 1 -> List.length fv <> 1 -> List.length u <> List.length fv ->
     mixed_rvs std_ppf d u fv = Raise ValueError)%nat /\
  (forall a, u = [a] -> fv <> [] -> mixed_rvs std_ppf d u fv = Ok (map (dist_ppf std_ppf d a) fv)).
Proof. exact (C91_mixed_shape_lemma std_ppf d u fv). Qed.
Print Assumptions C91_mixed_shape.

Example C91_example :
  let th := (fun k => nth k [1 / 2; 1 / 2; 1; 1] 0) : theta in
  mixed_rvs e_ppf BetaInflated [1 / 4; 1 / 2] [th; th; th] = Raise ValueError /\
  mixed_rvs e_ppf BetaInflated [1 / 4; 1 / 2; 3 / 4] [th; th; th] = Ok [Some 0; Some (1 / 2); Some 1] /\
  mixed_rvs e_ppf BetaInflated [1 / 4] [th; th] = Ok [Some 0; Some 0] /\
  scipy_rvs (fun _ k i => INR (k + 10 * i)) Normal 2 [(fun _ => 1); (fun _ => 2)]
    = Ok [[Some (1 + 1 * INR 0); Some (1 + 1 * INR 1)]; [Some (2 + 2 * INR 10); Some (2 + 2 * INR 11)]].
Proof.
  cbv zeta.
  assert (P : forall q, 0 < q < 1 -> dist_ppf e_ppf BetaInflated q (fun k => nth k [1 / 2; 1 / 2; 1; 1] 0) =
    if Rleb q (1 / 3) then Some 0 else if Rleb (2 / 3) q then Some 1 else Some (3 * q - 1)).
  { intros q Hq. unfold dist_ppf. cbn [has_own_cdf mixed_ppf nth]. rewrite (ltb_f q 0), (ltb_f 1 q), !eqb_f by lra. cbn [orb].
    replace (1 / (1 + 1 + 1)) with (1 / 3) by field. replace ((1 + 1) / (1 + 1 + 1)) with (2 / 3) by field.
    unfold beta_ppf, e_ppf. replace ((q - 1 / 3) * (1 + 1 + 1)) with (3 * q - 1) by field. reflexivity. }
  split; [reflexivity|]. split; [|split].
  - unfold mixed_rvs, broadcast. cbn [List.length Nat.eqb map2]. rewrite !P by lra.
    rewrite (leb_t (1 / 4)), (proj2 (Rleb_false (1 / 2) (1 / 3))), (proj2 (Rleb_false (2 / 3) (1 / 2))), (proj2 (Rleb_false (3 / 4) (1 / 3))), (leb_t (2 / 3)) by lra.
    do 4 f_equal. field.
  - unfold mixed_rvs, broadcast. cbn [List.length Nat.eqb map]. rewrite !P by lra. rewrite leb_t by lra. reflexivity.
  - unfold scipy_rvs. cbn [scipy_dist List.length seq map2 map].
    assert (F : forall a, 0 < a -> frozen Normal (fun _ => a) = Ok (f_norm, a, a)) by (intros; reflexivity).
    rewrite !F by lra. unfold located. cbn [shapes_ok]. rewrite !ltb_t by lra. reflexivity.
Qed.

(** ** C92: conditional start values *)

(** They can be computed for these families. *)
Theorem C92_available lgam minimise d p links ys fv :
  own_names d p \/ (odd d /\ p = 1%nat) -> (p < n_params d)%nat -> fv <> [] ->
  (forall f start bounds, exists r, minimise f start bounds = Ok r) ->
  exists fv', conditional_start lgam minimise d links ys fv p = Ok fv'.
Proof. exact (C92_available_lemma lgam minimise d p links ys fv). Qed.
Print Assumptions C92_available.

(** Whatever the optimiser does: the columns before [p] stay, and the others stay or
    become constants. *)
Theorem C92_earlier_columns_stay lgam minimise d links ys fv p fv' :
  conditional_start lgam minimise d links ys fv p = Ok fv' ->
  fv' = fv \/ exists x, same_rows fv' (map (with_columns (n_params d) p x) fv).
Proof. exact (C92_kept_lemma lgam minimise d links ys fv p fv'). Qed.
Print Assumptions C92_earlier_columns_stay.

(** Families with scipy's parameters: the constants maximise the likelihood. *)
Theorem C92_maximum_likelihood lgam minimise d p links ys fv fv' :
  honest minimise -> own_names d p -> (p < n_params d)%nat -> List.Forall (moderate d) fv ->
  conditional_start lgam minimise d links ys fv p = Ok fv' ->
  fv' = fv \/ exists x L, same_rows fv' (map (with_columns (n_params d) p x) fv) /\
    List.Forall2 within (link_bounds (n_params d) p links) x /\ loglik lgam d ys fv' = Some L /\
    forall x' L', List.Forall2 within (link_bounds (n_params d) p links) x' ->
      loglik lgam d ys (map (with_columns (n_params d) p x') fv) = Some L' -> L' <= L.
Proof. exact (fun Ho => C92_maximises_lemma lgam minimise Ho d p links ys fv fv'). Qed.
Print Assumptions C92_maximum_likelihood.

(** The others: the constant maximises a likelihood at different parameters. *)
Theorem C92_other_parameters lgam minimise d links ys fv fv' :
  honest minimise -> odd d -> List.Forall (valid_theta d) fv -> List.length ys = List.length fv ->
  conditional_start lgam minimise d links ys fv 1 = Ok fv' ->
  fv' = fv \/ exists x L, 0 < x /\ same_rows fv' (map (with_columns 2 1 [x]) fv) /\
    within (link_support (nth 1 links Identity)) x /\ loglik lgam d ys (map (misread d x) fv) = Some L /\
    forall x' L', 0 < x' -> within (link_support (nth 1 links Identity)) x' ->
      loglik lgam d ys (map (misread d x') fv) = Some L' -> L' <= L.
Proof. exact (fun Ho => C92_misread_lemma lgam minimise Ho d links ys fv fv'). Qed.
Print Assumptions C92_other_parameters.

(** NormalMeanVariance: the start value of the variance is the standard deviation. *)
Theorem C92_variance_is_standard_deviation lgam minimise links ys fv fv' :
  honest minimise -> List.Forall (valid_theta NormalMeanVariance) fv -> List.length ys = List.length fv ->
  0 < squares ys fv -> within (link_support (nth 1 links Identity)) (sqrt (squares ys fv / INR (List.length ys))) ->
  conditional_start lgam minimise NormalMeanVariance links ys fv 1 = Ok fv' ->
  fv' = fv \/
  List.Forall2 (fun th th' : theta => th' 0%nat = th 0%nat /\ th' 1%nat = sqrt (squares ys fv / INR (List.length ys))) fv fv'.
Proof. exact (fun Ho => C92_variance_lemma lgam minimise Ho links ys fv fv'). Qed.
Print Assumptions C92_variance_is_standard_deviation.

(** An optimiser that tries the number 2: for the sample 2, -2 the variance is 4, and 2 is
    what comes out. *)
Definition try2 (f : list R -> option R) (start : list R) (bounds : list support) : res (bool * list R) :=
  match excluded_middle_informative (List.Forall2 within bounds [2] /\ exists v, f [2] = Some v /\
          forall x' v', List.Forall2 within bounds x' -> f x' = Some v' -> v <= v') with
  | left _ => Ok (true, [2])
  | right _ => Ok (false, [])
  end.
Lemma next0_small : next0 <= 1.
Proof.
  unfold next0. change (powerRZ 2 (-1074)) with (/ 2 ^ Pos.to_nat 1074). generalize (Pos.to_nat 1074). intros n.
  rewrite <- Rinv_1. apply Rinv_le_contravar; [lra|]. apply pow_R1_Rle. lra.
Qed.
Example C92_example :
  honest try2 /\
  exists fv', conditional_start (fun _ => 0) try2 NormalMeanVariance [Identity; Log] [2; - 2] [fun k => INR k; fun k => INR k] 1 = Ok fv' /\
    List.Forall (fun th => th 0%nat = 0 /\ th 1%nat = 2) fv' /\ List.length fv' = 2%nat.
Proof.
  split.
  { intros f start bounds x H. unfold try2 in H. destruct (excluded_middle_informative _) as [K|K]; [|discriminate].
    injection H as <-. exact K. }
  set (fv := [fun k : nat => INR k; fun k => INR k] : list theta).
  assert (S : squares [2; -2] fv = 8) by (cbn; lra).
  unfold conditional_start. cbn [scipy_dist fv]. cbv zeta. fold fv.
  destruct (map_res_total (fixed_params NormalMeanVariance 1) fv) as [fixed Ef].
  { intros th _. eexists. cbn. reflexivity. }
  rewrite Ef. cbn [bind].
  assert (O : forall x, List.length x = 1%nat -> mle_objective (fun _ => 0) NormalMeanVariance st_norm [2; -2] fixed 1 x =
    Ok (omap Ropp (sum_option (map2 (fun y th => at_params (fun _ => 0) y (cond_params NormalMeanVariance 1 x th)) [2; -2] fv)))).
  { intros x Hx. apply objective_named; auto. right. now left. }
  rewrite O by reflexivity. cbn [bind].
  assert (Pos : forall z, 0 < z -> mle_objective (fun _ => 0) NormalMeanVariance st_norm [2; -2] fixed 1 [z] =
    Ok (Some (- (- 8 / (2 * z ^ 2) - INR 2 * (ln (sqrt (2 * PI)) + ln z))))).
  { intros z Hz. rewrite O by reflexivity.
    rewrite (sum_loglik (fun _ => 0) NormalMeanVariance [2; -2] _ (misread NormalMeanVariance z)).
    - rewrite (normal_loglik (fun _ => 0) z [2; -2] fv Hz eq_refl), S. reflexivity.
    - intros y th _. apply odd_row; [now left|exact Hz|now left]. }
  assert (B : link_support (nth 1 [Identity; Log] Identity) = (Fin next0, PosInf)) by reflexivity.
  pose proof next0_pos as N0.
  assert (T : exists K, try2 (fun x => match mle_objective (fun _ => 0) NormalMeanVariance st_norm [2; -2] fixed 1 x with Ok v => v | Raise _ => None end)
     (map (fun k => INR k) (unknown NormalMeanVariance 1)) (map (fun i => link_support (nth i [Identity; Log] Identity)) (unknown NormalMeanVariance 1)) = Ok K /\ K = (true, [2])).
  { unfold try2. destruct (excluded_middle_informative _) as [K|K]; [eexists; split; reflexivity|]. exfalso. apply K.
    change (unknown NormalMeanVariance 1) with [1%nat]. cbn [map]. rewrite B. split.
    - constructor; [|constructor]. change (next0 <= 2 /\ True). pose proof next0_small. split; [lra|exact I].
    - rewrite (Pos 2) by lra. eexists. split; [reflexivity|].
      intros x' v' Hw Hv. inversion Hw as [|a z l l' A B' E1 E2]; subst. inversion B'; subst. destruct A as [A _]. change (next0 <= z) in A.
      rewrite (Pos z) in Hv by lra. apply (f_equal (fun o => match o with Some r => r | None => 0 end)) in Hv. cbv beta iota in Hv. rewrite <- Hv.
      destruct (Rle_dec (- 8 / (2 * z ^ 2) - INR 2 * (ln (sqrt (2 * PI)) + ln z)) (- 8 / (2 * 2 ^ 2) - INR 2 * (ln (sqrt (2 * PI)) + ln 2))) as [Q|Q]; [lra|].
      assert (z = 2); [|subst z; lra].
      apply (best_scale 8 (INR 2) z 2 ltac:(lra) ltac:(cbn; lra) ltac:(lra) ltac:(lra) ltac:(cbn; lra) (ln (sqrt (2 * PI)))). lra. }
  destruct T as (K & T & ->). rewrite T. cbn [bind]. eexists. split; [reflexivity|]. split; [|reflexivity].
  repeat constructor.
Qed.

(** ** C93: families without conditional start values *)
Theorem C93_start_values_raise lgam minimise d links ys fv p :
  no_start d -> (p < n_params d)%nat -> exists x, conditional_start lgam minimise d links ys fv p = Raise x.
Proof. exact (C93_raises_lemma lgam minimise d links ys fv p). Qed.
Print Assumptions C93_start_values_raise.
Example C93_example :
  conditional_start (fun _ => 0) try2 Gamma [Log; Log] [1; 2] [fun _ => 1; fun _ => 1] 1 = Raise KeyError /\
  conditional_start (fun _ => 0) try2 BetaInflated [] [1; 2] [fun _ => 1; fun _ => 1] 1 = Raise TypeError.
Proof. split; reflexivity. Qed.

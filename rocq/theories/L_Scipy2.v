(** Lemmas on the conditional start values and on random variates. *)
From Coq Require Import Reals List Bool Arith Lia Lra String.
From Verif Require Import Base Lin M_Links M_DistTable M_Dist M_Mixed M_Scipy S_Dist S_Mixed S_Scipy L_Dist1 L_Mixed L_Scipy.
Import ListNotations.
Open Scope R_scope.

Definition cond_params (d : dist) (p : nat) (x : list R) (th : theta) : family * R * R :=
  let w := with_columns (n_params d) p x th in
  match d with
  | NormalMeanVariance => (f_norm, w 0%nat, w 1%nat)
  | InverseGamma => (f_invgamma (w 1%nat), 0, th 0%nat * (1 + th 1%nat ^ 2) / th 1%nat ^ 2)
  | InverseGaussian => (f_invgauss (th 0%nat * th 1%nat ^ 2), 0, w 1%nat)
  | _ => scipy_params d w
  end.
Definition named (d : dist) (p : nat) : Prop :=
  own_names d p \/ d = NormalMeanVariance \/ (d = InverseGamma /\ p = 1%nat) \/ (d = InverseGaussian /\ p = 1%nat).

Lemma row_named d p : named d p -> (p < n_params d)%nat ->
  exists c, scipy_dist d = Some c /\
  (forall x, List.length x = (n_params d - p)%nat -> exists dec, decision d (unknown d p) x = Ok dec /\
   forall th, exists k, fixed_params d p th = Ok k /\ freeze c (dec ++ k)%list = Ok (cond_params d p x th)).
Proof.
  intros H Hp. destruct d; cbn in Hp; try (exfalso; destruct H as [H|[H|[[H ?]|[H ?]]]]; (discriminate || contradiction));
   (eexists; split; [reflexivity|]); intros x Hx;
   destruct p as [|[|[|[|p]]]]; try lia;
   try (exfalso; destruct H as [H|[H|[[H ?]|[H ?]]]]; (discriminate || contradiction));
   destruct x as [|x0 [|x1 [|x2 [|x3 [|x4 x]]]]]; cbn in Hx; try lia;
   (eexists; split; [reflexivity|]); intros th; (eexists; split; [cbn; reflexivity|cbn; reflexivity]).
Qed.

Lemma map_res_ok {A B} (f : A -> res B) l r : map_res f l = Ok r -> List.Forall2 (fun a b => f a = Ok b) l r.
Proof.
  revert r. induction l as [|a l IH]; intros r H; cbn in H; [injection H as <-; constructor|].
  destruct (f a) eqn:E; [|discriminate]. cbn in H. destruct (map_res f l) eqn:E2; [|discriminate]. cbn in H.
  injection H as <-. constructor; auto.
Qed.
Lemma map_res_total {A B} (f : A -> res B) l : (forall a, In a l -> exists b, f a = Ok b) -> exists r, map_res f l = Ok r.
Proof.
  induction l as [|a l IH]; intros H; [eexists; reflexivity|]. cbn.
  destruct (H a (or_introl eq_refl)) as [b E]. rewrite E. cbn.
  destruct IH as [r E2]; [intros x Hx; apply H; now right|]. rewrite E2. eexists; reflexivity.
Qed.
Lemma logpdf_ext lgam d y th th' : (forall k, th k = th' k) -> logpdf lgam d y th = logpdf lgam d y th'.
Proof.
  intros H. unfold logpdf, scipy_logpdf_of, scipy_params. destruct d; rewrite ?(H 0%nat), ?(H 1%nat), ?(H 2%nat), ?(H 3%nat); reflexivity.
Qed.
Lemma loglik_ext lgam d ys : forall f g, same_rows f g -> loglik lgam d ys f = loglik lgam d ys g.
Proof.
  induction ys as [|y ys IH]; intros f g H; [destruct f, g; reflexivity|].
  destruct H as [|a b f g Hab H]; [reflexivity|]. cbn. now rewrite (logpdf_ext lgam d y a b Hab), (IH f g H).
Qed.

Section Conditional.
Variables (lgam : R -> R) (minimise : (list R -> option R) -> list R -> list support -> res (bool * list R)).
Notation cs := (conditional_start lgam minimise).

Lemma replace_with d p x th k : replace_from d p x th k = with_columns (n_params d) p x th k.
Proof. unfold replace_from, with_columns. destruct (p <=? k)%nat, (k <? n_params d)%nat; reflexivity. Qed.
Lemma replace_rows d p x fv : same_rows (map (replace_from d p x) fv) (map (with_columns (n_params d) p x) fv).
Proof. induction fv; cbn; constructor; auto. intros k. apply replace_with. Qed.
Lemma same_rows_refl f : same_rows f f.
Proof. induction f; constructor; auto. Qed.

(** Any optimiser: the result is the old one, or the columns from [p] on are constants. *)
Lemma conditional_ok d links ys fv p fv' : cs d links ys fv p = Ok fv' ->
  exists c fixed r, scipy_dist d = Some c /\ fv <> [] /\ map_res (fixed_params d p) fv = Ok fixed /\
    minimise (fun x => match mle_objective lgam d c ys fixed p x with Ok v => v | Raise _ => None end)
      (map (hd (fun _ => 0) fv) (unknown d p)) (link_bounds (n_params d) p links) = Ok r /\
    fv' = if fst r then map (replace_from d p (snd r)) fv else fv.
Proof.
  unfold conditional_start. intros H. destruct (scipy_dist d) as [c|]; [|discriminate].
  destruct fv as [|th0 fv0]; [discriminate|]. cbv zeta in H.
  destruct (map_res _ _) as [fixed|]; [|discriminate]. cbn [bind] in H.
  destruct (mle_objective _ _ _ _ _ _ (map th0 _)); [|discriminate]. cbn [bind] in H.
  destruct (minimise _ _ _) as [[success x]|] eqn:E; [|discriminate]. cbn [bind] in H. injection H as <-.
  exists c, fixed, (success, x). split; [reflexivity|]. split; [discriminate|]. split; [reflexivity|]. split; [exact E|reflexivity].
Qed.
Lemma C92_kept_lemma d links ys fv p fv' : cs d links ys fv p = Ok fv' ->
  fv' = fv \/ exists x, same_rows fv' (map (with_columns (n_params d) p x) fv).
Proof.
  intros H. apply conditional_ok in H. destruct H as (c & fixed & [b x] & _ & _ & _ & _ & ->). cbn [fst snd].
  destruct b; [right; exists x; apply replace_rows|now left].
Qed.

Definition at_params (y : R) (f : family * R * R) : option R :=
  let '(g, loc, scale) := f in scipy_logpdf lgam g loc scale y.
Lemma objective_named d p c x ys fv fixed : named d p -> (p < n_params d)%nat -> scipy_dist d = Some c ->
  List.length x = (n_params d - p)%nat -> map_res (fixed_params d p) fv = Ok fixed ->
  mle_objective lgam d c ys fixed p x = Ok (omap Ropp (sum_option (map2 (fun y th => at_params y (cond_params d p x th)) ys fv))).
Proof.
  intros Hn Hp Ec Hx Hf. destruct (row_named d p Hn Hp) as (c' & Ec' & K). rewrite Ec in Ec'. injection Ec' as <-.
  destruct (K x Hx) as (dec & Ed & Kr). unfold mle_objective. rewrite Ed. cbn [bind].
  assert (E : map_res (fun k => freeze c (dec ++ k)%list) fixed = Ok (map (cond_params d p x) fv)).
  { apply map_res_ok in Hf. induction Hf as [|th k fv fixed Hk Hf IH]; [reflexivity|]. cbn.
    destruct (Kr th) as (k' & E1 & E2). rewrite E1 in Hk. injection Hk as <-. rewrite E2. cbn. rewrite IH. reflexivity. }
  rewrite E. cbn [bind]. do 3 f_equal. clear.
  revert fv. induction ys as [|y ys IH]; intros [|th fv]; cbn; [reflexivity..|]. now rewrite IH.
Qed.
Lemma C92_available_lemma d p links ys fv : own_names d p \/ (odd d /\ p = 1%nat) -> (p < n_params d)%nat -> fv <> [] ->
  (forall f start bounds, exists r, minimise f start bounds = Ok r) -> exists fv', cs d links ys fv p = Ok fv'.
Proof.
  intros Hn0 Hp Hf Hm.
  assert (Hn : named d p) by (destruct Hn0 as [Hn0|[[->|[->| ->]] ->]]; unfold named; auto).
  destruct (row_named d p Hn Hp) as (c & Ec & K). unfold conditional_start. rewrite Ec.
  destruct fv as [|th0 fv0]; [contradiction|].
  destruct (map_res_total (fixed_params d p) (th0 :: fv0)) as [fixed E].
  { intros th _. destruct (K (repeat 0 (n_params d - p)) (repeat_length _ _)) as (dec & _ & Kr). destruct (Kr th) as (k & E & _). eauto. }
  cbv zeta. rewrite E. cbn [bind]. rewrite (objective_named d p c _ ys (th0 :: fv0) fixed Hn Hp Ec); [|unfold unknown; now rewrite map_length, seq_length|exact E].
  cbn [bind]. match goal with |- context [minimise ?f ?s0 ?b] => destruct (Hm f s0 b) as [[bb x] Er] end. rewrite Er. eexists; reflexivity.
Qed.

(** LogNormal: the density of scipy is the one of the class. *)
Lemma lognormal_scipy y mu sigma : at_params y (f_lognorm sigma, 0, exp mu) =
  if Rltb 0 y && Rltb 0 sigma then Some (ln (1 / (y * sigma * sqrt (2 * PI))) + - (ln y - mu) ^ 2 / (2 * sigma ^ 2)) else None.
Proof.
  unfold at_params, scipy_logpdf. cbn [shapes_ok family_support]. pose proof (exp_pos mu) as Pe.
  rewrite (proj2 (Rltb_true _ _) Pe). cbn [andb]. rewrite Rminus_0_r.
  assert (E : Rltb 0 (y / exp mu) = Rltb 0 y).
  { destruct (Rltb 0 y) eqn:L.
    - apply Rltb_true in L. apply Rltb_true. now apply div_pos.
    - apply Rltb_false in L. apply Rltb_false. apply (Rmult_le_reg_r (exp mu)); [exact Pe|].
      unfold Rdiv. rewrite Rmult_assoc, Rinv_l, Rmult_0_l by lra. lra. }
  rewrite E, andb_comm. destruct (Rltb 0 y) eqn:Ly, (Rltb 0 sigma) eqn:Ls; cbn [andb]; try reflexivity.
  apply Rltb_true in Ly, Ls. f_equal. cbn [std_logpdf].
  assert (P2 : 0 < sqrt (2 * PI)) by (apply sqrt_lt_R0; pose proof PI_RGT_0; lra).
  assert (Q : 0 < sigma * (y / exp mu) * sqrt (2 * PI)) by (repeat apply Rmult_lt_0_compat; auto using Rinv_0_lt_compat).
  assert (D : 0 < y * sigma * sqrt (2 * PI)) by (repeat apply Rmult_lt_0_compat; auto).
  replace (ln (y / exp mu)) with (ln y - mu).
  2: { unfold Rdiv. rewrite ln_mult, ln_Rinv, ln_exp; auto. now apply Rinv_0_lt_compat. }
  replace (sigma * (y / exp mu) * sqrt (2 * PI)) with (y * sigma * sqrt (2 * PI) * / exp mu) by (field; lra).
  rewrite (ln_mult _ (/ exp mu) D (Rinv_0_lt_compat _ Pe)), ln_Rinv, !ln_exp by exact Pe.
  unfold Rdiv at 2. rewrite Rmult_1_l, (ln_Rinv _ D). ring.
Qed.

Lemma own_row d p x th y : own_names d p -> moderate d th -> at_params y (cond_params d p x th) = logpdf lgam d y (with_columns (n_params d) p x th).
Proof.
  intros H Mo. destruct d; try contradiction; try reflexivity.
  cbn in H. subst p. unfold cond_params, logpdf. cbv zeta. cbn [scipy_params].
  change (with_columns (n_params LogNormal) 1 x th 0%nat) with (th 0%nat).
  unfold robust_exp. rewrite (proj2 (Rltb_false _ _) (Mo eq_refl)). apply lognormal_scipy.
Qed.
Lemma sum_loglik d ys (g : R -> theta -> option R) (h : theta -> theta) : forall fv,
  (forall y th, In th fv -> g y th = logpdf lgam d y (h th)) ->
  sum_option (map2 g ys fv) = loglik lgam d ys (map h fv).
Proof.
  induction ys as [|y ys IH]; intros [|th fv] H; cbn; try reflexivity.
  rewrite (H y th (or_introl eq_refl)), (IH fv); [|intros; apply H; now right].
  destruct (logpdf lgam d y (h th)); cbn; [|reflexivity]. destruct (loglik lgam d ys (map h fv)); reflexivity.
Qed.

Hypothesis Ho : honest minimise.

Lemma Forall2_len {A B} (P : A -> B -> Prop) l m : List.Forall2 P l m -> List.length l = List.length m.
Proof. induction 1; cbn; congruence. Qed.
Lemma within_length n p links x : List.Forall2 within (link_bounds n p links) x -> List.length x = (n - p)%nat.
Proof. intros H. rewrite <- (Forall2_len _ _ _ H). unfold link_bounds. now rewrite map_length, seq_length. Qed.

Lemma C92_maximises_lemma d p links ys fv fv' : own_names d p -> (p < n_params d)%nat -> List.Forall (moderate d) fv ->
  cs d links ys fv p = Ok fv' ->
  fv' = fv \/ exists x L, same_rows fv' (map (with_columns (n_params d) p x) fv) /\
    List.Forall2 within (link_bounds (n_params d) p links) x /\ loglik lgam d ys fv' = Some L /\
    forall x' L', List.Forall2 within (link_bounds (n_params d) p links) x' ->
      loglik lgam d ys (map (with_columns (n_params d) p x') fv) = Some L' -> L' <= L.
Proof.
  intros Hown Hp Mo H. apply conditional_ok in H. destruct H as (c & fixed & [b x] & Ec & _ & Ef & Em & ->). cbn [fst snd].
  destruct b; [right|now left]. destruct (Ho _ _ _ _ Em) as (Hw & v & Hv & Hmin).
  assert (V : forall x', List.length x' = (n_params d - p)%nat ->
    match mle_objective lgam d c ys fixed p x' with Ok v => v | Raise _ => None end = omap Ropp (loglik lgam d ys (map (with_columns (n_params d) p x') fv))).
  { intros x' Hx'. rewrite (objective_named d p c x' ys fv fixed (or_introl Hown) Hp Ec Hx' Ef).
    rewrite (sum_loglik d ys _ (with_columns (n_params d) p x')); [reflexivity|].
    intros y th Hin. apply own_row; [exact Hown|]. rewrite Forall_forall in Mo. now apply Mo. }
  rewrite (V x (within_length _ _ _ _ Hw)) in Hv.
  destruct (loglik lgam d ys (map (with_columns (n_params d) p x) fv)) as [L|] eqn:EL; [|discriminate]. cbn in Hv. injection Hv as <-.
  exists x, L. split; [apply replace_rows|]. split; [exact Hw|]. split; [rewrite <- EL; apply loglik_ext, replace_rows|].
  intros x' L' Hw' E'. specialize (Hmin x' (- L') Hw'). rewrite (V x' (within_length _ _ _ _ Hw')), E' in Hmin.
  specialize (Hmin eq_refl). lra.
Qed.

Lemma odd_row d x th y : odd d -> 0 < x -> (d = NormalMeanVariance \/ valid_theta d th) ->
  at_params y (cond_params d 1 [x] th) = logpdf lgam d y (misread d x th).
Proof.
  intros [->|[->| ->]] Hx V; unfold cond_params, logpdf, scipy_logpdf_of; cbv zeta; cbn [scipy_params misread].
  - change (with_columns (n_params NormalMeanVariance) 1 [x] th 0%nat) with (th 0%nat).
    change (with_columns (n_params NormalMeanVariance) 1 [x] th 1%nat) with x.
    replace (sqrt (x ^ 2)) with x; [reflexivity|]. symmetry. rewrite <- Rsqr_pow2. now apply sqrt_Rsqr, Rlt_le.
  - change (with_columns (n_params InverseGamma) 1 [x] th 1%nat) with x.
    assert (S : sqrt x ^ 2 = x) by (apply pow2_sqrt; lra). assert (Sp : 0 < sqrt x) by now apply sqrt_lt_R0.
    replace ((1 / sqrt x) ^ 2) with (/ x) by (rewrite <- S at 1; field; lra).
    replace (1 / / x) with x by (field; lra).
    replace (th 0%nat * (1 + th 1%nat ^ 2) / th 1%nat ^ 2 / (x + 1) * (1 + / x) / / x) with (th 0%nat * (1 + th 1%nat ^ 2) / th 1%nat ^ 2); [reflexivity|].
    destruct V as [V|V]; [discriminate|]. cbn in V. field. repeat split; lra.
  - change (with_columns (n_params InverseGaussian) 1 [x] th 1%nat) with x.
    assert (S : sqrt x ^ 2 = x) by (apply pow2_sqrt; lra). assert (Sp : 0 < sqrt x) by now apply sqrt_lt_R0.
    replace ((1 / sqrt x) ^ 2) with (/ x) by (rewrite <- S at 1; field; lra).
    replace (1 / / x) with x by (field; lra).
    replace (th 0%nat * th 1%nat ^ 2 * x * / x) with (th 0%nat * th 1%nat ^ 2) by (field; lra). reflexivity.
Qed.
Lemma odd_negative d x th y : odd d -> x <= 0 -> at_params y (cond_params d 1 [x] th) = None.
Proof.
  intros [->|[->| ->]] Hx; unfold cond_params; cbv zeta; unfold at_params, scipy_logpdf; cbn [shapes_ok];
  match goal with |- context [with_columns ?n 1 [x] th 1%nat] => change (with_columns n 1 [x] th 1%nat) with x end;
  rewrite (proj2 (Rltb_false _ _) Hx); rewrite ?andb_false_r; reflexivity.
Qed.
Lemma C92_misread_lemma d links ys fv fv' : odd d -> List.Forall (valid_theta d) fv -> List.length ys = List.length fv ->
  cs d links ys fv 1 = Ok fv' ->
  fv' = fv \/ exists x L, 0 < x /\ same_rows fv' (map (with_columns 2 1 [x]) fv) /\
    within (link_support (nth 1 links Identity)) x /\ loglik lgam d ys (map (misread d x) fv) = Some L /\
    forall x' L', 0 < x' -> within (link_support (nth 1 links Identity)) x' ->
      loglik lgam d ys (map (misread d x') fv) = Some L' -> L' <= L.
Proof.
  intros Hodd V Hl H. apply conditional_ok in H. destruct H as (c & fixed & [b x] & Ec & Hne & Ef & Em & ->). cbn [fst snd].
  destruct b; [right|now left].
  assert (N : named d 1) by (destruct Hodd as [->|[->| ->]]; unfold named; tauto).
  assert (N2 : n_params d = 2%nat) by (destruct Hodd as [->|[->| ->]]; reflexivity).
  assert (Hp : (1 < n_params d)%nat) by lia.
  destruct (Ho _ _ _ _ Em) as (Hw & v & Hv & Hmin).
  unfold link_bounds in Hw, Hmin. rewrite N2 in Hw, Hmin. cbn [Nat.sub seq map] in Hw, Hmin.
  assert (exists z, x = [z] /\ within (link_support (nth 1 links Identity)) z) as (z & -> & Hz).
  { inversion Hw as [|? z ? l' A B]; subst. inversion B; subst. eauto. }
  assert (O : forall x', match mle_objective lgam d c ys fixed 1 [x'] with Ok v => v | Raise _ => None end
     = omap Ropp (sum_option (map2 (fun y th => at_params y (cond_params d 1 [x'] th)) ys fv))).
  { intros x'. rewrite (objective_named d 1 c [x'] ys fv fixed N Hp Ec); [reflexivity|rewrite N2; reflexivity|exact Ef]. }
  assert (Pos : forall x', 0 < x' -> match mle_objective lgam d c ys fixed 1 [x'] with Ok v => v | Raise _ => None end
     = omap Ropp (loglik lgam d ys (map (misread d x') fv))).
  { intros x' Hx'. rewrite O. rewrite (sum_loglik d ys _ (misread d x')); [reflexivity|].
    intros y th Hin. apply odd_row; auto. right. rewrite Forall_forall in V. now apply V. }
  assert (Pz : 0 < z).
  { destruct (Rle_dec z 0) as [Hz0|]; [|lra]. exfalso. rewrite O in Hv.
    destruct fv as [|th fv]; [contradiction|]. destruct ys as [|y ys]; [discriminate|].
    cbn [map2 sum_option] in Hv. rewrite (odd_negative d z th y Hodd Hz0) in Hv. discriminate. }
  rewrite (Pos z Pz) in Hv. destruct (loglik lgam d ys (map (misread d z) fv)) as [L|] eqn:EL; [|discriminate].
  cbn in Hv. injection Hv as <-. exists z, L. split; [exact Pz|]. split; [rewrite <- N2; apply replace_rows|].
  split; [exact Hz|]. split; [exact EL|].
  intros x' L' Hx' Hw' E'. specialize (Hmin [x'] (- L')). rewrite (Pos x' Hx'), E' in Hmin.
  specialize (Hmin ltac:(repeat constructor; apply Hw') eq_refl). lra.
Qed.

(** Normal likelihood in closed form. *)
Lemma normal_loglik x ys : forall fv, 0 < x -> List.length ys = List.length fv ->
  loglik lgam NormalMeanVariance ys (map (misread NormalMeanVariance x) fv)
  = Some (- squares ys fv / (2 * x ^ 2) - INR (List.length ys) * (ln (sqrt (2 * PI)) + ln x)).
Proof.
  induction ys as [|y ys IH]; intros [|th fv] Hx Hl; try discriminate.
  - cbn [loglik map squares List.length INR]. f_equal. field. nra.
  - cbn [map loglik]. rewrite (IH fv Hx) by (cbn in Hl; lia).
    unfold logpdf, scipy_logpdf_of. cbn [scipy_params misread]. unfold scipy_logpdf. cbn [shapes_ok family_support].
    replace (sqrt (x ^ 2)) with x by (symmetry; rewrite <- Rsqr_pow2; now apply sqrt_Rsqr, Rlt_le).
    rewrite (proj2 (Rltb_true _ _) Hx). cbn [andb std_logpdf]. f_equal.
    change (List.length (y :: ys)) with (S (List.length ys)). rewrite S_INR. cbn [squares]. field. nra.
Qed.
Lemma best_scale S n x x0 : 0 < S -> 0 < n -> 0 < x -> 0 < x0 -> x0 ^ 2 = S / n ->
  forall k, - S / (2 * x0 ^ 2) - n * (k + ln x0) <= - S / (2 * x ^ 2) - n * (k + ln x) -> x = x0.
Proof.
  intros HS Hn Hx Hx0 E k H.
  assert (ES : S = n * x0 ^ 2) by (rewrite E; field; lra). subst S.
  destruct (Req_dec x x0) as [|Ne]; [assumption|exfalso].
  set (t := x0 / x). assert (Ht : 0 < t) by now apply div_pos.
  assert (Lt : ln t <> 0).
  { intros L0. rewrite <- ln_1 in L0. apply ln_inv in L0; [|exact Ht|lra]. apply Ne. unfold t in L0. apply (f_equal (fun r => r * x)) in L0.
    unfold Rdiv in L0. rewrite Rmult_assoc, Rinv_l in L0 by lra. lra. }
  assert (K : 1 + 2 * ln t < t ^ 2).
  { replace (t ^ 2) with (exp (2 * ln t)). { apply exp_ineq1. lra. }
    replace (2 * ln t) with (ln t + ln t) by ring. rewrite exp_plus, exp_ln by exact Ht. ring. }
  assert (Lx : ln t = ln x0 - ln x) by (unfold t, Rdiv; rewrite ln_mult, ln_Rinv; auto; now apply Rinv_0_lt_compat).
  replace (- (n * x0 ^ 2) / (2 * x0 ^ 2)) with (- (n * (1 / 2))) in H by (field; lra).
  replace (- (n * x0 ^ 2) / (2 * x ^ 2)) with (- (n * (t ^ 2 / 2))) in H by (unfold t; field; lra).
  assert (n * (1 / 2 + ln t) < n * (t ^ 2 / 2)); [apply Rmult_lt_compat_l; lra|].
  rewrite Lx in *. nra.
Qed.
Lemma C92_variance_lemma links ys fv fv' : List.Forall (valid_theta NormalMeanVariance) fv -> List.length ys = List.length fv ->
  0 < squares ys fv -> within (link_support (nth 1 links Identity)) (sqrt (squares ys fv / INR (List.length ys))) ->
  cs NormalMeanVariance links ys fv 1 = Ok fv' ->
  fv' = fv \/ List.Forall2 (fun th th' : theta => th' 0%nat = th 0%nat /\ th' 1%nat = sqrt (squares ys fv / INR (List.length ys))) fv fv'.
Proof.
  intros V Hl HS Hw H. destruct (C92_misread_lemma NormalMeanVariance links ys fv fv' (or_introl eq_refl) V Hl H) as [E|(x & L & Px & Hr & Hwx & EL & Hbest)]; [now left|right].
  assert (Hn : 0 < INR (List.length ys)).
  { destruct ys; [cbn in HS; lra|]. apply lt_0_INR. cbn. lia. }
  set (x0 := sqrt (squares ys fv / INR (List.length ys))) in *.
  assert (P0 : 0 < x0) by (apply sqrt_lt_R0; now apply div_pos).
  assert (S0 : x0 ^ 2 = squares ys fv / INR (List.length ys)) by (apply pow2_sqrt; left; now apply div_pos).
  rewrite (normal_loglik x ys fv Px Hl) in EL. injection EL as EL.
  specialize (Hbest x0 _ P0 Hw (normal_loglik x0 ys fv P0 Hl)). rewrite <- EL in Hbest.
  pose proof (best_scale _ _ x x0 HS Hn Px P0 S0 _ Hbest) as ->. clearbody x0. clear -Hr.
  revert fv' Hr. induction fv as [|th fv IH]; intros fv' Hr; inversion Hr as [|a b f g Hab Hr' E1 E2]; subst; constructor.
  - split; [exact (Hab 0%nat)|exact (Hab 1%nat)].
  - now apply IH.
Qed.
End Conditional.

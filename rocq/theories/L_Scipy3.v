(** Lemmas on means, random variates and impossible conditional start values. *)
From Coq Require Import Reals List Bool Arith Lia Lra String.
From Verif Require Import Base Lin M_Links M_DistTable M_Dist M_Mixed M_Scipy S_Dist S_Mixed S_Scipy L_Dist1 L_Mixed L_Scipy L_Scipy2.
Import ListNotations.
Open Scope R_scope.

(** ** Means *)
Lemma score_mean E a b : expectation E -> a <> 0 -> E (fun y => a * (y - b)) = 0 -> E (fun y => y) = b.
Proof.
  intros [Hx Hl] Ha H.
  rewrite (Hx (fun y => a * (y - b)) (fun y => a * y + - (a * b))) in H by (intros; ring). rewrite Hl in H.
  apply (Rmult_eq_reg_l a); [lra|exact Ha].
Qed.
Lemma C88_score_lemma euler dg d th E : linear_score d -> valid_theta d th -> expectation E ->
  E (fun y => score dg d y th 0) = 0 -> expected_mean euler d th = Some (E (fun y => y)).
Proof.
  intros Hd V HE H.
  assert (K : exists a, a <> 0 /\ forall y, score dg d y th 0 = a * (y - th 0%nat)).
  { destruct Hd as [->|[->|[->|[->| ->]]]]; cbn [valid_theta] in V; cbn [score gamma_score].
    - exists (1 / th 1%nat ^ 2). split; [|reflexivity]. assert (0 < 1 / th 1%nat ^ 2); [|lra]. apply div_pos; [lra|now apply sq_pos].
    - exists (1 / th 1%nat). split; [|reflexivity]. assert (0 < 1 / th 1%nat); [|lra]. apply div_pos; lra.
    - assert (P : 0 < th 1%nat ^ 2 * th 0%nat ^ 3) by (apply Rmult_lt_0_compat; apply pow_lt; tauto).
      exists (1 / (th 1%nat ^ 2 * th 0%nat ^ 3)). split; [|intros; field; nra].
      assert (0 < 1 / (th 1%nat ^ 2 * th 0%nat ^ 3)); [|lra]. now apply div_pos; [lra|].
    - exists (1 / th 0%nat ^ 2). split; [|intros; field; lra].
      assert (0 < 1 / th 0%nat ^ 2); [|lra]. apply div_pos; [lra|now apply sq_pos].
    - assert (P : 0 < th 1%nat ^ 2 * th 0%nat ^ 2) by (apply Rmult_lt_0_compat; apply pow_lt; tauto).
      exists (1 / (th 1%nat ^ 2 * th 0%nat ^ 2)). split; [|intros; field; nra].
      assert (0 < 1 / (th 1%nat ^ 2 * th 0%nat ^ 2)); [|lra]. now apply div_pos; [lra|]. }
  destruct K as (a & Ha & K). rewrite (ex_ext E HE _ _ K) in H. apply (score_mean E a _ HE Ha) in H.
  rewrite H. destruct Hd as [->|[->|[->|[->| ->]]]]; reflexivity.
Qed.

Lemma C88_symmetric_lemma lgam d th t : symmetric_family d -> valid_theta d th ->
  logpdf lgam d (th 0%nat + t) th = logpdf lgam d (th 0%nat - t) th.
Proof.
  intros Hd V.
  assert (N : forall s, 0 < s -> (th 0%nat - t - th 0%nat) / s = - ((th 0%nat + t - th 0%nat) / s)) by (intros; field; lra).
  destruct Hd as [->|[->|[->| ->]]]; cbn [valid_theta] in V; unfold logpdf, scipy_logpdf_of; cbn [scipy_params]; unfold scipy_logpdf; cbn [shapes_ok family_support std_logpdf].
  - rewrite (N _ V). now rewrite <- (Rsqr_pow2 (- _)), <- Rsqr_neg, Rsqr_pow2.
  - rewrite (N _ (sqrt_lt_R0 _ V)). now rewrite <- (Rsqr_pow2 (- _)), <- Rsqr_neg, Rsqr_pow2.
  - rewrite (N _ V). set (x := (th 0%nat + t - th 0%nat) / th 1%nat). rewrite Ropp_involutive.
    rewrite (proj2 (Rltb_true _ _) V). cbn [andb]. do 2 f_equal.
    assert (E : ln (1 + exp x) = ln (1 + exp (- x)) + x); [|lra].
    rewrite <- (ln_exp x) at 3. pose proof (exp_pos x). pose proof (exp_pos (- x)). rewrite <- ln_mult by lra. f_equal.
    rewrite Rmult_plus_distr_r, <- exp_plus. replace (- x + x) with 0 by ring. rewrite exp_0. ring.
  - rewrite (N _ (proj1 V)). now rewrite <- (Rsqr_pow2 (- _)), <- Rsqr_neg, Rsqr_pow2.
Qed.

(** ** Conditional start values that cannot be computed *)
Lemma C93_raises_lemma lgam minimise d links ys fv p : no_start d -> (p < n_params d)%nat ->
  exists x, conditional_start lgam minimise d links ys fv p = Raise x.
Proof.
  intros H Hp. unfold conditional_start. destruct fv as [|th fv].
  { destruct (scipy_dist d); eexists; reflexivity. }
  destruct H as [->|[->|H]]; cbn in Hp.
  3: { rewrite mixed_iff in H. rewrite H. eexists; reflexivity. }
  all: cbv zeta; cbn [scipy_dist map_res]; unfold fixed_params; cbn [theta_to_scipy_params bind];
    destruct p as [|[|p]]; try lia; eexists; reflexivity.
Qed.

(** ** Random variates *)
Lemma map2_nth_error {A B C} (f : A -> B -> C) l : forall m i, nth_error (map2 f l m) i =
  match nth_error l i, nth_error m i with Some a, Some b => Some (f a b) | _, _ => None end.
Proof.
  induction l as [|a l IH]; intros [|b m] [|i]; cbn; try reflexivity.
  - destruct (nth_error l i); reflexivity.
  - apply IH.
Qed.
Lemma nth_error_seq n i : (i < n)%nat -> nth_error (seq 0 n) i = Some i.
Proof. intros H. rewrite (nth_error_nth' _ O) by now rewrite seq_length. now rewrite seq_nth. Qed.

Section Rvs.
Variables (std_cdf : family -> R -> R) (std_ppf : family -> R -> option R) (draw : family -> nat -> nat -> R).

Lemma C91_scipy_lemma d size fv : ~ mixed d -> List.Forall (valid_theta d) fv ->
  exists out, scipy_rvs draw d size fv = Ok out /\ List.length out = List.length fv /\
    forall i th, nth_error fv i = Some th -> exists row, nth_error out i = Some row /\ List.length row = size /\
      exists f loc scale, 0 < scale /\
        (has_own_cdf d = false -> forall y, dist_cdf std_cdf d y th = Some (std_cdf f ((y - loc) / scale))) /\
        forall k, (k < size)%nat -> exists v, nth_error row k = Some (Some v) /\
          forall y, v <= y <-> draw f k i <= (y - loc) / scale.
Proof.
  intros Hm V. rewrite mixed_iff in Hm. unfold scipy_rvs. destruct (scipy_dist d) as [c|] eqn:Ec; [|contradiction].
  assert (Hs : scipy_dist d <> None) by (rewrite Ec; discriminate).
  eexists. split; [reflexivity|]. split; [rewrite map2_length; rewrite seq_length; reflexivity|].
  intros i th Hi. rewrite Forall_forall in V. pose proof (V th (nth_error_In _ _ Hi)) as Vt.
  assert (Li : (i < List.length fv)%nat) by (apply nth_error_Some; congruence).
  rewrite map2_nth_error, (nth_error_seq _ _ Li), Hi. eexists. split; [reflexivity|].
  split; [now rewrite map_length, seq_length|].
  destruct (frozen_valid d th Hs Vt) as (f & loc & scale & E & _ & Hsc & Hsh).
  exists f, loc, scale. split; [exact Hsc|]. split.
  - intros Ho y. unfold dist_cdf. rewrite Ho, E. now rewrite (located_ok _ _ _ _ Hsc Hsh).
  - intros k Hk. exists (loc + scale * draw f k i). split.
    + rewrite nth_error_map, (nth_error_seq _ _ Hk). cbn. rewrite E. now rewrite (located_ok _ _ _ _ Hsc Hsh).
    + intros y. split; intros A.
      * apply (Rmult_le_reg_l scale); [exact Hsc|]. replace (scale * ((y - loc) / scale)) with (y - loc) by (field; lra). lra.
      * apply (Rmult_le_compat_l scale) in A; [|lra]. replace (scale * ((y - loc) / scale)) with (y - loc) in A by (field; lra). lra.
Qed.

Hypothesis L : scipy_laws std_cdf std_ppf.
Lemma C91_mixed_lemma d u fv out i th ui : List.length u = List.length fv -> valid_theta d th ->
  mixed_rvs std_ppf d u fv = Ok out -> nth_error fv i = Some th -> nth_error u i = Some ui -> 0 < ui < 1 ->
  List.length out = List.length fv /\
  exists v, nth_error out i = Some (Some v) /\ is_quantile (cdf_domain d) (fun y => dist_cdf std_cdf d y th) ui v.
Proof.
  intros Hl V H Hi Hu Hq. unfold mixed_rvs, broadcast in H. rewrite (proj2 (Nat.eqb_eq _ _) Hl) in H. injection H as <-.
  split; [rewrite map2_length; [exact Hl|exact Hl]|].
  destruct (C90_quantile_lemma std_cdf std_ppf L d th ui V Hq) as (v & E & K).
  exists v. split; [|exact K]. rewrite map2_nth_error, Hu, Hi. now rewrite E.
Qed.
Lemma C91_shared_lemma d u th0 fv : 
  mixed_rvs std_ppf d [u] (th0 :: fv) = Ok (map (dist_ppf std_ppf d u) (th0 :: fv)).
Proof. unfold mixed_rvs, broadcast. destruct fv; reflexivity. Qed.
Lemma C91_shape_lemma d u fv : List.length u <> 1%nat -> List.length fv <> 1%nat -> List.length u <> List.length fv ->
  mixed_rvs std_ppf d u fv = Raise ValueError.
Proof.
  intros H1 H2 H3. unfold mixed_rvs, broadcast. rewrite (proj2 (Nat.eqb_neq _ _) H3).
  destruct u as [|a [|a' u]], fv as [|b [|b' fv]]; cbn in *; try lia; reflexivity.
Qed.
End Rvs.

Lemma C88_mean_score_lemma euler dg d th E : linear_score d -> valid_theta d th -> expectation E ->
  E (fun y => score dg d y th 0) = 0 -> dist_mean euler d th = Ok (Some (E (fun y => y))).
Proof.
  intros Hd V HE H. rewrite <- (C88_score_lemma euler dg d th E Hd V HE H). apply C88_values_lemma; auto.
  - intros [K|[K|K]]; destruct Hd as [->|[->|[->|[->| ->]]]]; discriminate.
  - intros ->. destruct Hd as [K|[K|[K|[K|K]]]]; discriminate.
Qed.
Lemma C88_centre_lemma lgam euler d th v : symmetric_family d -> valid_theta d th -> dist_mean euler d th = Ok (Some v) ->
  forall t, logpdf lgam d (v + t) th = logpdf lgam d (v - t) th.
Proof.
  intros Hd V H t.
  rewrite C88_values_lemma in H; auto.
  - assert (v = th 0%nat) as ->; [|now apply C88_symmetric_lemma].
    destruct Hd as [->|[->|[->| ->]]]; cbn [expected_mean] in H; try congruence.
    destruct (Rltb 1 (th 2%nat)); congruence.
  - intros [K|[K|K]]; destruct Hd as [->|[->|[->| ->]]]; discriminate.
  - intros ->. destruct Hd as [K|[K|[K|K]]]; discriminate.
Qed.
Lemma C91_mixed_shape_lemma std_ppf d u fv :
  (List.length u <> 1 -> List.length fv <> 1 -> List.length u <> List.length fv ->
     mixed_rvs std_ppf d u fv = Raise ValueError)%nat /\
  (forall a, u = [a] -> fv <> [] -> mixed_rvs std_ppf d u fv = Ok (map (dist_ppf std_ppf d a) fv)).
Proof.
  split; [apply C91_shape_lemma|]. intros a -> H. destruct fv as [|th fv]; [contradiction|]. apply C91_shared_lemma.
Qed.

(** Lemmas: what the initial values match. *)
From Coq Require Import Reals List Bool Arith Lra Lia Permutation Sorted.
From Verif Require Import Base Lin M_Links M_DistTable M_Dist M_Init L_Init.
Import ListNotations.
Open Scope R_scope.

Lemma total_lsum l : total l = lsum l.
Proof. induction l as [|a l IH]; [reflexivity|]. cbn. unfold total in IH. now rewrite IH. Qed.
Lemma npdiv_val a b r : npdiv a b = Some r -> b * r = a.
Proof. unfold npdiv. rcase; [discriminate|]. intros H. injection H as <-. field. auto. Qed.
Lemma np_mean_val l m : np_mean l = Some m -> INR (length l) * m = lsum l.
Proof. unfold np_mean. intros H. apply npdiv_val in H. now rewrite total_lsum in H. Qed.
Lemma np_var_val ddof l v : np_var ddof l = Some v -> exists m, np_mean l = Some m /\
  (ddof < length l)%nat /\ (INR (length l) - INR ddof) * v = lsum (map (fun x => (x - m) ^ 2) l).
Proof.
  unfold np_var. destruct (np_mean l) as [m|]; [|discriminate]. cbn [obind]. intros H. exists m. split; [reflexivity|].
  destruct (Nat.leb_spec (length l) ddof); [discriminate|]. split; [assumption|].
  apply npdiv_val in H. rewrite total_lsum, minus_INR in H by lia. exact H.
Qed.
Lemma npsqrt_val x r : npsqrt x = Some r -> 0 <= r /\ r ^ 2 = x.
Proof.
  unfold npsqrt. rcase; [discriminate|]. intros H. injection H as <-. split; [apply sqrt_pos|].
  match goal with H : ~ _ |- _ => apply Rnot_lt_le in H | H : 0 <= _ |- _ => idtac end. now rewrite pow2_sqrt.
Qed.
Lemma np_std_val ddof l s : np_std ddof l = Some s -> exists m, np_mean l = Some m /\ 0 <= s /\
  (INR (length l) - INR ddof) * s ^ 2 = lsum (map (fun x => (x - m) ^ 2) l).
Proof.
  unfold np_std. destruct (np_var ddof l) as [v|] eqn:E; [|discriminate]. cbn [obind]. intros H.
  apply npsqrt_val in H. destruct H as [H1 H2]. apply np_var_val in E. destruct E as (m & Em & _ & E).
  exists m. rewrite H2. auto.
Qed.
Lemma np_logs_val l : forall r, np_logs l = Some r -> r = map ln l /\ Forall (fun x => 0 < x) l.
Proof.
  induction l as [|x l IH]; intros r H; cbn in H; [injection H as <-; auto|].
  unfold nplog in H. destruct (Rltb 0 x) eqn:E; [|cbn in H; try discriminate].
  - apply Rltb_true in E. cbn [obind] in H. destruct (np_logs l) as [r'|]; [|discriminate]. cbn in H. injection H as <-.
    destruct (IH r' eq_refl) as [-> H]. split; [reflexivity|]. constructor; assumption.
Qed.

(** * Sorting *)
Lemma insert_perm x l : Permutation (insert x l) (x :: l).
Proof.
  induction l as [|y l IH]; cbn; [apply Permutation_refl|]. destruct (Rleb x y); [apply Permutation_refl|].
  eapply Permutation_trans; [apply perm_skip, IH|apply perm_swap].
Qed.
Lemma sorted_perm l : Permutation (sorted l) l.
Proof. induction l as [|x l IH]; [apply Permutation_refl|]. cbn. eapply Permutation_trans; [apply insert_perm|apply perm_skip, IH]. Qed.
Lemma insert_sorted x l : StronglySorted Rle l -> StronglySorted Rle (insert x l).
Proof.
  induction l as [|y l IH]; intros H; cbn; [repeat constructor|].
  apply StronglySorted_inv in H. destruct H as [H1 H2].
  destruct (Rleb x y) eqn:E.
  - apply Rleb_true in E. constructor; [constructor; assumption|]. constructor; [exact E|].
    eapply Forall_impl; [|exact H2]. cbn. intros. lra.
  - assert (y <= x). { destruct (Rle_dec x y) as [L|L]; [apply Rleb_true in L; congruence|lra]. }
    constructor; [apply IH, H1|]. eapply Permutation_Forall; [apply Permutation_sym, insert_perm|]. constructor; assumption.
Qed.
Lemma sorted_sorted l : StronglySorted Rle (sorted l).
Proof. induction l as [|x l IH]; [constructor|]. cbn. apply insert_sorted, IH. Qed.
Lemma sorted_unique a : forall b, StronglySorted Rle a -> StronglySorted Rle b -> Permutation a b -> a = b.
Proof.
  induction a as [|x a IH]; intros b Ha Hb P; [symmetry; now apply Permutation_nil|].
  destruct b as [|y b]; [apply Permutation_sym, Permutation_nil in P; discriminate|].
  apply StronglySorted_inv in Ha, Hb. destruct Ha as [Ha1 Ha2], Hb as [Hb1 Hb2].
  assert (x = y).
  { assert (In x (y :: b)) by (eapply Permutation_in; [exact P|left; reflexivity]).
    assert (In y (x :: a)) by (eapply Permutation_in; [apply Permutation_sym; exact P|left; reflexivity]).
    rewrite Forall_forall in Ha2, Hb2. destruct H as [->|H]; [reflexivity|]. destruct H0 as [->|H0]; [reflexivity|].
    specialize (Ha2 _ H0). specialize (Hb2 _ H). lra. }
  subst y. f_equal. apply IH; auto. eapply Permutation_cons_inv. exact P.
Qed.

Lemma C69_location_lemma fit_t fit_jsu gamlss d ys y mu rest :
  In d [Normal; NormalMeanVariance; Logistic; Gumbel; InverseGaussian; Exponential; Gamma; InverseGamma; Beta; BetaInflated; BetaInflatedZero; ZeroAdjustedGamma] ->
  initial_values fit_t fit_jsu gamlss d ys y = Some mu :: rest -> INR (length ys) * mu = lsum ys.
Proof.
  intros Hd H. apply np_mean_val.
  destruct d; cbn [In] in Hd; try (exfalso; intuition discriminate); cbn [initial_values] in H; injection H as -> _; reflexivity.
Qed.

(** The standard deviation of the initial values times the root of the mean. *)
Lemma C69_scale_lemma fit_t fit_jsu gamlss d ys y mu v :
  initial_values fit_t fit_jsu gamlss d ys y = [Some mu; Some v] ->
  let n := INR (length ys) in let dev := lsum (map (fun x => (x - mu) ^ 2) ys) in
  match d with
  | Normal => 0 <= v /\ (n - 1) * v ^ 2 = dev
  | NormalMeanVariance => (n - 1) * v = dev
  | Logistic => 0 <= v /\ (n - 1) * (PI * v ^ 2 / 3) = dev
  | Gumbel => 0 <= v /\ n * (PI ^ 2 * v ^ 2 / 6) = dev
  | InverseGaussian => 0 <= v /\ n * (mu * v ^ 2) = dev
  | InverseGamma => 0 <= v /\ (n - 1) * (mu * v ^ 2) = dev
  | LogNormal => n * mu = lsum (map ln ys) /\ 0 <= v /\ (n - 1) * v ^ 2 = lsum (map (fun x => (ln x - mu) ^ 2) ys)
  | LogNormalMedian =>
      (forall s, Permutation s ys -> StronglySorted Rle s ->
         2 * ln mu = ln (nth ((length ys - 1) / 2) s 0) + ln (nth (length ys / 2) s 0)) /\
      0 <= v /\ n * v ^ 2 = lsum (map (fun x => (ln x - lsum (map ln ys) / n) ^ 2) ys)
  | _ => True
  end.
Proof.
  intros H n dev. pose proof PI_RGT_0 as HPI.
  assert (S3 : sqrt 3 ^ 2 = 3) by (apply pow2_sqrt; lra). assert (S6 : sqrt 6 ^ 2 = 6) by (apply pow2_sqrt; lra).
  assert (SP : sqrt PI ^ 2 = PI) by (apply pow2_sqrt; lra).
  assert (P1 : 0 < sqrt PI) by (apply sqrt_lt_R0; lra). assert (P2 : 0 < sqrt 3) by (apply sqrt_lt_R0; lra). assert (P3 : 0 < sqrt 6) by (apply sqrt_lt_R0; lra).
  destruct d; cbn [initial_values] in H; try exact I; injection H as E1 E2.
  - apply np_std_val in E2. destruct E2 as (m & E & K1 & K2). rewrite E1 in E. injection E as <-. cbn [INR] in K2. auto.
  - apply np_var_val in E2. destruct E2 as (m & E & _ & K2). rewrite E1 in E. injection E as <-. cbn [INR] in K2. exact K2.
  - destruct (np_logs ys) as [l|] eqn:El; [|discriminate]. cbn [obind] in *. apply np_logs_val in El. destruct El as [-> _].
    apply np_std_val in E2. destruct E2 as (m & E & K1 & K2). rewrite E1 in E. injection E as <-. apply np_mean_val in E1.
    rewrite map_length in *. rewrite map_map in K2. cbn [INR] in K2. auto.
  - destruct (np_logs ys) as [l|] eqn:El; [|discriminate]. cbn [obind] in *. apply np_logs_val in El. destruct El as [-> Hpos].
    apply np_std_val in E2. destruct E2 as (m & E & K1 & K2). apply np_mean_val in E. rewrite map_length in *. cbn [INR] in K2. rewrite map_map in K2.
    destruct (np_median (map ln ys)) as [md|] eqn:Em; [|discriminate]. cbn [omap] in E1. injection E1 as <-. rewrite ln_exp.
    unfold np_median in Em. rewrite map_length in Em.
    destruct (length ys) as [|k] eqn:Hl; [discriminate|].
    assert (Emd : md = (nth ((S k - 1) / 2) (sorted (map ln ys)) 0 + nth (S k / 2) (sorted (map ln ys)) 0) / 2) by congruence. clear Em. subst md.
    assert (Hn : 0 < INR (S k)) by apply lt_0_INR, Nat.lt_0_succ.
    split.
    + intros t Pt St.
      assert (Es : sorted (map ln ys) = map ln t).
      { apply sorted_unique; [apply sorted_sorted| |eapply Permutation_trans; [apply sorted_perm|apply Permutation_sym, Permutation_map, Pt]].
        assert (Hp : Forall (fun x => 0 < x) t) by (eapply Permutation_Forall; [apply Permutation_sym; exact Pt|exact Hpos]).
        clear - St Hp. induction St as [|a t H IH F]; cbn; [constructor|]. inversion Hp as [|? ? Ha Hp']; subst.
        constructor; [auto|]. rewrite Forall_map. rewrite Forall_forall in *. intros x Hx. specialize (F x Hx). specialize (Hp' x Hx).
        destruct (Rle_lt_or_eq_dec a x F) as [L| ->]; [left; now apply ln_increasing|lra]. }
      assert (Lt : length t = S k) by (rewrite <- Hl; apply Permutation_length, Pt).
      rewrite Es.
      assert (Q : forall i, (i < S k)%nat -> nth i (map ln t) 0 = ln (nth i t 0)).
      { intros i Hi. rewrite (nth_indep _ 0 (ln 0)) by (rewrite map_length; lia). apply map_nth. }
      rewrite (Q ((S k - 1) / 2)%nat), (Q (S k / 2)%nat); [field| |].
      * apply Nat.div_lt_upper_bound; lia.
      * apply Nat.div_lt_upper_bound; lia.
    + split; [exact K1|]. unfold n. rewrite Rminus_0_r in K2. rewrite K2. f_equal. apply map_ext. intros x. f_equal. f_equal. rewrite <- E. field. lra.
  - destruct (np_std 1 ys) as [s|] eqn:Es; [|discriminate]. cbn [omap] in E2. injection E2 as <-.
    apply np_std_val in Es. destruct Es as (m & E & K1 & K2). rewrite E1 in E. injection E as <-. cbn [INR] in K2. unfold n, dev. rewrite <- K2. split.
    + unfold Rdiv. apply Rmult_le_pos; [nra|]. apply Rlt_le, Rinv_0_lt_compat, P1.
    + replace ((sqrt 3 * s / sqrt PI) ^ 2) with (sqrt 3 ^ 2 * s ^ 2 / sqrt PI ^ 2) by (field; lra). rewrite S3, SP. field. lra.
  - destruct (np_std 0 ys) as [s|] eqn:Es; [|discriminate]. cbn [omap] in E2. injection E2 as <-.
    apply np_std_val in Es. destruct Es as (m & E & K1 & K2). rewrite E1 in E. injection E as <-. cbn [INR] in K2. unfold n, dev. rewrite <- K2. split.
    + unfold Rdiv. apply Rmult_le_pos; [nra|]. apply Rlt_le, Rinv_0_lt_compat, HPI.
    + replace ((sqrt 6 * s / PI) ^ 2) with (sqrt 6 ^ 2 * s ^ 2 / PI ^ 2) by (field; lra). rewrite S6. field. lra.
  - destruct (np_std 0 ys) as [s|] eqn:Es; [|discriminate]. rewrite E1 in E2. cbn [obind] in E2.
    apply np_std_val in Es. destruct Es as (m & E & K1 & K2). rewrite E1 in E. injection E as <-. cbn [INR] in K2.
    destruct (npsqrt mu) as [r|] eqn:Er; [|discriminate]. cbn [obind] in E2. apply npsqrt_val in Er. destruct Er as [R1 R2].
    assert (r <> 0) by (unfold npdiv in E2; intros ->; rewrite (proj2 (Reqb_true 0 0) eq_refl) in E2; discriminate).
    apply npdiv_val in E2. unfold n, dev. rewrite <- K2, <- E2, <- R2. split; [|ring].
    assert (0 < r) by lra. apply Rmult_le_reg_l with r; [assumption|]. lra.
  - destruct (np_std 1 ys) as [s|] eqn:Es; [|discriminate]. rewrite E1 in E2. cbn [obind] in E2.
    apply np_std_val in Es. destruct Es as (m & E & K1 & K2). rewrite E1 in E. injection E as <-. cbn [INR] in K2.
    destruct (npsqrt mu) as [r|] eqn:Er; [|discriminate]. cbn [obind] in E2. apply npsqrt_val in Er. destruct Er as [R1 R2].
    assert (r <> 0) by (unfold npdiv in E2; intros ->; rewrite (proj2 (Reqb_true 0 0) eq_refl) in E2; discriminate).
    apply npdiv_val in E2. unfold n, dev. rewrite <- K2, <- E2, <- R2. split; [|ring].
    assert (0 < r) by lra. apply Rmult_le_reg_l with r; [assumption|]. lra.
Qed.

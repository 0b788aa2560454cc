(** The sums of [fit] and the exact moments. *)
From Coq Require Import ZArith Reals List Bool Arith Lia Lra Psatz.
From Flocq Require Import Core BinarySingleNaN.
From Verif Require Import Base Lin Data S_Gram L_Gram S_Scaler L_Scaler M_Float S_Float S_FloatScaler L_Float L_Float2 L_Float3 L_Float5 L_Float6 L_FloatS.
Import ListNotations.
Open Scope R_scope.

Notation delta := (bpow radix2 (-870)).

(** Bounds on the exact moments. *)
Lemma dsum_le {A} g (f h : A -> R) l : 0 <= g -> (forall a, In a l -> f a <= h a) -> dsum g f l <= dsum g h l.
Proof.
  intros Hg. induction l as [|a l IH]; intros H; simpl; [lra|].
  assert (dsum g f l <= dsum g h l) by (apply IH; intros; apply H; right; auto).
  assert (0 <= g ^ length l) by (apply pow_le; auto).
  assert (g ^ length l * f a <= g ^ length l * h a) by (apply Rmult_le_compat_l; auto; apply H; left; auto). lra.
Qed.
Lemma dsum_abs {A} g (f h : A -> R) l : 0 <= g -> (forall a, In a l -> Rabs (f a) <= h a) -> Rabs (dsum g f l) <= dsum g h l.
Proof.
  intros Hg H. apply Rabs_le. split.
  - rewrite <- (Rmult_1_l (dsum g h l)). rewrite Ropp_mult_distr_l. rewrite <- dsum_scal. apply dsum_le; auto.
    intros a Ha. specialize (H a Ha). apply Rabs_le_inv in H. lra.
  - apply dsum_le; auto. intros a Ha. specialize (H a Ha). apply Rabs_le_inv in H. lra.
Qed.

Lemma in_frows l o X : Forall (row_ok X) l -> In o (frows l) ->
  Rabs (ox o 0%nat) <= X /\ bpow radix2 (-100) <= ow o <= bpow radix2 100.
Proof.
  intros F H. unfold frows in H. apply in_map_iff in H. destruct H as (xw & <- & Hi).
  rewrite Forall_forall in F. destruct (F xw Hi) as (_ & H1 & _ & H2). auto.
Qed.

Lemma frows_snoc l xw : frows (l ++ [xw]) = frows l ++ [mkobs (fun _ => B2R (fst xw)) 0 (B2R (snd xw))].
Proof. unfold frows. rewrite map_app. reflexivity. Qed.
Lemma wtotal_snoc f l xw : wtotal f (frows (l ++ [xw])) = (1 - f) * wtotal f (frows l) + B2R (snd xw).
Proof. unfold wtotal. rewrite frows_snoc, dsum_app. cbn [dsum length ow ox pow]. ring. Qed.
Lemma wtotal_range f X l : 0 <= f <= 1 -> Forall (row_ok X) l -> l <> [] ->
  bpow radix2 (-100) <= wtotal f (frows l) <= INR (length l) * bpow radix2 100.
Proof.
  intros Hf. induction l as [|xw l IH] using rev_ind; intros F Hn; [congruence|].
  apply Forall_app in F. destruct F as [Fl F]. inversion F as [|? ? Fx _]; subst. destruct Fx as (_ & _ & _ & Hw).
  rewrite wtotal_snoc, app_length, plus_INR. cbn [length INR].
  destruct l as [|y l']; [unfold wtotal; cbn [app frows map dsum length ow ox fst snd pow INR]; lra|].
  assert (Q : y :: l' <> []) by discriminate. specialize (IH Fl Q).
  set (W := wtotal f (frows (y :: l'))) in *. set (n := INR (length (y :: l'))) in *.
  assert (0 <= f * W) by (apply Rmult_le_pos; [lra|]; pose proof (bpow_gt_0 radix2 (-100)); lra).
  assert (0 <= (1 - f) * W) by (apply Rmult_le_pos; [lra|]; pose proof (bpow_gt_0 radix2 (-100)); lra). lra.
Qed.

Lemma wmean_abs f X l : 0 <= f <= 1 -> Forall (row_ok X) l -> l <> [] -> Rabs (wmean f (frows l) 0) <= X.
Proof.
  intros Hf F Hn. destruct (wtotal_range f X l Hf F Hn) as [W0 _].
  assert (Wp : 0 < wtotal f (frows l)) by (pose proof (bpow_gt_0 radix2 (-100)); lra).
  unfold wmean, Rdiv. rewrite Rabs_mult, (Rabs_right (/ _)) by (apply Rle_ge, Rlt_le, Rinv_0_lt_compat; auto).
  apply Rmult_le_reg_r with (wtotal f (frows l)); auto. rewrite Rmult_assoc, Rinv_l, Rmult_1_r by lra.
  unfold wtotal at 1. rewrite <- dsum_scal. apply dsum_abs; [lra|].
  intros o Ho. destruct (in_frows l o X F Ho) as [H1 H2]. pose proof (bpow_gt_0 radix2 (-100)).
  rewrite Rabs_mult, (Rabs_right (ow o)) by lra. rewrite (Rmult_comm X). apply Rmult_le_compat_l; lra.
Qed.
Lemma wvar_abs f X l : 0 <= f <= 1 -> Forall (row_ok X) l -> l <> [] ->
  0 <= wvar f (frows l) 0 * wtotal f (frows l) <= 4 * (wtotal f (frows l) * (X * X)).
Proof.
  intros Hf F Hn. destruct (wtotal_range f X l Hf F Hn) as [W0 _].
  assert (Wp : 0 < wtotal f (frows l)) by (pose proof (bpow_gt_0 radix2 (-100)); lra).
  pose proof (wmean_abs f X l Hf F Hn) as Hm. apply Rabs_le_inv in Hm.
  unfold wvar, Rdiv. rewrite Rmult_assoc, Rinv_l, Rmult_1_r by lra. set (m := wmean f (frows l) 0) in *. split.
  - apply dsum_nonneg; [lra|]. intros o Ho. destruct (in_frows l o X F Ho) as [H1 H2]. pose proof (bpow_gt_0 radix2 (-100)).
    apply Rmult_le_pos; [lra|apply pow2_ge_0].
  - replace (4 * (wtotal f (frows l) * (X * X))) with (4 * (X * X) * wtotal f (frows l)) by ring.
    unfold wtotal. rewrite <- dsum_scal. apply dsum_le; [lra|].
    intros o Ho. destruct (in_frows l o X F Ho) as [H1 H2]. pose proof (bpow_gt_0 radix2 (-100)). apply Rabs_le_inv in H1.
    rewrite (Rmult_comm _ (ow o)). apply Rmult_le_compat_l; [lra|].
    replace (4 * (X * X)) with ((2 * X) ^ 2) by ring. apply pow_maj_Rabs. apply Rabs_le. lra.
Qed.

(** Welford's recursion. *)
Lemma exact_step f l xw : 0 < wtotal f (frows l) -> 0 < wtotal f (frows (l ++ [xw])) ->
  let m := wmean f (frows l) 0 in let m' := wmean f (frows (l ++ [xw])) 0 in
  let W := wtotal f (frows l) in let W' := wtotal f (frows (l ++ [xw])) in
  m' * W' = (1 - f) * (m * W) + B2R (fst xw) * B2R (snd xw) /\
  wvar f (frows (l ++ [xw])) 0 * W' = (1 - f) * (wvar f (frows l) 0 * W)
     + B2R (snd xw) * (B2R (fst xw) - m) * (B2R (fst xw) - m').
Proof.
  intros P P'. cbv zeta. set (W := wtotal f (frows l)) in *. set (W' := wtotal f (frows (l ++ [xw]))) in *.
  assert (T : W' = (1 - f) * W + B2R (snd xw)) by apply wtotal_snoc.
  assert (M1 : mom1 (1 - f) (frows (l ++ [xw])) 0 = (1 - f) * mom1 (1 - f) (frows l) 0 + B2R (fst xw) * B2R (snd xw)).
  { unfold mom1. rewrite frows_snoc, dsum_app. cbn [dsum length ow ox pow]. ring. }
  assert (M2 : mom2 (1 - f) (frows (l ++ [xw])) 0 = (1 - f) * mom2 (1 - f) (frows l) 0 + B2R (fst xw) ^ 2 * B2R (snd xw)).
  { unfold mom2. rewrite frows_snoc, dsum_app. cbn [dsum length ow ox pow]. ring. }
  assert (Em : forall k, wmean f k 0 = mom1 (1 - f) k 0 / wtotal f k) by reflexivity.
  pose proof (wvar_mom f (frows l) 0 ltac:(unfold W in P; lra)) as V. pose proof (wvar_mom f (frows (l ++ [xw])) 0 ltac:(unfold W' in P'; lra)) as V'.
  fold W in V. fold W' in V'. rewrite V, V', !Em. fold W W'. rewrite M2. split.
  - rewrite M1. field. split; lra.
  - rewrite M1. 
    assert (Hw : B2R (snd xw) = W' - (1 - f) * W) by lra. rewrite Hw.
    set (S := mom1 (1 - f) (frows l) 0). set (x := B2R (fst xw)). field. split; lra.
Qed.

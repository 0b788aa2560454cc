(** One-dimensional facts: soft thresholding and clipped minimisation. *)
From Coq Require Import Reals List Bool Arith Lia Lra Psatz.
From Verif Require Import Base Lin M_CD S_CD.
Open Scope R_scope.

Lemma rsign_abs x : rsign x * Rabs x = x.
Proof.
  unfold rsign. repeat rcase; unfold Rabs; destruct (Rcase_abs x); lra.
Qed.

(** Closed form of the soft threshold for [t >= 0]. *)
Lemma st_pos v t : 0 <= t -> t < v -> soft_threshold v t = v - t.
Proof.
  intros Ht H. unfold soft_threshold, rsign. rcase; [|lra].
  rewrite Rabs_right by lra. rewrite Rmax_left by lra. lra.
Qed.
Lemma st_neg v t : 0 <= t -> v < - t -> soft_threshold v t = v + t.
Proof.
  intros Ht H. unfold soft_threshold, rsign. rcase; [lra|]. rcase; [|lra].
  rewrite Rabs_left by lra. rewrite Rmax_left by lra. lra.
Qed.
Lemma st_zero v t : Rabs v <= t -> soft_threshold v t = 0.
Proof.
  intros H. unfold soft_threshold. rewrite Rmax_right by lra. lra.
Qed.
Lemma st_cases v t : 0 <= t ->
  (t < v /\ soft_threshold v t = v - t) \/
  (v < - t /\ soft_threshold v t = v + t) \/
  (Rabs v <= t /\ soft_threshold v t = 0).
Proof.
  intros Ht. destruct (Rlt_dec t v) as [H|H]; [left; auto using st_pos|].
  destruct (Rlt_dec v (- t)) as [H'|H']; [right; left; auto using st_neg|].
  assert (Rabs v <= t) by (apply Rabs_le; lra).
  right; right; auto using st_zero.
Qed.

Lemma st_zero_iff v t : 0 <= t -> (soft_threshold v t = 0 <-> Rabs v <= t).
Proof.
  intros Ht. destruct (st_cases v t Ht) as [[H E]|[[H E]|[H E]]]; rewrite E; split; intros K; try lra.
  - exfalso. rewrite Rabs_right in K; lra.
  - exfalso. rewrite Rabs_left in K; lra.
Qed.

Lemma st_odd v t : soft_threshold (- v) t = - soft_threshold v t.
Proof.
  unfold soft_threshold. rewrite Rabs_Ropp. unfold rsign. repeat rcase; lra.
Qed.

Lemma Rabs_ge v : v <= Rabs v /\ - v <= Rabs v.
Proof. unfold Rabs. destruct (Rcase_abs v); lra. Qed.
Lemma Rabs_le_inv' v t : Rabs v <= t -> - t <= v <= t.
Proof. intros H. destruct (Rabs_ge v). lra. Qed.

Lemma st_nonexpansive v w t : 0 <= t ->
  Rabs (soft_threshold v t - soft_threshold w t) <= Rabs (v - w).
Proof.
  intros Ht. pose proof (Rabs_ge (v - w)).
  destruct (st_cases v t Ht) as [[H1 E1]|[[H1 E1]|[H1 E1]]];
  destruct (st_cases w t Ht) as [[H2 E2]|[[H2 E2]|[H2 E2]]]; rewrite E1, E2;
  try (apply Rabs_le_inv' in H1); try (apply Rabs_le_inv' in H2); apply Rabs_le; lra.
Qed.

(** ** Minimisation of [1/2 d t^2 - c t + m |t|] *)
Definition f1 (d c m t : R) : R := 1 / 2 * d * t ^ 2 - c * t + m * Rabs t.

(** First-order (variational) inequality at [z]. *)
Definition vi (d c m z t : R) : Prop := 0 <= (d * z - c) * (t - z) + m * (Rabs t - Rabs z).

Lemma f1_gap d c m z t :
  f1 d c m t - f1 d c m z
  = ((d * z - c) * (t - z) + m * (Rabs t - Rabs z)) + 1 / 2 * d * (t - z) ^ 2.
Proof. unfold f1. field. Qed.

Lemma vi_st d c m t : 0 < d -> 0 <= m -> vi d c m (soft_threshold c m / d) t.
Proof.
  intros Hd Hm. unfold vi. pose proof (Rabs_ge t) as [T1 T2].
  destruct (st_cases c m Hm) as [[H E]|[[H E]|[H E]]]; rewrite E.
  - assert (Z : 0 < (c - m) / d) by (apply Rdiv_lt_0_compat; lra).
    rewrite (Rabs_right ((c - m) / d)) by lra.
    replace (d * ((c - m) / d) - c) with (- m) by (field; lra).
    replace (- m * (t - (c - m) / d) + m * (Rabs t - (c - m) / d)) with (m * (Rabs t - t)) by ring.
    apply Rmult_le_pos; lra.
  - assert (Z : 0 < - ((c + m) / d)).
    { replace (- ((c + m) / d)) with ((- c - m) / d) by (field; lra). apply Rdiv_lt_0_compat; lra. }
    rewrite (Rabs_left ((c + m) / d)) by lra.
    replace (d * ((c + m) / d) - c) with m by (field; lra).
    replace (m * (t - (c + m) / d) + m * (Rabs t - - ((c + m) / d))) with (m * (Rabs t + t)) by ring.
    apply Rmult_le_pos; lra.
  - replace (0 / d) with 0 by (field; lra). rewrite Rabs_R0.
    replace ((d * 0 - c) * (t - 0) + m * (Rabs t - 0)) with (m * Rabs t - c * t) by ring.
    assert (c * t <= Rabs c * Rabs t) by (rewrite <- Rabs_mult; apply Rabs_ge).
    assert (Rabs c * Rabs t <= m * Rabs t) by (apply Rmult_le_compat_r; [apply Rabs_pos|lra]).
    lra.
Qed.

(** Clipping keeps the variational inequality on the interval. *)
Definition between (x z y : R) : Prop := (x <= z /\ z <= y) \/ (y <= z /\ z <= x).

Lemma vi_between d c m s z t : 0 < d -> 0 <= m ->
  (forall u, vi d c m s u) -> between s z t -> vi d c m z t.
Proof.
  intros Hd Hm Hs Hb.
  destruct (Req_dec s t) as [->|Hst].
  { assert (z = t) by (destruct Hb; lra). subst. unfold vi. lra. }
  (* z = s + th (t - s) *)
  pose (th := (z - s) / (t - s)).
  assert (Ez : z = s + th * (t - s)) by (unfold th; field; lra).
  assert (Hth : 0 <= th <= 1).
  { unfold th. destruct Hb as [[? ?]|[? ?]].
    - split; [apply Rle_mult_inv_pos; lra|]. apply Rmult_le_reg_r with (t - s); [lra|].
      unfold Rdiv. rewrite Rmult_assoc, Rinv_l by lra. lra.
    - replace ((z - s) / (t - s)) with ((s - z) / (s - t)) by (field; lra).
      split; [apply Rle_mult_inv_pos; lra|]. apply Rmult_le_reg_r with (s - t); [lra|].
      unfold Rdiv. rewrite Rmult_assoc, Rinv_l by lra. lra. }
  pose proof (Hs t) as Ht. unfold vi in *.
  assert (Habs : Rabs z <= (1 - th) * Rabs s + th * Rabs t).
  { replace z with ((1 - th) * s + th * t) by (rewrite Ez; ring).
    eapply Rle_trans; [apply Rabs_triang|]. rewrite !Rabs_mult.
    rewrite (Rabs_right (1 - th)), (Rabs_right th) by lra. lra. }
  assert (Hm' : (1 - th) * (m * (Rabs t - Rabs s)) <= m * (Rabs t - Rabs z)).
  { replace ((1 - th) * (m * (Rabs t - Rabs s))) with (m * ((1 - th) * (Rabs t - Rabs s))) by ring.
    apply Rmult_le_compat_l; lra. }
  assert (Hq : (d * z - c) * (t - z) =
     (1 - th) * ((d * s - c) * (t - s)) + (1 - th) * th * (d * (t - s) ^ 2)).
  { rewrite Ez. ring. }
  assert (0 <= (1 - th) * th * (d * (t - s) ^ 2)).
  { apply Rmult_le_pos; [apply Rmult_le_pos; lra|]. apply Rmult_le_pos; [lra|apply pow2_ge_0]. }
  assert (0 <= (1 - th) * ((d * s - c) * (t - s) + m * (Rabs t - Rabs s)))
    by (apply Rmult_le_pos; lra).
  lra.
Qed.

Definition clip (lo up : option R) (v : R) : R := min_up (max_lo v lo) up.

Lemma clip_between lo up v t : above lo t -> below up t -> between v (clip lo up v) t.
Proof.
  intros Ha Hb. unfold clip, between. destruct lo as [l|], up as [u|]; simpl in *;
    try (unfold Rmax; destruct (Rle_dec v l)); try (unfold Rmin; destruct (Rle_dec _ u));
    destruct (Rle_dec v t); first [left; split; lra | right; split; lra].
Qed.

Lemma clip_in lo up v :
  match lo, up with Some l, Some u => l <= u | _, _ => True end ->
  above lo (clip lo up v) /\ below up (clip lo up v).
Proof.
  intros H. unfold clip. destruct lo as [l|], up as [u|]; simpl in *; try tauto;
    try (unfold Rmax; destruct (Rle_dec v l)); try (unfold Rmin; destruct (Rle_dec _ u));
    repeat split; lra.
Qed.

Lemma vi_clip d c m lo up t : 0 < d -> 0 <= m -> above lo t -> below up t ->
  vi d c m (clip lo up (soft_threshold c m / d)) t.
Proof.
  intros Hd Hm Ha Hb. eapply vi_between; eauto using vi_st, clip_between.
Qed.

(** Strong minimality over the interval. *)
Lemma f1_clip_min d c m lo up t : 0 < d -> 0 <= m -> above lo t -> below up t ->
  let z := clip lo up (soft_threshold c m / d) in
  f1 d c m z + 1 / 2 * d * (t - z) ^ 2 <= f1 d c m t.
Proof.
  intros Hd Hm Ha Hb z. pose proof (f1_gap d c m z t) as G.
  pose proof (vi_clip d c m lo up t Hd Hm Ha Hb) as V. unfold vi in V. fold z in V. lra.
Qed.

(** The proximal characterisation of the soft threshold. *)
Lemma st_prox v t x : 0 <= t ->
  1 / 2 * (soft_threshold v t - v) ^ 2 + t * Rabs (soft_threshold v t)
  + 1 / 2 * (x - soft_threshold v t) ^ 2
  <= 1 / 2 * (x - v) ^ 2 + t * Rabs x.
Proof.
  intros Ht. pose proof (f1_clip_min 1 v t None None x Rlt_0_1 Ht I I) as H.
  cbn [clip max_lo min_up] in H. unfold clip, max_lo, min_up in H.
  replace (soft_threshold v t / 1) with (soft_threshold v t) in H by field.
  unfold f1 in H. lra.
Qed.

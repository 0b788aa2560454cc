(** The step as the minimiser of a nearby problem, and the plain loop for the inner product. *)
From Coq Require Import ZArith Reals List Bool Arith Lia Lra Psatz Permutation.
From Flocq Require Import Core BinarySingleNaN Plus_error Relative.
From Verif Require Import Base Lin M_CD S_CD S_CD2 L_CD1 L_CD L_CD2 L_CD5 M_Float S_Float S_FloatCD L_Float L_Float2 L_Float3 L_Float5 L_Float6 L_Float7.
Import ListNotations.
Open Scope R_scope.

Lemma clip_in_bounds lo up w t : in_bounds lo up t -> in_bounds lo up (clip lo up w).
Proof.
  unfold in_bounds, clip, max_lo, min_up. intros [H1 H2]. destruct lo as [l|], up as [v|]; split; auto; unfold Rmin, Rmax;
    repeat match goal with |- context [Rle_dec ?a ?b] => destruct (Rle_dec a b) end; lra.
Qed.

Lemma C116_step_lemma a x g mu m j :
  ranged (fc_J a) x (fc_y a) (fc_reg a) (fc_alpha a) -> (forall j, fc_diag a j = x j j) ->
  dot_accurate (fc_J a) x (fc_dot a) g -> 0 <= g <= 1 -> fbounds_ok (fc_J a) (fc_lo a) (fc_up a) ->
  (j < fc_J a)%nat -> mu <= bpow radix2 202 ->
  (forall k, (k < fc_J a)%nat -> is_finite (m k) = true /\ Rabs (B2R (m k)) <= mu) ->
  exists v U T D, fcd_coord a m j = Ok v /\ is_finite v = true /\
    in_bounds (rbound (fc_lo a) j) (rbound (fc_up a) j) (B2R v) /\
    (forall t, in_bounds (rbound (fc_lo a) j) (rbound (fc_up a) j) t -> coord_obj D U T (B2R v) <= coord_obj D U T t) /\
    0 < D /\ 0 <= T /\
    Rabs (D - exact_D (rmat x) (B2R (fc_reg a)) (fc_isreg a) (B2R (fc_alpha a)) j)
      <= bpow radix2 (-51) * exact_D (rmat x) (B2R (fc_reg a)) (fc_isreg a) (B2R (fc_alpha a)) j /\
    Rabs (T - exact_T (B2R (fc_reg a)) (fc_isreg a) (B2R (fc_alpha a)) j)
      <= bpow radix2 (-53) * exact_T (B2R (fc_reg a)) (fc_isreg a) (B2R (fc_alpha a)) j + bpow radix2 (-1075) /\
    Rabs (U - exact_U (fc_J a) (rmat x) (rvec (fc_y a)) (rvec m) j)
      <= g * (row_sum (fc_J a) (rmat x) j * mu)
         + bpow radix2 (-48) * (Rabs (B2R (fc_y a j)) + row_sum (fc_J a) (rmat x) j * mu) + bpow radix2 (-800).
Proof.
  intros HR HD HDot Hg HB Hj Hmu Hm.
  destruct (step_backward a x g mu m j HR HD HDot Hg HB Hj Hmu Hm) as (v & U & T & D & Hv & Fv & Ev & D0 & T0 & ED & ET & EU).
  exists v, U, T, D. split; [auto|]. split; [auto|]. split.
  { rewrite Ev. destruct (HB j Hj) as (HL & HU & HO).
    unfold rbound in *. destruct (is_finite (fc_lo a j)) eqn:FL.
    - apply clip_in_bounds with (B2R (fc_lo a j)). split; [lra|].
      destruct (is_finite (fc_up a j)) eqn:FU; auto. unfold fle in HO. rewrite Bleb_correct in HO by auto.
      destruct (Rle_bool_spec (B2R (fc_lo a j)) (B2R (fc_up a j))); [auto|discriminate].
    - destruct (is_finite (fc_up a j)) eqn:FU.
      + apply clip_in_bounds with (B2R (fc_up a j)). split; [auto|lra].
      + apply clip_in_bounds with 0. split; auto. }
  split.
  { intros t [Hl Hu]. pose proof (vi_clip D U T _ _ t D0 T0 Hl Hu) as VI. rewrite <- Ev in VI. unfold vi in VI.
    unfold coord_obj. pose proof (Rle_0_sqr (t - B2R v)) as Q. unfold Rsqr in Q.
    assert (0 <= D * ((t - B2R v) * (t - B2R v))) by (apply Rmult_le_pos; lra). nra. }
  split; [auto|]. split; [auto|]. split.
  { change (exact_D (rmat x) (B2R (fc_reg a)) (fc_isreg a) (B2R (fc_alpha a)) j) with (cd_den (rcd a x) j).
    change (bpow radix2 (-51)) with (/ 2251799813685248). lra. }
  split; [exact ET|].
  assert (EX : exact_U (fc_J a) (rmat x) (rvec (fc_y a)) (rvec m) j = cd_partial (rcd a x) (rvec m) j).
  { unfold exact_U, cd_partial. cbn [rcd cd_y cd_J cd_x]. rewrite (bsum_split (fc_J a) j (fun k => rmat x j k * rvec m k)) by auto. lra. }
  rewrite EX. change (bpow radix2 (-48)) with (/ 281474976710656).
  assert (0 <= Rabs (B2R (fc_y a j)) + row_sum (fc_J a) (rmat x) j * mu).
  { destruct (Hm j Hj) as [_ Hmj]. pose proof (Rabs_pos (B2R (m j))). pose proof (Rabs_pos (B2R (fc_y a j))).
    assert (0 <= row_sum (fc_J a) (rmat x) j * mu); [|lra]. apply Rmult_le_pos; [|lra].
    apply bsum_nonneg. intros; apply Rabs_pos. }
  lra.
Qed.

Lemma bsum_scal_le n (f h : nat -> R) c : (forall k, (k < n)%nat -> f k <= h k * c) -> bsum n f <= bsum n h * c.
Proof.
  induction n as [|n IH]; intros H; simpl; [lra|].
  assert (bsum n f <= bsum n h * c) by (apply IH; intros; apply H; lia).
  assert (f n <= h n * c) by (apply H; lia). lra.
Qed.

Lemma serial_err n v m : 3 * INR n * u <= 1 ->
  (forall k, (k < n)%nat -> is_finite (v k) = true /\ is_finite (m k) = true) ->
  bsum n (fun k => Rabs (B2R (v k) * B2R (m k))) <= bpow radix2 410 ->
  is_finite (serial_dot n v m) = true /\
  Rabs (B2R (serial_dot n v m) - bsum n (fun k => B2R (v k) * B2R (m k)))
    <= 3 * INR n * u * bsum n (fun k => Rabs (B2R (v k) * B2R (m k))) + 3 * INR n * eta.
Proof.
  induction n as [|n IH]; intros Hn F HA; cbn [serial_dot bsum].
  { split; [apply fint_0|]. change (B2R (fint 0)) with 0. change (INR 0) with 0. rewrite Rminus_0_r, Rabs_R0. lra. }
  rewrite S_INR in *. cbn [bsum] in HA.
  set (A := bsum n (fun k => Rabs (B2R (v k) * B2R (m k)))) in *.
  set (S := bsum n (fun k => B2R (v k) * B2R (m k))) in *.
  assert (A0 : 0 <= A) by (apply bsum_nonneg; intros; apply Rabs_pos).
  assert (SA : Rabs S <= A) by apply bsum_abs.
  pose proof (Rabs_pos (B2R (v n) * B2R (m n))) as P0.
  destruct IH as [Fs Es]; [lra|intros; apply F; lia|lra|].
  destruct (F n) as [Fv Fm]; [lia|].
  assert (B1 : bpow radix2 410 * 8 <= bpow radix2 1023).
  { change 8 with (bpow radix2 3). rewrite <- bpow_plus. apply bpow_le. lia. }
  assert (B0 : 1 <= bpow radix2 410) by (change 1 with (bpow radix2 0); apply bpow_le; lia).
  destruct (fmul_err (v n) (m n) Fv Fm) as [Fp Ep]; [lra|].
  set (p := B2R (v n) * B2R (m n)) in *. set (s := B2R (serial_dot n v m)) in *. set (q := B2R (fmul (v n) (m n))) in *.
  assert (N0 : 0 <= INR n) by apply pos_INR.
  assert (E0 : 0 < eta /\ eta <= / 9007199254740992).
  { split; [apply bpow_gt_0|]. change (/ 9007199254740992) with (bpow radix2 (-53)). apply bpow_le. lia. }
  assert (K1 : 3 * INR n * u * A <= 1 * A) by (apply Rmult_le_compat_r; lra).
  assert (K2 : 3 * INR n * u * eta <= 1 * eta) by (apply Rmult_le_compat_r; lra).
  assert (K3 : 3 * INR n * eta <= 3 * INR n * u) by (apply Rmult_le_compat_l; lra).
  assert (s1 : Rabs s <= Rabs S + (3 * INR n * u * A + 3 * INR n * eta)) by (apply abs_near; auto).
  assert (q1 : Rabs q <= Rabs p + (u * Rabs p + eta)) by (apply abs_near; auto).
  pose proof (Rabs_triang s q) as T1.
  assert (Tr : Rabs (s + q) <= bpow radix2 1023) by lra.
  destruct (fadd_err (serial_dot n v m) (fmul (v n) (m n)) Fs Fp Tr) as [Ff Ef].
  split; auto. fold s q in Ef. set (w := B2R (fadd (serial_dot n v m) (fmul (v n) (m n)))) in *.
  replace (w - (S + p)) with ((w - (s + q)) + ((s - S) + (q - p))) by ring.
  eapply Rle_trans; [apply Rabs_triang|]. eapply Rle_trans; [apply Rplus_le_compat_l, Rabs_triang|].
  assert (U1 : u * Rabs (s + q) <= u * (A + (A + 3 * INR n * eta) + (Rabs p + (u * Rabs p + eta)))) by (apply Rmult_le_compat_l; lra).
  assert (X1 : 0 <= INR n * u * Rabs p) by (apply Rmult_le_pos; auto; apply Rmult_le_pos; lra).
  lra.
Qed.

Lemma C116_serial_lemma J x : 3 * INR J * bpow radix2 (-53) <= 1 ->
  (forall j k, (j < J)%nat -> (k < J)%nat -> is_finite (x j k) = true) ->
  (forall j, (j < J)%nat -> row_sum J (rmat x) j <= bpow radix2 200) ->
  dot_accurate J x (fun j m => serial_dot J (x j) m) (3 * INR J * bpow radix2 (-53)).
Proof.
  change (bpow radix2 (-53)) with u. intros HJ HF HS m j Hj Hm.
  assert (SB : bsum J (fun k => Rabs (B2R (x j k) * B2R (m k))) <= row_sum J (rmat x) j * bpow radix2 202).
  { apply bsum_scal_le. intros k Hk. rewrite Rabs_mult. apply Rmult_le_compat_l; [apply Rabs_pos|apply Hm; auto]. }
  assert (SB' : row_sum J (rmat x) j * bpow radix2 202 <= bpow radix2 410).
  { apply Rle_trans with (bpow radix2 200 * bpow radix2 202).
    - apply Rmult_le_compat_r; [apply bpow_ge_0|auto].
    - rewrite <- bpow_plus. apply bpow_le. lia. }
  destruct (serial_err J (x j) m HJ) as [F E]; [intros k Hk; split; [apply HF; auto|apply Hm; auto]|lra|].
  split; auto. eapply Rle_trans; [exact E|]. apply Rplus_le_compat_l.
  assert (E0 : 0 < eta) by apply bpow_gt_0.
  apply Rle_trans with (9007199254740992 * eta).
  - apply Rmult_le_compat_r; lra.
  - change 9007199254740992 with (bpow radix2 53). rewrite <- bpow_plus. apply bpow_le. lia.
Qed.

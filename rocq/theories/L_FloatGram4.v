(** Lemmas for C128: the diagonal; square root and power which meet the assumptions. *)
From Coq Require Import ZArith Reals List Bool Arith Permutation Lia Lra Psatz.
From Flocq Require Import Core BinarySingleNaN.
From Verif Require Import Base Lin Data S_Gram L_Gram M_Float M_FloatGram S_Float S_FloatGram L_Float L_Float2 L_Float3 L_Float5 L_Float6 L_FloatS L_FloatS2 L_FloatS6 L_FloatGram L_FloatGram2 L_FloatGram3.
Import ListNotations.
Open Scope R_scope.

Lemma run_accuracy root pw X Y f bs v : root_accurate root -> pow_accurate pw ->
  bpow radix2 (-60) <= X <= bpow radix2 300 -> bpow radix2 (-60) <= Y <= bpow radix2 300 ->
  is_finite f = true -> 0 <= B2R f <= 1 -> Forall (fun b => b <> []) bs ->
  Forall (frow_ok X Y) (concat bs) -> INR (length (concat bs)) <= bpow radix2 40 ->
  fgram_run root pw f bs v ->
  is_finite v = true /\
  Rabs (B2R v - exact_entry (B2R f) (concat bs))
    <= 16 * INR (length (concat bs)) * bpow radix2 (-53) * (X * Y * exact_weight (B2R f) (concat bs)).
Proof. intros HR HP HX HY Ff Hf N O L H. rewrite u_bpow. apply (run_err root pw); auto. Qed.

Lemma scaled_diag root f rows : (forall r, In r rows -> rx r = ry r) ->
  forall a b, In (a, b) (fscaled root f rows) -> a = b.
Proof.
  intros H a b Hi. unfold fscaled in Hi. apply in_map_iff in Hi. destruct Hi as ([r q] & E & Hi).
  apply in_combine_l in Hi. cbn [fst snd] in E. rewrite (H r Hi) in E. congruence.
Qed.
Lemma run_diagonal root pw f bs v : pow_sign pw ->
  fle (fint 0) f = true -> fle f (fint 1) = true ->
  (forall r, In r (concat bs) -> rx r = ry r /\ sign_clear (rw r)) ->
  fgram_run root pw f bs v -> sign_clear v /\ flt v (fint 0) = false.
Proof.
  intros HP H0 H1 Hr R. enough (nneg v) as E by (split; [exact E|apply nneg_not_neg, E]).
  pose proof (nneg_gamma f H0 H1) as Hg. revert Hr. induction R as [rows v D|bs rows g v R IH U]; intros Hr.
  - apply (dot_nneg _ v D). apply scaled_diag. intros r Hi. apply Hr. cbn. rewrite app_nil_r. auto.
  - rewrite concat_app in Hr. cbn [concat] in Hr. rewrite app_nil_r in Hr.
    assert (Ng : nneg g) by (apply IH; intros; apply Hr, in_or_app; auto).
    assert (Hr' : forall r, In r rows -> rx r = ry r /\ sign_clear (rw r)) by (intros; apply Hr, in_or_app; auto).
    assert (Multi : (exists d, dot_value (fscaled root f rows) d /\ v = fadd (fmul g (pw (fsub (fint 1) f) (length rows))) d) -> nneg v).
    { intros (d & D & ->). apply nneg_fadd; [apply nneg_fmul; auto; apply HP; exact Hg|].
      apply (dot_nneg _ d D). apply scaled_diag. intros r Hi. apply Hr'; auto. }
    destruct rows as [|r0 [|r1 rows]]; [exact (Multi U)| |exact (Multi U)].
    cbn [fupdate_gram] in U. subst v. destruct (Hr' r0 (or_introl eq_refl)) as [E W].
    apply nneg_fadd; [apply nneg_fmul; auto|apply nneg_fmul; auto]. rewrite E. apply nneg_square.
Qed.
Lemma run_positive root pw X f bs v : root_accurate root -> pow_accurate pw ->
  bpow radix2 (-60) <= X <= bpow radix2 300 ->
  is_finite f = true -> 0 <= B2R f <= 1 -> Forall (fun b => b <> []) bs ->
  Forall (frow_ok X X) (concat bs) -> INR (length (concat bs)) <= bpow radix2 40 ->
  16 * INR (length (concat bs)) * bpow radix2 (-53) * (X * X * exact_weight (B2R f) (concat bs)) < exact_entry (B2R f) (concat bs) ->
  fgram_run root pw f bs v -> is_finite v = true /\ flt (fint 0) v = true.
Proof.
  intros HR HP HX Ff Hf N O L S H. destruct (run_accuracy root pw X X f bs v HR HP HX HX Ff Hf N O L H) as [F E].
  split; [exact F|]. unfold flt. rewrite Bltb_correct by (auto; apply fint_0). apply Rlt_bool_true.
  rewrite (proj1 fint_0). apply abs_le2 in E. lra.
Qed.

(** Correctly rounded square root. *)
Lemma fsqrt_accurate : root_accurate fsqrt.
Proof.
  intros a Fa Ha. rewrite u_bpow.
  destruct (Bsqrt_correct 53 1024 prec64 emax64 mode_NE a) as (E & F & _).
  assert (FF : is_finite (fsqrt a) = true).
  { unfold fsqrt. rewrite F. destruct a as [s| | |s m e H]; try discriminate; auto.
    destruct s; auto. exfalso.
    assert (B2R (B754_finite true m e H) < 0) by (apply F2R_lt_0; reflexivity).
    apply (Rlt_irrefl 0). eapply Rle_lt_trans; [exact Ha|]. assumption. }
  split; auto.
  change (B2R (fsqrt a) = rnd64 (sqrt (B2R a))) in E.
  destruct (is_finite_strict a) eqn:S.
  - pose proof (abs_B2R_ge_emin 53 1024 a S) as L. rewrite Rabs_right in L by lra.
    assert (S1 : bpow radix2 (-537) <= sqrt (B2R a)) by (apply sqrt_lo; exact L).
    pose proof (rnd_err (sqrt (B2R a))) as K. rewrite <- E in K. set (q := sqrt (B2R a)) in *.
    pose proof (bpow_gt_0 radix2 (-537)) as B2. rewrite (Rabs_right q) in K by lra.
    assert (eta <= u * bpow radix2 (-537)) by (rewrite <- u_bpow, <- bpow_plus; apply bpow_le; lia).
    lra.
  - assert (Z : B2R a = 0) by (destruct a; try discriminate; reflexivity). rewrite E, Z, sqrt_0.
    replace (rnd64 0) with 0 by (symmetry; apply round_0, valid_rnd_N). rewrite Rminus_diag_eq, Rabs_R0 by reflexivity. lra.
Qed.
(** Repeated multiplication. *)
Lemma fpow_accurate : pow_accurate fpow.
Proof.
  intros g n Fg Hg _ Hn. rewrite u_bpow. destruct fint1 as [F1 E1].
  enough (K : INR n * u <= / 4096 -> is_finite (fpow g n) = true /\ 0 <= B2R (fpow g n) <= 1 /\
    Rabs (B2R (fpow g n) - B2R g ^ n) <= 9 / 8 * (INR n * u) * B2R g ^ n + 2 * INR n * eta).
  { destruct K as (F & _ & E).
    - apply Rle_trans with (bpow radix2 40 * u); [apply Rmult_le_compat_r; lra|]. cbn. lra.
    - split; [exact F|]. pose proof (pow_unit (B2R g) n Hg) as P. pose proof (pos_INR n) as n0.
      assert (0 <= INR n * B2R g ^ n) by (apply Rmult_le_pos; lra). lra. }
  clear Hn. destruct eta_small as [e0 e1]. set (q := B2R g) in *. induction n as [|n IH]; intros H.
  - cbn [fpow pow]. rewrite E1. split; [exact F1|]. split; [lra|]. change (INR 0) with 0. rewrite Rminus_diag_eq, Rabs_R0 by reflexivity. lra.
  - rewrite S_INR in *. pose proof (pos_INR n) as n0. destruct IH as (F & B & E); [lra|]. cbn [fpow]. change (q ^ S n) with (q * q ^ n).
    set (a := B2R (fpow g n)) in *. pose proof (pow_unit q n Hg) as P. set (t := q ^ n) in *.
    assert (aq : 0 <= a * q <= 1) by (split; [apply Rmult_le_pos; lra|rewrite <- (Rmult_1_l 1); apply Rmult_le_compat; lra]).
    assert (B1 : 1 <= bpow radix2 1023) by (change 1 with (bpow radix2 0); apply bpow_le; lia).
    destruct (fmul_err (fpow g n) g F Fg) as [Fm Em]; [fold a q; rewrite Rabs_right; lra|].
    destruct (fmul_exact (fpow g n) g F Fg) as [Ex _]; [apply rnd_small; fold a q; rewrite Rabs_right; lra|].
    fold a q in Em, Ex. split; [exact Fm|]. split; [rewrite Ex; apply rnd_unit; lra|].
    rewrite (Rabs_right (a * q)) in Em by lra. set (z := B2R (fmul (fpow g n) g)) in *.
    assert (E2 : Rabs (a * q - q * t) <= q * (9 / 8 * (INR n * u) * t + 2 * INR n * eta)).
    { replace (a * q - q * t) with (q * (a - t)) by ring. rewrite Rabs_mult, (Rabs_right q) by lra. apply Rmult_le_compat_l; lra. }
    assert (ne : 0 <= INR n * eta) by (apply Rmult_le_pos; lra).
    assert (qe : q * (2 * INR n * eta) <= 1 * (2 * INR n * eta)) by (apply Rmult_le_compat_r; lra).
    assert (qt : 0 <= q * t) by (apply Rmult_le_pos; lra).
    assert (nq : INR n * u * (q * t) <= / 4096 * (q * t)) by (apply Rmult_le_compat_r; lra).
    assert (ue : u * (INR n * eta) <= / 4096 * eta).
    { replace (u * (INR n * eta)) with (INR n * u * eta) by ring. apply Rmult_le_compat_r; lra. }
    assert (E3 : Rabs (a * q - q * t) <= 9 / 8 * (INR n * u) * (q * t) + 2 * INR n * eta) by lra.
    assert (A : a * q <= q * t + (9 / 8 * (INR n * u) * (q * t) + 2 * INR n * eta)) by (apply abs_le2 in E3; lra).
    assert (T : Rabs (z - q * t) <= Rabs (z - a * q) + Rabs (a * q - q * t)).
    { replace (z - q * t) with ((z - a * q) + (a * q - q * t)) by ring. apply Rabs_triang. }
    lra.
Qed.
Lemma fpow_sign : pow_sign fpow.
Proof. intros g n H. induction n as [|n IH]; [right; reflexivity|]. cbn [fpow]. apply nneg_fmul; auto. Qed.

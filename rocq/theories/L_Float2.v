(** Rounding: soft threshold, logit and softplus in binary64. *)
From Coq Require Import ZArith Reals List Bool Arith Lia Lra Psatz.
From Flocq Require Import Core BinarySingleNaN Plus_error Relative.
From Verif Require Import Base M_CD L_CD1 M_Float S_Float L_Float.
Import ListNotations.
Open Scope R_scope.

Notation fexp64 := (FLT_exp (-1074) 53).
Notation format64 := (generic_format radix2 fexp64).

#[local] Instance vexp64 : Valid_exp fexp64 := FLT_exp_valid (-1074) 53.
#[local] Instance mexp64 : Monotone_exp fexp64 := FLT_exp_monotone (-1074) 53.

Lemma B2R_format (x : float) : format64 (B2R x).
Proof. exact (generic_format_B2R 53 1024 x). Qed.
Lemma B2R_bound (x : float) : Rabs (B2R x) < bpow radix2 1024.
Proof. exact (abs_B2R_lt_emax 53 1024 x). Qed.

Lemma rnd64_mono x y : x <= y -> rnd64 x <= rnd64 y.
Proof. apply round_le; auto with typeclass_instances. Qed.
Lemma rnd64_id x : format64 x -> rnd64 x = x.
Proof. apply round_generic; auto with typeclass_instances. Qed.
Lemma rnd64_0 : rnd64 0 = 0.
Proof. apply round_0; auto with typeclass_instances. Qed.
Lemma rnd64_abs x (f : float) : Rabs x <= Rabs (B2R f) -> Rabs (rnd64 x) < bpow radix2 1024.
Proof.
  intros H. eapply Rle_lt_trans; [|apply (B2R_bound f)].
  apply abs_round_le_generic; auto with typeclass_instances. apply generic_format_abs, B2R_format.
Qed.

Lemma fsub_exact (a b : float) : is_finite a = true -> is_finite b = true ->
  Rabs (rnd64 (B2R a - B2R b)) < bpow radix2 1024 ->
  B2R (fsub a b) = rnd64 (B2R a - B2R b) /\ is_finite (fsub a b) = true.
Proof.
  intros Fa Fb H. pose proof (Bminus_correct 53 1024 prec64 emax64 mode_NE a b Fa Fb) as C.
  change (round radix2 (SpecFloat.fexp 53 1024) (round_mode mode_NE) (B2R a - B2R b)) with (rnd64 (B2R a - B2R b)) in C.
  rewrite Rlt_bool_true in C by exact H. destruct C as (C1 & C2 & _). split; auto.
Qed.
Lemma fadd_exact (a b : float) : is_finite a = true -> is_finite b = true ->
  Rabs (rnd64 (B2R a + B2R b)) < bpow radix2 1024 ->
  B2R (fadd a b) = rnd64 (B2R a + B2R b) /\ is_finite (fadd a b) = true.
Proof.
  intros Fa Fb H. pose proof (Bplus_correct 53 1024 prec64 emax64 mode_NE a b Fa Fb) as C.
  change (round radix2 (SpecFloat.fexp 53 1024) (round_mode mode_NE) (B2R a + B2R b)) with (rnd64 (B2R a + B2R b)) in C.
  rewrite Rlt_bool_true in C by exact H. destruct C as (C1 & C2 & _). split; auto.
Qed.
Lemma fmul_exact (a b : float) : is_finite a = true -> is_finite b = true ->
  Rabs (rnd64 (B2R a * B2R b)) < bpow radix2 1024 ->
  B2R (fmul a b) = rnd64 (B2R a * B2R b) /\ is_finite (fmul a b) = true.
Proof.
  intros Fa Fb H. pose proof (Bmult_correct 53 1024 prec64 emax64 mode_NE a b) as C.
  change (round radix2 (SpecFloat.fexp 53 1024) (round_mode mode_NE) (B2R a * B2R b)) with (rnd64 (B2R a * B2R b)) in C.
  rewrite Rlt_bool_true in C by exact H. destruct C as (C1 & C2 & _). split; auto.
  unfold fmul. rewrite C2, Fa, Fb. reflexivity.
Qed.
Lemma fdiv_exact (a b : float) : is_finite a = true -> B2R b <> 0 ->
  Rabs (rnd64 (B2R a / B2R b)) < bpow radix2 1024 ->
  B2R (fdiv a b) = rnd64 (B2R a / B2R b) /\ is_finite (fdiv a b) = true.
Proof.
  intros Fa Hb H. pose proof (Bdiv_correct 53 1024 prec64 emax64 mode_NE a b Hb) as C.
  change (round radix2 (SpecFloat.fexp 53 1024) (round_mode mode_NE) (B2R a / B2R b)) with (rnd64 (B2R a / B2R b)) in C.
  rewrite Rlt_bool_true in C by exact H. destruct C as (C1 & C2 & _). split; auto.
  unfold fdiv. rewrite C2. auto.
Qed.

Lemma fint_0 : B2R (fint 0) = 0 /\ is_finite (fint 0) = true.
Proof. split; reflexivity. Qed.
Lemma fint_1 : B2R (fint 1) = 1 /\ is_finite (fint 1) = true.
Proof.
  split; [|reflexivity]. change (B2R (fint 1)) with (SF2R radix2 (B2SF (fint 1))) || rewrite <- SF2R_B2SF.
  replace (B2SF (fint 1)) with (SpecFloat.S754_finite false 4503599627370496 (-52)) by (vm_compute; reflexivity).
  unfold SF2R, F2R. cbn [cond_Zopp Fnum Fexp]. change (bpow radix2 (-52)) with (/ IZR 4503599627370496). field.
Qed.
Lemma fint_m1 : B2R (fint (-1)) = -1 /\ is_finite (fint (-1)) = true.
Proof.
  split; [|reflexivity]. rewrite <- SF2R_B2SF.
  replace (B2SF (fint (-1))) with (SpecFloat.S754_finite true 4503599627370496 (-52)) by (vm_compute; reflexivity).
  unfold SF2R, F2R. cbn [cond_Zopp Fnum Fexp]. change (bpow radix2 (-52)) with (/ IZR 4503599627370496). rewrite opp_IZR. field.
Qed.

Lemma fsign_val v : is_finite v = true -> B2R (fsign v) = rsign (B2R v) /\ is_finite (fsign v) = true.
Proof.
  intros F. unfold fsign. replace (is_nan v) with false by (destruct v; auto; discriminate).
  unfold flt. rewrite !Bltb_correct by (auto; apply fint_0). change (B2R (fint 0)) with 0.
  unfold rsign, Rltb. unfold Rlt_bool.
  destruct (Rcompare_spec 0 (B2R v)); destruct (Rlt_dec 0 (B2R v)); try lra.
  - apply fint_1.
  - destruct (Rcompare_spec (B2R v) 0); destruct (Rlt_dec (B2R v) 0); try lra. apply fint_0.
  - destruct (Rcompare_spec (B2R v) 0); destruct (Rlt_dec (B2R v) 0); try lra. apply fint_m1.
Qed.
Lemma fmaximum_val a b : is_finite a = true -> is_finite b = true ->
  B2R (fmaximum a b) = Rmax (B2R a) (B2R b) /\ is_finite (fmaximum a b) = true.
Proof.
  intros Fa Fb. unfold fmaximum.
  replace (is_nan a) with false by (destruct a; auto; discriminate).
  replace (is_nan b) with false by (destruct b; auto; discriminate).
  unfold fle. rewrite Bleb_correct by auto. destruct (Rle_bool_spec (B2R b) (B2R a)).
  - split; auto. rewrite Rmax_left; auto.
  - split; auto. rewrite Rmax_right; auto. lra.
Qed.
Lemma rsign_cases x : (0 < x /\ rsign x = 1) \/ (x < 0 /\ rsign x = -1) \/ (x = 0 /\ rsign x = 0).
Proof. unfold rsign, Rltb. destruct (Rlt_dec 0 x); [auto|]. destruct (Rlt_dec x 0); [auto|]. right; right. split; lra. Qed.

Lemma fsoft_val v t : is_finite v = true -> is_finite t = true -> 0 <= B2R t ->
  B2R (fsoft v t) = rsign (B2R v) * Rmax (rnd64 (Rabs (B2R v) - B2R t)) 0 /\ is_finite (fsoft v t) = true.
Proof.
  intros Fv Ft Ht. unfold fsoft.
  assert (Fa : is_finite (fabs v) = true) by (unfold fabs; rewrite is_finite_Babs; auto).
  assert (Ba : B2R (fabs v) = Rabs (B2R v)) by (apply B2R_Babs).
  assert (Hs : B2R (fsub (fabs v) t) = rnd64 (Rabs (B2R v) - B2R t) /\ is_finite (fsub (fabs v) t) = true).
  { rewrite <- Ba. apply fsub_exact; auto. rewrite Ba.
    destruct (Rle_dec (B2R t) (Rabs (B2R v))).
    - apply (rnd64_abs _ v). rewrite Rabs_right; [|lra]. lra.
    - apply (rnd64_abs _ t). pose proof (Rabs_pos (B2R v)). rewrite Rabs_left, (Rabs_right (B2R t)) by lra. lra. }
  destruct Hs as [Bs Fs].
  destruct (fmaximum_val (fsub (fabs v) t) (fint 0) Fs (proj2 fint_0)) as [Bm Fm].
  rewrite Bs in Bm. change (B2R (fint 0)) with 0 in Bm.
  destruct (fsign_val v Fv) as [Bg Fg].
  set (m := fmaximum (fsub (fabs v) t) (fint 0)) in *.
  assert (Ex : rnd64 (B2R (fsign v) * B2R m) = B2R (fsign v) * B2R m).
  { rewrite Bg. destruct (rsign_cases (B2R v)) as [(_ & ->)|[(_ & ->)|(_ & ->)]].
    - rewrite Rmult_1_l. apply rnd64_id, B2R_format.
    - replace (-1 * B2R m) with (- B2R m) by ring. apply rnd64_id, generic_format_opp, B2R_format.
    - rewrite Rmult_0_l. apply rnd64_0. }
  destruct (fmul_exact (fsign v) m Fg Fm) as [Bf Ff].
  - rewrite Ex. eapply Rle_lt_trans; [|apply (B2R_bound m)]. rewrite Rabs_mult.
    assert (Rabs (B2R (fsign v)) <= 1).
    { rewrite Bg. destruct (rsign_cases (B2R v)) as [(_ & ->)|[(_ & ->)|(_ & ->)]];
      [rewrite Rabs_R1|rewrite Rabs_left|rewrite Rabs_R0]; lra. }
    pose proof (Rabs_pos (B2R m)). nra.
  - split; auto. rewrite Bf, Ex, Bg, Bm. reflexivity.
Qed.

Lemma rnd64_sub_error a b : format64 a -> format64 b ->
  Rabs (rnd64 (a - b) - (a - b)) <= / 9007199254740992 * Rabs (a - b).
Proof.
  intros Fa Fb.
  destruct (FLT_plus_error_N_ex radix2 (-1074) 53 (fun z => negb (Z.even z)) a (- b) Fa (generic_format_opp _ _ _ Fb)) as (eps & He & E).
  change (round radix2 fexp64 ZnearestE (a + - b) = (a + - b) * (1 + eps)) in E.
  unfold rnd64, Rminus. rewrite E. replace ((a + - b) * (1 + eps) + - (a + - b)) with (eps * (a + - b)) by ring.
  rewrite Rabs_mult. apply Rmult_le_compat_r; [apply Rabs_pos|].
  eapply Rle_trans; [exact He|].
  assert (U : u_ro radix2 53 = / 9007199254740992).
  { unfold u_ro. replace (bpow radix2 (- (53) + 1)) with (/ 4503599627370496) by reflexivity. lra. }
  rewrite U. lra.
Qed.

(** What [rnd64 (a - b)] says about the sign of [a - b]. *)
Lemma rnd64_sub_pos a b : format64 a -> format64 b -> b < a -> 0 < rnd64 (a - b).
Proof.
  intros Fa Fb H. assert (0 <= rnd64 (a - b)) by (rewrite <- rnd64_0; apply rnd64_mono; lra).
  assert (rnd64 (a - b) <> 0); [|lra].
  unfold rnd64, Rminus. apply round_plus_neq_0; auto with typeclass_instances; [apply generic_format_opp; auto|lra].
Qed.
Lemma rnd64_sub_neg a b : a <= b -> rnd64 (a - b) <= 0.
Proof. intros H. rewrite <- rnd64_0. apply rnd64_mono. lra. Qed.

Lemma soft_cases v t : 0 <= t -> soft_threshold v t = rsign v * Rmax (Rabs v - t) 0.
Proof. reflexivity. Qed.

Lemma C101_value_lemma : forall v t, is_finite v = true -> is_finite t = true -> 0 <= B2R t ->
  is_finite (fsoft v t) = true /\
  (B2R (fsoft v t) = 0 <-> Rabs (B2R v) <= B2R t) /\
  Rabs (B2R (fsoft v t) - soft_threshold (B2R v) (B2R t))
    <= / 9007199254740992 * Rabs (soft_threshold (B2R v) (B2R t)) /\
  Rabs (B2R (fsoft v t)) <= Rabs (B2R v).
Proof.
  intros v t Fv Ft Ht. destruct (fsoft_val v t Fv Ft Ht) as [E F]. split; [exact F|].
  rewrite E, soft_cases by auto. set (V := B2R v) in *. set (T := B2R t) in *.
  assert (FV : format64 (Rabs V)) by (apply generic_format_abs, B2R_format).
  assert (FT : format64 T) by apply B2R_format.
  pose proof (rnd64_sub_error _ _ FV FT) as Er.
  destruct (Rle_dec (Rabs V) T) as [L|L].
  - pose proof (rnd64_sub_neg _ _ L). rewrite !Rmax_right by lra. rewrite Rmult_0_r.
    split; [split; auto|]. rewrite Rminus_0_r, Rabs_R0. pose proof (Rabs_pos V). lra.
  - apply Rnot_le_lt in L. pose proof (rnd64_sub_pos _ _ FV FT L) as P.
    rewrite !Rmax_left by lra.
    assert (NV : V <> 0) by (intros Z; rewrite Z, Rabs_R0 in L; lra).
    assert (Up : rnd64 (Rabs V - T) <= Rabs V).
    { rewrite <- (rnd64_id _ FV) at 2. apply rnd64_mono. lra. }
    rewrite (Rabs_right (Rabs V - T)) in Er by lra.
    destruct (rsign_cases V) as [(S & ->)|[(S & ->)|(S & _)]]; [| |contradiction].
    + rewrite !Rmult_1_l. split; [split; intros; lra|]. rewrite (Rabs_right (Rabs V - T)) by lra.
      split; [exact Er|]. rewrite Rabs_right by lra. exact Up.
    + split; [split; intros; lra|].
      replace (-1 * rnd64 (Rabs V - T) - -1 * (Rabs V - T)) with (- (rnd64 (Rabs V - T) - (Rabs V - T))) by ring.
      rewrite Rabs_Ropp. replace (-1 * (Rabs V - T)) with (- (Rabs V - T)) by ring.
      rewrite Rabs_Ropp, (Rabs_right (Rabs V - T)) by lra. split; [exact Er|].
      replace (-1 * rnd64 (Rabs V - T)) with (- rnd64 (Rabs V - T)) by ring. rewrite Rabs_Ropp, Rabs_right by lra. exact Up.
Qed.

Lemma C101_monotone_lemma : forall v w t, is_finite v = true -> is_finite w = true -> is_finite t = true -> 0 <= B2R t ->
  B2R v <= B2R w -> B2R (fsoft v t) <= B2R (fsoft w t).
Proof.
  intros v w t Fv Fw Ft Ht H.
  rewrite (proj1 (fsoft_val v t Fv Ft Ht)), (proj1 (fsoft_val w t Fw Ft Ht)).
  set (V := B2R v) in *. set (W := B2R w) in *. set (T := B2R t) in *.
  assert (M : forall x y, x <= y -> Rmax (rnd64 (x - T)) 0 <= Rmax (rnd64 (y - T)) 0).
  { intros x y L. apply Rle_max_compat_r, rnd64_mono. lra. }
  assert (Z : forall x, 0 <= Rmax (rnd64 (x - T)) 0) by (intros; apply Rmax_r).
  pose proof (Z (Rabs V)). pose proof (Z (Rabs W)).
  destruct (rsign_cases V) as [(S & ->)|[(S & ->)|(S & ->)]]; destruct (rsign_cases W) as [(S' & ->)|[(S' & ->)|(S' & ->)]]; try lra.
  - rewrite !Rmult_1_l, !Rabs_right by lra. apply M; auto.
  - rewrite !Rabs_left in * by lra. pose proof (M (- W) (- V) ltac:(lra)). lra.
Qed.

(** ** Logit *)
Lemma one_bpow : 1 = bpow radix2 0.
Proof. reflexivity. Qed.
Lemma format_1 : format64 1.
Proof. rewrite one_bpow. apply generic_format_bpow. vm_compute. discriminate. Qed.
Lemma succ_pred_1 : succ radix2 fexp64 (1 - / 9007199254740992) = 1 /\ format64 (1 - / 9007199254740992).
Proof.
  assert (P : pred radix2 fexp64 1 = 1 - / 9007199254740992).
  { rewrite one_bpow at 1. rewrite pred_bpow. reflexivity. }
  rewrite <- P. split.
  - apply succ_pred; auto with typeclass_instances. apply format_1.
  - apply generic_format_pred; auto with typeclass_instances. apply format_1.
Qed.
Lemma rnd64_lt_1 x : x < 1 - / 18014398509481984 -> rnd64 x < 1.
Proof.
  intros H. destruct succ_pred_1 as [S F].
  assert (rnd64 x <= 1 - / 9007199254740992); [|lra].
  apply round_N_le_midp; auto with typeclass_instances. rewrite S. lra.
Qed.
Lemma succ_1 : succ radix2 fexp64 1 = 1 + / 4503599627370496.
Proof.
  rewrite succ_eq_pos by lra. f_equal. rewrite one_bpow at 1. rewrite ulp_bpow. reflexivity.
Qed.
Lemma rnd64_is_1 x : 1 <= x -> x < 1 + / 9007199254740992 -> rnd64 x = 1.
Proof.
  intros H1 H2. apply Rle_antisym.
  - apply round_N_le_midp; auto with typeclass_instances; [apply format_1|]. rewrite succ_1. lra.
  - apply round_ge_generic; auto with typeclass_instances. apply format_1.
Qed.
Lemma rnd64_pos_small x : bpow radix2 (-1074) * (3 / 4) <= x -> 0 < rnd64 x.
Proof.
  intros H. set (eta := bpow radix2 (-1074)) in *.
  assert (E0 : 0 < eta) by apply bpow_gt_0.
  assert (Fe : format64 eta) by (apply generic_format_bpow; vm_compute; discriminate).
  assert (P : pred radix2 fexp64 eta = 0).
  { unfold eta. rewrite pred_bpow. change (fexp64 (-1074)) with (-1074)%Z. lra. }
  assert (eta <= rnd64 x); [|lra].
  apply round_N_ge_midp; auto with typeclass_instances. rewrite P. lra.
Qed.

Definition odds (e : float) : float := fdiv e (fadd e (fint 1)).
Lemma odds_lemma : forall e, is_finite e = true -> 0 <= B2R e <= 4503599627370496 ->
  is_finite (odds e) = true /\ 0 <= B2R (odds e) < 1 /\
  (B2R (odds e) = 0 <-> B2R e = 0).
Proof.
  intros e Fe He. unfold odds. set (E := B2R e) in *.
  assert (B53 : format64 9007199254740992).
  { change 9007199254740992 with (bpow radix2 53). apply generic_format_bpow. vm_compute. discriminate. }
  assert (Big : 9007199254740992 < bpow radix2 1024).
  { change 9007199254740992 with (bpow radix2 53). apply bpow_lt. reflexivity. }
  assert (D1 : 1 <= rnd64 (E + 1)).
  { apply round_ge_generic; auto with typeclass_instances; [apply format_1|lra]. }
  assert (D2 : rnd64 (E + 1) <= 9007199254740992).
  { apply round_le_generic; auto with typeclass_instances. lra. }
  destruct (fadd_exact e (fint 1) Fe (proj2 fint_1)) as [Bd Fd].
  { rewrite (proj1 fint_1). fold E. rewrite Rabs_right by lra. lra. }
  rewrite (proj1 fint_1) in Bd. fold E in Bd. set (D := rnd64 (E + 1)) in *.
  assert (Q0 : 0 <= E / D). { apply Rmult_le_pos; [lra|]. left. apply Rinv_0_lt_compat. lra. }
  assert (QE : E / D <= E).
  { apply (Rmult_le_reg_r D); [lra|]. unfold Rdiv. rewrite Rmult_assoc, Rinv_l, Rmult_1_r by lra. nra. }
  assert (Qlt : rnd64 (E / D) < 1).
  { apply rnd64_lt_1. apply (Rmult_lt_reg_r D); [lra|]. unfold Rdiv. rewrite Rmult_assoc, Rinv_l, Rmult_1_r by lra.
    pose proof (rnd64_sub_error E (-1) (B2R_format e) (generic_format_opp _ _ _ format_1)) as Er.
    replace (E - -1) with (E + 1) in Er by ring. fold D in Er. rewrite (Rabs_right (E + 1)) in Er by lra.
    apply Rabs_le_inv' in Er. lra. }
  assert (Qge : 0 <= rnd64 (E / D)).
  { rewrite <- rnd64_0. apply rnd64_mono. auto. }
  destruct (fdiv_exact e (fadd e (fint 1)) Fe) as [Bq Fq].
  { rewrite Bd. lra. }
  { rewrite Bd. fold E. rewrite Rabs_right by lra. lra. }
  rewrite Bd in Bq. fold E in Bq. rewrite Bq. split; [exact Fq|]. split; [lra|]. split.
  - intros Z. destruct (Rle_lt_or_eq_dec 0 E (proj1 He)) as [P|P]; [|auto]. exfalso.
    assert (0 < rnd64 (E / D)); [|lra]. apply rnd64_pos_small.
    assert (Emin : bpow radix2 (-1074) <= E).
    { rewrite <- (Rabs_right E) by lra. apply (abs_B2R_ge_emin 53 1024 e).
      destruct e; auto; cbn in E; unfold E in P; cbn in P; lra. }
    assert (E0 : 0 < bpow radix2 (-1074)) by apply bpow_gt_0.
    apply (Rmult_le_reg_r D); [lra|]. unfold Rdiv at 2. rewrite (Rmult_assoc E), Rinv_l, Rmult_1_r by lra.
    destruct (Rle_dec E (1 / 4)) as [S|S].
    + assert (D <= 5 / 4).
      { apply round_le_generic; auto with typeclass_instances; [|lra].
        replace (5 / 4) with (F2R (Float radix2 5 (-2))) by (unfold F2R; cbn; lra).
        apply generic_format_FLT. exists (Float radix2 5 (-2)); auto; cbn; [lia|lia]. }
      nra.
    + assert (Sm : bpow radix2 (-1074) <= bpow radix2 (-60)) by (apply bpow_le; lia).
      change (bpow radix2 (-60)) with (/ IZR 1152921504606846976) in Sm. nra.
  - intros Z. rewrite Z. unfold Rdiv. rewrite Rmult_0_l. apply rnd64_0.
Qed.

(** ** Softplus *)
Lemma one_plus_small : forall e, is_finite e = true -> 0 <= B2R e < / 9007199254740992 ->
  fadd (fint 1) e = fint 1.
Proof.
  intros e Fe He. 
  assert (R1 : rnd64 (B2R (fint 1) + B2R e) = 1).
  { rewrite (proj1 fint_1). apply rnd64_is_1; lra. }
  destruct (fadd_exact (fint 1) e (proj2 fint_1) Fe) as [B F].
  { rewrite R1, Rabs_R1. change 1 with (bpow radix2 0). apply bpow_lt. reflexivity. }
  rewrite R1 in B. apply B2R_inj.
  - destruct (fadd (fint 1) e); auto; cbn in B; lra.
  - reflexivity.
  - rewrite B. symmetry. apply fint_1.
Qed.

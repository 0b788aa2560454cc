(** Rounding errors of the scaler. *)
From Coq Require Import ZArith Reals List Bool Arith Lia Lra Psatz.
From Flocq Require Import Core BinarySingleNaN.
From Verif Require Import Base Lin Data S_Gram L_Gram S_Scaler L_Scaler M_Float S_Float S_FloatScaler L_Float L_Float2 L_Float3 L_Float5 L_Float6.
Import ListNotations.
Open Scope R_scope.

#[local] Instance vexp64'' : Valid_exp fexp64 := FLT_exp_valid (-1074) 53.
#[local] Instance mexp64'' : Monotone_exp fexp64 := FLT_exp_monotone (-1074) 53.

Lemma abs_le2 a b : Rabs a <= b <-> - b <= a <= b.
Proof. split; [apply Rabs_le_inv|intros [? ?]; apply Rabs_le; lra]. Qed.
Lemma prod_err a a' b b' ea eb : Rabs (a' - a) <= ea -> Rabs (b' - b) <= eb ->
  Rabs (a' * b' - a * b) <= ea * Rabs b' + Rabs a * eb.
Proof.
  intros Ha Hb. replace (a' * b' - a * b) with ((a' - a) * b' + a * (b' - b)) by ring.
  eapply Rle_trans; [apply Rabs_triang|]. rewrite !Rabs_mult.
  apply Rplus_le_compat; [apply Rmult_le_compat_r; auto using Rabs_pos|apply Rmult_le_compat_l; auto using Rabs_pos].
Qed.
Lemma eta_small : 0 < eta /\ eta <= bpow radix2 (-1000).
Proof. split; [apply bpow_gt_0|apply bpow_le; lia]. Qed.
Lemma fint1 : is_finite (fint 1) = true /\ B2R (fint 1) = 1.
Proof. split; [reflexivity|]. cbv -[Rmult Rinv Rplus Ropp R1 R0 IZR IPR IPR_2]. lra. Qed.

Lemma rnd_unit x : 0 <= x <= 1 -> 0 <= rnd64 x <= 1.
Proof.
  intros H. split.
  - replace 0 with (rnd64 0) by apply round_0, valid_rnd_N. apply round_le; auto with typeclass_instances. lra.
  - replace 1 with (rnd64 1); [apply round_le; auto with typeclass_instances; lra|].
    apply round_generic; auto with typeclass_instances. change 1 with (bpow radix2 0). apply generic_format_bpow. vm_compute. discriminate.
Qed.
(** One minus the forget factor. *)
Lemma gamma_err f : is_finite f = true -> 0 <= B2R f <= 1 ->
  is_finite (fsub (fint 1) f) = true /\ 0 <= B2R (fsub (fint 1) f) <= 1 /\
  Rabs (B2R (fsub (fint 1) f) - (1 - B2R f)) <= u * (1 - B2R f).
Proof.
  intros F Hf. destruct fint1 as [F1 E1].
  assert (B : 1 <= bpow radix2 1023) by (change 1 with (bpow radix2 0); apply bpow_le; lia).
  destruct (fsub_err (fint 1) f F1 F) as [Fg Eg]; [rewrite E1, Rabs_right; lra|].
  destruct (fsub_exact (fint 1) f F1 F) as [Ex _]; [rewrite E1; apply rnd_small; rewrite Rabs_right; lra|].
  rewrite E1 in *. rewrite (Rabs_right (1 - B2R f)) in Eg by lra. split; auto. split; auto.
  rewrite Ex. apply rnd_unit. lra.
Qed.

(** The weight of a row of age [k]. *)
Fixpoint fpow (g : float) (k : nat) : float := match k with O => fint 1 | S k => fmul (fpow g k) g end.
Definition fage (g : float) (k : nat) : float := if feq g (fint 1) then fint 1 else fpow g k.
Lemma forget_rev_app g : forall n w, exists r, forget_rev g (S n) w = forget_rev g n w ++ [r] /\
  (forall k, w = fpow g k -> r = fpow g (k + n)).
Proof.
  induction n as [|n IH]; intros w.
  - exists w. split; [reflexivity|]. intros k ->. rewrite Nat.add_0_r. reflexivity.
  - destruct (IH (fmul w g)) as (r & E & K). exists r. cbn [forget_rev] in *. rewrite E. split; [reflexivity|].
    intros k ->. rewrite (K (S k)) by reflexivity. f_equal. lia.
Qed.
Lemma fforget_S f n : fforget_vector f (S n) = fage (fsub (fint 1) f) n :: fforget_vector f n.
Proof.
  unfold fforget_vector, fage. destruct (feq _ _); [reflexivity|].
  destruct (forget_rev_app (fsub (fint 1) f) n (fint 1)) as (r & E & K). rewrite E, rev_app_distr. cbn [rev app].
  rewrite (K 0%nat) by reflexivity. reflexivity.
Qed.
Lemma fforget_0 f : fforget_vector f 0 = [].
Proof. unfold fforget_vector. destruct (feq _ _); reflexivity. Qed.

Lemma pow_unit g k : 0 <= g <= 1 -> 0 <= g ^ k <= 1.
Proof. intros H. induction k as [|k IH]; simpl; [lra|]. split; [apply Rmult_le_pos; lra|nra]. Qed.

Lemma fage_err f k : is_finite f = true -> 0 <= B2R f <= 1 -> INR k * u <= / 4096 ->
  is_finite (fage (fsub (fint 1) f) k) = true /\ 0 <= B2R (fage (fsub (fint 1) f) k) <= 1 /\
  Rabs (B2R (fage (fsub (fint 1) f) k) - (1 - B2R f) ^ k) <= 3 * (INR k * u) * (1 - B2R f) ^ k + 2 * INR k * eta.
Proof.
  intros F Hf. destruct (gamma_err f F Hf) as (Fg & Hg & Eg).
  set (G := fsub (fint 1) f) in *. set (g := 1 - B2R f) in *. destruct fint1 as [F1 E1].
  assert (g01 : 0 <= g <= 1) by (unfold g; lra).
  destruct eta_small as [e0 e1].
  unfold fage. destruct (feq G (fint 1)) eqn:Q.
  - intros Hk. split; [auto|]. rewrite E1. split; [lra|].
    unfold feq in Q. rewrite Beqb_correct, E1 in Q by auto. destruct (Req_bool_spec (B2R G) 1) as [Q1|]; [|discriminate].
    rewrite Q1 in Eg. apply abs_le2 in Eg.
    induction k as [|k IH]; [change (INR 0) with 0; simpl; rewrite Rminus_diag_eq by reflexivity; rewrite Rabs_R0; lra|].
    rewrite S_INR in *. assert (K0 := pos_INR k).
    assert (IH' : Rabs (1 - g ^ k) <= 3 * (INR k * u) * g ^ k + 2 * INR k * eta) by (apply IH; lra).
    pose proof (pow_unit g k g01) as P. rewrite Rabs_right in IH' by lra.
    change (g ^ S k) with (g * g ^ k).
    assert (P' : 0 <= g * g ^ k <= 1) by (split; [apply Rmult_le_pos; lra|nra]).
    rewrite Rabs_right by lra.
    assert (A1 : g ^ k <= (1 + u) * (g * g ^ k)) by (replace (g ^ k) with (1 * g ^ k) at 1 by ring; rewrite <- Rmult_assoc; apply Rmult_le_compat_r; lra).
    assert (A2 : (INR k * u) * g ^ k <= (INR k * u) * ((1 + u) * (g * g ^ k))) by (apply Rmult_le_compat_l; lra).
    assert (A3 : (INR k * u) * (g * g ^ k) <= / 4096 * (g * g ^ k)) by (apply Rmult_le_compat_r; lra).
    assert (A4 : 0 <= INR k * eta) by (apply Rmult_le_pos; lra). lra.
  - induction k as [|k IH]; intros Hk.
    { cbn [fpow]. split; auto. rewrite E1. split; [lra|]. change (INR 0) with 0. simpl. rewrite Rminus_diag_eq, Rabs_R0 by reflexivity. lra. }
    rewrite S_INR in *. assert (K0 := pos_INR k). destruct IH as (Fk & Hk1 & Ek); [lra|].
    cbn [fpow]. change (g ^ S k) with (g * g ^ k).
    pose proof (pow_unit g k g01) as P.
    set (a := B2R (fpow G k)) in *. set (gg := B2R G) in *.
    assert (ag : 0 <= a * gg <= 1) by (split; [apply Rmult_le_pos; lra|nra]).
    assert (B : 1 <= bpow radix2 1023) by (change 1 with (bpow radix2 0); apply bpow_le; lia).
    destruct (fmul_err (fpow G k) G Fk Fg) as [Ff Ef]; [fold a gg; rewrite Rabs_right; lra|].
    destruct (fmul_exact (fpow G k) G Fk Fg) as [Ex _]; [apply rnd_small; fold a gg; rewrite Rabs_right; lra|].
    fold a gg in Ef, Ex. rewrite (Rabs_right (a * gg)) in Ef by lra.
    split; [auto|]. split.
    { rewrite Ex. apply rnd_unit. auto. }
    assert (PE : Rabs (a * gg - g ^ k * g) <= (3 * (INR k * u) * g ^ k + 2 * INR k * eta) * gg + g ^ k * (u * g)).
    { pose proof (prod_err (g ^ k) a g gg _ _ Ek Eg) as PE. rewrite (Rabs_right gg), (Rabs_right (g ^ k)) in PE by lra. exact PE. }
    set (P1 := g * g ^ k) in *. replace (g ^ k * g) with P1 in PE by (unfold P1; ring).
    assert (P10 : 0 <= P1 <= 1) by (unfold P1; split; [apply Rmult_le_pos; lra|nra]).
    apply abs_le2 in Eg.
    assert (A1 : (3 * (INR k * u) * g ^ k) * gg <= 3 * (INR k * u) * ((1 + u) * P1)).
    { replace ((1 + u) * P1) with (g ^ k * ((1 + u) * g)) by (unfold P1; ring). rewrite Rmult_assoc.
      apply Rmult_le_compat_l; [lra|]. apply Rmult_le_compat_l; lra. }
    assert (A2 : 2 * INR k * eta * gg <= 2 * INR k * eta * 1) by (apply Rmult_le_compat_l; [apply Rmult_le_pos; lra|lra]).
    assert (A3 : (INR k * u) * P1 <= / 4096 * P1) by (apply Rmult_le_compat_r; lra).
    assert (A4 : (INR k * u) * eta <= / 4096 * eta) by (apply Rmult_le_compat_r; lra).
    replace (g ^ k * (u * g)) with (u * P1) in PE by (unfold P1; ring).
    apply abs_le2 in PE. apply abs_le2 in Ef. apply Rabs_le. lra.
Qed.

(** [np.sum]. *)
Lemma fold_err : forall l a, 2 * INR (length l) * u <= 1 -> is_finite a = true ->
  (forall x, In x l -> is_finite x = true) ->
  Rabs (B2R a) + lsum (map (fun x => Rabs (B2R x)) l) <= bpow radix2 1000 * (1 - 2 * INR (length l) * u / 2) ->
  is_finite (fold_left fadd l a) = true /\
  Rabs (B2R (fold_left fadd l a) - (B2R a + lsum (map B2R l)))
    <= 2 * INR (length l) * u * (Rabs (B2R a) + lsum (map (fun x => Rabs (B2R x)) l)).
Proof.
  induction l as [|h l IH]; intros a Hn Fa F HA.
  { cbn. split; auto. rewrite Rplus_0_r, Rminus_diag_eq, Rabs_R0 by reflexivity. lra. }
  cbn [fold_left map lsum length] in *. rewrite S_INR in *.
  assert (L0 : 0 <= lsum (map (fun x => Rabs (B2R x)) l)).
  { clear. induction l as [|x l IH]; simpl; [lra|]. pose proof (Rabs_pos (B2R x)). lra. }
  set (A := lsum (map (fun x => Rabs (B2R x)) l)) in *. set (N := INR (length l)) in *.
  assert (N0 : 0 <= N) by apply pos_INR.
  pose proof (Rabs_pos (B2R a)) as a0. pose proof (Rabs_pos (B2R h)) as h0. pose proof (Rabs_triang (B2R a) (B2R h)) as T.
  assert (B1 : 0 < bpow radix2 1000) by apply bpow_gt_0.
  assert (B2 : bpow radix2 1000 <= bpow radix2 1023) by (apply bpow_le; lia).
  assert (N1 : bpow radix2 1000 * (1 - 2 * (N + 1) * u / 2) <= bpow radix2 1000 * 1).
  { apply Rmult_le_compat_l; lra. }
  destruct (fadd_err a h Fa (F h (or_introl eq_refl))) as [Fs Es]; [lra|].
  set (s := B2R (fadd a h)) in *.
  assert (s1 : Rabs s <= (1 + u) * (Rabs (B2R a) + Rabs (B2R h))).
  { apply abs_near in Es. lra. }
  destruct (IH (fadd a h)) as [Ff Ef]; [lra|auto|intros; apply F; right; auto| |].
  { fold s A N.
    assert (A1 : Rabs (B2R a) + (Rabs (B2R h) + A) <= bpow radix2 1000) by lra.
    set (BB := bpow radix2 1000) in *.
    replace (BB * (1 - 2 * (N + 1) * u / 2)) with (BB - N * BB * u - BB * u) in HA by field.
    replace (BB * (1 - 2 * N * u / 2)) with (BB - N * BB * u) by field. lra. }
  split; auto. fold s in Ef.
  replace (B2R (fold_left fadd l (fadd a h)) - (B2R a + (B2R h + lsum (map B2R l))))
    with ((B2R (fold_left fadd l (fadd a h)) - (s + lsum (map B2R l))) + (s - (B2R a + B2R h))) by ring.
  eapply Rle_trans; [apply Rabs_triang|].
  assert (E2 : 2 * N * u * (Rabs s + A) <= 2 * N * u * ((1 + u) * (Rabs (B2R a) + Rabs (B2R h)) + A)).
  { apply Rmult_le_compat_l; lra. }
  fold A in Ef. fold N in Ef.
  assert (b0 : 0 <= Rabs (B2R a) + Rabs (B2R h)) by lra.
  replace (Rabs (B2R a) + (Rabs (B2R h) + A)) with (Rabs (B2R a) + Rabs (B2R h) + A) by ring.
  set (b := Rabs (B2R a) + Rabs (B2R h)) in *.
  assert (NA : 0 <= N * A) by (apply Rmult_le_pos; auto).
  assert (E3 : N * u * b <= 1 / 2 * b) by (apply Rmult_le_compat_r; lra).
  assert (E4 : u * Rabs (B2R a + B2R h) <= u * b) by (apply Rmult_le_compat_l; lra).
  lra.
Qed.

(** A run of coordinate descent in binary64 that meets the tolerance is nearly optimal. *)
From Coq Require Import ZArith Reals List Bool Arith Lia Lra Psatz Permutation.
From Flocq Require Import Core BinarySingleNaN Plus_error Relative.
From Verif Require Import Base Lin M_CD S_CD S_CD2 L_CD1 L_CD L_CD2 L_CD5 M_Float S_Float S_FloatCD L_Float L_Float2 L_Float3 L_Float5 L_Float6.
Import ListNotations.
Open Scope R_scope.

(** The last sweep and the test it passed. *)
Lemma floop_last a random perm tol maxit : forall fuel i b b' n, (i + fuel = S maxit)%nat ->
  fcd_loop fuel a random perm tol maxit i b = Ok (b', n) -> (n <= maxit)%nat ->
  exists c, fcd_sweep a (n <? 2)%nat (fcd_order a random perm n) c = Ok b' /\
    fle (fmax_abs (fc_J a) (fun k => fsub (b' k) (c k))) (fmul tol (fmax_abs (fc_J a) b')) = true.
Proof.
  induction fuel as [|fuel IH]; intros i b b' n Hi H Hn; [discriminate|]. cbn [fcd_loop] in H. cbv zeta in H.
  destruct (fcd_sweep a _ _ b) as [b1|e] eqn:E; cbn [bind] in H; [|discriminate].
  destruct (fle _ _) eqn:T. { injection H as <- <-. eauto. }
  destruct (maxit <? S i)%nat eqn:Mx. { injection H as <- <-. apply Nat.ltb_lt in Mx. lia. }
  apply (IH (S i) b1 b' n); auto. lia.
Qed.

Lemma fsweep_notin a first JJ j : forall b b', ~ In j JJ -> fcd_sweep a first JJ b = Ok b' -> b' j = b j.
Proof.
  induction JJ as [|i JJ IH]; cbn [fcd_sweep]; intros b b' Hn H; [injection H as <-; auto|].
  destruct (fcd_visit a first b i) as [b1|] eqn:E; cbn [bind] in H; [|discriminate].
  rewrite (IH b1 b') by (auto; intros K; apply Hn; right; auto).
  destruct (fvisit_cases _ _ _ _ _ E) as [(_ & _ & ->)|(v & _ & ->)]; auto.
  apply fvset_other. intros ->. apply Hn. left. auto.
Qed.

Lemma fsweep_visited a first JJ j : forall b b', NoDup JJ -> In j JJ -> fcd_sweep a first JJ b = Ok b' ->
  (first = true \/ feq (b j) (fint 0) = false) ->
  exists m, fcd_coord a m j = Ok (b' j) /\ forall k, m k = b k \/ m k = b' k.
Proof.
  induction JJ as [|i JJ IH]; cbn [fcd_sweep]; intros b b' ND Hin H Hv; [destruct Hin|].
  apply NoDup_cons_iff in ND. destruct ND as [Ni ND].
  destruct (fcd_visit a first b i) as [b1|] eqn:E; cbn [bind] in H; [|discriminate].
  destruct (Nat.eq_dec i j) as [->|Hne].
  - pose proof (fsweep_notin a first JJ j _ _ Ni H) as K.
    unfold fcd_visit in E.
    assert (T : first || negb (feq (b j) (fint 0)) = true).
    { destruct Hv as [->|Hv]; auto. rewrite Hv. apply orb_true_r. }
    rewrite T in E. destruct (fcd_coord a b j) as [v|] eqn:C; cbn [bind] in E; [|discriminate].
    injection E as <-. rewrite fvset_same in K. exists b. rewrite K. auto.
  - destruct Hin as [Hin|Hin]; [congruence|].
    assert (Bj : b1 j = b j).
    { destruct (fvisit_cases _ _ _ _ _ E) as [(_ & _ & ->)|(v & _ & ->)]; auto. apply fvset_other. auto. }
    destruct (IH b1 b' ND Hin H) as (m & Hm & Hk); [rewrite Bj; auto|].
    exists m. split; auto. intros k. destruct (Hk k) as [Q|Q]; auto.
    destruct (fvisit_cases _ _ _ _ _ E) as [(_ & _ & ->)|(v & _ & ->)]; auto.
    unfold fvset in Q. destruct (Nat.eqb k i) eqn:Ki; [|auto].
    apply Nat.eqb_eq in Ki. subst k. right. rewrite Q.
    rewrite (fsweep_notin a first JJ i _ _ Ni H). rewrite fvset_same. reflexivity.
Qed.

(** [np.max(np.abs(v))]. *)
Lemma fabs_nneg v : nneg (fabs v).
Proof. destruct v as [s|s| |s m e B]; [right|right|left|right]; reflexivity. Qed.
Lemma fmaximum_nneg a b : nneg a -> nneg b -> nneg (fmaximum a b).
Proof. intros Ha Hb. unfold fmaximum. destruct (is_nan a); auto. destruct (is_nan b); auto. destruct (fle b a); auto. Qed.
Lemma fmax_abs_nneg n v : nneg (fmax_abs n v).
Proof.
  induction n as [|n IH]; cbn [fmax_abs]; [right; reflexivity|]. apply fmaximum_nneg; auto. apply fabs_nneg.
Qed.
Lemma fmax_abs_val n v : (forall k, (k < n)%nat -> is_finite (v k) = true) ->
  is_finite (fmax_abs n v) = true /\ B2R (fmax_abs n v) = max_abs n (rvec v).
Proof.
  induction n as [|n IH]; intros H; cbn [fmax_abs max_abs]; [split; [apply fint_0|apply fint_0]|].
  destruct IH as [F E]; [intros; apply H; lia|].
  assert (Fa : is_finite (fabs (v n)) = true) by (unfold fabs; rewrite is_finite_Babs; apply H; lia).
  destruct (fmaximum_val _ _ F Fa) as [E' F']. split; auto. rewrite E', E. f_equal. unfold fabs, rvec. apply B2R_Babs.
Qed.
Lemma nneg_finite x y : nneg x -> fle x y = true -> is_finite y = true -> is_finite x = true.
Proof.
  intros Hn Hl Fy. destruct (fle_nan _ _ Hl) as [Nx _]. destruct Hn as [Hn|Hn]; [congruence|].
  destruct x as [s|s| |s m e B]; auto; try discriminate. cbn in Hn. subst s. destruct y; discriminate.
Qed.
Lemma fmaximum_finite a b : nneg a -> nneg b -> is_finite (fmaximum a b) = true -> is_finite a = true /\ is_finite b = true.
Proof.
  intros Ha Hb. unfold fmaximum. destruct (is_nan a) eqn:Na; [destruct a; discriminate|].
  destruct (is_nan b) eqn:Nb; [destruct b; discriminate|].
  destruct (fle b a) eqn:L; intros F.
  - split; auto. eapply nneg_finite; eauto.
  - split; auto. destruct Ha as [Ha|Ha]; [congruence|]. destruct Hb as [Hb|Hb]; [congruence|].
    destruct a as [s|s| |s m e B]; auto; try discriminate. cbn in Ha. subst s.
    destruct b as [s|s| |s m e B]; try discriminate; cbn in L; try discriminate.
Qed.
Lemma fmax_abs_finite n v : is_finite (fmax_abs n v) = true -> forall k, (k < n)%nat -> is_finite (v k) = true.
Proof.
  induction n as [|n IH]; intros H k Hk; [lia|]. cbn [fmax_abs] in H.
  destruct (fmaximum_finite _ _ (fmax_abs_nneg n v) (fabs_nneg (v n)) H) as [H1 H2].
  destruct (Nat.eq_dec k n) as [->|]; [|apply IH; auto; lia].
  unfold fabs in H2. rewrite is_finite_Babs in H2. exact H2.
Qed.
Lemma fsub_finite x y : is_finite x = true -> is_finite (fsub x y) = true ->
  is_finite y = true /\ B2R (fsub x y) = rnd64 (B2R x - B2R y).
Proof.
  intros Fx F.
  assert (Fy : is_finite y = true).
  { destruct y as [s|s| |s m e B]; auto; destruct x; try discriminate; cbn in F; discriminate. }
  split; auto.
  pose proof (Bminus_correct 53 1024 prec64 emax64 mode_NE x y Fx Fy) as C.
  change (round radix2 (SpecFloat.fexp 53 1024) (round_mode mode_NE) (B2R x - B2R y)) with (rnd64 (B2R x - B2R y)) in C.
  destruct (Rlt_bool _ _); [apply C|]. destruct C as [C _]. exfalso.
  change (Bminus mode_NE x y) with (fsub x y) in C.
  change (binary_overflow 53 1024 mode_NE (Bsign x)) with (SpecFloat.S754_infinity (Bsign x)) in C.
  destruct (fsub x y); discriminate.
Qed.

(** What the test says about the real numbers. *)
Lemma test_moves J tol (b' c : fvec) : is_finite tol = true -> 0 <= B2R tol <= 1 ->
  (forall k, (k < J)%nat -> in_range (b' k)) ->
  fle (fmax_abs J (fun k => fsub (b' k) (c k))) (fmul tol (fmax_abs J b')) = true ->
  forall k, (k < J)%nat -> is_finite (c k) = true /\ Rabs (B2R (b' k) - B2R (c k)) <= last_move J (B2R tol) (rvec b').
Proof.
  intros Ft Ht Hb H k Hk.
  destruct (fmax_abs_val J b') as [Fm Em]; [intros; apply Hb; auto|].
  assert (M0 : 0 <= max_abs J (rvec b')) by apply max_abs_nonneg.
  assert (M1 : max_abs J (rvec b') <= bpow radix2 200).
  { clear - Hb. induction J as [|n IH]; cbn [max_abs]; [apply bpow_ge_0|].
    apply Rmax_lub; [apply IH; intros; apply Hb; lia|apply Hb; lia]. }
  set (mx := max_abs J (rvec b')) in *.
  assert (P0 : 0 <= B2R tol * mx) by (apply Rmult_le_pos; lra).
  assert (P1 : B2R tol * mx <= 1 * mx) by (apply Rmult_le_compat_r; lra).
  assert (BB : bpow radix2 200 <= bpow radix2 1023) by (apply bpow_le; lia).
  destruct (fmul_err tol (fmax_abs J b') Ft Fm) as [Fr Er].
  { rewrite Em, Rabs_right by lra. lra. }
  rewrite Em in Er. fold mx in Er. rewrite (Rabs_right (B2R tol * mx)) in Er by lra. apply Rabs_le_inv in Er.
  assert (FL : is_finite (fmax_abs J (fun k => fsub (b' k) (c k))) = true)
    by (apply nneg_finite with (fmul tol (fmax_abs J b')); auto; apply fmax_abs_nneg).
  pose proof (fmax_abs_finite _ _ FL) as Fs.
  destruct (fmax_abs_val J (fun k => fsub (b' k) (c k)) Fs) as [_ EL].
  unfold fle in H. rewrite Bleb_correct in H by auto.
  destruct (Rle_bool_spec (B2R (fmax_abs J (fun k => fsub (b' k) (c k)))) (B2R (fmul tol (fmax_abs J b')))) as [Hle|]; [|discriminate].
  rewrite EL in Hle.
  pose proof (max_abs_ge J (rvec (fun k => fsub (b' k) (c k))) k Hk) as G.
  change (rvec (fun k => fsub (b' k) (c k)) k) with (B2R (fsub (b' k) (c k))) in G.
  destruct (fsub_finite _ _ (proj1 (Hb k Hk)) (Fs k Hk)) as [Fc Ec]. split; auto.
  pose proof (rnd64_sub_error (B2R (b' k)) (B2R (c k)) (B2R_format _) (B2R_format _)) as R1. rewrite <- Ec in R1.
  set (D := B2R (b' k) - B2R (c k)) in *.
  assert (R2 : Rabs D <= Rabs (B2R (fsub (b' k) (c k))) + u * Rabs D).
  { rewrite Rabs_minus_sym in R1. apply abs_near in R1. lra. }
  unfold last_move. fold mx. change (bpow radix2 (-50)) with (/ 1125899906842624).
  assert (E9 : 0 < eta /\ eta * 8 <= bpow radix2 (-900)).
  { split; [apply bpow_gt_0|]. change 8 with (bpow radix2 3). rewrite <- bpow_plus. apply bpow_le. lia. }
  lra.
Qed.

Lemma forder_nodup a random perm i : (forall i, Permutation (perm i) (seq 0 (fc_J a))) -> NoDup (fcd_order a random perm i).
Proof.
  intros Hp. unfold fcd_order. destruct (random && _); [|apply seq_NoDup].
  eapply Permutation_NoDup; [apply Permutation_sym, Hp|apply seq_NoDup].
Qed.
Lemma forder_in a random perm i j : (forall i, Permutation (perm i) (seq 0 (fc_J a))) -> (j < fc_J a)%nat ->
  In j (fcd_order a random perm i).
Proof.
  intros Hp Hj. unfold fcd_order. destruct (random && _); [|apply in_seq; lia].
  eapply Permutation_in; [apply Permutation_sym, Hp|apply in_seq; lia].
Qed.

(** First-order conditions at the result; the Gram matrix need not be symmetric. *)
Theorem float_first_order a x g random perm tol maxit b b' n :
  ranged (fc_J a) x (fc_y a) (fc_reg a) (fc_alpha a) -> (forall j, fc_diag a j = x j j) ->
  dot_accurate (fc_J a) x (fc_dot a) g -> 0 <= g <= 1 -> fbounds_ok (fc_J a) (fc_lo a) (fc_up a) ->
  (forall i, Permutation (perm i) (seq 0 (fc_J a))) -> is_finite tol = true -> 0 <= B2R tol <= 1 ->
  float_coordinate_descent a random perm tol maxit b = Ok (b', n) -> (n <= maxit)%nat ->
  (forall k, (k < fc_J a)%nat -> in_range (b' k)) ->
  forall t, in_box (fc_J a) (rbound (fc_lo a)) (rbound (fc_up a)) t ->
    (n = 1%nat \/ forall j, (j < fc_J a)%nat -> B2R (b' j) = 0 -> t j = 0) ->
  forall j, (j < fc_J a)%nat ->
    - (slack (fc_J a) (rmat x) (rvec (fc_y a)) (B2R (fc_reg a)) (fc_isreg a) (B2R (fc_alpha a)) g (B2R tol) (rvec b') j
       * Rabs (t j - B2R (b' j)))
    <= ((if fc_isreg a j then rmat x j j + B2R (fc_reg a) * (1 - B2R (fc_alpha a)) else rmat x j j) * rvec b' j
        - (rvec (fc_y a) j - mvec (fc_J a) (rmat x) (vset (rvec b') j 0) j)) * (t j - rvec b' j)
       + (if fc_isreg a j then B2R (fc_alpha a) * B2R (fc_reg a) else 0) * (Rabs (t j) - Rabs (rvec b' j)).
Proof.
  intros HR HD HDot Hg HB Hp Ft Ht H Hn Hr t Hbox Hz j Hj.
  destruct (floop_last a random perm tol maxit (S maxit) 0 b b' n eq_refl H Hn) as (c & Hs & Hm).
  pose proof (test_moves (fc_J a) tol b' c Ft Ht Hr Hm) as Hmv.
  set (dlt := last_move (fc_J a) (B2R tol) (rvec b')) in *.
  set (mx := max_abs (fc_J a) (rvec b')).
  assert (M0 : 0 <= mx) by apply max_abs_nonneg.
  assert (M1 : mx <= bpow radix2 200).
  { unfold mx. clear - Hr. induction (fc_J a) as [|p IH]; cbn [max_abs]; [apply bpow_ge_0|].
    apply Rmax_lub; [apply IH; intros; apply Hr; lia|apply Hr; lia]. }
  assert (P0 : 0 <= B2R tol * mx) by (apply Rmult_le_pos; lra).
  assert (P1 : B2R tol * mx <= 1 * mx) by (apply Rmult_le_compat_r; lra).
  assert (Q2 : bpow radix2 200 * 4 = bpow radix2 202).
  { replace (bpow radix2 202) with (bpow radix2 200 * bpow radix2 2) by (rewrite <- bpow_plus; reflexivity). reflexivity. }
  assert (B9 : 0 < bpow radix2 (-900) /\ bpow radix2 (-900) <= bpow radix2 200) by (split; [apply bpow_gt_0|apply bpow_le; lia]).
  assert (Dd : 0 <= dlt <= 5 / 4 * mx + bpow radix2 (-900)).
  { unfold dlt, last_move. fold mx. change (bpow radix2 (-50)) with (/ 1125899906842624). lra. }
  assert (MU : mx + dlt <= bpow radix2 202) by lra.
  pose proof HR as (RX & (FR & RR) & R0 & FA & RA).
  destruct (RX j Hj) as (FX & X0 & RS & (FY & YR)).
  set (Sl := slack (fc_J a) (rmat x) (rvec (fc_y a)) (B2R (fc_reg a)) (fc_isreg a) (B2R (fc_alpha a)) g (B2R tol) (rvec b') j).
  change (rvec b' j) with (B2R (b' j)).
  destruct (Req_dec (t j) (B2R (b' j))) as [Zt|NZ].
  { rewrite Zt. rewrite !Rminus_diag_eq by reflexivity. rewrite Rabs_R0. lra. }
  assert (V : (n <? 2)%nat = true \/ feq (c j) (fint 0) = false).
  { destruct ((n <? 2)%nat) eqn:L; [left; reflexivity|]. right. destruct (feq (c j) (fint 0)) eqn:C0; auto. exfalso.
    destruct Hz as [->|Hz]; [discriminate|].
    pose proof (fsweep_zero a j _ c b' C0 Hs) as B0. apply NZ.
    assert (Bz : B2R (b' j) = 0).
    { rewrite B0. unfold feq in C0. rewrite Beqb_correct in C0 by (try apply fint_0; apply Hmv; auto).
      change (B2R (fint 0)) with 0 in C0. destruct (Req_bool_spec (B2R (c j)) 0); [auto|discriminate]. }
    rewrite Bz. auto. }
  destruct (fsweep_visited a _ _ j c b' (forder_nodup a random perm n Hp) (forder_in a random perm n j Hp Hj) Hs V) as (m & Hc & Hk).
  assert (Hmk : forall k, (k < fc_J a)%nat -> is_finite (m k) = true /\ Rabs (B2R (m k)) <= mx + dlt).
  { intros k Hkj. pose proof (max_abs_ge (fc_J a) (rvec b') k Hkj) as G. fold mx in G. unfold rvec in G.
    destruct (Hmv k Hkj) as [Fc Ec]. destruct (Hk k) as [->| ->].
    - split; auto. rewrite Rabs_minus_sym in Ec. apply abs_near in Ec. lra.
    - split; [apply Hr; auto|lra]. }
  destruct (step_backward a x g (mx + dlt) m j HR HD HDot Hg HB Hj MU Hmk) as (v & U & T & D & Hv & Fv & Ev & D0 & T0 & ED & ET & EU).
  rewrite Hc in Hv. injection Hv as <-.
  destruct (Hbox j Hj) as [Hl Hu].
  pose proof (vi_clip D U T _ _ (t j) D0 T0 Hl Hu) as VI. rewrite <- Ev in VI. unfold vi in VI.
  pose proof (partial_near (rcd a x) (rvec m) (rvec b') j dlt Hj) as PN.
  cbn [rcd cd_J cd_x] in PN.
  assert (PN' : Rabs (cd_partial (rcd a x) (rvec m) j - cd_partial (rcd a x) (rvec b') j) <= dlt * row_rest (fc_J a) (rmat x) j).
  { apply PN. intros k Hkj. unfold rvec. destruct (Hk k) as [->| ->].
    - rewrite Rabs_minus_sym. apply Hmv; auto.
    - rewrite Rminus_diag_eq, Rabs_R0 by reflexivity. lra. }
  clear PN.
  change (rvec (fc_y a) j - mvec (fc_J a) (rmat x) (vset (rvec b') j 0) j)
    with (cd_y (rcd a x) j - mvec (cd_J (rcd a x)) (cd_x (rcd a x)) (vset (rvec b') j 0) j).
  rewrite <- (partial_off (rcd a x) (rvec b') j Hj).
  change (if fc_isreg a j then rmat x j j + B2R (fc_reg a) * (1 - B2R (fc_alpha a)) else rmat x j j) with (cd_den (rcd a x) j).
  change (if fc_isreg a j then B2R (fc_alpha a) * B2R (fc_reg a) else 0) with (rthr a j).
  set (P := cd_partial (rcd a x) (rvec b') j) in *. set (Pm := cd_partial (rcd a x) (rvec m) j) in *.
  set (den := cd_den (rcd a x) j) in *. set (z := B2R (b' j)) in *.
  assert (RS0 : rmat x j j <= row_sum (fc_J a) (rmat x) j).
  { eapply Rle_trans; [apply Rle_abs|]. apply (bsum_term (fc_J a) (fun k => Rabs (rmat x j k)) j Hj). intros; apply Rabs_pos. }
  assert (Zb : Rabs z <= mx) by apply (max_abs_ge (fc_J a) (rvec b') j Hj).
  assert (LA0 : 0 <= B2R (fc_reg a) * (1 - B2R (fc_alpha a))) by (apply Rmult_le_pos; lra).
  assert (TH0 : 0 <= rthr a j) by (unfold rthr; destruct (fc_isreg a j); [apply Rmult_le_pos; lra|lra]).
  assert (X00 : 0 < bpow radix2 (-200)) by apply bpow_gt_0.
  assert (DEN : 0 <= den) by (unfold den, cd_den; cbn [rcd cd_isreg cd_x cd_reg cd_alpha]; unfold rmat; destruct (fc_isreg a j); lra).
  assert (DZ : den * Rabs z <= row_sum (fc_J a) (rmat x) j * (mx + dlt)
                 + (if fc_isreg a j then B2R (fc_reg a) * (1 - B2R (fc_alpha a)) * (mx + dlt) else 0)).
  { pose proof (Rabs_pos z).
    assert (A1 : rmat x j j * Rabs z <= row_sum (fc_J a) (rmat x) j * (mx + dlt)).
    { apply Rmult_le_compat; auto; try lra. unfold rmat. lra. }
    unfold den, cd_den; cbn [rcd cd_isreg cd_x cd_reg cd_alpha]. destruct (fc_isreg a j); [|lra].
    assert (A2 : B2R (fc_reg a) * (1 - B2R (fc_alpha a)) * Rabs z <= B2R (fc_reg a) * (1 - B2R (fc_alpha a)) * (mx + dlt))
      by (apply Rmult_le_compat_l; lra). lra. }
  assert (BAL : Rabs ((den * z - P) * (t j - z) + rthr a j * (Rabs (t j) - Rabs z)
                - ((D * z - U) * (t j - z) + T * (Rabs (t j) - Rabs z))) <= Sl * Rabs (t j - z)).
  { replace ((den * z - P) * (t j - z) + rthr a j * (Rabs (t j) - Rabs z) - ((D * z - U) * (t j - z) + T * (Rabs (t j) - Rabs z)))
      with (- ((D - den) * z) * (t j - z) + (((U - Pm) + (Pm - P)) * (t j - z) + - (T - rthr a j) * (Rabs (t j) - Rabs z))) by ring.
    eapply Rle_trans; [apply Rabs_triang|]. rewrite Rabs_mult, Rabs_Ropp, Rabs_mult.
    eapply Rle_trans; [apply Rplus_le_compat_l, Rabs_triang|].
    rewrite (Rabs_mult _ (t j - z)), (Rabs_mult _ (Rabs (t j) - Rabs z)), Rabs_Ropp.
    pose proof (Rabs_triang (U - Pm) (Pm - P)) as T1.
    pose proof (Rabs_triang_inv2 (t j) z) as T2.
    set (w := Rabs (t j - z)) in *. assert (w0 : 0 <= w) by apply Rabs_pos.
    assert (C1 : Rabs (T - rthr a j) * Rabs (Rabs (t j) - Rabs z) <= (u * rthr a j + eta) * w).
    { apply Rmult_le_compat; auto using Rabs_pos. }
    assert (C2 : Rabs (U - Pm + (Pm - P)) * w <= (Rabs (U - Pm) + Rabs (Pm - P)) * w) by (apply Rmult_le_compat_r; auto).
    assert (C3 : Rabs (D - den) * Rabs z <= 4 * u * (den * Rabs z)).
    { replace (4 * u * (den * Rabs z)) with (4 * u * den * Rabs z) by ring. apply Rmult_le_compat_r; [apply Rabs_pos|auto]. }
    assert (C4 : Rabs (D - den) * Rabs z + (Rabs (U - Pm) + Rabs (Pm - P)) + (u * rthr a j + eta) <= Sl).
    { unfold Sl, slack. fold mx dlt. change (rvec (fc_y a) j) with (B2R (fc_y a j)).
      change (bpow radix2 (-48)) with (/ 281474976710656).
      assert (E8 : eta * 2 <= bpow radix2 (-800)).
      { change 2 with (bpow radix2 1). rewrite <- bpow_plus. apply bpow_le. lia. }
      assert (E7 : bpow radix2 (-800) * 2 <= bpow radix2 (-700)).
      { change 2 with (bpow radix2 1). rewrite <- bpow_plus. apply bpow_le. lia. }
      assert (E0 : 0 < eta) by apply bpow_gt_0.
      pose proof (Rabs_pos (B2R (fc_y a j))) as Y0.
      set (rs := row_sum (fc_J a) (rmat x) j) in *.
      assert (RS1 : 0 <= rs * (mx + dlt)) by (apply Rmult_le_pos; unfold rmat in *; lra).
      assert (LM : 0 <= B2R (fc_reg a) * (1 - B2R (fc_alpha a)) * (mx + dlt)) by (apply Rmult_le_pos; lra).
      unfold rthr in *. destruct (fc_isreg a j); lra. }
    assert (C5 : (Rabs (D - den) * Rabs z + (Rabs (U - Pm) + Rabs (Pm - P)) + (u * rthr a j + eta)) * w <= Sl * w)
      by (apply Rmult_le_compat_r; auto). lra. }
  apply Rabs_le_inv in BAL. lra.
Qed.

Theorem float_accuracy a x g random perm tol maxit b b' n :
  ranged (fc_J a) x (fc_y a) (fc_reg a) (fc_alpha a) -> (forall j, fc_diag a j = x j j) ->
  symmetric (fc_J a) (rmat x) ->
  dot_accurate (fc_J a) x (fc_dot a) g -> 0 <= g <= 1 -> fbounds_ok (fc_J a) (fc_lo a) (fc_up a) ->
  (forall i, Permutation (perm i) (seq 0 (fc_J a))) -> is_finite tol = true -> 0 <= B2R tol <= 1 ->
  float_coordinate_descent a random perm tol maxit b = Ok (b', n) -> (n <= maxit)%nat ->
  (forall k, (k < fc_J a)%nat -> in_range (b' k)) ->
  forall t, in_box (fc_J a) (rbound (fc_lo a)) (rbound (fc_up a)) t ->
    (n = 1%nat \/ forall j, (j < fc_J a)%nat -> B2R (b' j) = 0 -> t j = 0) ->
    enet_obj (fc_J a) (rmat x) (rvec (fc_y a)) (B2R (fc_reg a)) (fc_isreg a) (B2R (fc_alpha a)) (rvec b')
      + 1 / 2 * quad (fc_J a) (rmat x) (fun k => t k - B2R (b' k))
    <= enet_obj (fc_J a) (rmat x) (rvec (fc_y a)) (B2R (fc_reg a)) (fc_isreg a) (B2R (fc_alpha a)) t
       + bsum (fc_J a) (fun j => slack (fc_J a) (rmat x) (rvec (fc_y a)) (B2R (fc_reg a)) (fc_isreg a) (B2R (fc_alpha a)) g (B2R tol) (rvec b') j
                                 * Rabs (t j - B2R (b' j))).
Proof.
  intros HR HD HS HDot Hg HB Hp Ft Ht H Hn Hr t Hbox Hz.
  apply vi_sum_approx; [exact HS|apply HR|apply HR|].
  exact (float_first_order a x g random perm tol maxit b b' n HR HD HDot Hg HB Hp Ft Ht H Hn Hr t Hbox Hz).
Qed.

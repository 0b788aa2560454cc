(** C116: what a run of coordinate descent in binary64 has minimised. *)
From Coq Require Import ZArith Reals List Bool Arith Permutation Lia Lra.
From Flocq Require Import Core BinarySingleNaN.
From Verif Require Import Base Lin M_CD S_CD S_CD2 M_Float S_Float S_FloatCD L_Float L_Float2 L_Float6 L_Float7 L_Float8.
Import ListNotations.
Open Scope R_scope.

Theorem C116_float_step_minimises : forall a x g mu m j,
  ranged (fc_J a) x (fc_y a) (fc_reg a) (fc_alpha a) -> (forall j, fc_diag a j = x j j) ->
  dot_accurate (fc_J a) x (fc_dot a) g -> 0 <= g <= 1 -> fbounds_ok (fc_J a) (fc_lo a) (fc_up a) ->
  (j < fc_J a)%nat -> mu <= bpow radix2 202 ->
  (forall k, (k < fc_J a)%nat -> is_finite (m k) = true /\ Rabs (B2R (m k)) <= mu) ->
  exists v U T D, fcd_coord a m j = Ok v /\ is_finite v = true /\
    in_bounds (rbound (fc_lo a) j) (rbound (fc_up a) j) (B2R v) /\
    (forall t, in_bounds (rbound (fc_lo a) j) (rbound (fc_up a) j) t -> coord_obj D U T (B2R v) <= coord_obj D U T t) /\
    0 < D /\ 0 <= T /\
    Rabs (D - exact_D (rmat x) (B2R (fc_reg a)) (fc_isreg a) (B2R (fc_alpha a)) j)
      <= bpow radix2 (-51) * exact_D (rmat x) (B2R (fc_reg a)) (fc_isreg a) (B2R (fc_alpha a)) j /\
    Rabs (T - exact_T (B2R (fc_reg a)) (fc_isreg a) (B2R (fc_alpha a)) j)
      <= bpow radix2 (-53) * exact_T (B2R (fc_reg a)) (fc_isreg a) (B2R (fc_alpha a)) j + bpow radix2 (-1075) /\
    Rabs (U - exact_U (fc_J a) (rmat x) (rvec (fc_y a)) (rvec m) j)
      <= g * (row_sum (fc_J a) (rmat x) j * mu)
         + bpow radix2 (-48) * (Rabs (B2R (fc_y a j)) + row_sum (fc_J a) (rmat x) j * mu) + bpow radix2 (-800).
Proof. exact C116_step_lemma. Qed.

Theorem C116_float_run_near_optimal : forall a x g random perm tolerance max_iterations beta beta' n,
  ranged (fc_J a) x (fc_y a) (fc_reg a) (fc_alpha a) -> (forall j, fc_diag a j = x j j) ->
  symmetric (fc_J a) (rmat x) ->
  dot_accurate (fc_J a) x (fc_dot a) g -> 0 <= g <= 1 -> fbounds_ok (fc_J a) (fc_lo a) (fc_up a) ->
  (forall i, Permutation (perm i) (seq 0 (fc_J a))) -> is_finite tolerance = true -> 0 <= B2R tolerance <= 1 ->
  float_coordinate_descent a random perm tolerance max_iterations beta = Ok (beta', n) -> (n <= max_iterations)%nat ->
  (forall k, (k < fc_J a)%nat -> in_range (beta' k)) ->
  forall t, in_box (fc_J a) (rbound (fc_lo a)) (rbound (fc_up a)) t ->
    (n = 1%nat \/ forall j, (j < fc_J a)%nat -> B2R (beta' j) = 0 -> t j = 0) ->
    enet_obj (fc_J a) (rmat x) (rvec (fc_y a)) (B2R (fc_reg a)) (fc_isreg a) (B2R (fc_alpha a)) (rvec beta')
      + 1 / 2 * quad (fc_J a) (rmat x) (fun k => t k - B2R (beta' k))
    <= enet_obj (fc_J a) (rmat x) (rvec (fc_y a)) (B2R (fc_reg a)) (fc_isreg a) (B2R (fc_alpha a)) t
       + bsum (fc_J a) (fun j =>
           slack (fc_J a) (rmat x) (rvec (fc_y a)) (B2R (fc_reg a)) (fc_isreg a) (B2R (fc_alpha a)) g (B2R tolerance) (rvec beta') j
           * Rabs (t j - B2R (beta' j))).
Proof. exact float_accuracy. Qed.

Theorem C116_serial_dot_accurate : forall J x, 3 * INR J * bpow radix2 (-53) <= 1 ->
  (forall j k, (j < J)%nat -> (k < J)%nat -> is_finite (x j k) = true) ->
  (forall j, (j < J)%nat -> row_sum J (rmat x) j <= bpow radix2 200) ->
  dot_accurate J x (fun j m => serial_dot J (x j) m) (3 * INR J * bpow radix2 (-53)).
Proof. exact C116_serial_lemma. Qed.

Print Assumptions C116_float_step_minimises.
Print Assumptions C116_float_run_near_optimal.
Print Assumptions C116_serial_dot_accurate.

(** Two coefficients, the second one with an elastic-net penalty. The exact solution is
    (41/19, 7/19), which binary64 cannot hold. *)
Definition ex116_x (i j : nat) : float := if Nat.eqb i j then fint 4 else fint 1.
Definition ex116 : fcd_args :=
  mk_fcd 2 (fun j => ex116_x j j) (fun j m => serial_dot 2 (ex116_x j) m)
    (fun j => match j with O => fint 9 | _ => fint 5 end)
    (fint 2) (fun j => negb (Nat.eqb j 0)) (fdiv (fint 1) (fint 2))
    (fun _ => B754_infinity true) (fun _ => B754_infinity false).
Definition ex116_tol : float := fdiv (fint 1) (fint 1048576).
Definition ex116_run := float_coordinate_descent ex116 false (fun _ => [0; 1]%nat) ex116_tol 50 (fun _ => fint 0).
Definition sf2 (r : res (fvec * nat)) : option (list SpecFloat.spec_float * nat) :=
  match r with Ok (b, n) => Some ([B2SF (b 0%nat); B2SF (b 1%nat)], n) | Raise _ => None end.
Lemma ex116_ranged : ranged 2 ex116_x (fc_y ex116) (fint 2) (fc_alpha ex116).
Proof.
  assert (V : forall z, (Z.abs z <= 9)%Z -> is_finite (fint z) = true /\ B2R (fint z) = IZR z).
  { intros z Hz. assert (K : (z = -9 \/ z = -8 \/ z = -7 \/ z = -6 \/ z = -5 \/ z = -4 \/ z = -3 \/ z = -2 \/ z = -1 \/ z = 0 \/ z = 1 \/ z = 2 \/ z = 3 \/ z = 4 \/ z = 5 \/ z = 6 \/ z = 7 \/ z = 8 \/ z = 9)%Z) by lia.
    repeat (destruct K as [->|K]; [split; [reflexivity|cbv -[Rmult Rinv Rplus Ropp R1 R0 IZR IPR IPR_2]; try lra]|]).
    subst; split; [reflexivity|cbv -[Rmult Rinv Rplus Ropp R1 R0 IZR IPR IPR_2]; lra]. }
  assert (B200 : 16 <= bpow radix2 200) by (change 16 with (bpow radix2 4); apply bpow_le; lia).
  assert (B200' : bpow radix2 (-200) <= 1) by (change 1 with (bpow radix2 0); apply bpow_le; lia).
  assert (A : is_finite (fc_alpha ex116) = true /\ B2R (fc_alpha ex116) = 1 / 2).
  { split; [reflexivity|]. cbv -[Rmult Rinv Rplus Ropp R1 R0 IZR IPR IPR_2 Rdiv]. lra. }
  destruct A as [A1 A2]. destruct (V 1%Z) as [_ V1]; [lia|]. destruct (V 4%Z) as [_ V4]; [lia|].
  destruct (V 9%Z) as [_ V9]; [lia|]. destruct (V 5%Z) as [_ V5]; [lia|]. destruct (V 2%Z) as [_ V2]; [lia|].
  split; [|split; [split; [reflexivity|rewrite V2, Rabs_right; lra]|split; [rewrite V2; lra|split; [auto|rewrite A2; lra]]]].
  intros j Hj. assert (Hc : j = 0%nat \/ j = 1%nat) by lia. destruct Hc as [-> | ->];
    (split; [reflexivity|]); (split; [change (bpow radix2 (-200) <= B2R (fint 4)); rewrite V4; lra|]);
    (split; [unfold row_sum, rmat, ex116_x; cbn [bsum Nat.eqb]; rewrite V1, V4, !Rabs_right by lra; lra|]);
    (split; [reflexivity|]); cbn [ex116 fc_y]; rewrite ?V9, ?V5, Rabs_right by lra; lra.
Qed.

Lemma sf_value (v : float) m e : B2SF v = SpecFloat.S754_finite false m e ->
  is_finite v = true /\ B2R v = IZR (Zpos m) * bpow radix2 e.
Proof. destruct v as [s|s| |s m' e' B]; try discriminate. intros H. injection H as -> -> ->. split; reflexivity. Qed.

(** The run stops after six sweeps and is optimal up to 1/100000 per unit of distance. *)
Example C116_example : exists b,
  ex116_run = Ok (b, 6%nat) /\
  Rabs (B2R (b 0%nat) - 41 / 19) <= / 1000000 /\ Rabs (B2R (b 1%nat) - 7 / 19) <= / 1000000 /\
  forall t,
    enet_obj 2 (rmat ex116_x) (rvec (fc_y ex116)) 2 (fc_isreg ex116) (1 / 2) (rvec b)
      + 1 / 2 * quad 2 (rmat ex116_x) (fun k => t k - B2R (b k))
    <= enet_obj 2 (rmat ex116_x) (rvec (fc_y ex116)) 2 (fc_isreg ex116) (1 / 2) t
       + / 100000 * (Rabs (t 0%nat - B2R (b 0%nat)) + Rabs (t 1%nat - B2R (b 1%nat))).
Proof.
  assert (C : sf2 ex116_run = Some ([SpecFloat.S754_finite false 4859147031186747 (-51);
           SpecFloat.S754_finite false 6636883557686794 (-54)], 6%nat)) by (vm_compute; reflexivity).
  destruct ex116_run as [[b n]|e] eqn:E; [|discriminate]. cbn [sf2] in C. injection C as C0 C1 ->.
  exists b. split; [reflexivity|].
  destruct (sf_value _ _ _ C0) as [F0 V0]. destruct (sf_value _ _ _ C1) as [F1 V1].
  change (bpow radix2 (-51)) with (/ 2251799813685248) in V0. change (bpow radix2 (-54)) with (/ 18014398509481984) in V1.
  split; [rewrite V0; apply Rabs_le; lra|]. split; [rewrite V1; apply Rabs_le; lra|].
  unfold ex116_run in E. intros t. destruct ex116_ranged as (RX & RR).
  assert (B200 : 16 <= bpow radix2 200) by (change 16 with (bpow radix2 4); apply bpow_le; lia).
  assert (E1 : B2R (fint 1) = 1) by (cbv -[Rmult Rinv Rplus Ropp R1 R0 IZR IPR IPR_2]; lra).
  assert (E4 : B2R (fint 4) = 4) by (cbv -[Rmult Rinv Rplus Ropp R1 R0 IZR IPR IPR_2]; lra).
  assert (E9 : B2R (fint 9) = 9) by (cbv -[Rmult Rinv Rplus Ropp R1 R0 IZR IPR IPR_2]; lra).
  assert (E5 : B2R (fint 5) = 5) by (cbv -[Rmult Rinv Rplus Ropp R1 R0 IZR IPR IPR_2]; lra).
  assert (E2 : B2R (fint 2) = 2) by (cbv -[Rmult Rinv Rplus Ropp R1 R0 IZR IPR IPR_2]; lra).
  assert (EA : B2R (fc_alpha ex116) = 1 / 2) by (cbv -[Rmult Rinv Rplus Ropp R1 R0 IZR IPR IPR_2 Rdiv]; lra).
  assert (ET : B2R ex116_tol = / 1048576) by (cbv -[Rmult Rinv Rplus Ropp R1 R0 IZR IPR IPR_2 Rdiv]; lra).
  assert (HT : 0 <= B2R ex116_tol <= 1) by (rewrite ET; lra).
  pose proof (C116_float_run_near_optimal ex116 ex116_x (3 * INR 2 * bpow radix2 (-53)) false (fun _ => [0; 1]%nat)
    ex116_tol 50 (fun _ => fint 0) b 6) as H.
  change (fc_J ex116) with 2%nat in H. change (fc_reg ex116) with (fint 2) in H. rewrite E2, EA, ET in H.
  change (bpow radix2 (-53)) with (/ 9007199254740992) in H. change (INR 2) with (1 + 1) in H.
  specialize (H (conj RX RR) (fun j => eq_refl)).
  assert (HS : symmetric 2 (rmat ex116_x)).
  { intros i j Hi Hj. unfold rmat, ex116_x. rewrite (Nat.eqb_sym i j). reflexivity. }
  specialize (H HS).
  assert (HD : dot_accurate 2 ex116_x (fc_dot ex116) (3 * (1 + 1) * / 9007199254740992)).
  { apply (C116_serial_dot_accurate 2 ex116_x).
    - change (bpow radix2 (-53)) with (/ 9007199254740992). change (INR 2) with (1 + 1). lra.
    - intros j k Hj Hk. unfold ex116_x. destruct (Nat.eqb j k); reflexivity.
    - intros j Hj. apply RX; auto. }
  specialize (H HD ltac:(lra)).
  assert (HB : fbounds_ok 2 (fc_lo ex116) (fc_up ex116)).
  { intros j Hj. cbn. auto. }
  specialize (H HB (fun _ => Permutation_refl _) eq_refl ltac:(lra) E ltac:(lia)).
  assert (HR : forall k, (k < 2)%nat -> in_range (b k)).
  { intros k Hk. assert (K : k = 0%nat \/ k = 1%nat) by lia. destruct K as [-> | ->]; split; auto;
      rewrite ?V0, ?V1, Rabs_right; lra. }
  specialize (H HR t). cbn [bsum] in H.
  assert (MX : max_abs 2 (rvec b) = 4859147031186747 * / 2251799813685248).
  { cbn [max_abs]. unfold rvec. rewrite V0, V1. rewrite !Rabs_right by lra.
    rewrite Rmax_left; [apply Rmax_right; lra|]. rewrite Rmax_right; lra. }
  assert (SL : forall j, (j < 2)%nat -> slack 2 (rmat ex116_x) (rvec (fc_y ex116)) 2 (fc_isreg ex116) (1 / 2)
     (3 * (1 + 1) * / 9007199254740992) (/ 1048576) (rvec b) j <= / 100000).
  { intros j Hj. unfold slack, last_move. rewrite MX.
    assert (G9 : bpow radix2 (-900) <= bpow radix2 (-60)) by (apply bpow_le; lia).
    assert (G7 : bpow radix2 (-700) <= bpow radix2 (-60)) by (apply bpow_le; lia).
    change (bpow radix2 (-60)) with (/ 1152921504606846976) in G9, G7.
    assert (P9 : 0 < bpow radix2 (-900)) by apply bpow_gt_0.
    change (bpow radix2 (-50)) with (/ 1125899906842624).
    change (bpow radix2 (-48)) with (/ 281474976710656).
    assert (K : j = 0%nat \/ j = 1%nat) by lia. destruct K as [-> | ->];
      unfold row_rest, row_sum, rmat, rvec, ex116_x; cbn [bsum Nat.eqb ex116 fc_y fc_isreg negb];
      rewrite ?E1, ?E4, ?E9, ?E5, ?Rabs_R0, !Rabs_right by lra; lra. }
  pose proof (SL 0%nat ltac:(lia)) as SL0. pose proof (SL 1%nat ltac:(lia)) as SL1.
  assert (M0 := Rmult_le_compat_r _ _ _ (Rabs_pos (t 0%nat - B2R (b 0%nat))) SL0).
  assert (M1 := Rmult_le_compat_r _ _ _ (Rabs_pos (t 1%nat - B2R (b 1%nat))) SL1).
  eapply Rle_trans; [apply H|]; [intros j Hj; cbn; auto| |lra].
  right. intros j Hj Z. exfalso. assert (K : j = 0%nat \/ j = 1%nat) by lia.
  destruct K as [-> | ->]; [rewrite V0 in Z|rewrite V1 in Z]; lra.
Qed.

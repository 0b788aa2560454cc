(** C129: a lasso or elastic net learned online in binary64, against the exact penalised
    squared error of the whole stream. *)
From Coq Require Import ZArith Reals List Bool Arith Permutation Lia Lra.
From Flocq Require Import Core BinarySingleNaN.
From Verif Require Import Base Lin Data S_Gram S_Scaler M_CD S_CD S_CD2 M_Float M_FloatGram S_Float S_FloatGram S_FloatCD S_FloatLasso L_Float L_Float6 L_FloatS L_FloatGram2 L_FloatGram4 L_FloatLasso L_FloatLasso2.
Import ListNotations.
Open Scope R_scope.

Theorem C129_stream_optimal : forall root pw X Y f bs a x random perm tolerance max_iterations beta beta' n,
  let J := fc_J a in let rows := map robs (concat bs) in let N := length (concat bs) in let W := wtotal (B2R f) rows in
  root_accurate root -> pow_accurate pw ->
  bpow radix2 (-60) <= X <= bpow radix2 300 -> bpow radix2 (-60) <= Y <= bpow radix2 300 ->
  is_finite f = true -> 0 <= B2R f <= 1 -> Forall (fun b => b <> []) bs ->
  Forall (fobs_ok J X Y) (concat bs) -> INR N <= bpow radix2 40 -> INR J <= bpow radix2 40 ->
  2 * INR J * (X * X * W) <= bpow radix2 200 -> 2 * (X * Y * W) <= bpow radix2 200 ->
  (forall j, (j < J)%nat -> bpow radix2 (-200) + 16 * INR N * bpow radix2 (-53) * (X * X * W) <= gram_spec (B2R f) rows j j) ->
  computed_from root pw f bs a x ->
  in_range (fc_reg a) /\ 0 <= B2R (fc_reg a) -> is_finite (fc_alpha a) = true /\ 0 <= B2R (fc_alpha a) <= 1 ->
  fbounds_ok J (fc_lo a) (fc_up a) -> (forall i, Permutation (perm i) (seq 0 J)) ->
  is_finite tolerance = true -> 0 <= B2R tolerance <= 1 ->
  float_coordinate_descent a random perm tolerance max_iterations beta = Ok (beta', n) -> (n <= max_iterations)%nat ->
  (forall k, (k < J)%nat -> in_range (beta' k)) ->
  forall t, in_box J (rbound (fc_lo a)) (rbound (fc_up a)) t ->
    (n = 1%nat \/ forall j, (j < J)%nat -> B2R (beta' j) = 0 -> t j = 0) ->
    1 / 2 * wls_loss J (B2R f) rows (rvec beta') + enet_penalty J (B2R (fc_reg a)) (fc_isreg a) (B2R (fc_alpha a)) (rvec beta')
      + 1 / 2 * dsum (1 - B2R f) (fun o => ow o * (dot J (ox o) (fun k => t k - B2R (beta' k))) ^ 2) rows
    <= 1 / 2 * wls_loss J (B2R f) rows t + enet_penalty J (B2R (fc_reg a)) (fc_isreg a) (B2R (fc_alpha a)) t
       + stream_slack J X Y W (B2R (fc_reg a)) (B2R tolerance) N (max_abs J (rvec beta'))
         * bsum J (fun j => Rabs (t j - B2R (beta' j))).
Proof. exact C129_optimal_lemma. Qed.

(** Every coefficient is close to that of any vector which is not worse, when the exact Gramian
    of the stream is bounded below by [mu]. *)
Theorem C129_stream_distance : forall root pw X Y f bs a x random perm tolerance max_iterations beta beta' n mu,
  let J := fc_J a in let rows := map robs (concat bs) in let N := length (concat bs) in let W := wtotal (B2R f) rows in
  root_accurate root -> pow_accurate pw ->
  bpow radix2 (-60) <= X <= bpow radix2 300 -> bpow radix2 (-60) <= Y <= bpow radix2 300 ->
  is_finite f = true -> 0 <= B2R f <= 1 -> Forall (fun b => b <> []) bs ->
  Forall (fobs_ok J X Y) (concat bs) -> INR N <= bpow radix2 40 -> INR J <= bpow radix2 40 ->
  2 * INR J * (X * X * W) <= bpow radix2 200 -> 2 * (X * Y * W) <= bpow radix2 200 ->
  (forall j, (j < J)%nat -> bpow radix2 (-200) + 16 * INR N * bpow radix2 (-53) * (X * X * W) <= gram_spec (B2R f) rows j j) ->
  computed_from root pw f bs a x ->
  in_range (fc_reg a) /\ 0 <= B2R (fc_reg a) -> is_finite (fc_alpha a) = true /\ 0 <= B2R (fc_alpha a) <= 1 ->
  fbounds_ok J (fc_lo a) (fc_up a) -> (forall i, Permutation (perm i) (seq 0 J)) ->
  is_finite tolerance = true -> 0 <= B2R tolerance <= 1 ->
  float_coordinate_descent a random perm tolerance max_iterations beta = Ok (beta', n) -> (n <= max_iterations)%nat ->
  (forall k, (k < J)%nat -> in_range (beta' k)) ->
  0 < mu ->
  (forall v, mu * bsum J (fun j => v j ^ 2) <= dsum (1 - B2R f) (fun o => ow o * (dot J (ox o) v) ^ 2) rows) ->
  forall t, in_box J (rbound (fc_lo a)) (rbound (fc_up a)) t ->
    (n = 1%nat \/ forall j, (j < J)%nat -> B2R (beta' j) = 0 -> t j = 0) ->
    1 / 2 * wls_loss J (B2R f) rows t + enet_penalty J (B2R (fc_reg a)) (fc_isreg a) (B2R (fc_alpha a)) t
      <= 1 / 2 * wls_loss J (B2R f) rows (rvec beta') + enet_penalty J (B2R (fc_reg a)) (fc_isreg a) (B2R (fc_alpha a)) (rvec beta') ->
    forall j, (j < J)%nat ->
      Rabs (B2R (beta' j) - t j)
      <= 2 * stream_slack J X Y W (B2R (fc_reg a)) (B2R tolerance) N (max_abs J (rvec beta')) * INR J / mu.
Proof. exact C129_distance_lemma. Qed.

(** An inner product added in any order and grouping, fused or not, is accurate enough. *)
Theorem C129_any_dot_accurate : forall J x dot, INR J <= bpow radix2 40 ->
  (forall j k, (j < J)%nat -> (k < J)%nat -> is_finite (x j k) = true) ->
  (forall j, (j < J)%nat -> row_sum J (rmat x) j <= bpow radix2 200) ->
  (forall j m, (j < J)%nat -> dot_value (map (fun k => (x j k, m k)) (seq 0 J)) (dot j m)) ->
  dot_accurate J x dot (9 / 8 * INR J * bpow radix2 (-53)).
Proof. exact any_dot_accurate. Qed.

Print Assumptions C129_stream_optimal.
Print Assumptions C129_stream_distance.
Print Assumptions C129_any_dot_accurate.

(** An intercept and one covariate with an elastic-net penalty: a fit on (3, 5) and (0, 2),
    an update with (1, 4), half of the memory kept. *)
Definition ex129_half : float := fdiv (fint 1) (fint 2).
Definition ex129_row (x y : Z) : fobs := mk_fobs (fun j => match j with O => fint 1 | _ => fint x end) (fint y) (fint 1).
Definition ex129_bs : list (list fobs) := [[ex129_row 3 5; ex129_row 0 2]; [ex129_row 1 4]].
(** The two products of the first batch rounded and added, then the update. *)
Definition ex129_entry (c : fobs -> frow) : float :=
  fadd (fmul (fsub (fint 1) ex129_half)
    (match fscaled fsqrt ex129_half (map c [ex129_row 3 5; ex129_row 0 2]) with
     | [(a, b); (d, e)] => fadd (fmul a b) (fmul d e) | _ => fint 0 end))
    (fmul (rw (c (ex129_row 1 4))) (fmul (rx (c (ex129_row 1 4))) (ry (c (ex129_row 1 4))))).
Definition ex129_x (i j : nat) : float := ex129_entry (col i j).
Definition ex129 : fcd_args :=
  mk_fcd 2 (fun j => ex129_x j j) (fun j m => serial_dot 2 (ex129_x j) m) (fun i => ex129_entry (coly i))
    ex129_half (fun j => negb (Nat.eqb j 0)) ex129_half (fun _ => B754_infinity true) (fun _ => B754_infinity false).
Definition ex129_tol : float := fdiv (fint 1) (fint 1099511627776).
Notation ex129_run := (float_coordinate_descent ex129 false (fun _ => [0; 1]%nat) ex129_tol 500 (fun _ => fint 0)).
Definition sf2 (r : res (fvec * nat)) : option (list SpecFloat.spec_float * nat) :=
  match r with Ok (b, n) => Some ([B2SF (b 0%nat); B2SF (b 1%nat)], n) | Raise _ => None end.
Lemma ex129_values : B2R ex129_half = / 2 /\ B2R ex129_tol = / 1099511627776 /\ B2R (fint 0) = 0 /\ B2R (fint 1) = 1 /\ B2R (fint 2) = 2 /\ B2R (fint 3) = 3 /\ B2R (fint 4) = 4 /\ B2R (fint 5) = 5.
Proof. repeat split; cbv -[Rmult Rinv Rplus Ropp R1 R0 IZR IPR IPR_2 Rdiv]; lra. Qed.
Lemma ex129_computed : computed_from fsqrt fpow ex129_half ex129_bs ex129 ex129_x.
Proof.
  assert (E : forall c, fgram_run fsqrt fpow ex129_half (map (map c) ex129_bs) (ex129_entry c)).
  { intros c. unfold ex129_bs, ex129_entry, fscaled. cbn [map length]. rewrite !fforget_S, fforget_0. cbn [combine map fst snd].
    apply (fg_update _ _ _ [_]) with (2 := eq_refl). apply fg_fit. unfold finit_gram, fscaled. cbn [length].
    rewrite !fforget_S, fforget_0. cbn [combine map fst snd]. apply (dv_add [_] [_]); apply dv_mul. }
  split; [intros; apply E|]. split; [intros; apply E|]. split; [reflexivity|].
  intros j m Hj. cbn [ex129 fc_J fc_dot seq map serial_dot].
  apply (dv_add [_] [_]); [|apply dv_mul]. apply (dv_add [] [_]); [apply dv_zero|apply dv_mul].
Qed.

Lemma ex129_sf (v : float) m e : B2SF v = SpecFloat.S754_finite false m e ->
  is_finite v = true /\ B2R v = IZR (Zpos m) * bpow radix2 e.
Proof. destruct v as [s|s| |s m' e' B]; try discriminate. intros H. injection H as -> -> ->. split; reflexivity. Qed.

Lemma sf2_inv r x y n : sf2 r = Some ([x; y], n) -> exists b, r = Ok (b, n) /\ B2SF (b 0%nat) = x /\ B2SF (b 1%nat) = y.
Proof. destruct r as [[b k]|e]; [|discriminate]. intros H. injection H as H1 H2 ->. exists b. auto. Qed.
Lemma ex129_result : exists b, ex129_run = Ok (b, 40%nat) /\
  B2SF (b 0%nat) = SpecFloat.S754_finite false 6433713753389349 (-51) /\
  B2SF (b 1%nat) = SpecFloat.S754_finite false 6433713753380571 (-53).
Proof.
  apply sf2_inv. vm_cast_no_check (eq_refl (Some ([SpecFloat.S754_finite false 6433713753389349 (-51);
    SpecFloat.S754_finite false 6433713753380571 (-53)], 40%nat))).
Qed.

(** The run stops after 40 sweeps. Its result is optimal for the three rows up to 10^-9 per
    unit of distance, and within 10^-7 of the exact solution (20/7, 5/7). *)
Definition ex129_obj (t : vec) : R :=
  1 / 2 * wls_loss 2 (/ 2) (map robs (concat ex129_bs)) t + enet_penalty 2 (/ 2) (fun j => negb (Nat.eqb j 0)) (/ 2) t.
Example C129_example : exists b, ex129_run = Ok (b, 40%nat) /\
  (forall t, ex129_obj (rvec b) <= ex129_obj t
     + / 1000000000 * (Rabs (t 0%nat - B2R (b 0%nat)) + Rabs (t 1%nat - B2R (b 1%nat)))) /\
  (forall t, ex129_obj t <= ex129_obj (rvec b) -> forall j, (j < 2)%nat -> Rabs (B2R (b j) - t j) <= / 10000000) /\
  Rabs (B2R (b 0%nat) - 20 / 7) <= / 10000000 /\ Rabs (B2R (b 1%nat) - 5 / 7) <= / 10000000.
Proof.
  destruct ex129_result as (b & E & C0 & C1). exists b. split; [exact E|].
  destruct (ex129_sf _ _ _ C0) as [F0 V0]. destruct (ex129_sf _ _ _ C1) as [F1 V1].
  change (bpow radix2 (-51)) with (/ 2251799813685248) in V0. change (bpow radix2 (-53)) with (/ 9007199254740992) in V1.
  destruct ex129_values as (H & HT & H0 & H1 & H2 & H3 & H4 & H5).
  assert (L : bpow radix2 (-60) <= 1) by (change 1 with (bpow radix2 0); apply bpow_le; lia).
  assert (L2 : bpow radix2 (-100) <= 1) by (change 1 with (bpow radix2 0); apply bpow_le; lia).
  assert (L3 : bpow radix2 (-200) <= / 2) by (change (/ 2) with (bpow radix2 (-1)); apply bpow_le; lia).
  assert (U3 : 8 <= bpow radix2 300) by (replace 8 with (bpow radix2 3) by (cbn; lra); apply bpow_le; lia).
  assert (U2 : 256 <= bpow radix2 200) by (replace 256 with (bpow radix2 8) by (cbn; lra); apply bpow_le; lia).
  assert (U1 : 8 <= bpow radix2 100) by (replace 8 with (bpow radix2 3) by (cbn; lra); apply bpow_le; lia).
  assert (U4 : 8 <= bpow radix2 40) by (replace 8 with (bpow radix2 3) by (cbn; lra); apply bpow_le; lia).
  assert (W : wtotal (B2R ex129_half) (map robs (concat ex129_bs)) = 7 / 4).
  { unfold wtotal, ex129_bs. cbn [concat app map dsum length pow robs ow ex129_row fo_w]. rewrite H, H1. lra. }
  assert (G : forall j, (j < 2)%nat -> 7 / 4 <= gram_spec (B2R ex129_half) (map robs (concat ex129_bs)) j j).
  { intros j Hj. assert (K : j = 0%nat \/ j = 1%nat) by lia. unfold gram_spec, ex129_bs.
    destruct K as [-> | ->]; cbn [concat app map dsum length pow robs ow ox ex129_row fo_w fo_x rvec];
      unfold rvec; cbv beta iota; rewrite H, ?H0, ?H1, ?H2, ?H3; lra. }
  assert (OK : Forall (fobs_ok 2 3 5) (concat ex129_bs)).
  { assert (K : forall x y, is_finite (fint x) = true -> is_finite (fint y) = true -> 0 <= B2R (fint x) <= 3 -> 0 <= B2R (fint y) <= 5 ->
      fobs_ok 2 3 5 (ex129_row x y)).
    { intros x y Fx Fy Hx Hy. split; [|cbn [ex129_row fo_y fo_w]; rewrite H1, Rabs_right by lra; split; [exact Fy|split; [lra|split; [reflexivity|lra]]]].
      intros i Hi. cbn [ex129_row fo_x]. destruct i; [rewrite H1, Rabs_R1; split; [reflexivity|lra]|rewrite Rabs_right by lra; split; [exact Fx|lra]]. }
    unfold ex129_bs. cbn [concat app].
    do 3 (apply Forall_cons; [apply K; try reflexivity; rewrite ?H0, ?H1, ?H2, ?H3, ?H4, ?H5; lra|]). apply Forall_nil. }
  assert (NE : Forall (fun b : list fobs => b <> []) ex129_bs).
  { unfold ex129_bs. do 2 (apply Forall_cons; [discriminate|]). apply Forall_nil. }
  assert (NN : INR (length (concat ex129_bs)) = 3) by (cbn; lra).
  assert (JJ : INR (fc_J ex129) = 2) by (cbn; lra).
  assert (HB : fbounds_ok (fc_J ex129) (fc_lo ex129) (fc_up ex129)) by (intros j Hj; cbn; auto).
  assert (HR : forall k, (k < fc_J ex129)%nat -> in_range (b k)).
  { intros k Hk. cbn [ex129 fc_J] in Hk. assert (K : k = 0%nat \/ k = 1%nat) by lia. destruct K as [-> | ->]; split; auto;
      rewrite ?V0, ?V1, Rabs_right; lra. }
  assert (Z : forall t : vec, 40%nat = 1%nat \/ (forall j, (j < fc_J ex129)%nat -> B2R (b j) = 0 -> t j = 0)).
  { intros t. right. intros j Hj Q. exfalso. cbn [ex129 fc_J] in Hj. assert (K : j = 0%nat \/ j = 1%nat) by lia.
    destruct K as [-> | ->]; [rewrite V0 in Q|rewrite V1 in Q]; lra. }
  assert (MX : max_abs (fc_J ex129) (rvec b) = 6433713753389349 * / 2251799813685248).
  { cbn [ex129 fc_J max_abs]. unfold rvec. rewrite V0, V1. rewrite !Rabs_right by lra.
    rewrite Rmax_left; [apply Rmax_right; lra|]. rewrite Rmax_right; lra. }
  assert (RG : in_range (fc_reg ex129) /\ 0 <= B2R (fc_reg ex129)).
  { change (fc_reg ex129) with ex129_half. unfold in_range. rewrite H, Rabs_right by lra. split; [split; [reflexivity|lra]|lra]. }
  assert (AL : is_finite (fc_alpha ex129) = true /\ 0 <= B2R (fc_alpha ex129) <= 1).
  { change (fc_alpha ex129) with ex129_half. rewrite H. split; [reflexivity|lra]. }
  assert (SL : stream_slack 2 3 5 (7 / 4) (/ 2) (/ 1099511627776) (length (concat ex129_bs)) (6433713753389349 * / 2251799813685248) <= / 1000000000).
  { unfold stream_slack. rewrite NN. change (INR 2) with (1 + 1).
    assert (G9 : bpow radix2 (-900) <= bpow radix2 (-60)) by (apply bpow_le; lia).
    assert (G7 : bpow radix2 (-700) <= bpow radix2 (-60)) by (apply bpow_le; lia).
    change (bpow radix2 (-60)) with (/ 1152921504606846976) in G9, G7.
    assert (P9 : 0 < bpow radix2 (-900)) by apply bpow_gt_0.
    change (bpow radix2 (-50)) with (/ 1125899906842624). change (bpow radix2 (-53)) with (/ 9007199254740992).
    change (bpow radix2 (-48)) with (/ 281474976710656). lra. }
  assert (SL' : stream_slack (fc_J ex129) 3 5 (7 / 4) (B2R (fc_reg ex129)) (B2R ex129_tol) (length (concat ex129_bs)) (max_abs (fc_J ex129) (rvec b)) <= / 1000000000).
  { rewrite MX, HT. change (fc_reg ex129) with ex129_half. rewrite H. exact SL. }
  assert (D : forall j, (j < fc_J ex129)%nat -> bpow radix2 (-200) + 16 * INR (length (concat ex129_bs)) * bpow radix2 (-53)
      * (3 * 3 * wtotal (B2R ex129_half) (map robs (concat ex129_bs))) <= gram_spec (B2R ex129_half) (map robs (concat ex129_bs)) j j).
  { intros j Hj. rewrite NN, W. change (bpow radix2 (-53)) with (/ 9007199254740992). pose proof (G j Hj). lra. }
  assert (BX : forall t, in_box (fc_J ex129) (rbound (fc_lo ex129)) (rbound (fc_up ex129)) t) by (intros t j Hj; cbn; auto).
  assert (LOW : forall v, / 2 * bsum (fc_J ex129) (fun j => v j ^ 2)
     <= dsum (1 - B2R ex129_half) (fun o => ow o * (dot (fc_J ex129) (ox o) v) ^ 2) (map robs (concat ex129_bs))).
  { intros v. unfold ex129_bs. cbn [concat app map dsum length pow robs ow ox ex129_row fo_w fo_x dot bsum ex129 fc_J].
    unfold dot, rvec. cbn [bsum]. rewrite H, H0, H1, H3.
    pose proof (pow2_ge_0 (v 0%nat + 7 / 5 * v 1%nat)). pose proof (pow2_ge_0 (v 1%nat)).
    cbn [pow] in *. nra. }
  assert (T1 : 0 <= B2R ex129_tol <= 1) by (rewrite HT; lra).
  assert (OB : forall t, ex129_obj t = 1 / 2 * wls_loss (fc_J ex129) (B2R ex129_half) (map robs (concat ex129_bs)) t
     + enet_penalty (fc_J ex129) (B2R (fc_reg ex129)) (fc_isreg ex129) (B2R (fc_alpha ex129)) t).
  { intros t. unfold ex129_obj. change (fc_reg ex129) with ex129_half. change (fc_alpha ex129) with ex129_half. rewrite H. reflexivity. }
  split; [|split].
  - intros t. rewrite !OB.
    pose proof (C129_stream_optimal fsqrt fpow 3 5 ex129_half ex129_bs ex129 ex129_x false (fun _ => [0; 1]%nat) ex129_tol 500 (fun _ => fint 0) b 40) as K.
    cbv zeta in K. rewrite W, NN, JJ in K.
    specialize (K fsqrt_accurate fpow_accurate ltac:(lra) ltac:(lra) eq_refl ltac:(rewrite H; lra) NE OK ltac:(lra) ltac:(lra) ltac:(lra) ltac:(lra)).
    rewrite W, NN in D. specialize (K D ex129_computed RG AL HB (fun _ => Permutation_refl _) eq_refl T1 E ltac:(lia) HR t (BX t) (Z t)).
    pose proof (LOW (fun k => t k - B2R (b k))) as Lq.
    assert (Q0 : 0 <= bsum (fc_J ex129) (fun j => (t j - B2R (b j)) ^ 2)).
    { cbn [ex129 fc_J bsum]. pose proof (pow2_ge_0 (t 0%nat - B2R (b 0%nat))). pose proof (pow2_ge_0 (t 1%nat - B2R (b 1%nat))). lra. }
    assert (S0 : bsum (fc_J ex129) (fun j => Rabs (t j - B2R (b j))) = Rabs (t 0%nat - B2R (b 0%nat)) + Rabs (t 1%nat - B2R (b 1%nat))).
    { cbn [ex129 fc_J bsum]. ring. }
    rewrite S0 in K.
    assert (P := Rmult_le_compat_r _ _ _ (Rplus_le_le_0_compat _ _ (Rabs_pos (t 0%nat - B2R (b 0%nat))) (Rabs_pos (t 1%nat - B2R (b 1%nat)))) SL').
    lra.
  - intros t Ht j Hj. rewrite !OB in Ht.
    pose proof (C129_stream_distance fsqrt fpow 3 5 ex129_half ex129_bs ex129 ex129_x false (fun _ => [0; 1]%nat) ex129_tol 500 (fun _ => fint 0) b 40 (/ 2)) as K.
    cbv zeta in K. rewrite W, NN, JJ in K.
    specialize (K fsqrt_accurate fpow_accurate ltac:(lra) ltac:(lra) eq_refl ltac:(rewrite H; lra) NE OK ltac:(lra) ltac:(lra) ltac:(lra) ltac:(lra)).
    rewrite W, NN in D. specialize (K D ex129_computed RG AL HB (fun _ => Permutation_refl _) eq_refl T1 E ltac:(lia) HR ltac:(lra) LOW t (BX t) (Z t) Ht j Hj).
    lra.
  - rewrite V0, V1. split; apply Rabs_le; lra.
Qed.

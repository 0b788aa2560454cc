(** C117: the scaler in binary64 is accurate. *)
From Coq Require Import ZArith Reals List Bool Arith Lia Lra.
From Flocq Require Import Core BinarySingleNaN.
From Verif Require Import Base Lin Data S_Gram S_Scaler M_Float S_Float S_FloatScaler L_Float L_Float6 L_FloatS L_FloatS4 L_FloatS5 L_FloatS6.
Import ListNotations.
Open Scope R_scope.

(** [fit] on the rows [l], then [update] with [rows]: total weight, mean and variance. *)
Theorem C117_float_moments : forall f X l rows,
  is_finite f = true -> 0 <= B2R f <= 1 -> bpow radix2 (-60) <= X <= bpow radix2 300 ->
  l <> [] -> Forall (row_ok X) (l ++ rows) -> INR (length (l ++ rows)) <= bpow radix2 40 ->
  let s := fscaler_update f (fscaler_fit f (map fst l) (map snd l)) rows in
  let nu := INR (length (l ++ rows)) * bpow radix2 (-53) in
  (is_finite (fs_w s) = true /\ is_finite (fs_mean s) = true /\ is_finite (fs_M s) = true /\ is_finite (fs_var s) = true) /\
  Rabs (B2R (fs_w s) - wtotal (B2R f) (frows (l ++ rows))) <= 8 * nu * wtotal (B2R f) (frows (l ++ rows)) /\
  Rabs (B2R (fs_mean s) - wmean (B2R f) (frows (l ++ rows)) 0) <= 21 * nu * X /\
  Rabs (B2R (fs_var s) - wvar (B2R f) (frows (l ++ rows)) 0) <= 240 * nu * (X * X).
Proof. exact scaler_close. Qed.

(** A value of size at most [X], transformed, when the variance is not lost in rounding. *)
Theorem C117_float_transform : forall f X l rows x,
  is_finite f = true -> 0 <= B2R f <= 1 -> bpow radix2 (-60) <= X <= bpow radix2 300 ->
  l <> [] -> Forall (row_ok X) (l ++ rows) -> INR (length (l ++ rows)) <= bpow radix2 40 ->
  is_finite x = true -> Rabs (B2R x) <= X ->
  let s := fscaler_update f (fscaler_fit f (map fst l) (map snd l)) rows in
  let nu := INR (length (l ++ rows)) * bpow radix2 (-53) in
  let V := wvar (B2R f) (frows (l ++ rows)) 0 in
  1024 * nu * (X * X) <= V ->
  is_finite (fscaler_transform s x) = true /\
  Rabs (B2R (fscaler_transform s x) - (B2R x - wmean (B2R f) (frows (l ++ rows)) 0) / sqrt V) <= 1000 * nu * (X / sqrt V) ^ 3.
Proof. exact transform_close. Qed.

(** [inverse_transform] after [transform]. *)
Theorem C117_float_round_trip : forall s x,
  is_finite (fs_mean s) = true -> is_finite (fs_var s) = true -> is_finite x = true ->
  bpow radix2 (-400) <= B2R (fs_var s) <= bpow radix2 800 ->
  Rabs (B2R (fs_mean s)) <= bpow radix2 400 -> Rabs (B2R x) <= bpow radix2 400 ->
  is_finite (fscaler_inverse s (fscaler_transform s x)) = true /\
  Rabs (B2R (fscaler_inverse s (fscaler_transform s x)) - B2R x)
    <= 5 * bpow radix2 (-53) * (Rabs (B2R x) + Rabs (B2R (fs_mean s))) + bpow radix2 (-670).
Proof. exact round_trip. Qed.

Print Assumptions C117_float_moments.
Print Assumptions C117_float_transform.
Print Assumptions C117_float_round_trip.

(** Forget factor 1/2, rows 1 and 3 in [fit], row 5 in [update]: the exact mean 27/7 and the
    exact variance 104/49 are not binary64 numbers. *)
Definition ex117_half : float := fdiv (fint 1) (fint 2).
Definition ex117_l : list (float * float) := [(fint 1, fint 1); (fint 3, fint 1)].
Definition ex117_rows : list (float * float) := [(fint 5, fint 1)].
Lemma ex117_values : B2R ex117_half = / 2 /\ B2R (fint 1) = 1 /\ B2R (fint 3) = 3 /\ B2R (fint 5) = 5.
Proof. repeat split; cbv -[Rmult Rinv Rplus Ropp R1 R0 IZR IPR IPR_2 Rdiv]; lra. Qed.
Lemma ex117_moments : wtotal (B2R ex117_half) (frows (ex117_l ++ ex117_rows)) = 7 / 4 /\
  wmean (B2R ex117_half) (frows (ex117_l ++ ex117_rows)) 0 = 27 / 7 /\
  wvar (B2R ex117_half) (frows (ex117_l ++ ex117_rows)) 0 = 104 / 49.
Proof.
  destruct ex117_values as (H & H1 & H3 & H5).
  assert (E : frows (ex117_l ++ ex117_rows) = [mkobs (fun _ => 1) 0 1; mkobs (fun _ => 3) 0 1; mkobs (fun _ => 5) 0 1]).
  { unfold frows, ex117_l, ex117_rows. cbn [app map fst snd]. rewrite H1, H3, H5. reflexivity. }
  rewrite E, H.
  assert (W : wtotal (/ 2) [mkobs (fun _ => 1) 0 1; mkobs (fun _ => 3) 0 1; mkobs (fun _ => 5) 0 1] = 7 / 4).
  { unfold wtotal. cbn [dsum length ow ox pow]. lra. }
  assert (M : wmean (/ 2) [mkobs (fun _ => 1) 0 1; mkobs (fun _ => 3) 0 1; mkobs (fun _ => 5) 0 1] 0 = 27 / 7).
  { unfold wmean. rewrite W. cbn [dsum length ow ox pow]. lra. }
  split; auto. split; auto. unfold wvar. rewrite W, M. cbn [dsum length ow ox pow]. lra.
Qed.
Example C117_example :
  let s := fscaler_update ex117_half (fscaler_fit ex117_half (map fst ex117_l) (map snd ex117_l)) ex117_rows in
  Rabs (B2R (fs_mean s) - 27 / 7) <= 21 * (3 * bpow radix2 (-53)) * 5 /\
  Rabs (B2R (fs_var s) - 104 / 49) <= 240 * (3 * bpow radix2 (-53)) * (5 * 5) /\
  Rabs (B2R (fscaler_transform s (fint 3)) - (3 - 27 / 7) / sqrt (104 / 49)) <= 1000 * (3 * bpow radix2 (-53)) * (5 / sqrt (104 / 49)) ^ 3.
Proof.
  destruct ex117_values as (H & H1 & H3 & H5). destruct ex117_moments as (W & M & V).
  assert (B1 : bpow radix2 (-100) <= 1) by (change 1 with (bpow radix2 0); apply bpow_le; lia).
  assert (B2 : 1 <= bpow radix2 100) by (change 1 with (bpow radix2 0); apply bpow_le; lia).
  assert (HX : bpow radix2 (-60) <= 5 <= bpow radix2 300).
  { split; [apply Rle_trans with (bpow radix2 0); [apply bpow_le; lia|cbn; lra]|].
    apply Rle_trans with (bpow radix2 3); [cbn; lra|apply bpow_le; lia]. }
  assert (F : Forall (row_ok 5) (ex117_l ++ ex117_rows)).
  { assert (K : forall z, B2R (fint z) = 1 \/ B2R (fint z) = 3 \/ B2R (fint z) = 5 -> is_finite (fint z) = true -> row_ok 5 (fint z, fint 1)).
    { intros z Hz Fz. split; [exact Fz|]. cbn [fst snd]. rewrite H1. split; [|split; [reflexivity|lra]].
      rewrite Rabs_right; destruct Hz as [E|[E|E]]; rewrite E; lra. }
    repeat (constructor; [apply K; [rewrite ?H1, ?H3, ?H5; auto|reflexivity]|]). constructor. }
  assert (L : INR (length (ex117_l ++ ex117_rows)) = 3) by (cbn; lra).
  assert (B40 : 3 <= bpow radix2 40) by (change (bpow radix2 40) with 1099511627776; lra).
  assert (F2 : 0 <= B2R ex117_half <= 1) by (rewrite H; lra).
  cbv zeta. set (s := fscaler_update _ _ _).
  destruct (C117_float_moments ex117_half 5 ex117_l ex117_rows eq_refl F2 HX) as (_ & _ & E2 & E3); [discriminate|exact F|rewrite L; exact B40|].
  destruct (C117_float_transform ex117_half 5 ex117_l ex117_rows (fint 3) eq_refl F2 HX) as (_ & E4); [discriminate|exact F|rewrite L; exact B40|reflexivity|rewrite H3, Rabs_right; lra| |].
  { rewrite L, V. change (bpow radix2 (-53)) with (/ 9007199254740992). lra. }
  fold s in E2, E3, E4. rewrite L, M in E2. rewrite L, V in E3. rewrite L, M, V, H3 in E4.
  split; [exact E2|]. split; [exact E3|]. exact E4.
Qed.

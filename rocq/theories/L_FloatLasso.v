(** Lemmas for C129. *)
From Coq Require Import ZArith Reals List Bool Arith Permutation Lia Lra Psatz.
From Flocq Require Import Core BinarySingleNaN.
From Verif Require Import Base Lin Data S_Gram S_Scaler L_Gram L_OLS M_CD S_CD S_CD2 L_CD L_CD2 L_CD5 M_Float M_FloatGram S_Float S_FloatGram S_FloatCD S_FloatLasso L_Float L_Float2 L_Float3 L_Float5 L_Float6 L_Float7 L_FloatS L_FloatS2 L_FloatGram L_FloatGram2 L_FloatGram3 L_FloatGram4.
Import ListNotations.
Open Scope R_scope.

Lemma dsum_of_map {A B} g (F : B -> R) (h : A -> B) l : dsum g F (map h l) = dsum g (fun a => F (h a)) l.
Proof. induction l as [|a l IH]; simpl; auto. rewrite map_length, IH. reflexivity. Qed.

(** Any way to add an inner product is accurate. *)
Lemma pairs_sum x m n : psum (map (fun k => (x k, m k)) (seq 0 n)) = bsum n (fun k => B2R (x k) * B2R (m k)).
Proof.
  unfold psum. induction n as [|n IH]; [reflexivity|]. rewrite seq_S, !map_app. cbn [map Nat.add]. rewrite lsum_app, IH. unfold pr. cbn [lsum bsum fst snd]. ring.
Qed.
Lemma pairs_abs x m n : pabs (map (fun k => (x k, m k)) (seq 0 n)) = bsum n (fun k => Rabs (B2R (x k) * B2R (m k))).
Proof.
  unfold pabs. induction n as [|n IH]; [reflexivity|]. rewrite seq_S, !map_app. cbn [map Nat.add]. rewrite lsum_app, IH. unfold pr. cbn [lsum bsum fst snd]. ring.
Qed.
Lemma any_dot_accurate J x dot : INR J <= bpow radix2 40 ->
  (forall j k, (j < J)%nat -> (k < J)%nat -> is_finite (x j k) = true) ->
  (forall j, (j < J)%nat -> row_sum J (rmat x) j <= bpow radix2 200) ->
  (forall j m, (j < J)%nat -> dot_value (map (fun k => (x j k, m k)) (seq 0 J)) (dot j m)) ->
  dot_accurate J x dot (9 / 8 * INR J * bpow radix2 (-53)).
Proof.
  intros HJ HF HS HD m j Hj Hm. rewrite u_bpow.
  assert (n0 : 0 <= INR J) by apply pos_INR.
  assert (A : bsum J (fun k => Rabs (B2R (x j k) * B2R (m k))) <= bpow radix2 1000).
  { apply Rle_trans with (row_sum J (rmat x) j * bpow radix2 202).
    - unfold row_sum. rewrite <- bsum_scal_r. apply bsum_le. intros k Hk. rewrite Rabs_mult. unfold rmat.
      apply Rmult_le_compat_l; [apply Rabs_pos|]. apply Hm; auto.
    - apply Rle_trans with (bpow radix2 200 * bpow radix2 202); [apply Rmult_le_compat_r; [apply bpow_ge_0|auto]|].
      rewrite <- bpow_plus. apply bpow_le. lia. }
  destruct (dot_err _ _ (HD j m Hj)) as (F & Z & E).
  - apply Forall_forall. intros p Hp. apply in_map_iff in Hp. destruct Hp as (k & <- & Hk). apply in_seq in Hk. split; cbn [fst snd]; [apply HF|apply Hm]; lia.
  - rewrite pairs_abs. exact A.
  - rewrite map_length, seq_length. apply Rle_trans with (bpow radix2 40 * u); [apply Rmult_le_compat_r; lra|]. cbn. lra.
  - split; [exact F|]. rewrite pairs_sum, pairs_abs, map_length, seq_length in E.
    destruct J as [|J']; [lia|]. specialize (E ltac:(discriminate)). eapply Rle_trans; [exact E|].
    apply Rplus_le_compat_l. apply Rle_trans with (bpow radix2 1 * bpow radix2 40 * eta).
    + apply Rmult_le_compat_r; [apply bpow_ge_0|]. replace (bpow radix2 1) with 2 by (cbn; lra). lra.
    + rewrite <- !bpow_plus. apply bpow_le. lia.
Qed.

Section Stream.
Variables (root : float -> float) (pw : float -> nat -> float) (X Y : R) (f : float) (bs : list (list fobs)).
Variables (a : fcd_args) (x : nat -> nat -> float).
Hypothesis HR : root_accurate root.
Hypothesis HPw : pow_accurate pw.
Hypothesis HX : bpow radix2 (-60) <= X <= bpow radix2 300.
Hypothesis HY : bpow radix2 (-60) <= Y <= bpow radix2 300.
Hypothesis Ff : is_finite f = true.
Hypothesis Hf : 0 <= B2R f <= 1.
Hypothesis Hne : Forall (fun b => b <> []) bs.
Hypothesis Hok : Forall (fobs_ok (fc_J a) X Y) (concat bs).
Hypothesis Hlen : INR (length (concat bs)) <= bpow radix2 40.
Hypothesis HC : computed_from root pw f bs a x.
Let J := fc_J a.
Let rows := map robs (concat bs).
Let W := wtotal (B2R f) rows.
Let e := 16 * INR (length (concat bs)) * u.
Let G := gram_spec (B2R f) rows.
Let h := ygram_spec (B2R f) rows.

Lemma map_nonempty {A B} (c : A -> B) : forall l, Forall (fun b => b <> []) l -> Forall (fun b : list B => b <> []) (map (map c) l).
Proof. induction 1 as [|b l Hb H IH]; cbn [map]; constructor; auto. destruct b; [congruence|discriminate]. Qed.

Lemma entry_err i j : (i < J)%nat -> (j < J)%nat -> is_finite (x i j) = true /\ Rabs (rmat x i j - G i j) <= e * (X * X * W).
Proof.
  intros Hi Hj. destruct HC as (C1 & _). specialize (C1 i j Hi Hj).
  assert (Ok : Forall (frow_ok X X) (concat (map (map (col i j)) bs))).
  { rewrite <- concat_map. apply Forall_forall. intros r Hr. apply in_map_iff in Hr. destruct Hr as (o & <- & Ho).
    rewrite Forall_forall in Hok. destruct (Hok o Ho) as (Hx & Fy & Hy & Fw & Hw). destruct (Hx i Hi). destruct (Hx j Hj).
    unfold frow_ok, col, rx, ry, rw. cbn [fst snd]. auto 10. }
  destruct (run_accuracy root pw X X f _ (x i j) HR HPw HX HX Ff Hf (map_nonempty _ _ Hne) Ok) as [F E].
  - rewrite <- concat_map, map_length. exact Hlen.
  - exact C1.
  - split; [exact F|]. rewrite u_bpow in E. rewrite <- concat_map, map_length in E.
    assert (E1 : exact_entry (B2R f) (map (col i j) (concat bs)) = G i j).
    { unfold exact_entry, G, gram_spec, rows. rewrite !dsum_of_map. reflexivity. }
    assert (E2 : exact_weight (B2R f) (map (col i j) (concat bs)) = W).
    { unfold exact_weight, W, wtotal, rows. rewrite !dsum_of_map. reflexivity. }
    rewrite E1, E2 in E. exact E.
Qed.
Lemma moment_err i : (i < J)%nat -> is_finite (fc_y a i) = true /\ Rabs (rvec (fc_y a) i - h i) <= e * (X * Y * W).
Proof.
  intros Hi. destruct HC as (_ & C1 & _). specialize (C1 i Hi).
  assert (Ok : Forall (frow_ok X Y) (concat (map (map (coly i)) bs))).
  { rewrite <- concat_map. apply Forall_forall. intros r Hr. apply in_map_iff in Hr. destruct Hr as (o & <- & Ho).
    rewrite Forall_forall in Hok. destruct (Hok o Ho) as (Hx & Fy & Hy & Fw & Hw). destruct (Hx i Hi).
    unfold frow_ok, coly, rx, ry, rw. cbn [fst snd]. auto 10. }
  destruct (run_accuracy root pw X Y f _ (fc_y a i) HR HPw HX HY Ff Hf (map_nonempty _ _ Hne) Ok) as [F E].
  - rewrite <- concat_map, map_length. exact Hlen.
  - exact C1.
  - split; [exact F|]. rewrite u_bpow in E. rewrite <- concat_map, map_length in E.
    assert (E1 : exact_entry (B2R f) (map (coly i) (concat bs)) = h i).
    { unfold exact_entry, h, ygram_spec, rows. rewrite !dsum_of_map. reflexivity. }
    assert (E2 : exact_weight (B2R f) (map (coly i) (concat bs)) = W).
    { unfold exact_weight, W, wtotal, rows. rewrite !dsum_of_map. reflexivity. }
    rewrite E1, E2 in E. exact E.
Qed.
Lemma rows_ok o : In o (concat bs) -> 0 < B2R (fo_w o) /\ (forall i, (i < J)%nat -> Rabs (B2R (fo_x o i)) <= X) /\ Rabs (B2R (fo_y o)) <= Y.
Proof.
  intros Ho. rewrite Forall_forall in Hok. destruct (Hok o Ho) as (Hx & Fy & Hy & Fw & Hw). pose proof (bpow_gt_0 radix2 (-100)).
  split; [lra|]. split; [intros i Hi; apply Hx; auto|exact Hy].
Qed.
Lemma W0 : 0 <= W.
Proof.
  unfold W, wtotal, rows. rewrite dsum_of_map. apply dsum_nonneg; [lra|]. intros o Ho. cbn. pose proof (rows_ok o Ho). lra.
Qed.
Lemma G_abs i j : (i < J)%nat -> (j < J)%nat -> Rabs (G i j) <= X * X * W.
Proof.
  intros Hi Hj. unfold G, gram_spec, W, wtotal, rows. rewrite !dsum_of_map, <- dsum_scal. apply dsum_abs; [lra|].
  intros o Ho. destruct (rows_ok o Ho) as (w0 & Hx & _). cbn [ow ox robs]. unfold rvec.
  rewrite !Rabs_mult, (Rabs_right (B2R (fo_w o))) by lra. pose proof (Hx i Hi). pose proof (Hx j Hj).
  replace (X * X * B2R (fo_w o)) with (B2R (fo_w o) * X * X) by ring.
  apply Rmult_le_compat; auto using Rabs_pos; [apply Rmult_le_pos; [lra|apply Rabs_pos]|apply Rmult_le_compat_l; lra].
Qed.
Lemma h_abs i : (i < J)%nat -> Rabs (h i) <= X * Y * W.
Proof.
  intros Hi. unfold h, ygram_spec, W, wtotal, rows. rewrite !dsum_of_map, <- dsum_scal. apply dsum_abs; [lra|].
  intros o Ho. destruct (rows_ok o Ho) as (w0 & Hx & Hy). cbn [ow ox oy robs]. unfold rvec.
  rewrite !Rabs_mult, (Rabs_right (B2R (fo_w o))) by lra. pose proof (Hx i Hi).
  replace (X * Y * B2R (fo_w o)) with (B2R (fo_w o) * X * Y) by ring.
  apply Rmult_le_compat; auto using Rabs_pos; [apply Rmult_le_pos; [lra|apply Rabs_pos]|apply Rmult_le_compat_l; lra].
Qed.
Lemma e01 : 0 <= e <= 1.
Proof.
  unfold e. pose proof (pos_INR (length (concat bs))). split; [lra|].
  assert (INR (length (concat bs)) * u <= bpow radix2 40 * u) by (apply Rmult_le_compat_r; lra).
  assert (bpow radix2 40 * u <= / 4096) by (cbn; lra). lra.
Qed.
Lemma XX0 : 0 <= X * X * W /\ 0 <= X * Y * W.
Proof. pose proof (bpow_gt_0 radix2 (-60)). pose proof W0. split; (apply Rmult_le_pos; [apply Rmult_le_pos; lra|lra]). Qed.

Lemma bsum_const n c : bsum n (fun _ => c) = INR n * c.
Proof. induction n as [|n IH]; [cbn; lra|]. rewrite S_INR. cbn [bsum]. rewrite IH. ring. Qed.
Lemma row_sum_le j : (j < J)%nat -> row_sum J (rmat x) j <= 2 * INR J * (X * X * W).
Proof.
  intros Hj. unfold row_sum. apply Rle_trans with (bsum J (fun _ => 2 * (X * X * W))).
  - apply bsum_le. intros k Hk. destruct (entry_err j k Hj Hk) as [_ E]. apply abs_near in E. pose proof (G_abs j k Hj Hk).
    assert (e * (X * X * W) <= 1 * (X * X * W)) by (apply Rmult_le_compat_r; [apply XX0|apply e01]). lra.
  - rewrite bsum_const. lra.
Qed.
Lemma row_rest_le j : (j < J)%nat -> row_rest J (rmat x) j <= 2 * INR J * (X * X * W).
Proof.
  intros Hj. eapply Rle_trans; [|apply (row_sum_le j Hj)]. unfold row_rest, row_sum. apply bsum_le. intros k Hk.
  destruct (Nat.eqb k j); [apply Rabs_pos|lra].
Qed.
Lemma row_rest_pos j : 0 <= row_rest J (rmat x) j.
Proof. apply bsum_nonneg. intros k _. destruct (Nat.eqb k j); [lra|apply Rabs_pos]. Qed.
Lemma moment_le i : (i < J)%nat -> Rabs (rvec (fc_y a) i) <= 2 * (X * Y * W).
Proof.
  intros Hi. destruct (moment_err i Hi) as [_ E]. apply abs_near in E. pose proof (h_abs i Hi).
  assert (e * (X * Y * W) <= 1 * (X * Y * W)) by (apply Rmult_le_compat_r; [apply XX0|apply e01]). lra.
Qed.

Hypothesis HJ : INR J <= bpow radix2 40.
Hypothesis Hbig : 2 * INR J * (X * X * W) <= bpow radix2 200.
Hypothesis Hbig2 : 2 * (X * Y * W) <= bpow radix2 200.
Hypothesis Hdiag : forall j, (j < J)%nat -> bpow radix2 (-200) + e * (X * X * W) <= G j j.
Hypothesis Hreg : in_range (fc_reg a) /\ 0 <= B2R (fc_reg a).
Hypothesis Halpha : is_finite (fc_alpha a) = true /\ 0 <= B2R (fc_alpha a) <= 1.

Lemma stream_ranged : ranged J x (fc_y a) (fc_reg a) (fc_alpha a).
Proof.
  split; [|split; [apply Hreg|split; [apply Hreg|exact Halpha]]]. intros j Hj.
  destruct (entry_err j j Hj Hj) as [F E]. split; [exact F|]. split.
  - specialize (Hdiag j Hj). apply abs_le2 in E. unfold rmat in E. lra.
  - split; [eapply Rle_trans; [apply row_sum_le; auto|exact Hbig]|].
    split; [apply moment_err; auto|]. eapply Rle_trans; [apply moment_le; auto|exact Hbig2].
Qed.
Lemma stream_dot : dot_accurate J x (fc_dot a) (9 / 8 * INR J * bpow radix2 (-53)).
Proof.
  apply any_dot_accurate; auto.
  - intros j k Hj Hk. apply entry_err; auto.
  - intros j Hj. eapply Rle_trans; [apply row_sum_le; auto|exact Hbig].
  - apply HC.
Qed.

Theorem stream_optimal random perm tol maxit b b' n :
  fbounds_ok J (fc_lo a) (fc_up a) -> (forall i, Permutation (perm i) (seq 0 J)) ->
  is_finite tol = true -> 0 <= B2R tol <= 1 ->
  float_coordinate_descent a random perm tol maxit b = Ok (b', n) -> (n <= maxit)%nat ->
  (forall k, (k < J)%nat -> in_range (b' k)) ->
  forall t, in_box J (rbound (fc_lo a)) (rbound (fc_up a)) t ->
    (n = 1%nat \/ forall j, (j < J)%nat -> B2R (b' j) = 0 -> t j = 0) ->
    1 / 2 * wls_loss J (B2R f) rows (rvec b') + enet_penalty J (B2R (fc_reg a)) (fc_isreg a) (B2R (fc_alpha a)) (rvec b')
      + 1 / 2 * dsum (1 - B2R f) (fun o => ow o * (dot J (ox o) (fun k => t k - B2R (b' k))) ^ 2) rows
    <= 1 / 2 * wls_loss J (B2R f) rows t + enet_penalty J (B2R (fc_reg a)) (fc_isreg a) (B2R (fc_alpha a)) t
       + stream_slack J X Y W (B2R (fc_reg a)) (B2R tol) (length (concat bs)) (max_abs J (rvec b'))
         * bsum J (fun j => Rabs (t j - B2R (b' j))).
Proof.
  intros HB Hp Ft Ht H Hn Hr t Hbox Hz.
  assert (g01 : 0 <= 9 / 8 * INR J * bpow radix2 (-53) <= 1).
  { rewrite u_bpow. pose proof (pos_INR J). split; [lra|].
    assert (INR J * u <= bpow radix2 40 * u) by (apply Rmult_le_compat_r; lra).
    assert (bpow radix2 40 * u <= / 4096) by (cbn; lra). lra. }
  pose proof (float_first_order a x _ random perm tol maxit b b' n stream_ranged (proj1 (proj2 (proj2 HC))) stream_dot g01 HB Hp Ft Ht H Hn Hr t Hbox Hz) as FO.
  fold J in FO. set (lam := B2R (fc_reg a)) in *. set (al := B2R (fc_alpha a)) in *. set (g := 9 / 8 * INR J * bpow radix2 (-53)) in *.
  set (M := max_abs J (rvec b')). set (S := stream_slack J X Y W lam (B2R tol) (length (concat bs)) M).
  assert (M0 : 0 <= M) by apply max_abs_nonneg.
  assert (L0 : 0 <= lam) by apply Hreg. assert (A01 : 0 <= al <= 1) by apply Halpha. destruct XX0 as [XX XY]. pose proof e01 as E01.
  pose proof (pos_INR J) as J0.
  enough (K : enet_obj J G h lam (fc_isreg a) al (rvec b') + 1 / 2 * quad J G (fun k => t k - rvec b' k)
     <= enet_obj J G h lam (fc_isreg a) al t + bsum J (fun j => S * Rabs (t j - B2R (b' j)))).
  { rewrite bsum_scal_l in K. unfold G in K. rewrite gram_spec_quad in K. fold G in K.
    rewrite !wls_loss_expand. fold G h. unfold enet_obj in K. unfold enet_penalty.
    rewrite (dot_comm J h (rvec b')), (dot_comm J h t) in K. unfold rvec in *. lra. }
  apply vi_sum_approx; [apply gram_spec_sym|exact L0|exact A01|]. intros j Hj. specialize (FO j Hj).
  change (B2R (b' j)) with (rvec b' j) in *. set (z := rvec b') in *. set (d := t j - z j) in *.
  set (sl := slack J (rmat x) (rvec (fc_y a)) lam (fc_isreg a) al g (B2R tol) z j) in *.
  (* the computed gradient against the exact one *)
  assert (GR : Rabs (((rmat x j j * z j + mvec J (rmat x) (vset z j 0) j) - rvec (fc_y a) j) - ((G j j * z j + mvec J G (vset z j 0) j) - h j))
    <= e * (X * W * (X * INR J * M + Y))).
  { assert (MV : forall A : mat, A j j * z j + mvec J A (vset z j 0) j = bsum J (fun k => A j k * z k)).
    { intros A. unfold mvec. rewrite (bsum_split J j (fun k => A j k * z k)) by auto.
      rewrite (bsum_split J j (fun k => A j k * vset z j 0 k)) by auto. rewrite vset_same.
      rewrite (bsum_ext J (fun i => if (i =? j)%nat then 0 else A j i * vset z j 0 i) (fun i => if (i =? j)%nat then 0 else A j i * z i)); [ring|].
      intros i _. unfold vset. destruct (Nat.eqb i j); reflexivity. }
    rewrite !MV.
    replace (bsum J (fun k => rmat x j k * z k) - rvec (fc_y a) j - (bsum J (fun k => G j k * z k) - h j))
      with (bsum J (fun k => (rmat x j k - G j k) * z k) - (rvec (fc_y a) j - h j)).
    - eapply Rle_trans; [apply Rabs_triang|]. rewrite Rabs_Ropp. destruct (moment_err j Hj) as [_ EY].
      assert (B : Rabs (bsum J (fun k => (rmat x j k - G j k) * z k)) <= bsum J (fun _ => e * (X * X * W) * M)).
      { apply bsum_abs_le. intros k Hk. rewrite Rabs_mult. destruct (entry_err j k Hj Hk) as [_ EX].
        apply Rmult_le_compat; auto using Rabs_pos. apply max_abs_ge; auto. }
      rewrite bsum_const in B. replace (e * (X * W * (X * INR J * M + Y))) with (INR J * (e * (X * X * W) * M) + e * (X * Y * W)) by ring. lra.
    - rewrite (bsum_ext J (fun k => (rmat x j k - G j k) * z k) (fun k => rmat x j k * z k - G j k * z k)) by (intros; ring).
      rewrite bsum_minus. ring. }
  assert (SL : sl + e * (X * W * (X * INR J * M + Y)) <= S).
  { unfold sl, slack, S, stream_slack. fold M. cbv zeta.
    change ((1 + bpow radix2 (-50)) * (B2R tol * M) + bpow radix2 (-900)) with (last_move J (B2R tol) z).
    set (mv := last_move J (B2R tol) z).
    assert (mv0 : 0 <= mv).
    { unfold mv, last_move. fold M. pose proof (bpow_gt_0 radix2 (-900)). pose proof (bpow_gt_0 radix2 (-50)).
      assert (0 <= B2R tol * M) by (apply Rmult_le_pos; lra).
      assert (0 <= (1 + bpow radix2 (-50)) * (B2R tol * M)) by (apply Rmult_le_pos; lra). lra. }
    pose proof (row_rest_le j Hj) as RR. pose proof (row_sum_le j Hj) as RS. pose proof (moment_le j Hj) as ML.
    set (Q := 2 * INR J * (X * X * W)) in *. fold g. unfold e. rewrite <- u_bpow.
    assert (A1 : row_rest J (rmat x) j * mv <= Q * mv) by (apply Rmult_le_compat_r; auto).
    assert (A2 : row_sum J (rmat x) j * (M + mv) <= Q * (M + mv)) by (apply Rmult_le_compat_r; lra).
    assert (A3 : g * (row_sum J (rmat x) j * (M + mv)) <= g * (Q * (M + mv))) by (apply Rmult_le_compat_l; lra).
    assert (P : (if fc_isreg a j then al * lam + lam * (1 - al) * (M + mv) else 0) <= lam * (1 + (M + mv))).
    { assert (Q1 : 0 <= lam * (M + mv)) by (apply Rmult_le_pos; lra).
      destruct (fc_isreg a j); [|lra].
      assert (Q2 : al * lam <= 1 * lam) by (apply Rmult_le_compat_r; lra).
      assert (Q3 : lam * (1 - al) * (M + mv) <= lam * 1 * (M + mv)) by (apply Rmult_le_compat_r; [lra|]; apply Rmult_le_compat_l; lra).
      lra. }
    pose proof (bpow_gt_0 radix2 (-48)) as b48.
    assert (A4 : bpow radix2 (-48) * (Rabs (rvec (fc_y a) j) + row_sum J (rmat x) j * (M + mv) + (if fc_isreg a j then al * lam + lam * (1 - al) * (M + mv) else 0))
      <= bpow radix2 (-48) * (2 * (X * Y * W) + Q * (M + mv) + lam * (1 + (M + mv)))) by (apply Rmult_le_compat_l; lra).
    lra. }
  apply abs_le2 in GR.
  assert (GD : forall D, Rabs D <= e * (X * W * (X * INR J * M + Y)) -> - (e * (X * W * (X * INR J * M + Y)) * Rabs d) <= D * d).
  { intros D HD. assert (Rabs (D * d) <= e * (X * W * (X * INR J * M + Y)) * Rabs d) by (rewrite Rabs_mult; apply Rmult_le_compat_r; [apply Rabs_pos|auto]).
    apply abs_le2 in H0. lra. }
  set (D := ((rmat x j j * z j + mvec J (rmat x) (vset z j 0) j) - rvec (fc_y a) j) - ((G j j * z j + mvec J G (vset z j 0) j) - h j)) in *.
  assert (HD : Rabs (- D) <= e * (X * W * (X * INR J * M + Y))) by (rewrite Rabs_Ropp; apply abs_le2; exact GR).
  specialize (GD (- D) HD).
  assert (SD : (sl + e * (X * W * (X * INR J * M + Y))) * Rabs d <= S * Rabs d) by (apply Rmult_le_compat_r; [apply Rabs_pos|exact SL]).
  assert (EQ : forall A : mat, forall y : R, ((if fc_isreg a j then A j j + lam * (1 - al) else A j j) * z j - (y - mvec J A (vset z j 0) j))
     = (A j j * z j + mvec J A (vset z j 0) j - y) + (if fc_isreg a j then lam * (1 - al) else 0) * z j) by (intros; destruct (fc_isreg a j); ring).
  rewrite EQ in FO |- *. unfold D in GD. lra.
Qed.
End Stream.

(** From the objective to the coefficients. *)
Lemma distance_bound J mu S q (d : vec) : 0 < mu -> 0 <= S ->
  mu * bsum J (fun j => d j ^ 2) <= q -> 1 / 2 * q <= S * bsum J (fun j => Rabs (d j)) ->
  forall j, (j < J)%nat -> Rabs (d j) <= 2 * S * INR J / mu.
Proof.
  intros m0 S0 Hq H j Hj. set (D := max_abs J d).
  assert (D0 : 0 <= D) by apply max_abs_nonneg.
  assert (A1 : bsum J (fun j => Rabs (d j)) <= INR J * D).
  { rewrite <- bsum_const. apply bsum_le. intros i Hi. apply max_abs_ge; auto. }
  assert (A2 : D ^ 2 <= bsum J (fun j => d j ^ 2)).
  { pose proof (max_abs_sqdist J d (fun _ => 0)) as Q. unfold sqdist in Q.
    assert (E : max_abs J (fun k => d k - 0) = D).
    { unfold D. clear. induction J as [|n IH]; cbn [max_abs]; auto. rewrite IH, Rminus_0_r. reflexivity. }
    rewrite E in Q. rewrite (bsum_ext J (fun j => (d j - 0) ^ 2) (fun j => d j ^ 2)) in Q by (intros; ring). exact Q. }
  assert (A3 : mu * D ^ 2 <= 2 * S * (INR J * D)).
  { apply Rle_trans with q; [eapply Rle_trans; [|exact Hq]; apply Rmult_le_compat_l; lra|].
    assert (S * bsum J (fun j => Rabs (d j)) <= S * (INR J * D)) by (apply Rmult_le_compat_l; auto). lra. }
  apply Rle_trans with D; [apply max_abs_ge; auto|].
  destruct (Req_dec D 0) as [Z|Z].
  - rewrite Z. unfold Rdiv. pose proof (pos_INR J). apply Rmult_le_pos; [apply Rmult_le_pos; lra|]. left. apply Rinv_0_lt_compat. auto.
  - assert (Dp : 0 < D) by lra. apply (Rmult_le_reg_r mu); auto. unfold Rdiv. rewrite Rmult_assoc, Rinv_l, Rmult_1_r by lra.
    apply (Rmult_le_reg_r D); auto. lra.
Qed.

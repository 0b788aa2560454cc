(** [fit] of the scaler in binary64 is close to the exact moments. *)
From Coq Require Import ZArith Reals List Bool Arith Lia Lra Psatz.
From Flocq Require Import Core BinarySingleNaN.
From Verif Require Import Base Lin Data S_Gram L_Gram S_Scaler L_Scaler M_Float S_Float S_FloatScaler L_Float L_Float2 L_Float3 L_Float5 L_Float6 L_FloatS L_FloatS2 L_FloatS3 L_FloatS4.
Import ListNotations.
Open Scope R_scope.

Fixpoint terms (T : float -> float -> float) (f : float) (l : list (float * float)) : list float :=
  match l with
  | [] => []
  | xw :: t => T (fst xw) (fmul (snd xw) (fage (fsub (fint 1) f) (length t))) :: terms T f t
  end.
Lemma eff_terms f : forall l,
  map (fun uv => fmul (fst uv) (snd uv)) (combine (map snd l) (fforget_vector f (length l))) = terms (fun _ e => e) f l.
Proof.
  induction l as [|xw l IH]; [reflexivity|]. cbn [length map]. rewrite fforget_S. cbn [combine map terms fst snd]. rewrite IH. reflexivity.
Qed.
Lemma avg_terms (h : float -> float) f : forall l,
  map (fun xw => fmul (fst xw) (snd xw)) (combine (map h (map fst l)) (terms (fun _ e => e) f l)) = terms (fun x e => fmul (h x) e) f l.
Proof. induction l as [|xw l IH]; [reflexivity|]. cbn [map combine terms fst snd]. rewrite IH. reflexivity. Qed.
Lemma fit_terms f l : fscaler_fit f (map fst l) (map snd l) =
  let cw := fsum (terms (fun _ e => e) f l) in
  let mean := fdiv (fsum (terms (fun x e => fmul x e) f l)) cw in
  let var := fdiv (fsum (terms (fun x e => fmul (let d := fsub x mean in fmul d d) e) f l)) cw in
  mk_fscaler cw mean (fmul var cw) var.
Proof.
  unfold fscaler_fit, faverage. rewrite map_length, eff_terms. cbv zeta.
  assert (I : map fst l = map (fun x => x) (map fst l)) by (rewrite map_id; reflexivity).
  assert (A : map (fun xw => fmul (fst xw) (snd xw)) (combine (map fst l) (terms (fun _ e => e) f l)) = terms (fun x e => fmul x e) f l).
  { rewrite I. apply (avg_terms (fun x => x)). }
  rewrite !A. match goal with |- context [map ?h (map fst l)] => rewrite !(avg_terms h) end. reflexivity.
Qed.

Lemma terms_length T f l : length (terms T f l) = length l.
Proof. induction l as [|xw l IH]; cbn; auto. Qed.

Lemma terms_sum T (F : R -> R) c cF f n l : 0 <= B2R f <= 1 -> 0 <= c -> (length l <= n)%nat ->
  (forall xw, In xw l -> 0 <= B2R (snd xw)) ->
  (forall xw k, In xw l -> (k < n)%nat ->
     let e := fmul (snd xw) (fage (fsub (fint 1) f) k) in let v := (1 - B2R f) ^ k * B2R (snd xw) in
     is_finite (T (fst xw) e) = true /\ Rabs (B2R (T (fst xw) e) - v * F (B2R (fst xw))) <= c * (v + delta) /\
     Rabs (F (B2R (fst xw))) <= cF) ->
  (forall t, In t (terms T f l) -> is_finite t = true) /\
  Rabs (lsum (map B2R (terms T f l)) - dsum (1 - B2R f) (fun o => ow o * F (ox o 0%nat)) (frows l))
    <= c * (wtotal (B2R f) (frows l) + INR (length l) * delta) /\
  lsum (map (fun t => Rabs (B2R t)) (terms T f l)) <= (cF + c) * (wtotal (B2R f) (frows l) + INR (length l) * delta).
Proof.
  intros Hf Hc. assert (D0 : 0 < delta) by apply bpow_gt_0.
  induction l as [|xw l IH]; intros Hl Hw H.
  { cbn [terms map lsum frows dsum length]. change (INR 0) with 0. unfold wtotal. cbn [dsum].
    split; [intros t []|]. rewrite Rminus_0_r, Rabs_R0. lra. }
  cbn [length] in Hl. destruct IH as (I1 & I2 & I3); [lia|intros; apply Hw; right; auto|intros; apply H; [right|]; auto|].
  destruct (H xw (length l) (or_introl eq_refl)) as (H1 & H2 & H3); [lia|]. cbv zeta in *.
  pose proof (Hw xw (or_introl eq_refl)) as w0.
  assert (p0 : 0 <= (1 - B2R f) ^ length l) by (apply pow_le; lra).
  assert (v0 : 0 <= (1 - B2R f) ^ length l * B2R (snd xw)) by (apply Rmult_le_pos; auto).
  cbn [terms map lsum length]. rewrite S_INR. 
  assert (EF : frows (xw :: l) = mkobs (fun _ => B2R (fst xw)) 0 (B2R (snd xw)) :: frows l) by reflexivity.
  rewrite EF. unfold wtotal in *. cbn [dsum ow ox]. replace (length (frows l)) with (length l) by (unfold frows; rewrite map_length; reflexivity).
  set (v := (1 - B2R f) ^ length l * B2R (snd xw)) in *.
  set (t := B2R (T (fst xw) _)) in *. set (W := dsum (1 - B2R f) ow (frows l)) in *.
  split; [intros t' [<-|Ht]; [exact H1|apply I1; auto]|]. split.
  - match goal with |- Rabs (?a + _ - _) <= _ => change a with t end. match goal with |- Rabs ?z <= _ => replace z with ((t - v * F (B2R (fst xw)))
      + (lsum (map B2R (terms T f l)) - dsum (1 - B2R f) (fun o => ow o * F (ox o 0%nat)) (frows l))) by (unfold v; ring) end.
    eapply Rle_trans; [apply Rabs_triang|]. lra.
  - match goal with |- Rabs ?a + _ <= _ => change a with t end. apply abs_near in H2. rewrite Rabs_mult, (Rabs_right v) in H2 by lra.
    assert (v * Rabs (F (B2R (fst xw))) <= v * cF) by (apply Rmult_le_compat_l; auto).
    assert (0 <= cF) by (pose proof (Rabs_pos (F (B2R (fst xw)))); lra).
    assert (0 <= cF * delta) by (apply Rmult_le_pos; lra). lra.
Qed.

Lemma fsum_err l : l <> [] -> 2 * INR (length l) * u <= 1 -> (forall t, In t l -> is_finite t = true) ->
  lsum (map (fun t => Rabs (B2R t)) l) <= bpow radix2 999 ->
  is_finite (fsum l) = true /\
  Rabs (B2R (fsum l) - lsum (map B2R l)) <= 2 * INR (length l) * u * lsum (map (fun t => Rabs (B2R t)) l).
Proof.
  destruct l as [|a l]; [congruence|]. intros _ Hn F HA. cbn [fsum map lsum length] in *. rewrite S_INR in *.
  assert (N0 := pos_INR (length l)).
  assert (L0 : 0 <= lsum (map (fun x => Rabs (B2R x)) l)).
  { clear. induction l as [|x l IH]; simpl; [lra|]. pose proof (Rabs_pos (B2R x)). lra. }
  pose proof (Rabs_pos (B2R a)) as a0.
  destruct (fold_err l a) as [Ff Ef]; [lra|apply F; left; auto|intros; apply F; right; auto| |].
  { eapply Rle_trans; [exact HA|]. replace (bpow radix2 1000) with (2 * bpow radix2 999).
    - pose proof (bpow_gt_0 radix2 999). assert (bpow radix2 999 * (2 * (INR (length l) + 1) * u) <= bpow radix2 999 * 1) by (apply Rmult_le_compat_l; lra).
      assert (0 <= bpow radix2 999 * u) by (apply Rmult_le_pos; lra). lra.
    - change 2 with (bpow radix2 1). rewrite <- bpow_plus. reflexivity. }
  split; auto. eapply Rle_trans; [exact Ef|]. apply Rmult_le_compat_r; lra.
Qed.

(** The effective weight of a row. *)
Lemma weight_err f X n xw k : is_finite f = true -> 0 <= B2R f <= 1 -> row_ok X xw -> (k < n)%nat -> INR n <= bpow radix2 40 ->
  let e := fmul (snd xw) (fage (fsub (fint 1) f) k) in let v := (1 - B2R f) ^ k * B2R (snd xw) in
  is_finite e = true /\ Rabs (B2R e - v) <= 3 * (INR n * u) * (v + delta) /\ 0 <= v <= bpow radix2 100.
Proof.
  intros Ff Hf (_ & _ & Fw & Hw) Hk Hn. cbv zeta.
  assert (kn : INR k + 1 <= INR n) by (rewrite <- S_INR; apply le_INR; lia). assert (K0 := pos_INR k).
  pose proof Hn as Hn'. change (bpow radix2 40) with 1099511627776 in Hn'.
  destruct (fage_err f k Ff Hf) as (Fa & Ha & Ea); [lra|].
  set (a := B2R (fage (fsub (fint 1) f) k)) in *. set (w := B2R (snd xw)) in *. set (g := 1 - B2R f) in *.
  assert (B0 : 0 < bpow radix2 (-100)) by apply bpow_gt_0.
  pose proof (pow_unit g k ltac:(unfold g; lra)) as P.
  assert (v0 : 0 <= g ^ k * w) by (apply Rmult_le_pos; lra).
  assert (v1 : g ^ k * w <= 1 * w) by (apply Rmult_le_compat_r; lra).
  assert (wa : 0 <= w * a <= w) by (split; [apply Rmult_le_pos; lra|]; rewrite <- (Rmult_1_r w) at 2; apply Rmult_le_compat_l; lra).
  destruct (fmul_err (snd xw) (fage (fsub (fint 1) f) k) Fw Fa) as [Fe Ee].
  { fold w a. rewrite Rabs_right by lra. apply (big 100 1); [lia|lra|lra]. }
  fold w a in Ee. rewrite (Rabs_right (w * a)) in Ee by lra.
  split; auto. split; [|lra].
  set (v := g ^ k * w) in *. set (e := B2R (fmul (snd xw) (fage (fsub (fint 1) f) k))) in *.
  destruct eta_small as [e0 _].
  assert (A : Rabs (w * a - v) <= 3 * (INR k * u) * v + 2 * INR k * eta * w).
  { replace (w * a - v) with (w * (a - g ^ k)) by (unfold v; ring). rewrite Rabs_mult, (Rabs_right w) by lra.
    replace (3 * (INR k * u) * v + 2 * INR k * eta * w) with (w * (3 * (INR k * u) * g ^ k + 2 * INR k * eta)) by (unfold v; ring).
    apply Rmult_le_compat_l; lra. }
  assert (kv : (INR k * u) * v <= / 4096 * v) by (apply Rmult_le_compat_r; lra).
  assert (ke : 2 * INR k * eta * w <= 2 * bpow radix2 40 * eta * bpow radix2 100).
  { apply Rmult_le_compat; try lra.
    - apply Rmult_le_pos; lra.
    - apply Rmult_le_compat_r; lra. }
  assert (kd : 4 * (2 * bpow radix2 40 * eta * bpow radix2 100) + 4 * eta <= u * delta).
  { change 2 with (bpow radix2 1). change 4 with (bpow radix2 2). change u with (bpow radix2 (-53)). rewrite <- !bpow_plus.
    apply Rle_trans with (bpow radix2 (-924) + bpow radix2 (-924)).
    - apply Rplus_le_compat; apply bpow_le; lia.
    - replace (bpow radix2 (-924) + bpow radix2 (-924)) with (bpow radix2 1 * bpow radix2 (-924)) by (change (bpow radix2 1) with 2; ring).
      rewrite <- bpow_plus. apply bpow_le. lia. }
  assert (nv : (INR k + 1) * u * v <= INR n * u * v) by (apply Rmult_le_compat_r; lra).
  assert (nd : 1 * (u * delta) <= INR n * (u * delta)).
  { apply Rmult_le_compat_r; [apply Rmult_le_pos; [lra|apply bpow_ge_0]|lra]. }
  assert (s0 : 0 <= 2 * INR k * eta * w) by (repeat apply Rmult_le_pos; lra).
  replace (e - v) with ((e - w * a) + (w * a - v)) by ring.
  eapply Rle_trans; [apply Rabs_triang|].
  apply abs_near in A. rewrite (Rabs_right v), (Rabs_right (w * a)) in A by lra.
  assert (A' : Rabs (w * a - v) <= 3 * (INR k * u) * v + 2 * INR k * eta * w).
  { replace (w * a - v) with (w * (a - g ^ k)) by (unfold v; ring). rewrite Rabs_mult, (Rabs_right w) by lra.
    replace (3 * (INR k * u) * v + 2 * INR k * eta * w) with (w * (3 * (INR k * u) * g ^ k + 2 * INR k * eta)) by (unfold v; ring).
    apply Rmult_le_compat_l; lra. }
  lra.
Qed.

Lemma fsum_terms T (F : R -> R) c cF f X l : is_finite f = true -> 0 <= B2R f <= 1 -> l <> [] -> Forall (row_ok X) l ->
  INR (length l) <= bpow radix2 40 -> 0 <= c -> 0 <= cF -> cF + c <= bpow radix2 800 ->
  (forall xw k, In xw l -> (k < length l)%nat ->
     let e := fmul (snd xw) (fage (fsub (fint 1) f) k) in let v := (1 - B2R f) ^ k * B2R (snd xw) in
     is_finite (T (fst xw) e) = true /\ Rabs (B2R (T (fst xw) e) - v * F (B2R (fst xw))) <= c * (v + delta) /\
     Rabs (F (B2R (fst xw))) <= cF) ->
  is_finite (fsum (terms T f l)) = true /\
  Rabs (B2R (fsum (terms T f l)) - dsum (1 - B2R f) (fun o => ow o * F (ox o 0%nat)) (frows l))
    <= (1 + / 1000) * (c + 2 * (INR (length l) * u) * (cF + c)) * wtotal (B2R f) (frows l).
Proof.
  intros Ff Hf Hn HF HL Hc HcF Hb H.
  destruct (wtotal_range (B2R f) X l Hf HF Hn) as [WL WU].
  destruct (terms_sum T F c cF f (length l) l Hf Hc (le_n _)) as (T1 & T2 & T3); auto.
  { intros xw Hi. rewrite Forall_forall in HF. destruct (HF xw Hi) as (_ & _ & _ & Hw). apply Rle_trans with (bpow radix2 (-100)); [apply bpow_ge_0|apply Hw]. }
  set (W := wtotal (B2R f) (frows l)) in *. assert (B0 : 0 < bpow radix2 (-100)) by apply bpow_gt_0.
  assert (N0 := pos_INR (length l)). assert (D0 : 0 < delta) by apply bpow_gt_0.
  assert (ND : INR (length l) * delta <= / 1000 * W).
  { apply Rle_trans with (bpow radix2 40 * delta); [apply Rmult_le_compat_r; lra|]. rewrite <- bpow_plus.
    apply Rle_trans with (/ 1024 * bpow radix2 (-100)); [|lra].
    change (/ 1024) with (bpow radix2 (-10)). rewrite <- bpow_plus. apply bpow_le. lia. }
  assert (WU3 : W <= bpow radix2 140).
  { eapply Rle_trans; [exact WU|]. change 140%Z with (40 + 100)%Z. rewrite bpow_plus. apply Rmult_le_compat_r; [apply bpow_ge_0|lra]. }
  set (Z := W + INR (length l) * delta) in *.
  set (SA := lsum (map (fun t => Rabs (B2R t)) (terms T f l))). set (SB := lsum (map B2R (terms T f l))).
  set (SD := dsum (1 - B2R f) (fun o => ow o * F (ox o 0%nat)) (frows l)).
  change (Rabs (SB - SD) <= c * Z) in T2. change (SA <= (cF + c) * Z) in T3.
  assert (Z0 : 0 <= Z <= (1 + / 1000) * W) by (unfold Z; assert (0 <= INR (length l) * delta) by (apply Rmult_le_pos; lra); lra).
  assert (HA : SA <= bpow radix2 999).
  { eapply Rle_trans; [exact T3|]. apply Rle_trans with (bpow radix2 800 * (2 * bpow radix2 140)).
    - apply Rmult_le_compat; lra.
    - change 2 with (bpow radix2 1). rewrite <- !bpow_plus. apply bpow_le. lia. }
  pose proof HL as HL'. change (bpow radix2 40) with 1099511627776 in HL'.
  destruct (fsum_err (terms T f l)) as [Fs Es]; auto.
  { destruct l; [congruence|discriminate]. }
  { rewrite terms_length. lra. }
  split; auto. rewrite terms_length in Es. set (s := B2R (fsum (terms T f l))) in *.
  change (Rabs (s - SB) <= 2 * INR (length l) * u * SA) in Es.
  replace (s - SD) with ((s - SB) + (SB - SD)) by ring.
  eapply Rle_trans; [apply Rabs_triang|].
  assert (K0 : 0 <= 2 * INR (length l) * u) by lra.
  apply Rle_trans with ((c + 2 * (INR (length l) * u) * (cF + c)) * Z).
  - assert (2 * INR (length l) * u * SA <= 2 * INR (length l) * u * ((cF + c) * Z)) by (apply Rmult_le_compat_l; auto).
    replace ((c + 2 * (INR (length l) * u) * (cF + c)) * Z) with (2 * INR (length l) * u * ((cF + c) * Z) + c * Z) by ring. lra.
  - replace ((1 + / 1000) * (c + 2 * (INR (length l) * u) * (cF + c)) * W) with ((c + 2 * (INR (length l) * u) * (cF + c)) * ((1 + / 1000) * W)) by ring.
    apply Rmult_le_compat_l; [|lra]. assert (0 <= 2 * INR (length l) * u * (cF + c)) by (apply Rmult_le_pos; lra). lra.
Qed.

(** The product of a value and an effective weight. *)
Lemma value_err x X nu v ev y : 0 < X -> 0 <= v -> / 9007199254740992 <= nu <= / 4096 -> Rabs x <= X ->
  Rabs (ev - v) <= 3 * nu * (v + delta) -> eta <= u * (X * delta) ->
  Rabs (y - x * ev) <= u * Rabs (x * ev) + eta ->
  Rabs (y - v * x) <= 6 * nu * X * (v + delta) /\ Rabs (x * ev) <= 2 * X * (v + delta).
Proof.
  intros X0 v0 Hn Hx He Het Hy. assert (D0 : 0 < delta) by apply bpow_gt_0. set (z := v + delta) in *.
  assert (z0 : 0 < z) by (unfold z; lra).
  assert (nz : nu * z <= / 4096 * z) by (apply Rmult_le_compat_r; lra).
  assert (E : Rabs ev <= (1 + / 1000) * z).
  { apply abs_near in He. rewrite (Rabs_right v) in He by lra. unfold z in *. lra. }
  assert (XE : Rabs (x * ev) <= (1 + / 1000) * (X * z)).
  { rewrite Rabs_mult. replace ((1 + / 1000) * (X * z)) with (X * ((1 + / 1000) * z)) by ring. apply Rmult_le_compat; auto using Rabs_pos. }
  assert (Xz : 0 < X * z) by (apply Rmult_lt_0_compat; lra).
  split; [|lra].
  replace (y - v * x) with ((y - x * ev) + x * (ev - v)) by ring. eapply Rle_trans; [apply Rabs_triang|]. rewrite (Rabs_mult x).
  assert (A : Rabs x * Rabs (ev - v) <= X * (3 * nu * z)) by (apply Rmult_le_compat; auto using Rabs_pos).
  assert (Xd : X * delta <= X * z) by (apply Rmult_le_compat_l; unfold z; lra).
  assert (B : u * (X * z) <= nu * (X * z)) by (apply Rmult_le_compat_r; lra).
  lra.
Qed.

Lemma square_err x mf m X nu d d2 v ev y : 0 < X -> 0 <= v -> / 9007199254740992 <= nu <= / 4096 -> Rabs x <= X -> Rabs m <= X ->
  Rabs (mf - m) <= 21 * nu * X ->
  Rabs (d - (x - mf)) <= u * Rabs (x - mf) ->
  eta <= u / 1024 * (X * X) ->
  Rabs (d2 - d * d) <= u * Rabs (d * d) + eta ->
  Rabs (ev - v) <= 3 * nu * (v + delta) -> eta <= u * (X * X * delta) ->
  Rabs (y - d2 * ev) <= u * Rabs (d2 * ev) + eta ->
  Rabs (y - v * (x - m) ^ 2) <= 125 * nu * (X * X) * (v + delta).
Proof.
  intros X0 v0 Hn Hx Hm Hmf Hd Het Hd2 He Het2 Hy. assert (D0 : 0 < delta) by apply bpow_gt_0. set (z := v + delta) in *.
  assert (z0 : 0 < z) by (unfold z; lra).
  assert (nz : nu * z <= / 4096 * z) by (apply Rmult_le_compat_r; lra).
  assert (nX : nu * X <= / 4096 * X) by (apply Rmult_le_compat_r; lra).
  assert (uX : u * X <= nu * X) by (apply Rmult_le_compat_r; lra).
  assert (E : Rabs ev <= (1 + / 1000) * z).
  { apply abs_near in He. rewrite (Rabs_right v) in He by lra. unfold z in *. lra. }
  set (t := x - m) in *.
  assert (tb : Rabs t <= 2 * X) by (unfold t, Rminus; eapply Rle_trans; [apply Rabs_triang|]; rewrite Rabs_Ropp; lra).
  assert (xm : Rabs (x - mf) <= 2 * X + 21 * nu * X).
  { replace (x - mf) with (t - (mf - m)) by (unfold t; ring). unfold Rminus at 1. eapply Rle_trans; [apply Rabs_triang|]. rewrite Rabs_Ropp. lra. }
  assert (dt : Rabs (d - t) <= 24 * nu * X).
  { replace (d - t) with ((d - (x - mf)) + (m - mf)) by (unfold t; ring). eapply Rle_trans; [apply Rabs_triang|].
    rewrite (Rabs_minus_sym m). lra. }
  assert (db : Rabs d <= (2 + / 100) * X) by (apply abs_near in dt; lra).
  assert (XX : 0 < X * X) by (apply Rmult_lt_0_compat; lra).
  assert (sq : Rabs (d * d - t ^ 2) <= 97 * nu * (X * X)).
  { replace (d * d - t ^ 2) with ((d - t) * (d + t)) by ring. rewrite Rabs_mult.
    apply Rle_trans with (24 * nu * X * ((4 + / 100) * X)).
    - apply Rmult_le_compat; auto using Rabs_pos. eapply Rle_trans; [apply Rabs_triang|]. lra.
    - assert (0 <= nu * (X * X)) by (apply Rmult_le_pos; lra). lra. }
  assert (ddb : Rabs (d * d) <= (4 + / 10) * (X * X)).
  { rewrite Rabs_mult. apply Rle_trans with ((2 + / 100) * X * ((2 + / 100) * X)); [apply Rmult_le_compat; auto using Rabs_pos|lra]. }
  assert (uXX : u * (X * X) <= nu * (X * X)) by (apply Rmult_le_compat_r; lra).
  assert (nXX : nu * (X * X) <= / 4096 * (X * X)) by (apply Rmult_le_compat_r; lra).
  assert (d2t : Rabs (d2 - t ^ 2) <= 103 * nu * (X * X)).
  { replace (d2 - t ^ 2) with ((d2 - d * d) + (d * d - t ^ 2)) by ring. eapply Rle_trans; [apply Rabs_triang|]. lra. }
  assert (t2 : Rabs (t ^ 2) <= 4 * (X * X)).
  { rewrite <- RPow_abs. replace (4 * (X * X)) with ((2 * X) ^ 2) by ring. apply pow_incr. split; auto using Rabs_pos. }
  assert (d2b : Rabs d2 <= (4 + / 10) * (X * X)) by (apply abs_near in d2t; lra).
  set (Y := X * X) in *. assert (Yz : 0 < Y * z) by (apply Rmult_lt_0_compat; lra).
  assert (de : Rabs (d2 * ev) <= (4 + / 5) * (Y * z)).
  { rewrite Rabs_mult. apply Rle_trans with ((4 + / 10) * Y * ((1 + / 1000) * z)); [apply Rmult_le_compat; auto using Rabs_pos|lra]. }
  assert (A : Rabs (d2 - t ^ 2) * Rabs ev <= 103 * nu * Y * ((1 + / 1000) * z)) by (apply Rmult_le_compat; auto using Rabs_pos).
  assert (B : Rabs (t ^ 2) * Rabs (ev - v) <= 4 * Y * (3 * nu * z)) by (apply Rmult_le_compat; auto using Rabs_pos).
  assert (Yd : Y * delta <= Y * z) by (apply Rmult_le_compat_l; unfold z; lra).
  assert (uYz : u * (Y * z) <= nu * (Y * z)) by (apply Rmult_le_compat_r; lra).
  replace (y - v * t ^ 2) with ((y - d2 * ev) + ((d2 - t ^ 2) * ev + t ^ 2 * (ev - v))) by ring.
  eapply Rle_trans; [apply Rabs_triang|]. pose proof (Rabs_triang ((d2 - t ^ 2) * ev) (t ^ 2 * (ev - v))) as T3.
  rewrite !Rabs_mult in T3.
  assert (0 <= nu * (Y * z)) by (apply Rmult_le_pos; lra). lra.
Qed.

Lemma fit_step f X l : is_finite f = true -> 0 <= B2R f <= 1 -> bpow radix2 (-60) <= X <= bpow radix2 300 ->
  l <> [] -> Forall (row_ok X) l -> INR (length l) <= bpow radix2 40 ->
  sinv f X l (fscaler_fit f (map fst l) (map snd l)).
Proof.
  intros Ff Hf HX Hn HF HL. rewrite fit_terms. cbv zeta.
  destruct (wtotal_range (B2R f) X l Hf HF Hn) as [WL WU].
  pose proof (wmean_abs (B2R f) X l Hf HF Hn) as Hm. pose proof (wvar_abs (B2R f) X l Hf HF Hn) as HV.
  assert (N1 : 1 <= INR (length l)).
  { change 1 with (INR 1). apply le_INR. destruct l; [congruence|cbn; lia]. }
  pose proof HL as HL'. change (bpow radix2 40) with 1099511627776 in HL'.
  assert (WU3 : wtotal (B2R f) (frows l) <= bpow radix2 140).
  { eapply Rle_trans; [exact WU|]. change 140%Z with (40 + 100)%Z. rewrite bpow_plus. apply Rmult_le_compat_r; [apply bpow_ge_0|lra]. }
  assert (B0 : 0 < bpow radix2 (-100)) by apply bpow_gt_0.
  destruct (sizes (wtotal (B2R f) (frows l)) X) as (W0 & X0 & WX & WXX & t1 & t2 & t3 & t4 & t5 & t6 & t7); [lra|lra|].
  destruct eta_small as [e0 _]. assert (D0 : 0 < delta) by apply bpow_gt_0.
  assert (nu0 : / 9007199254740992 <= INR (length l) * u <= / 4096) by lra.
  assert (WM : dsum (1 - B2R f) (fun o => ow o * ox o 0%nat) (frows l) = wmean (B2R f) (frows l) 0 * wtotal (B2R f) (frows l)).
  { unfold wmean. field. lra. }
  assert (WV : dsum (1 - B2R f) (fun o => ow o * (ox o 0%nat - wmean (B2R f) (frows l) 0) ^ 2) (frows l) = wvar (B2R f) (frows l) 0 * wtotal (B2R f) (frows l)).
  { unfold wvar. field. lra. }
  assert (XB : X * X <= bpow radix2 600).
  { change 600%Z with (300 + 300)%Z. rewrite bpow_plus. apply Rmult_le_compat; lra. }
  assert (XX0 : 0 < X * X) by (apply Rmult_lt_0_compat; lra).
  assert (Hd1 : eta <= u * (X * delta)).
  { apply Rle_trans with (u * (bpow radix2 (-60) * delta)).
    - change u with (bpow radix2 (-53)). rewrite <- !bpow_plus. apply bpow_le. lia.
    - apply Rmult_le_compat_l; [lra|]. apply Rmult_le_compat_r; lra. }
  assert (Hd2 : eta <= u * (X * X * delta)).
  { apply Rle_trans with (u * (bpow radix2 (-60) * bpow radix2 (-60) * delta)).
    - change u with (bpow radix2 (-53)). rewrite <- !bpow_plus. apply bpow_le. lia.
    - apply Rmult_le_compat_l; [lra|]. apply Rmult_le_compat_r; [lra|]. pose proof (bpow_ge_0 radix2 (-60)). apply Rmult_le_compat; lra. }
  assert (dsm : delta <= bpow radix2 100) by (apply bpow_le; lia).
  set (nu := INR (length l) * u) in *.
  pose proof (fun xw k (Hi : In xw l) Hk => weight_err f X (length l) xw k Ff Hf (proj1 (Forall_forall _ _) HF xw Hi) Hk HL) as WE.
  fold nu in WE. cbv zeta in WE.
  (* weights *)
  destruct (fsum_terms (fun _ e => e) (fun _ => 1) (3 * nu) 1 f X l Ff Hf Hn HF HL) as [FW EW]; [lra|lra| | |].
  { apply Rle_trans with (bpow radix2 1); [change (bpow radix2 1) with 2; lra|apply bpow_le; lia]. }
  { intros xw k Hi Hk. destruct (WE xw k Hi Hk) as (A1 & A2 & A3). cbv zeta. split; auto. rewrite Rabs_R1, Rmult_1_r. split; [exact A2|lra]. }
  fold nu in EW.
  assert (Wd : dsum (1 - B2R f) (fun o => ow o * 1) (frows l) = wtotal (B2R f) (frows l)).
  { unfold wtotal. apply dsum_ext. intros; ring. }
  rewrite Wd in EW. set (fW := fsum (terms (fun _ e => e) f l)) in *. set (W := wtotal (B2R f) (frows l)) in *. set (Wf := B2R fW) in *.
  assert (nn : nu * nu <= nu * / 4096) by (apply Rmult_le_compat_l; lra).
  assert (IW : Rabs (Wf - W) <= 8 * nu * W).
  { eapply Rle_trans; [exact EW|]. apply Rmult_le_compat_r; lra. }
  destruct (Wf_near W Wf nu) as [Wn1 Wn2]; [lra|lra|lra|].
  (* mean *)
  set (m := wmean (B2R f) (frows l) 0) in *.
  destruct (fsum_terms (fun x e => fmul x e) (fun x => x) (6 * nu * X) X f X l Ff Hf Hn HF HL) as [FS ES]; [|lra| | |].
  { repeat apply Rmult_le_pos; lra. }
  { assert (nu * X <= / 4096 * X) by (apply Rmult_le_compat_r; lra).
    apply Rle_trans with (2 * bpow radix2 300); [lra|]. change 2 with (bpow radix2 1). rewrite <- bpow_plus. apply bpow_le; lia. }
  { intros xw k Hi Hk. destruct (WE xw k Hi Hk) as (A1 & A2 & A3). cbv zeta.
    destruct (proj1 (Forall_forall _ _) HF xw Hi) as (Fx & Hx & _).
    set (ef := fmul (snd xw) (fage (fsub (fint 1) f) k)) in *. set (v := (1 - B2R f) ^ k * B2R (snd xw)) in *.
    assert (mag : Rabs (B2R (fst xw) * B2R ef) <= bpow radix2 1023).
    { rewrite Rabs_mult. apply (big 400 4); [lia|lra|]. change 400%Z with (300 + 100)%Z. rewrite bpow_plus.
      replace (4 * (bpow radix2 300 * bpow radix2 100)) with (bpow radix2 300 * (4 * bpow radix2 100)) by ring.
      apply Rmult_le_compat; auto using Rabs_pos; [lra|]. apply abs_near in A2. rewrite (Rabs_right v) in A2 by lra.
      assert (nu * (v + delta) <= / 4096 * (v + delta)) by (apply Rmult_le_compat_r; lra). lra. }
    destruct (fmul_err (fst xw) ef Fx A1 mag) as [F1 E1].
    split; auto. split; [|exact Hx].
    destruct (value_err (B2R (fst xw)) X nu v (B2R ef) (B2R (fmul (fst xw) ef))) as [V1 _]; auto; lra. }
  rewrite WM in ES. fold nu m in ES. set (fS := fsum (terms (fun x e => fmul x e) f l)) in *.
  change (Rabs (B2R fS - m * W) <= (1 + / 1000) * (6 * nu * X + 2 * nu * (X + 6 * nu * X)) * W) in ES.
  assert (WXp : 0 < W * X) by (apply Rmult_lt_0_compat; lra).
  assert (nWX : 0 <= nu * (W * X)) by (apply Rmult_le_pos; lra).
  assert (nnWX : nu * nu * (W * X) <= nu * / 4096 * (W * X)) by (apply Rmult_le_compat_r; lra).
  assert (HS : Rabs (B2R fS - m * W) <= 9 * nu * (W * X)).
  { eapply Rle_trans; [exact ES|].
    replace ((1 + / 1000) * (6 * nu * X + 2 * nu * (X + 6 * nu * X)) * W) with ((1 + / 1000) * (8 * (nu * (W * X)) + 12 * (nu * nu * (W * X)))) by ring. lra. }
  assert (mW : Rabs (m * W) <= 1 * (W * X)).
  { rewrite Rabs_mult, (Rabs_right W), Rmult_comm, Rmult_1_l by lra. apply Rmult_le_compat_l; lra. }
  assert (Sb : Rabs (B2R fS) <= 2 * (W * X)).
  { apply abs_near in HS. assert (nu * (W * X) <= / 4096 * (W * X)) by (apply Rmult_le_compat_r; lra). lra. }
  assert (Cp : 0 < Wf) by lra.
  assert (SC : Rabs (B2R fS / Wf) <= 4 * X).
  { unfold Rdiv. rewrite Rabs_mult, (Rabs_right (/ Wf)) by (apply Rle_ge, Rlt_le, Rinv_0_lt_compat; lra).
    apply Rmult_le_reg_r with Wf; auto. rewrite Rmult_assoc, Rinv_l, Rmult_1_r by lra.
    assert (X * ((1 - / 500) * W) <= X * Wf) by (apply Rmult_le_compat_l; lra). lra. }
  destruct (fdiv_err fS fW FS) as [Fm Em]; [fold Wf; lra|fold Wf; apply (big 300 4); [lia|lra|lra]|]. fold Wf in Em.
  assert (nu0' : 0 <= nu <= / 4096) by lra.
  set (fm := fdiv fS fW) in *.
  pose proof (quot1 W Wf nu eta W0 nu0' (Rlt_le _ _ e0) IW (B2R fS) (m * W) (B2R fm) (9 * nu) 1 X X0 ltac:(lra) ltac:(lra) HS mW Em) as Q1.
  assert (Q : Rabs (B2R fm * Wf - m * W) <= 12 * nu * (W * X)).
  { eapply Rle_trans; [exact Q1|]. assert (u * (nu * (W * X)) <= u * (/ 4096 * (W * X))) by (apply Rmult_le_compat_l; [lra|apply Rmult_le_compat_r; lra]).
    assert (u * (W * X) <= nu * (W * X)) by (apply Rmult_le_compat_r; lra). lra. }
  pose proof (mf_near W Wf nu W0 nu0' IW m (B2R fm) X X0 Hm Q) as MN.
  assert (nX : nu * X <= / 4096 * X) by (apply Rmult_le_compat_r; lra).
  assert (mb : Rabs (B2R fm) <= 2 * X) by (apply abs_near in MN; lra).
  (* variance *)
  set (V := wvar (B2R f) (frows l) 0) in *.
  assert (nXX : nu * (X * X) <= / 4096 * (X * X)) by (apply Rmult_le_compat_r; lra).
  destruct (fsum_terms (fun x e => fmul (let d := fsub x fm in fmul d d) e) (fun x => (x - m) ^ 2) (125 * nu * (X * X)) (4 * (X * X)) f X l Ff Hf Hn HF HL) as [FV EV]; [|lra| | |].
  { repeat apply Rmult_le_pos; lra. }
  { apply Rle_trans with (8 * bpow radix2 600); [lra|]. change 8 with (bpow radix2 3). rewrite <- bpow_plus. apply bpow_le; lia. }
  { intros xw k Hi Hk. destruct (WE xw k Hi Hk) as (A1 & A2 & A3). cbv zeta.
    destruct (proj1 (Forall_forall _ _) HF xw Hi) as (Fx & Hx & _).
    set (ef := fmul (snd xw) (fage (fsub (fint 1) f) k)) in *. set (v := (1 - B2R f) ^ k * B2R (snd xw)) in *.
    set (x := B2R (fst xw)) in *.
    assert (xm : Rabs (x - B2R fm) <= 3 * X).
    { unfold Rminus. eapply Rle_trans; [apply Rabs_triang|]. rewrite Rabs_Ropp. lra. }
    destruct (fsub_err (fst xw) fm Fx Fm) as [Fd Ed]; [fold x; apply (big 300 3); [lia|lra|lra]|]. fold x in Ed.
    set (d := fsub (fst xw) fm) in *.
    assert (db : Rabs (B2R d) <= 4 * X) by (apply abs_near in Ed; lra).
    assert (ddb : Rabs (B2R d * B2R d) <= 16 * (X * X)).
    { rewrite Rabs_mult. replace (16 * (X * X)) with (4 * X * (4 * X)) by ring. apply Rmult_le_compat; auto using Rabs_pos. }
    destruct (fmul_err d d Fd Fd) as [Fd2 Ed2]; [apply (big 600 16); [lia|lra|lra]|].
    assert (d2b : Rabs (B2R (fmul d d)) <= 17 * (X * X)) by (apply abs_near in Ed2; lra).
    assert (eb : Rabs (B2R ef) <= 4 * bpow radix2 100).
    { apply abs_near in A2. rewrite (Rabs_right v) in A2 by lra.
      assert (nu * (v + delta) <= / 4096 * (v + delta)) by (apply Rmult_le_compat_r; lra). lra. }
    assert (mag : Rabs (B2R (fmul d d) * B2R ef) <= bpow radix2 1023).
    { rewrite Rabs_mult. apply (big 700 68); [lia|lra|]. change 700%Z with (600 + 100)%Z. rewrite bpow_plus.
      replace (68 * (bpow radix2 600 * bpow radix2 100)) with (17 * bpow radix2 600 * (4 * bpow radix2 100)) by ring.
      apply Rmult_le_compat; auto using Rabs_pos; lra. }
    destruct (fmul_err (fmul d d) ef Fd2 A1 mag) as [F1 E1].
    split; auto. split.
    - apply (square_err x (B2R fm) m X nu (B2R d) (B2R (fmul d d)) v (B2R ef)); auto; lra.
    - rewrite <- RPow_abs. replace (4 * (X * X)) with ((2 * X) ^ 2) by ring. apply pow_incr. split; auto using Rabs_pos.
      unfold Rminus. eapply Rle_trans; [apply Rabs_triang|]. rewrite Rabs_Ropp. lra. }
  rewrite WV in EV. fold nu V in EV. cbv zeta in EV, FV.
  set (fV := fsum (terms (fun x e => fmul (fmul (fsub x fm) (fsub x fm)) e) f l)) in *.
  set (Y := X * X) in *.
  change (Rabs (B2R fV - V * W) <= (1 + / 1000) * (125 * nu * Y + 2 * nu * (4 * Y + 125 * nu * Y)) * W) in EV.
  assert (WYp : 0 < W * Y) by (apply Rmult_lt_0_compat; lra).
  assert (nWY : 0 <= nu * (W * Y)) by (apply Rmult_le_pos; lra).
  assert (nnWY : nu * nu * (W * Y) <= nu * / 4096 * (W * Y)) by (apply Rmult_le_compat_r; lra).
  assert (nWY4 : nu * (W * Y) <= / 4096 * (W * Y)) by (apply Rmult_le_compat_r; lra).
  assert (uWY : u * (W * Y) <= nu * (W * Y)) by (apply Rmult_le_compat_r; lra).
  assert (unWY : u * (nu * (W * Y)) <= u * (/ 4096 * (W * Y))) by (apply Rmult_le_compat_l; [lra|auto]).
  assert (HVf : Rabs (B2R fV - V * W) <= 134 * nu * (W * Y)).
  { eapply Rle_trans; [exact EV|].
    replace ((1 + / 1000) * (125 * nu * Y + 2 * nu * (4 * Y + 125 * nu * Y)) * W) with ((1 + / 1000) * (133 * (nu * (W * Y)) + 250 * (nu * nu * (W * Y)))) by ring. lra. }
  assert (VW : Rabs (V * W) <= 4 * (W * Y)) by (rewrite Rabs_right; lra).
  assert (Vb : Rabs (B2R fV) <= 5 * (W * Y)) by (apply abs_near in HVf; lra).
  assert (VC : Rabs (B2R fV / Wf) <= 10 * Y).
  { unfold Rdiv. rewrite Rabs_mult, (Rabs_right (/ Wf)) by (apply Rle_ge, Rlt_le, Rinv_0_lt_compat; lra).
    apply Rmult_le_reg_r with Wf; auto. rewrite Rmult_assoc, Rinv_l, Rmult_1_r by lra.
    assert (Y * ((1 - / 500) * W) <= Y * Wf) by (apply Rmult_le_compat_l; lra). lra. }
  destruct (fdiv_err fV fW FV) as [Fv Ev]; [fold Wf; lra|fold Wf; apply (big 600 10); [lia|lra|lra]|]. fold Wf in Ev.
  set (fv := fdiv fV fW) in *.
  pose proof (quot1 W Wf nu eta W0 nu0' (Rlt_le _ _ e0) IW (B2R fV) (V * W) (B2R fv) (134 * nu) 4 Y XX0 ltac:(lra) ltac:(lra) HVf VW Ev) as Q2.
  assert (Q3 : Rabs (B2R fv * Wf - V * W) <= 140 * nu * (W * Y)).
  { eapply Rle_trans; [exact Q2|]. lra. }
  pose proof (quot2 W Wf nu W0 nu0' IW (V * W) (B2R fv) (140 * nu) 4 Y XX0 ltac:(lra) ltac:(lra) Q3 VW) as Q4.
  replace (V * W / W) with V in Q4 by (field; lra).
  assert (vW : Rabs (B2R fv * Wf) <= 5 * (W * Y)) by (apply abs_near in Q3; lra).
  destruct (fmul_err fv fW Fv FW) as [FM EM]; [fold Wf; apply (big 740 5); [lia|lra|lra]|]. fold Wf in EM.
  unfold sinv. fold W nu m V. cbn [fs_w fs_mean fs_M fs_var]. fold Wf Y.
  repeat (split; [solve [auto]|]). split.
  - replace (B2R (fmul fv fW) - V * W) with ((B2R (fmul fv fW) - B2R fv * Wf) + (B2R fv * Wf - V * W)) by ring.
    eapply Rle_trans; [apply Rabs_triang|]. lra.
  - eapply Rle_trans; [exact Q4|]. assert (0 <= nu * Y) by (apply Rmult_le_pos; lra). lra.
Qed.

Lemma update_steps f X : is_finite f = true -> 0 <= B2R f <= 1 -> bpow radix2 (-60) <= X <= bpow radix2 300 ->
  forall rows l s, l <> [] -> Forall (row_ok X) (l ++ rows) -> INR (length (l ++ rows)) <= bpow radix2 40 ->
  sinv f X l s -> sinv f X (l ++ rows) (fscaler_update f s rows).
Proof.
  intros Ff Hf HX. induction rows as [|xw rows IH]; intros l s Hn HF HL H; [rewrite app_nil_r; exact H|].
  replace (l ++ xw :: rows) with ((l ++ [xw]) ++ rows) in * by (rewrite <- app_assoc; reflexivity).
  cbn [fscaler_update fold_left]. apply IH; auto.
  - destruct l; discriminate.
  - apply row_step; auto.
    + apply Forall_app in HF. apply HF.
    + eapply Rle_trans; [|exact HL]. apply le_INR. rewrite (app_length (l ++ [xw]) rows). lia.
Qed.

Lemma scaler_close f X l rows : is_finite f = true -> 0 <= B2R f <= 1 -> bpow radix2 (-60) <= X <= bpow radix2 300 ->
  l <> [] -> Forall (row_ok X) (l ++ rows) -> INR (length (l ++ rows)) <= bpow radix2 40 ->
  let s := fscaler_update f (fscaler_fit f (map fst l) (map snd l)) rows in
  let nu := INR (length (l ++ rows)) * u in
  (is_finite (fs_w s) = true /\ is_finite (fs_mean s) = true /\ is_finite (fs_M s) = true /\ is_finite (fs_var s) = true) /\
  Rabs (B2R (fs_w s) - wtotal (B2R f) (frows (l ++ rows))) <= 8 * nu * wtotal (B2R f) (frows (l ++ rows)) /\
  Rabs (B2R (fs_mean s) - wmean (B2R f) (frows (l ++ rows)) 0) <= 21 * nu * X /\
  Rabs (B2R (fs_var s) - wvar (B2R f) (frows (l ++ rows)) 0) <= 240 * nu * (X * X).
Proof.
  intros Ff Hf HX Hn HF HL. cbv zeta.
  assert (S0 : sinv f X (l ++ rows) (fscaler_update f (fscaler_fit f (map fst l) (map snd l)) rows)).
  { apply update_steps; auto. apply fit_step; auto.
    - apply Forall_app in HF. apply HF.
    - eapply Rle_trans; [|exact HL]. apply le_INR. rewrite app_length. lia. }
  destruct S0 as (F1 & F2 & F3 & F4 & E1 & E2 & _ & E4).
  split; auto. split; [exact E1|]. split; [|exact E4].
  assert (Hn' : l ++ rows <> []) by (destruct l; [congruence|discriminate]).
  destruct (wtotal_range (B2R f) X _ Hf HF Hn') as [WL _]. pose proof (bpow_gt_0 radix2 (-100)). pose proof (bpow_gt_0 radix2 (-60)).
  change (bpow radix2 40) with 1099511627776 in HL. pose proof (pos_INR (length (l ++ rows))).
  apply (mf_near (wtotal (B2R f) (frows (l ++ rows))) (B2R (fs_w (fscaler_update f (fscaler_fit f (map fst l) (map snd l)) rows)))); auto; try lra.
  apply wmean_abs; auto.
Qed.

(** C128: the Gramian in binary64 is accurate, and its diagonal is never negative. *)
From Coq Require Import ZArith Reals List Bool Arith Lia Lra.
From Flocq Require Import Core BinarySingleNaN.
From Verif Require Import Base Lin S_Gram M_Float M_FloatGram S_Float S_FloatGram L_Float L_Float6 L_FloatS L_FloatGram2 L_FloatGram4.
Import ListNotations.
Open Scope R_scope.

(** A fit on the first batch of [bs] and an update with each other one, whatever the order in
    which the BLAS adds: an entry of the Gramian or of the y-Gramian. *)
Theorem C128_accuracy : forall root pw X Y f bs v, root_accurate root -> pow_accurate pw ->
  bpow radix2 (-60) <= X <= bpow radix2 300 -> bpow radix2 (-60) <= Y <= bpow radix2 300 ->
  is_finite f = true -> 0 <= B2R f <= 1 -> Forall (fun b => b <> []) bs ->
  Forall (frow_ok X Y) (concat bs) -> INR (length (concat bs)) <= bpow radix2 40 ->
  fgram_run root pw f bs v ->
  is_finite v = true /\
  Rabs (B2R v - exact_entry (B2R f) (concat bs))
    <= 16 * INR (length (concat bs)) * bpow radix2 (-53) * (X * Y * exact_weight (B2R f) (concat bs)).
Proof. exact run_accuracy. Qed.

(** Diagonal entries: no accuracy of the root or of the power is assumed, and the values may be
    infinite or not a number. *)
Theorem C128_diagonal : forall root pw f bs v, pow_sign pw ->
  fle (fint 0) f = true -> fle f (fint 1) = true ->
  (forall r, In r (concat bs) -> rx r = ry r /\ sign_clear (rw r)) ->
  fgram_run root pw f bs v -> sign_clear v /\ flt v (fint 0) = false.
Proof. exact run_diagonal. Qed.

(** The diagonal entry coordinate descent divides by. *)
Theorem C128_positive : forall root pw X f bs v, root_accurate root -> pow_accurate pw ->
  bpow radix2 (-60) <= X <= bpow radix2 300 ->
  is_finite f = true -> 0 <= B2R f <= 1 -> Forall (fun b => b <> []) bs ->
  Forall (frow_ok X X) (concat bs) -> INR (length (concat bs)) <= bpow radix2 40 ->
  16 * INR (length (concat bs)) * bpow radix2 (-53) * (X * X * exact_weight (B2R f) (concat bs)) < exact_entry (B2R f) (concat bs) ->
  fgram_run root pw f bs v -> is_finite v = true /\ flt (fint 0) v = true.
Proof. exact run_positive. Qed.

(** The assumptions on the root and the power can be met: the correctly rounded square root,
    and repeated multiplication. *)
Theorem C128_assumptions : root_accurate fsqrt /\ (exists pw, pow_accurate pw /\ pow_sign pw).
Proof. exact (conj fsqrt_accurate (ex_intro _ fpow (conj fpow_accurate fpow_sign))). Qed.

Print Assumptions C128_accuracy.
Print Assumptions C128_diagonal.
Print Assumptions C128_positive.
Print Assumptions C128_assumptions.

(** Forget factor 1/2, two rows in [fit], one row and then two rows in [update]: a value
    exists, and every possible value is within 2^-40 of 97/8. *)
Definition ex128_half : float := fdiv (fint 1) (fint 2).
Definition ex128_bs : list (list frow) :=
  [[(fint 1, fint 2, fint 1); (fint 3, fint 1, fint 2)]; [(fint 5, fint 1, fint 1)];
   [(fint 2, fint 2, fint 3); (fint 1, fint 4, fint 1)]].
Lemma ex128_values : B2R ex128_half = / 2 /\ B2R (fint 1) = 1 /\ B2R (fint 2) = 2 /\ B2R (fint 3) = 3 /\ B2R (fint 4) = 4 /\ B2R (fint 5) = 5.
Proof. repeat split; cbv -[Rmult Rinv Rplus Ropp R1 R0 IZR IPR IPR_2 Rdiv]; lra. Qed.
Example C128_example : (exists v, fgram_run fsqrt fpow ex128_half ex128_bs v) /\
  forall v, fgram_run fsqrt fpow ex128_half ex128_bs v -> is_finite v = true /\ Rabs (B2R v - 97 / 8) <= bpow radix2 (-40).
Proof.
  destruct ex128_values as (H & H1 & H2 & H3 & H4 & H5). split.
  - eexists. eapply (fg_update _ _ _ [_; _]); [eapply (fg_update _ _ _ [_]); [eapply fg_fit|reflexivity]|].
    + unfold finit_gram, fscaled. cbn [length]. rewrite !fforget_S, fforget_0. cbn [combine map fst snd rx ry rw].
      apply (dv_add [_] [_]); apply dv_mul.
    + eexists. split; [|reflexivity]. unfold fscaled. cbn [length]. rewrite !fforget_S, fforget_0. cbn [combine map fst snd rx ry rw].
      apply (dv_add [_] [_]); apply dv_mul.
  - intros v Hv.
    assert (L : bpow radix2 (-60) <= 1) by (change 1 with (bpow radix2 0); apply bpow_le; lia).
    assert (L2 : bpow radix2 (-100) <= 1) by (change 1 with (bpow radix2 0); apply bpow_le; lia).
    assert (U : 8 <= bpow radix2 300) by (replace 8 with (bpow radix2 3) by (cbn; lra); apply bpow_le; lia).
    assert (U2 : 8 <= bpow radix2 100) by (replace 8 with (bpow radix2 3) by (cbn; lra); apply bpow_le; lia).
    assert (E : exact_entry (B2R ex128_half) (concat ex128_bs) = 97 / 8 /\ exact_weight (B2R ex128_half) (concat ex128_bs) = 49 / 16).
    { unfold exact_entry, exact_weight, ex128_bs. cbn [concat app dsum length pow rx ry rw fst snd]. rewrite H, H1, H2, H3, H4, H5. lra. }
    destruct (C128_accuracy fsqrt fpow 8 4 ex128_half ex128_bs v fsqrt_accurate fpow_accurate) as [F K]; auto; try lra.
    + unfold ex128_bs. do 3 (apply Forall_cons; [discriminate|]). apply Forall_nil.
    + unfold ex128_bs. cbn [concat app].
      assert (Ok : forall a b c, is_finite a = true -> is_finite b = true -> is_finite c = true ->
        0 <= B2R a <= 8 -> 0 <= B2R b <= 4 -> 1 <= B2R c <= 8 -> frow_ok 8 4 (a, b, c)).
      { intros a b c Fa Fb Fc Ha Hb Hc. unfold frow_ok, rx, ry, rw. cbn [fst snd]. rewrite !Rabs_right by lra.
        split; [exact Fa|]. split; [lra|]. split; [exact Fb|]. split; [lra|]. split; [exact Fc|]. lra. }
      do 5 (apply Forall_cons; [apply Ok; auto; rewrite ?H1, ?H2, ?H3, ?H4, ?H5; lra|]). apply Forall_nil.
    + change (INR (length (concat ex128_bs))) with (1 + 1 + 1 + 1 + 1). apply Rle_trans with (bpow radix2 3); [cbn; lra|apply bpow_le; lia].
    + destruct E as [E1 E2]. rewrite E1, E2 in K. split; [exact F|]. eapply Rle_trans; [exact K|].
      change (INR (length (concat ex128_bs))) with (1 + 1 + 1 + 1 + 1). rewrite u_bpow.
      replace (bpow radix2 (-40)) with (8192 * u) by (cbn; lra). lra.
Qed.

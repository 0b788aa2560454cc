(** Lemmas for C128: inner products in binary64. *)
From Coq Require Import ZArith Reals List Bool Arith Permutation Lia Lra Psatz.
From Flocq Require Import Core BinarySingleNaN.
From Verif Require Import Base Lin Data S_Gram L_Gram M_Float M_FloatGram S_Float S_FloatGram L_Float L_Float2 L_Float3 L_Float5 L_Float6 L_FloatS L_FloatS2.
Import ListNotations.
Open Scope R_scope.

(** * Sign of a sum of squares *)
Lemma nneg_fma a v : nneg v -> nneg (Bfma mode_NE a a v).
Proof.
  intros Hv. destruct (is_finite a) eqn:Fa.
  - destruct (is_finite v) eqn:Fv.
    + destruct Hv as [Hv|Hv]; [destruct v; discriminate|]. pose proof (nneg_B2R v (or_intror Hv)) as Pv.
      pose proof (Bfma_correct 53 1024 prec64 emax64 mode_NE a a v Fa Fa Fv) as C. cbv zeta in C.
      assert (P : 0 <= B2R a * B2R a + B2R v) by (pose proof (Rle_0_sqr (B2R a)) as Q; unfold Rsqr in Q; lra).
      destruct (Rlt_bool (Rabs _) _).
      * destruct C as (_ & _ & S). right. rewrite S.
        destruct (Rcompare_spec (B2R a * B2R a + B2R v) 0) as [H|H|H]; auto; [lra|].
        unfold Bfma_szero. rewrite xorb_nilpotent, Hv. reflexivity.
      * rewrite Rlt_bool_false in C by exact P. apply nneg_overflow, C.
    + destruct v as [s|s| |s m e B]; try discriminate.
      * destruct Hv as [Hv|Hv]; [discriminate|]. cbn in Hv. subst s.
        destruct a as [s'|s'| |s' m' e' B']; try discriminate; right; reflexivity.
      * left. destruct a as [s'|s'| |s' m' e' B']; try discriminate; reflexivity.
  - destruct a as [s|s| |s m e B]; try discriminate; [|left; reflexivity].
    destruct v as [s'|s'| |s' m' e' B']; cbn.
    + right. cbn. apply xorb_nilpotent.
    + destruct Hv as [Hv|Hv]; [discriminate|]. cbn in Hv. subst s'. rewrite xorb_nilpotent. right. reflexivity.
    + left. reflexivity.
    + right. cbn. apply xorb_nilpotent.
Qed.
Lemma dot_nneg l v : dot_value l v -> (forall a b, In (a, b) l -> a = b) -> nneg v.
Proof.
  induction 1 as [|a b|l1 l2 v1 v2 H1 IH1 H2 IH2|a b l v H IH|l l' v P H IH]; intros E.
  - right. reflexivity.
  - rewrite (E a b (or_introl eq_refl)). apply nneg_square.
  - apply nneg_fadd; [apply IH1|apply IH2]; intros a b Hi; apply E, in_or_app; auto.
  - rewrite (E a b (or_introl eq_refl)). apply nneg_fma, IH. intros; apply E; right; auto.
  - apply IH. intros a b Hi. apply E. eapply Permutation_in; eauto.
Qed.

(** * Error of an inner product *)
Definition pr (p : float * float) : R := B2R (fst p) * B2R (snd p).
Definition psum (l : list (float * float)) : R := lsum (map pr l).
Definition pabs (l : list (float * float)) : R := lsum (map (fun p => Rabs (pr p)) l).
Definition pfin (p : float * float) : Prop := is_finite (fst p) = true /\ is_finite (snd p) = true.
Lemma psum_app l m : psum (l ++ m) = psum l + psum m.
Proof. unfold psum. rewrite map_app. apply lsum_app. Qed.
Lemma pabs_app l m : pabs (l ++ m) = pabs l + pabs m.
Proof. unfold pabs. rewrite map_app. apply lsum_app. Qed.
Lemma pabs_pos l : 0 <= pabs l.
Proof. unfold pabs. induction l as [|a t IH]; cbn [map lsum]; [lra|]. pose proof (Rabs_pos (pr a)). lra. Qed.
Lemma psum_abs l : Rabs (psum l) <= pabs l.
Proof.
  unfold psum, pabs. induction l as [|a t IH]; cbn [map lsum]; [rewrite Rabs_R0; lra|].
  eapply Rle_trans; [apply Rabs_triang|]. lra.
Qed.
Lemma lsum_perm l m : Permutation l m -> lsum l = lsum m.
Proof. induction 1; cbn [map lsum]; lra. Qed.

Lemma ffma_err a b c : is_finite a = true -> is_finite b = true -> is_finite c = true ->
  Rabs (B2R a * B2R b + B2R c) <= bpow radix2 1023 ->
  is_finite (Bfma mode_NE a b c) = true /\
  Rabs (B2R (Bfma mode_NE a b c) - (B2R a * B2R b + B2R c)) <= u * Rabs (B2R a * B2R b + B2R c) + eta.
Proof.
  intros Fa Fb Fc H. pose proof (Bfma_correct 53 1024 prec64 emax64 mode_NE a b c Fa Fb Fc) as C. cbv zeta in C.
  rewrite Rlt_bool_true in C by apply (rnd_small _ H). destruct C as (E & F & _). split; [exact F|].
  rewrite E. apply rnd_err.
Qed.

Lemma dot_err l v : dot_value l v -> Forall pfin l -> pabs l <= bpow radix2 1000 -> INR (length l) * u <= / 4096 ->
  is_finite v = true /\
  (l = [] -> B2R v = 0) /\
  (l <> [] -> Rabs (B2R v - psum l) <= 9 / 8 * INR (length l) * u * pabs l + (2 * INR (length l) - 1) * eta).
Proof.
  assert (B1 : 1 <= bpow radix2 1000) by (change 1 with (bpow radix2 0); apply bpow_le; lia).
  assert (B2 : 4 * bpow radix2 1000 <= bpow radix2 1023).
  { replace 4 with (bpow radix2 2) by (cbn; lra). rewrite <- bpow_plus. apply bpow_le. lia. }
  destruct eta_small as [e0 e1].
  assert (e2 : eta <= / 4096).
  { eapply Rle_trans; [exact e1|]. replace (/ 4096) with (bpow radix2 (-12)) by (cbn; lra). apply bpow_le. lia. }
  induction 1 as [|a b|l1 l2 v1 v2 H1 IH1 H2 IH2|a b l v H IH|l l' v P H IH]; intros HF HB HN.
  - destruct fint_0 as [Z F]. split; [exact F|]. split; [auto|congruence].
  - inversion HF as [|? ? [Fa Fb] _]; subst. cbn [fst snd] in *. unfold pabs, psum, pr in *. cbn [map lsum fst snd length INR] in HB |- *.
    destruct (fmul_err a b Fa Fb) as [F E]; [lra|]. split; [exact F|]. split; [discriminate|]. intros _.
    rewrite !Rplus_0_r. pose proof (Rabs_pos (B2R a * B2R b)). lra.
  - apply Forall_app in HF. destruct HF as [HF1 HF2]. rewrite pabs_app in *. rewrite psum_app.
    rewrite app_length, plus_INR in *. pose proof (pos_INR (length l1)) as n1. pose proof (pos_INR (length l2)) as n2.
    pose proof (pabs_pos l1) as p1. pose proof (pabs_pos l2) as p2.
    destruct IH1 as (F1 & Z1 & E1); [auto|lra|lra|]. destruct IH2 as (F2 & Z2 & E2); [auto|lra|lra|].
    pose proof (psum_abs l1) as q1. pose proof (psum_abs l2) as q2.
    assert (V : Rabs (B2R v1 + B2R v2) <= 2 * bpow radix2 1000 + 1).
    { assert (A : forall l (v : float), INR (length l) * u <= / 4096 -> pabs l <= bpow radix2 1000 -> (l = [] -> B2R v = 0) ->
        (l <> [] -> Rabs (B2R v - psum l) <= 9 / 8 * INR (length l) * u * pabs l + (2 * INR (length l) - 1) * eta) ->
        Rabs (B2R v) <= (1 + / 1024) * pabs l + / 1024).
      { clear - e0 e1 e2. intros l v Hn Hp Z E. pose proof (pabs_pos l) as p0. destruct l as [|x l].
        - rewrite Z by reflexivity. rewrite Rabs_R0. lra.
        - specialize (E ltac:(discriminate)). apply abs_near in E. pose proof (psum_abs (x :: l)) as q.
          set (n := INR (length (x :: l))) in *. set (S := pabs (x :: l)) in *.
          assert (n0 : 0 <= n) by apply pos_INR.
          assert (9 / 8 * n * u * S <= 9 / 8 * / 4096 * S) by (replace (9 / 8 * n * u * S) with (9 / 8 * (n * u) * S) by ring; apply Rmult_le_compat_r; lra).
          assert (n * eta <= / 4096).
          { assert (n <= 2199023255552) by lra. apply Rle_trans with (2199023255552 * bpow radix2 (-1000)).
            - apply Rmult_le_compat; lra.
            - replace (2199023255552) with (bpow radix2 41) by (cbn; lra). replace (/ 4096) with (bpow radix2 (-12)) by (cbn; lra).
              rewrite <- bpow_plus. apply bpow_le. lia. }
          lra. }
      pose proof (A l1 v1 ltac:(lra) ltac:(lra) Z1 E1) as A1. pose proof (A l2 v2 ltac:(lra) ltac:(lra) Z2 E2) as A2.
      eapply Rle_trans; [apply Rabs_triang|]. lra. }
    destruct (fadd_err v1 v2 F1 F2) as [F E]; [lra|]. split; [exact F|].
    destruct l1 as [|x l1].
    { rewrite (Z1 eq_refl) in *. cbn [length app] in *. change (INR 0) with 0 in *. change (psum []) with 0. change (pabs []) with 0 in *.
      rewrite !Rplus_0_l in *. assert (X : B2R (fadd v1 v2) = B2R v2).
      { destruct (fadd_exact v1 v2 F1 F2) as [X _]; [apply rnd_small; rewrite Z1, Rplus_0_l by reflexivity; lra|].
        rewrite X, Z1, Rplus_0_l by reflexivity. apply rnd64_id, B2R_format. }
      rewrite X. split; auto. }
    destruct l2 as [|y l2].
    { rewrite (Z2 eq_refl) in *. rewrite app_nil_r in *. cbn [length] in *. change (INR 0) with 0 in *. change (psum []) with 0. change (pabs []) with 0 in *.
      rewrite !Rplus_0_r in *. assert (X : B2R (fadd v1 v2) = B2R v1).
      { destruct (fadd_exact v1 v2 F1 F2) as [X _]; [apply rnd_small; rewrite Z2, Rplus_0_r by reflexivity; lra|].
        rewrite X, Z2, Rplus_0_r by reflexivity. apply rnd64_id, B2R_format. }
      rewrite X. split; auto. }
    split; [discriminate|]. intros _. specialize (E1 ltac:(discriminate)). specialize (E2 ltac:(discriminate)). clear Z1 Z2.
    assert (k1 : 1 <= INR (length (x :: l1))) by (cbn [length]; rewrite S_INR; pose proof (pos_INR (length l1)); lra).
    assert (k2 : 1 <= INR (length (y :: l2))) by (cbn [length]; rewrite S_INR; pose proof (pos_INR (length l2)); lra).
    set (N1 := INR (length (x :: l1))) in *. set (N2 := INR (length (y :: l2))) in *.
    set (S1 := pabs (x :: l1)) in *. set (S2 := pabs (y :: l2)) in *.
    set (T1 := psum (x :: l1)) in *. set (T2 := psum (y :: l2)) in *.
    set (w1 := B2R v1) in *. set (w2 := B2R v2) in *. set (w := B2R (fadd v1 v2)) in *.
    set (N := N1 + N2) in *.
    pose proof (abs_near _ _ _ E1) as W1. pose proof (abs_near _ _ _ E2) as W2.
    pose proof (Rabs_triang w1 w2) as T.
    assert (c1 : 9 / 8 * N1 * u * S1 <= / 2048 * S1) by (replace (9 / 8 * N1 * u * S1) with ((9 / 8 * (N1 * u)) * S1) by ring; apply Rmult_le_compat_r; unfold N in *; lra).
    assert (c2 : 9 / 8 * N2 * u * S2 <= / 2048 * S2) by (replace (9 / 8 * N2 * u * S2) with ((9 / 8 * (N2 * u)) * S2) by ring; apply Rmult_le_compat_r; unfold N in *; lra).
    assert (c3 : 2 * N * eta * u <= eta) by (replace (2 * N * eta * u) with ((2 * (N * u)) * eta) by ring; replace eta with (1 * eta) at 2 by ring; apply Rmult_le_compat_r; lra).
    assert (T3 : Rabs (w - (T1 + T2)) <= Rabs (w - (w1 + w2)) + Rabs (w1 - T1) + Rabs (w2 - T2)).
    { replace (w - (T1 + T2)) with ((w - (w1 + w2)) + ((w1 - T1) + (w2 - T2))) by ring.
      eapply Rle_trans; [apply Rabs_triang|]. pose proof (Rabs_triang (w1 - T1) (w2 - T2)). lra. }
    assert (c4 : u * Rabs (w1 + w2) <= u * ((1 + / 2048) * (S1 + S2) + (2 * N - 2) * eta)) by (apply Rmult_le_compat_l; [lra|]; unfold N; lra).
    assert (d1 : S1 <= N2 * S1) by (rewrite <- (Rmult_1_l S1) at 1; apply Rmult_le_compat_r; lra).
    assert (d2 : S2 <= N1 * S2) by (rewrite <- (Rmult_1_l S2) at 1; apply Rmult_le_compat_r; lra).
    unfold N in *. clear - T3 c4 d1 d2 E1 E2 E c3 p1 p2 e0. lra.
  - inversion HF as [|? ? [Fa Fb] HF']; subst. cbn [fst snd] in *.
    change (pabs ((a, b) :: l)) with (Rabs (B2R a * B2R b) + pabs l) in *.
    change (psum ((a, b) :: l)) with (B2R a * B2R b + psum l).
    cbn [length] in *. rewrite S_INR in *. pose proof (pos_INR (length l)) as n0. pose proof (pabs_pos l) as p0.
    pose proof (Rabs_pos (B2R a * B2R b)) as ab0.
    destruct IH as (F1 & Z1 & E1); [auto|lra|lra|]. pose proof (psum_abs l) as q1.
    set (t := B2R a * B2R b) in *. set (N := INR (length l)) in *. set (S := pabs l) in *. set (T := psum l) in *. set (w1 := B2R v) in *.
    assert (c3 : 2 * N * eta * u <= / 2048 * eta) by (replace (2 * N * eta * u) with ((2 * (N * u)) * eta) by ring; apply Rmult_le_compat_r; lra).
    assert (n1 : 0 <= N * eta) by (apply Rmult_le_pos; lra).
    assert (W : Rabs (w1 - T) <= 9 / 8 * N * u * S + 2 * N * eta - 2 * N * eta * u).
    { destruct l as [|x l].
      - rewrite Z1 by reflexivity. unfold T. change (psum []) with 0. rewrite Rminus_diag_eq, Rabs_R0 by reflexivity.
        assert (0 <= N * u * S) by (apply Rmult_le_pos; [apply Rmult_le_pos|]; lra). lra.
      - specialize (E1 ltac:(discriminate)). lra. }
    pose proof (abs_near _ _ _ W) as W1.
    assert (c1 : 9 / 8 * N * u * S <= / 2048 * S) by (replace (9 / 8 * N * u * S) with ((9 / 8 * (N * u)) * S) by ring; apply Rmult_le_compat_r; lra).
    pose proof (Rabs_triang t w1) as Tr.
    assert (c5 : 2 * N * eta <= 1).
    { assert (N <= 2199023255552) by lra. apply Rle_trans with (2 * (2199023255552 * bpow radix2 (-1000))).
      - rewrite Rmult_assoc. apply Rmult_le_compat_l; [lra|]. apply Rmult_le_compat; lra.
      - replace 2199023255552 with (bpow radix2 41) by (cbn; lra). rewrite <- bpow_plus.
        assert (bpow radix2 (41 + -1000) <= bpow radix2 (-1)) by (apply bpow_le; lia). cbn in *. lra. }
    destruct (ffma_err a b v Fa Fb F1) as [F E]; [fold t w1; lra|]. fold t w1 in E. split; [exact F|]. split; [discriminate|]. intros _.
    set (w := B2R (Bfma mode_NE a b v)) in *.
    assert (T3 : Rabs (w - (t + T)) <= Rabs (w - (t + w1)) + Rabs (w1 - T)).
    { replace (w - (t + T)) with ((w - (t + w1)) + (w1 - T)) by ring. apply Rabs_triang. }
    assert (c4 : u * Rabs (t + w1) <= u * (Rabs t + (1 + / 2048) * S + 2 * N * eta)) by (apply Rmult_le_compat_l; lra).
    assert (d1 : 0 <= N * Rabs t) by (apply Rmult_le_pos; lra).
    clear - T3 c4 W E c3 p0 e0 d1 ab0 n1. lra.
  - assert (EL : length l = length l') by (apply Permutation_length; auto). rewrite <- EL in *.
    assert (E1 : pabs l' = pabs l) by (unfold pabs; apply lsum_perm, Permutation_map, Permutation_sym; auto).
    assert (E2 : psum l' = psum l) by (unfold psum; apply lsum_perm, Permutation_map, Permutation_sym; auto).
    rewrite E1, E2 in *. destruct IH as (F & Z & E); auto.
    { eapply Permutation_Forall; [apply Permutation_sym; eauto|]. auto. }
    split; [exact F|]. split; intros Q.
    + subst l'. apply Z. apply Permutation_nil, Permutation_sym. auto.
    + apply E. intros ->. apply Q. apply Permutation_nil. auto.
Qed.

(** Signs: the variance of [fit] in binary64. *)
From Coq Require Import ZArith Reals List Bool Arith Lia Lra Psatz.
From Flocq Require Import Core BinarySingleNaN.
From Verif Require Import Base M_CD M_Float S_Float L_Float L_Float2.
Import ListNotations.
Open Scope R_scope.

Definition nneg (x : float) : Prop := is_nan x = true \/ Bsign x = false.

Lemma nneg_not_neg x : nneg x -> flt x (fint 0) = false.
Proof.
  intros [H|H]; destruct x as [s|s| |s m e B]; try discriminate; try reflexivity; try (destruct s; discriminate || reflexivity).
Qed.
Lemma nneg_B2R x : nneg x -> 0 <= B2R x.
Proof.
  intros [H|H]; destruct x as [s|s| |s m e B]; try discriminate; cbn; try lra.
  cbn in H. subst s. apply F2R_ge_0. cbn. lia.
Qed.
Lemma nneg_overflow (x : float) : B2SF x = binary_overflow 53 1024 mode_NE false -> nneg x.
Proof. intros H. right. change (binary_overflow 53 1024 mode_NE false) with (SpecFloat.S754_infinity false) in H. destruct x; cbn in H |- *; congruence. Qed.

Lemma nneg_fadd a b : nneg a -> nneg b -> nneg (fadd a b).
Proof.
  intros Ha Hb.
  destruct (is_finite a) eqn:Fa; [destruct (is_finite b) eqn:Fb|].
  - destruct Ha as [Ha|Ha]; [destruct a; discriminate|]. destruct Hb as [Hb|Hb]; [destruct b; discriminate|].
    pose proof (nneg_B2R a (or_intror Ha)) as Pa. pose proof (nneg_B2R b (or_intror Hb)) as Pb.
    pose proof (Bplus_correct 53 1024 prec64 emax64 mode_NE a b Fa Fb) as C.
    destruct (Rlt_bool _ _).
    + destruct C as (_ & _ & S). right. unfold fadd. rewrite S, Ha, Hb.
      destruct (Rcompare_spec (B2R a + B2R b) 0); auto. change (B2R a + B2R b < 0) in H. lra.
    + destruct C as (S & _). rewrite Ha in S. apply nneg_overflow, S.
  - destruct b as [s|s| |s m e B]; try discriminate.
    + destruct Hb as [Hb|Hb]; [discriminate|]. cbn in Hb. subst s. destruct a as [s'|s'| |s' m' e' B']; try discriminate; right; reflexivity.
    + left. destruct a; reflexivity.
  - destruct a as [s|s| |s m e B]; try discriminate; try (left; reflexivity).
    destruct Ha as [Ha|Ha]; [discriminate|]. cbn in Ha. subst s.
    destruct b as [s'|s'| |s' m' e' B']; try (right; reflexivity); try (left; reflexivity).
    destruct Hb as [Hb|Hb]; [discriminate|]. cbn in Hb. subst s'. right; reflexivity.
Qed.
Lemma fmul_sign a b : is_nan (fmul a b) = true \/ Bsign (fmul a b) = xorb (Bsign a) (Bsign b).
Proof.
  destruct (is_nan (fmul a b)) eqn:N; [auto|right].
  pose proof (Bmult_correct 53 1024 prec64 emax64 mode_NE a b) as C. destruct (Rlt_bool _ _).
  - destruct C as (_ & _ & S). auto.
  - change (Bmult mode_NE a b) with (fmul a b) in C. unfold binary_overflow, overflow_to_inf in C. destruct (fmul a b); cbn in C |- *; congruence.
Qed.
Lemma nneg_fmul a b : nneg a -> nneg b -> nneg (fmul a b).
Proof.
  intros Ha Hb.
  destruct Ha as [Ha|Ha]; [left; destruct a; try discriminate; reflexivity|].
  destruct Hb as [Hb|Hb]; [left; destruct b; try discriminate; destruct a; reflexivity|].
  destruct (fmul_sign a b) as [H|H]; [left; auto|right]. rewrite H, Ha, Hb. reflexivity.
Qed.
Lemma nneg_square a : nneg (fmul a a).
Proof. destruct (fmul_sign a a) as [H|H]; [left; auto|right]. rewrite H. apply xorb_nilpotent. Qed.
Lemma nneg_fdiv a b : nneg a -> nneg b -> nneg (fdiv a b).
Proof.
  intros Ha Hb.
  destruct Ha as [Ha|Ha]; [left; destruct a; try discriminate; reflexivity|].
  destruct Hb as [Hb|Hb]; [left; destruct b; try discriminate; destruct a; reflexivity|].
  destruct b as [s|s| |s m e B]; try (left; destruct a; reflexivity).
  - cbn in Hb. subst s. destruct a as [s'|s'| |s' m' e' B']; cbn in Ha; try subst s'; try (left; reflexivity); right; reflexivity.
  - cbn in Hb. subst s. destruct a as [s'|s'| |s' m' e' B']; cbn in Ha; try subst s'; try (left; reflexivity); right; reflexivity.
  - set (b := B754_finite s m e B : float) in *.
    assert (NZ : B2R b <> 0).
    { cbn in Hb. subst s. cbn. assert (0 < F2R (Float radix2 (Z.pos m) e)) by (apply F2R_gt_0; cbn; lia). lra. }
    pose proof (Bdiv_correct 53 1024 prec64 emax64 mode_NE a b NZ) as C. destruct (Rlt_bool _ _).
    + destruct C as (_ & _ & S). destruct (is_nan (fdiv a b)) eqn:N; [left; auto|right].
      unfold fdiv. rewrite S, Ha, Hb; auto.
    + rewrite Ha, Hb in C. apply nneg_overflow, C.
Qed.
Lemma nneg_fsum l : Forall nneg l -> nneg (fsum l).
Proof.
  intros H. destruct H as [|x l Hx H]; [right; reflexivity|]. cbn.
  revert x Hx. induction H as [|y l Hy H IH]; intros x Hx; cbn; auto.
  apply IH. apply nneg_fadd; auto.
Qed.
Lemma Forall_combine_map {A B} (f : A * B -> float) (P : A -> Prop) (Q : B -> Prop) :
  (forall a b, P a -> Q b -> nneg (f (a, b))) -> forall l m, Forall P l -> Forall Q m -> Forall nneg (map f (combine l m)).
Proof.
  intros Hf l m Hl. revert m. induction Hl as [|a l Ha Hl IH]; intros [|b m] Hm; cbn; auto.
  inversion Hm; subst. constructor; auto.
Qed.
Lemma nneg_faverage x w : Forall nneg x -> Forall nneg w -> nneg (faverage x w).
Proof.
  intros Hx Hw. unfold faverage. apply nneg_fdiv; apply nneg_fsum; auto.
  apply (Forall_combine_map _ nneg nneg); auto. intros a b Ha Hb. apply nneg_fmul; auto.
Qed.
Lemma nneg_gamma forget : fle (fint 0) forget = true -> fle forget (fint 1) = true -> nneg (fsub (fint 1) forget).
Proof.
  intros H0 H1. assert (F : is_finite forget = true).
  { destruct forget as [s|s| |s m e B]; auto; destruct s; cbn in *; discriminate. }
  unfold fle in *. rewrite Bleb_correct in H0, H1 by auto.
  change (B2R (fint 0)) with 0 in H0. rewrite (proj1 fint_1) in H1.
  pose proof (Rle_bool_spec 0 (B2R forget)) as S0. rewrite H0 in S0. inversion S0 as [G0|]; subst.
  pose proof (Rle_bool_spec (B2R forget) 1) as S1. rewrite H1 in S1. inversion S1 as [G1|]; subst.
  right. pose proof (Bminus_correct 53 1024 prec64 emax64 mode_NE (fint 1) forget (proj2 fint_1) F) as C.
  destruct (Rlt_bool _ _).
  - destruct C as (_ & _ & S). unfold fsub. rewrite S.
    destruct (Rcompare_spec (B2R (fint 1) - B2R forget) 0) as [L|L|L]; auto.
    change (B2R (fint 1) - B2R forget < 0) in L. rewrite (proj1 fint_1) in L. lra.
  - destruct C as (S & _). unfold fsub. unfold binary_overflow, overflow_to_inf in S. destruct (Bminus mode_NE (fint 1) forget); cbn in S |- *; congruence.
Qed.
Lemma nneg_one : nneg (fint 1).
Proof. right. reflexivity. Qed.
Lemma nneg_forget_rev g n : nneg g -> forall w, nneg w -> Forall nneg (forget_rev g n w).
Proof. intros Hg. induction n; intros w Hw; cbn; constructor; auto. apply IHn, nneg_fmul; auto. Qed.
Lemma nneg_forget_vector forget n : nneg (fsub (fint 1) forget) -> Forall nneg (fforget_vector forget n).
Proof.
  intros H. unfold fforget_vector. destruct (feq _ _).
  - apply Forall_forall. intros x Hx. apply repeat_spec in Hx. subst. apply nneg_one.
  - apply Forall_rev, nneg_forget_rev; auto using nneg_one.
Qed.

Lemma C102_fit_lemma : forall forget x sample_weight,
  fle (fint 0) forget = true -> fle forget (fint 1) = true ->
  Forall (fun w => is_nan w = false /\ Bsign w = false) sample_weight ->
  flt (fs_var (fscaler_fit forget x sample_weight)) (fint 0) = false /\
  flt (fs_M (fscaler_fit forget x sample_weight)) (fint 0) = false.
Proof.
  intros forget x sw H0 H1 Hw. pose proof (nneg_gamma _ H0 H1) as Hg. cbn.
  set (w := map (fun uv : float * float => fmul (fst uv) (snd uv)) (combine sw (fforget_vector forget (length x)))).
  assert (W : Forall nneg w).
  { apply (Forall_combine_map _ (fun w => is_nan w = false /\ Bsign w = false) nneg); auto.
    - intros a b [_ Ha] Hb. cbn. apply nneg_fmul; [right|]; auto.
    - apply nneg_forget_vector; auto. }
  assert (V : nneg (faverage (map (fun xi : float => let d := fsub xi (faverage x w) in fmul d d) x) w)).
  { apply nneg_faverage; auto. apply Forall_map, Forall_forall. intros y _. apply nneg_square. }
  split; apply nneg_not_neg; auto. apply nneg_fmul; auto. apply nneg_fsum; auto.
Qed.

(** A run with outer tolerances of zero, for the example of C127: as in L_GAMEx, but all
    three cycles are made. *)
From Coq Require Import Reals List Bool Arith ZArith Lra Lia.
From Verif Require Import Base Lin Data M_Gram M_OLS M_Scaler M_Utils M_Links M_DistTable M_Dist M_State M_LM M_Equation M_GAMLSS M_GAMDist.
From Verif Require Import S_Gram L_Inv L_GAM1 L_GAM2 L_GAM6 L_GAMEx.
Import ListNotations.
Open Scope R_scope.

Definition zx_cfg : gam_cfg unit :=
  mk_gcfg unit ex_dist true (Some [(0%nat, EqIntercept)]) (fun _ => Ok tt) (Scalar 0) (Scalar aic) (Scalar true)
    (Scalar false) (Scalar 1) None ScaleNone false 0 0 3 1 1 0 0 (1 / 1000) (1 / 1000)
    false false false.

Definition zx_inv (s : work unit) : Prop :=
  length (w_fv s) = 2%nat /\ List.Forall at_one (w_fv s) /\ w_method s 0%nat = Some tt /\
  w_iter s = [1; 1; 1]%nat /\ w_min s = 1%nat /\ forall i, w_step s i 0%nat 0%nat = 1.

Lemma zx_cycle io dev s : (1 <= io <= 3)%nat -> zx_inv s ->
  exists s', fit_cycle ex_ops (start_env zx_cfg ex_prep ex_b0 (ex_X 2)) [0%nat] io dev s = (s', Ok 4) /\ zx_inv s'.
Proof.
  intros Hio (Hl & Hf & Hm & Hi & Hmin & Hst). set (e := start_env zx_cfg ex_prep ex_b0 (ex_X 2)).
  set (e0 := start_env ex_cfg ex_prep ex_b0 (ex_X 2)). set (fv := w_fv s) in *.
  assert (Hw : e_w e0 = ones (length (e_y e0))) by reflexivity.
  assert (Hy : forall y, In y (e_y e0) -> 0 <= y) by (cbn; intros y [<-|[<-|[]]]; lra).
  assert (D4 : 2 * lsum (e_y e0) = 4) by (cbn; lra).
  assert (Hdev : deviance e fv = Ok 4).
  { change (deviance e0 fv = Ok 4). rewrite (ex_deviance e0 eq_refl Hw Hy); [f_equal; exact D4|exact Hl|exact Hf]. }
  destruct (ex_working e0 eq_refl eq_refl Hw false fv Hl Hf) as (d1 & d2 & Hwk). rewrite Hl in Hwk.
  change (working e false 0 fv = Ok (ones 2, mk_dbg (ones 2) (e_y e) d1 d2 (ones 2) fv)) in Hwk.
  set (g := mk_dbg (ones 2) (e_y e) d1 d2 (ones 2) fv) in *.
  set (xg := (fun _ _ : nat => / init_gram (repeat (fun _ => 1) 2) (gram_weights e g) 0 0%nat 0%nat) : mat).
  set (yg := init_y_gram (repeat (fun _ => 1) 2) (g_wv g) (gram_weights e g) 0).
  assert (Hxg : forall i j, xg i j = / 2).
  { intros i j. unfold xg. apply Rinv_eq. unfold init_gram, mat_tmul, scale_rows, root_weights, gram_weights, init_forget_vector.
    rewrite eqb_t by lra. cbn. rewrite !root1. lra. }
  assert (Hyg : forall i, yg i = 2).
  { intros i. unfold yg, init_y_gram, vec_tmul, scale_rows, root_weights, gram_weights, init_forget_vector.
    rewrite eqb_t by lra. cbn. rewrite !root1. lra. }
  assert (Hx : op_init_x ex_ops 1 (repeat (fun _ => 1) 2) (gram_weights e g) 0 = Ok xg).
  { cbn [ex_ops ols_ops op_init_x]. unfold init_inverted_gram. rewrite ex_inv_one; [reflexivity|].
    specialize (Hxg 0%nat 0%nat). unfold xg in Hxg. intros E0. rewrite E0, Rinv_0 in Hxg. lra. }
  set (beta := ols_beta 1 xg yg).
  assert (Hb : forall i, beta i = 1) by (intros i; unfold beta, ols_beta, mvec; cbn [bsum]; rewrite Hxg, Hyg; field).
  set (pred := map2 (fun x et => 1 * dot 1 x beta + (1 - 1) * et) (repeat (fun _ => 1) 2) (ones 2)).
  assert (Hpred : pred = ones 2).
  { unfold pred. cbn [map2 repeat ones]. unfold dot. cbn [bsum]. rewrite Hb. f_equal; [lra|f_equal; lra]. }
  set (fv' := set_col fv 0 (map (d_inv ex_dist 0) pred)).
  assert (Hf' : List.Forall at_one fv' /\ length fv' = 2%nat).
  { unfold fv'. rewrite Hpred. destruct fv as [|a [|b [|]]]; try discriminate. cbn. split; [|reflexivity]. repeat constructor. }
  destruct Hf' as [Hf' Hl'].
  assert (Hdev' : deviance e fv' = Ok 4).
  { change (deviance e0 fv' = Ok 4). rewrite (ex_deviance e0 eq_refl Hw Hy); [f_equal; exact D4|exact Hl'|exact Hf']. }
  assert (Hcand := fit_candidate_run ex_ops e 0 io 0 1 4 fv None s (ones 2) g 1 (repeat (fun _ => 1) 2) xg tt tt beta 4
    eq_refl eq_refl eq_refl Hwk Hx Hm eq_refl Hdev').
  fold pred in Hcand. cbn zeta in Hcand.
  set (q := mk_cand _ _ _ _ _ _ _ _ _) in Hcand.
  assert (Hn : nth_error (w_iter s) (io - 1) = Some 1%nat).
  { rewrite Hi. destruct io as [|[|[|[|io]]]]; try lia; reflexivity. }
  assert (Hin := inner_fit_run1 ex_ops e 0 io s 4 fv q tt eq_refl Hdev Hn ltac:(cbn; lia) ltac:(cbn; lia) eq_refl).
  rewrite Hst in Hin. specialize (Hin Hcand (or_intror (Rle_refl 4))).
  eexists. split.
  - cbn [fit_cycle]. unfold bnd at 1. rewrite Hin. reflexivity.
  - split; [|split; [|split; [|split; [|split]]]]; try assumption; try reflexivity.
    + change (length (set_col fv 0 (col fv' 0)) = 2%nat). rewrite (ex_col fv' Hf'), Hl'.
      destruct fv as [|a [|b [|]]]; try discriminate. reflexivity.
    + change (List.Forall at_one (set_col fv 0 (col fv' 0))). rewrite (ex_col fv' Hf'), Hl'.
      destruct fv as [|a [|b [|]]]; try discriminate. cbn. repeat constructor.
Qed.

Lemma zx_outer fv : length fv = 2%nat -> List.Forall at_one fv ->
  exists w, outer_fit ex_ops (start_env zx_cfg ex_prep ex_b0 (ex_X 2)) (enough_fuel zx_cfg)
    (start_work zx_cfg ex_prep (fun p => nth_error [tt] p) fv) = (w, Ok (4, 3%nat)).
Proof.
  intros Hl Hf. set (e := start_env zx_cfg ex_prep ex_b0 (ex_X 2)).
  set (s := start_work zx_cfg ex_prep (fun p => nth_error [tt] p) fv).
  assert (Hdev : deviance e fv = Ok 4).
  { change (deviance (start_env ex_cfg ex_prep ex_b0 (ex_X 2)) fv = Ok 4).
    rewrite (ex_deviance (start_env ex_cfg ex_prep ex_b0 (ex_X 2)) eq_refl eq_refl); [f_equal; cbn; lra| |exact Hl|exact Hf].
    cbn; intros y [<-|[<-|[]]]; lra. }
  assert (I0 : zx_inv s) by (repeat split; auto).
  destruct (zx_cycle 1 4 s ltac:(lia) I0) as (s1 & C1 & I1).
  destruct (zx_cycle 2 4 s1 ltac:(lia) I1) as (s2 & C2 & I2).
  destruct (zx_cycle 3 4 s2 ltac:(lia) I2) as (s3 & C3 & I3).
  fold e in C1, C2, C3.
  assert (Hc : outer_converged e 4 4 = false).
  { unfold outer_converged, rel_close. rewrite Rminus_diag_eq by reflexivity. rewrite Rabs_R0.
    change (o_rel_outer (e_cfg e)) with 0. change (o_abs_outer (e_cfg e)) with 0.
    unfold Rdiv. rewrite Rmult_0_l. rewrite (ltb_f 0 0) by lra. rewrite andb_false_r. reflexivity. }
  exists s3. unfold outer_fit, bnd at 1. unfold peek at 1. unfold bnd at 1, lift at 1. change (w_fv s) with fv. rewrite Hdev.
  unfold enough_fuel. change (o_max_outer zx_cfg + 2)%nat with 5%nat. cbn [outer_fit_loop].
  change (o_max_outer (e_cfg e)) with 3%nat. change (p_order (e_prep e)) with [0%nat].
  unfold bnd at 1, peek at 1. change (w_min s <=? 0)%nat with false. cbn [andb]. unfold bnd at 1. rewrite C1.
  unfold bnd at 1, peek at 1. destruct I1 as (_ & _ & _ & _ & -> & _). rewrite Hc, (ltb_f 4 4) by lra. cbn [Nat.leb andb orb].
  unfold bnd at 1. rewrite C2.
  unfold bnd at 1, peek at 1. destruct I2 as (_ & _ & _ & _ & -> & _). rewrite Hc, (ltb_f 4 4) by lra. cbn [Nat.leb andb orb].
  unfold bnd at 1. rewrite C3.
  unfold bnd at 1, peek at 1. destruct I3 as (_ & _ & _ & _ & -> & _). rewrite Hc, (ltb_f 4 4) by lra. cbn [Nat.leb andb orb].
  reflexivity.
Qed.

Lemma zx_fit : exists s1, gam_fit ex_ops zx_cfg ex_b0 new_gam = (s1, Ok tt) /\ s_dev s1 = Some (4, 3%nat).
Proof.
  set (fv := [fun k => nth k [1] 0; fun k => nth k [1] 0] : list vec).
  assert (Hinit : d_init ex_dist [1 / 2; 3 / 2] = Ok fv).
  { cbn. unfold M_Init.np_mean, npdiv. cbn. rewrite eqb_f by lra. cbn.
    replace ((1 / 2 + (3 / 2 + 0)) / (1 + 1)) with 1 by lra. reflexivity. }
  destruct (zx_outer fv eq_refl) as (w & Ho).
  { repeat constructor. }
  eexists. split.
  - eapply (gam_fit_run ex_ops zx_cfg ex_b0 new_gam ex_prep _ fv [1%nat] (ex_scaler 2) (ex_X 2) w 4 3); try reflexivity; try exact Hinit; try exact Ho.
    + cbn; lia.
    + cbn [existsb b_rows ex_b0 oy ex_row o_dist zx_cfg]. rewrite !ex_below by lra. reflexivity.
    + cbn. unfold scaler_fit. cbn. unfold ex_scaler. do 2 f_equal. lra.
  - reflexivity.
Qed.

(** Worked run for C98 and C99: two columns with correlation 1/2, no penalty,
    tolerance 1/2. *)
From Coq Require Import Reals List Bool Arith Lia Lra Psatz Permutation.
From Verif Require Import Base Lin M_CD S_CD S_CD2 L_CD1 L_CD L_CD2 L_Path L_CD3 L_CD4 L_CD5.
Import ListNotations.
Open Scope R_scope.

Definition ex98 : cd_args := mk_cd 2 (m2 1 (1 / 2) (1 / 2) 1) (v2 1 1) 0 (fun _ => true) 1 no_bound no_bound.

Lemma ex98_coord0 c : cd_coord ex98 c 0 = Ok (1 - c 1%nat / 2).
Proof.
  unfold cd_coord, cd_den, cd_num, cd_partial. cbn [ex98 cd_J cd_x cd_y cd_reg cd_isreg cd_alpha cd_lo cd_up bsum m2 v2].
  rcase; [lra|]. rewrite Rmult_0_r, st_0. unfold no_bound; cbn. f_equal. field.
Qed.
Lemma ex98_coord1 c : cd_coord ex98 c 1 = Ok (1 - c 0%nat / 2).
Proof.
  unfold cd_coord, cd_den, cd_num, cd_partial. cbn [ex98 cd_J cd_x cd_y cd_reg cd_isreg cd_alpha cd_lo cd_up bsum m2 v2].
  rcase; [lra|]. rewrite Rmult_0_r, st_0. unfold no_bound; cbn. f_equal. field.
Qed.

Lemma ex98_sweep first c : (first = true \/ (c 0%nat <> 0 /\ c 1%nat <> 0)) ->
  exists c', cd_sweep ex98 first (seq 0 2) c = Ok c' /\
    c' 0%nat = 1 - c 1%nat / 2 /\ c' 1%nat = 1 - (1 - c 1%nat / 2) / 2.
Proof.
  intros H. cbn [seq cd_sweep].
  rewrite (visit_val ex98 first c 0 _ ltac:(tauto) (ex98_coord0 c)). cbn [bind].
  rewrite (visit_val ex98 first _ 1 (1 - (1 - c 1%nat / 2) / 2)).
  2:{ unfold vset; cbn. tauto. }
  2:{ rewrite ex98_coord1. unfold vset; cbn. reflexivity. }
  cbn [bind]. eexists. split; [reflexivity|]. unfold vset; cbn. split; reflexivity.
Qed.

Lemma ex98_run : exists b',
  online_coordinate_descent ex98 false (fun _ => seq 0 2) (1 / 2) 1000 (fun _ => 0) = Ok (b', 2%nat) /\
  b' 0%nat = 3 / 4 /\ b' 1%nat = 5 / 8.
Proof.
  destruct (ex98_sweep true (fun _ => 0) (or_introl eq_refl)) as (c1 & S1 & A0 & A1).
  destruct (ex98_sweep false c1) as (c2 & S2 & B0 & B1).
  { right. rewrite A0, A1. split; lra. }
  rewrite A1 in B0, B1.
  exists c2. split; [|split; [rewrite B0; lra|rewrite B1; lra]].
  apply (run_two ex98 false (fun _ => seq 0 2) (1 / 2) 1000 (fun _ => 0) c1 c2).
  - apply Nat.leb_le. reflexivity.
  - exact S1.
  - unfold within_tol. cbn [cd_J ex98 max_abs]. rewrite A0, A1. unfold Rmax, Rabs.
    repeat (destruct Rcase_abs || destruct Rle_dec); lra.
  - exact S2.
  - unfold within_tol. cbn [cd_J ex98 max_abs]. rewrite A0, A1, B0, B1. unfold Rmax, Rabs.
    repeat (destruct Rcase_abs || destruct Rle_dec); lra.
Qed.

Lemma ex98_sym : symmetric 2 (m2 1 (1 / 2) (1 / 2) 1).
Proof. intros [|[|i]] [|[|j]] Hi Hj; try lia; reflexivity. Qed.
Lemma ex98_psd : psd 2 (m2 1 (1 / 2) (1 / 2) 1).
Proof. intros v. unfold quad, dot, mvec. cbn [bsum m2]. nra. Qed.

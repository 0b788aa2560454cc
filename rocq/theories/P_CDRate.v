(** Properties C98 and C99: accuracy of coordinate descent at its stopping
    tolerance and progress of the sweeps. *)
From Coq Require Import Reals List Bool Arith Lia Lra Psatz Permutation.
From Verif Require Import Base Lin M_CD S_CD S_CD2 L_CD1 L_CD L_CD2 L_Path L_CD3 L_CD4 L_CD5 L_CD6.
Import ListNotations.
Open Scope R_scope.

(** C98. A run that meets the tolerance returns a vector whose objective exceeds that
    of any admissible competitor by at most the tolerance times the size of the
    result, times the off-diagonal weight of the change; the curvature term
    on the left also bounds the distance to the competitor. *)
Theorem C98_accuracy_at_tolerance : forall J x y reg isreg alpha lo up random perm tol maxit b b' n,
  symmetric J x -> psd J x -> 0 <= reg -> 0 <= alpha <= 1 -> box_ok J lo up ->
  (forall i, Permutation (perm i) (seq 0 J)) -> 0 <= tol ->
  online_coordinate_descent (mk_cd J x y reg isreg alpha lo up) random perm tol maxit b = Ok (b', n) ->
  (n <= maxit)%nat ->
  forall t, in_box J lo up t ->
    (n = 1%nat \/ forall j, (j < J)%nat -> b' j = 0 -> t j = 0) ->
    enet_obj J x y reg isreg alpha b' + 1 / 2 * quad J x (fun k => t k - b' k)
    <= enet_obj J x y reg isreg alpha t
       + tol * max_abs J b' * bsum J (fun j => row_rest J x j * Rabs (t j - b' j)).
Proof. exact C98_lemma. Qed.
Print Assumptions C98_accuracy_at_tolerance.
(** Two columns with correlation 1/2, tolerance 1/2: stops after two sweeps in
    (3/4, 5/8); the optimum is (2/3, 2/3), so the slack is needed. *)
Example C98_example : exists b',
  online_coordinate_descent (mk_cd 2 (m2 1 (1 / 2) (1 / 2) 1) (v2 1 1) 0 (fun _ => true) 1
    (fun _ => None) (fun _ => None)) false (fun _ => seq 0 2) (1 / 2) 1000 (fun _ => 0) = Ok (b', 2%nat) /\
  b' 0%nat = 3 / 4 /\ b' 1%nat = 5 / 8 /\
  enet_obj 2 (m2 1 (1 / 2) (1 / 2) 1) (v2 1 1) 0 (fun _ => true) 1 (v2 (2 / 3) (2 / 3))
  < enet_obj 2 (m2 1 (1 / 2) (1 / 2) 1) (v2 1 1) 0 (fun _ => true) 1 b' /\
  enet_obj 2 (m2 1 (1 / 2) (1 / 2) 1) (v2 1 1) 0 (fun _ => true) 1 b'
  <= enet_obj 2 (m2 1 (1 / 2) (1 / 2) 1) (v2 1 1) 0 (fun _ => true) 1 (v2 (2 / 3) (2 / 3)) + 3 / 128.
Proof.
  destruct ex98_run as (b' & E & B0 & B1). exists b'. split; [exact E|]. split; [exact B0|]. split; [exact B1|].
  split.
  - unfold enet_obj, quad, dot, mvec. cbn [bsum m2 v2]. rewrite B0, B1. lra.
  - assert (T0 : 0 <= 1 / 2) by lra.
    pose proof (C98_accuracy_at_tolerance _ _ _ _ _ _ (fun _ => None) (fun _ => None) _ _ _ _ _ _ _ ex98_sym ex98_psd
      (Rle_refl 0) (conj Rle_0_1 (Rle_refl 1)) (fun _ _ => I) (fun _ => Permutation_refl _) T0 E
      ltac:(apply Nat.leb_le; reflexivity) (v2 (2 / 3) (2 / 3)) (fun _ _ => conj I I)) as H.
    assert (Z : 2%nat = 1%nat \/ forall j, (j < 2)%nat -> b' j = 0 -> v2 (2 / 3) (2 / 3) j = 0).
    { right. intros [|[|j]] Hj; [rewrite B0|rewrite B1|lia]; lra. }
    specialize (H Z). unfold quad, dot, mvec, row_rest in H. cbn [bsum m2 v2 Nat.eqb max_abs] in H.
    rewrite B0, B1 in H.
    rewrite (Rabs_right (3 / 4)), (Rabs_right (5 / 8)), (Rabs_right (1 / 2)) in H by lra.
    rewrite (Rabs_left (2 / 3 - 3 / 4)), (Rabs_right (2 / 3 - 5 / 8)) in H by lra.
    rewrite (Rmax_right 0), (Rmax_left (3 / 4)) in H by lra.
    match goal with |- ?u <= ?w + _ => set (F := u) in *; set (F' := w) in * end. lra.
Qed.

(** C99. Each sweep lowers the objective by at least half the smallest diagonal
    entry times the squared length of its step. *)
Theorem C99_every_sweep_gains : forall J x y reg isreg alpha lo up random perm d b (c : nat -> vec) n,
  symmetric J x -> psd J x -> 0 <= reg -> 0 <= alpha <= 1 -> box_ok J lo up ->
  (forall i, Permutation (perm i) (seq 0 J)) ->
  (forall j, (j < J)%nat -> d <= x j j) -> in_box J lo up b ->
  (forall i, (i <= n)%nat -> cd_iter (mk_cd J x y reg isreg alpha lo up) random perm i b = Ok (c i)) ->
  enet_obj J x y reg isreg alpha (c n) + d / 2 * bsum n (fun i => sqdist J (c (S i)) (c i))
    <= enet_obj J x y reg isreg alpha b.
Proof. exact C99_progress_lemma. Qed.
Print Assumptions C99_every_sweep_gains.
(** Hence a bound on the number [n] of sweeps, whatever the iteration limit, from a start that is
    better than the zero vector. *)
Theorem C99_number_of_sweeps : forall J x y reg isreg alpha lo up random perm tol maxit b b' n d lowest,
  symmetric J x -> psd J x -> 0 <= reg -> 0 <= alpha <= 1 -> box_ok J lo up ->
  (forall i, Permutation (perm i) (seq 0 J)) -> 0 <= tol ->
  0 <= d -> (forall j, (j < J)%nat -> d <= x j j) -> in_box J lo up b ->
  (forall t, in_box J lo up t -> lowest <= enet_obj J x y reg isreg alpha t) ->
  enet_obj J x y reg isreg alpha b < 0 ->
  online_coordinate_descent (mk_cd J x y reg isreg alpha lo up) random perm tol maxit b = Ok (b', n) ->
  INR (n - 1) * d * (tol * enet_obj J x y reg isreg alpha b) ^ 2
    <= 2 * (enet_obj J x y reg isreg alpha b - lowest) * bsum J (fun j => Rabs (y j)) ^ 2.
Proof. exact C99_lemma. Qed.
Print Assumptions C99_number_of_sweeps.
(** The problem of [C98_example] started from (1, 0), where the objective is -1/2;
    its minimum is -2/3. Tolerance 1/2: at most 22 sweeps, for every iteration limit and
    every visiting order. *)
Example C99_example : forall random perm maxit b' n,
  (forall i, Permutation (perm i) (seq 0 2)) ->
  online_coordinate_descent (mk_cd 2 (m2 1 (1 / 2) (1 / 2) 1) (v2 1 1) 0 (fun _ => true) 1
    (fun _ => None) (fun _ => None)) random perm (1 / 2) maxit (v2 1 0) = Ok (b', n) -> (n <= 22)%nat.
Proof.
  intros random perm maxit b' n Hp E.
  assert (D : forall j, (j < 2)%nat -> 1 <= m2 1 (1 / 2) (1 / 2) 1 j j).
  { intros [|[|j]] Hj; [cbn; lra|cbn; lra|lia]. }
  assert (L : forall t, in_box 2 (fun _ => None) (fun _ => None) t ->
     - (2 / 3) <= enet_obj 2 (m2 1 (1 / 2) (1 / 2) 1) (v2 1 1) 0 (fun _ => true) 1 t).
  { intros t _. unfold enet_obj, quad, dot, mvec. cbn [bsum m2 v2].
    pose proof (pow2_ge_0 (t 0%nat - 2 / 3)). pose proof (pow2_ge_0 (t 1%nat - 2 / 3)).
    pose proof (pow2_ge_0 (t 0%nat - 2 / 3 + (t 1%nat - 2 / 3))). lra. }
  assert (F : enet_obj 2 (m2 1 (1 / 2) (1 / 2) 1) (v2 1 1) 0 (fun _ => true) 1 (v2 1 0) = - (1 / 2)).
  { unfold enet_obj, quad, dot, mvec. cbn [bsum m2 v2]. lra. }
  assert (T0 : 0 <= 1 / 2) by lra.
  pose proof (C99_number_of_sweeps _ _ _ _ _ _ (fun _ => None) (fun _ => None) random perm _ maxit (v2 1 0) b' n 1 (- (2 / 3)) ex98_sym ex98_psd
      (Rle_refl 0) (conj Rle_0_1 (Rle_refl 1)) (fun _ _ => I) Hp T0 Rle_0_1 D
      (fun _ _ => conj I I) L) as H.
  rewrite F in H. specialize (H ltac:(lra) E). cbn [bsum v2] in H. rewrite Rabs_R1 in H.
  assert (B : INR (n - 1) < INR 22).
  { rewrite (INR_IZR_INZ 22). change (IZR (Z.of_nat 22)) with 22. lra. }
  apply INR_lt in B. lia.
Qed.

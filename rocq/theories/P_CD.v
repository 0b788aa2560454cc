(** Properties C10-C15 and C22: soft thresholding and coordinate descent. *)
From Coq Require Import Reals List Bool Arith Lia Lra Permutation.
From Verif Require Import Base Lin M_CD S_CD L_CD1 L_CD L_CD2 L_Path L_CD3 L_CD4.
Import ListNotations.
Open Scope R_scope.

(** C10. The soft threshold is the unique proximal point, odd, non-expansive and
    zero exactly on [-t, t]. *)
Theorem C10_soft_threshold_prox : forall v t, 0 <= t ->
  (forall x, 1 / 2 * (soft_threshold v t - v) ^ 2 + t * Rabs (soft_threshold v t)
             <= 1 / 2 * (x - v) ^ 2 + t * Rabs x) /\
  (forall x, x <> soft_threshold v t ->
     1 / 2 * (soft_threshold v t - v) ^ 2 + t * Rabs (soft_threshold v t)
     < 1 / 2 * (x - v) ^ 2 + t * Rabs x).
Proof. exact st_prox_unique. Qed.
Print Assumptions C10_soft_threshold_prox.
Theorem C10_soft_threshold_odd : forall v t, soft_threshold (- v) t = - soft_threshold v t.
Proof. exact st_odd. Qed.
Print Assumptions C10_soft_threshold_odd.
Theorem C10_soft_threshold_nonexpansive : forall v w t, 0 <= t ->
  Rabs (soft_threshold v t - soft_threshold w t) <= Rabs (v - w).
Proof. exact st_nonexpansive. Qed.
Print Assumptions C10_soft_threshold_nonexpansive.
Theorem C10_soft_threshold_zero : forall v t, 0 <= t ->
  (soft_threshold v t = 0 <-> Rabs v <= t).
Proof. exact st_zero_iff. Qed.
Print Assumptions C10_soft_threshold_zero.
Example C10_example : soft_threshold (- 3) 1 = - 2 /\ soft_threshold (1 / 2) 1 = 0.
Proof.
  split; [rewrite st_neg; lra|]. apply C10_soft_threshold_zero; [lra|]. rewrite Rabs_right; lra.
Qed.

(** C11. *)
Theorem C11_descent : forall J x y reg isreg alpha lo up random perm tol maxit b b' n,
  symmetric J x -> (forall j, (j < J)%nat -> 0 <= x j j) -> 0 <= reg -> 0 <= alpha <= 1 ->
  box_ok J lo up -> (forall i, Permutation (perm i) (seq 0 J)) -> in_box J lo up b ->
  online_coordinate_descent (mk_cd J x y reg isreg alpha lo up) random perm tol maxit b = Ok (b', n) ->
  enet_obj J x y reg isreg alpha b' <= enet_obj J x y reg isreg alpha b.
Proof. exact C11_lemma. Qed.
Print Assumptions C11_descent.
(** The decrease is strict unless the start is already a minimiser. *)
Theorem C11_descent_strict : forall J x y reg isreg alpha lo up random perm tol maxit b b' n,
  symmetric J x -> psd J x -> 0 <= reg -> 0 <= alpha <= 1 ->
  box_ok J lo up -> (forall i, Permutation (perm i) (seq 0 J)) -> in_box J lo up b ->
  online_coordinate_descent (mk_cd J x y reg isreg alpha lo up) random perm tol maxit b = Ok (b', n) ->
  ~ enet_minimiser J x y reg isreg alpha lo up b ->
  enet_obj J x y reg isreg alpha b' < enet_obj J x y reg isreg alpha b.
Proof. exact C11_strict_lemma. Qed.
Print Assumptions C11_descent_strict.

(** A concrete problem with a box constraint; the result is known. *)
Example C11_example :
  exists b n, online_coordinate_descent ex15 false (fun _ => seq 0 2) 0 1000 (fun _ => 0) = Ok (b, n) /\
  enet_obj 2 (m2 1 (- (9 / 10)) (- (9 / 10)) 1) (v2 0 3) 1 (fun _ => true) 1 b
  < enet_obj 2 (m2 1 (- (9 / 10)) (- (9 / 10)) 1) (v2 0 3) 1 (fun _ => true) 1 (fun _ => 0).
Proof. exact C11_example_lemma. Qed.

(** C12. Bounds of a single call (paths: see P_Path.v). *)
Theorem C12_bounds : forall J x y reg isreg alpha lo up random perm tol maxit b b' n,
  box_ok J lo up -> (forall i, Permutation (perm i) (seq 0 J)) ->
  online_coordinate_descent (mk_cd J x y reg isreg alpha lo up) random perm tol maxit b = Ok (b', n) ->
  in_box J lo up b'.
Proof. exact C12_lemma. Qed.
Print Assumptions C12_bounds.
(** A start outside the box is moved into it. *)
Example C12_example : exists b n,
  online_coordinate_descent (mk_cd 1 (fun _ _ => 2) (fun _ => 10) 0 (fun _ => true) 1
     (fun _ => Some (- 1)) (fun _ => Some 1)) true (fun _ => [0%nat]) 0 5 (fun _ => 7) = Ok (b, n)
  /\ b 0%nat = 1.
Proof. exact C12_example_lemma. Qed.

(** C13. The call returns (or raises the division error of C22); the result is the
    first iterate that meets the tolerance test, or iterate [maxit + 1]. *)
Theorem C13_terminates : forall a random perm tol maxit b,
  match online_coordinate_descent a random perm tol maxit b with
  | Ok (b', n) => (1 <= n <= maxit + 1)%nat
  | Raise e => e = ZeroDivisionError
  end.
Proof. exact C13_lemma. Qed.
Print Assumptions C13_terminates.
Theorem C13_stopping_rule : forall a random perm tol maxit b b' n,
  online_coordinate_descent a random perm tol maxit b = Ok (b', n) ->
  (* the result is the n-th iterate *)
  cd_iter a random perm n b = Ok b' /\
  (* below the limit the relative change is within the tolerance *)
  (forall c, (n <= maxit)%nat -> cd_iter a random perm (n - 1) b = Ok c ->
     max_abs (cd_J a) (fun k => b' k - c k) <= tol * max_abs (cd_J a) b') /\
  (* and no earlier iterate met the test *)
  (forall m c c', (1 <= m < n)%nat -> cd_iter a random perm (m - 1) b = Ok c ->
     cd_iter a random perm m b = Ok c' ->
     ~ max_abs (cd_J a) (fun k => c' k - c k) <= tol * max_abs (cd_J a) c').
Proof. exact C13_stopping_lemma. Qed.
Print Assumptions C13_stopping_rule.
(** The limit [maxit + 1] is attained: one sweep more than the documented maximum. *)
Theorem C13_one_more_sweep : forall maxit, exists a b b',
  online_coordinate_descent a false (fun _ => seq 0 (cd_J a)) 0 maxit b = Ok (b', (maxit + 1)%nat).
Proof. exact C13_extra_sweep. Qed.
Print Assumptions C13_one_more_sweep.
(** Two correlated columns, tolerance 0, limit 1: two sweeps are made. *)
Example C13_example : exists b', online_coordinate_descent
  (mk_cd 2 (m2 2 1 1 2) (fun _ => 0) 0 (fun _ => true) 1 (fun _ => None) (fun _ => None))
  false (fun _ => seq 0 2) 0 1 (fun _ => 1) = Ok (b', 2%nat).
Proof. exact (ex13_loop 1 2 0 (fun _ => 1) ltac:(lia) ltac:(lia) ltac:(lra) ltac:(lra)). Qed.

(** C14. A call limited to a single sweep ([max_iterations = 0]) that returns its
    start proves the start globally optimal; conversely every call started at a
    minimiser returns it. *)
Theorem C14_fixed_point_optimal : forall J x y reg isreg alpha lo up random perm tol b b' n,
  symmetric J x -> psd J x -> 0 <= reg -> 0 <= alpha <= 1 -> box_ok J lo up ->
  online_coordinate_descent (mk_cd J x y reg isreg alpha lo up) random perm tol 0 b = Ok (b', n) ->
  eqv J b' b ->
  enet_minimiser J x y reg isreg alpha lo up b.
Proof. exact C14_lemma. Qed.
Print Assumptions C14_fixed_point_optimal.
Theorem C14_optimal_is_kept : forall J x y reg isreg alpha lo up random perm tol maxit b,
  symmetric J x -> (forall j, (j < J)%nat -> 0 < x j j) -> 0 <= reg -> 0 <= alpha <= 1 ->
  box_ok J lo up -> (forall i, Permutation (perm i) (seq 0 J)) ->
  enet_minimiser J x y reg isreg alpha lo up b ->
  exists b' n, online_coordinate_descent (mk_cd J x y reg isreg alpha lo up) random perm tol maxit b
                 = Ok (b', n) /\ eqv J b' b.
Proof. exact C14_converse_lemma. Qed.
Print Assumptions C14_optimal_is_kept.
Example C14_example : enet_minimiser 2 (m2 2 1 1 2) (v2 4 1) 1 (fun _ => true) 1
    (fun _ => None) (fun _ => None) (v2 (3 / 2) 0).
Proof. exact C14_example_lemma. Qed.

(** C15. *)
Theorem C15_zero_stays_zero : forall a random perm tol maxit b b1 b' n j,
  cd_iter a random perm 1 b = Ok b1 -> b1 j = 0 ->
  online_coordinate_descent a random perm tol maxit b = Ok (b', n) -> b' j = 0.
Proof. exact C15_lemma. Qed.
Print Assumptions C15_zero_stays_zero.
Theorem C15_stop_not_optimal :
  exists J x y reg isreg alpha lo up b' n,
    symmetric J x /\ psd J x /\ (forall j, (j < J)%nat -> 0 < x j j) /\ 0 < reg /\ 0 <= alpha <= 1 /\
    box_ok J lo up /\ (n < 1000)%nat /\
    online_coordinate_descent (mk_cd J x y reg isreg alpha lo up) false (fun _ => seq 0 J) 0 1000
      (fun _ => 0) = Ok (b', n) /\
    ~ enet_minimiser J x y reg isreg alpha lo up b'.
Proof. exact C15_refute_lemma. Qed.
Print Assumptions C15_stop_not_optimal.
(** What does hold when the test is met with tolerance 0: optimality among the
    vectors sharing the zeros of the result (global if it stops in sweep one or
    has no zero). *)
Theorem C15_active_set_optimal : forall J x y reg isreg alpha lo up random perm maxit b b' n,
  symmetric J x -> psd J x -> 0 <= reg -> 0 <= alpha <= 1 -> box_ok J lo up ->
  (forall i, Permutation (perm i) (seq 0 J)) ->
  online_coordinate_descent (mk_cd J x y reg isreg alpha lo up) random perm 0 maxit b = Ok (b', n) ->
  (n <= maxit)%nat ->
  forall t, in_box J lo up t ->
    (n = 1%nat \/ forall j, (j < J)%nat -> b' j = 0 -> t j = 0) ->
    enet_obj J x y reg isreg alpha b' <= enet_obj J x y reg isreg alpha t.
Proof. exact C15_active_lemma. Qed.
Print Assumptions C15_active_set_optimal.
(** The run behind [C15_stop_not_optimal] ends after two sweeps in (0, 2); (8/10, 2) is better. *)
Example C15_example : exists b',
  online_coordinate_descent (mk_cd 2 (m2 1 (- (9 / 10)) (- (9 / 10)) 1) (v2 0 3) 1 (fun _ => true) 1
    (fun _ => None) (fun _ => None)) false (fun _ => seq 0 2) 0 1000 (fun _ => 0) = Ok (b', 2%nat) /\
  b' 0%nat = 0 /\ b' 1%nat = 2 /\
  enet_obj 2 (m2 1 (- (9 / 10)) (- (9 / 10)) 1) (v2 0 3) 1 (fun _ => true) 1 (v2 (8 / 10) 2)
  < enet_obj 2 (m2 1 (- (9 / 10)) (- (9 / 10)) 1) (v2 0 3) 1 (fun _ => true) 1 b'.
Proof.
  destruct (ex15_run (fun _ => seq 0 2)) as (b' & E & B0 & B1). exists b'. split; [exact E|].
  split; [exact B0|]. split; [exact B1|].
  unfold enet_obj, quad, dot, mvec. cbn [bsum m2 v2].
  rewrite B0, B1, Rabs_R0, (Rabs_right 2), (Rabs_right (8 / 10)) by lra. lra.
Qed.

(** C22. *)
Theorem C22_raises_iff : forall J x y reg isreg alpha lo up random perm tol maxit b,
  (forall i, Permutation (perm i) (seq 0 J)) ->
  (online_coordinate_descent (mk_cd J x y reg isreg alpha lo up) random perm tol maxit b
     = Raise ZeroDivisionError
   <-> exists j, (j < J)%nat /\ x j j + (if isreg j then reg * (1 - alpha) else 0) = 0).
Proof. exact C22_lemma. Qed.
Print Assumptions C22_raises_iff.
Theorem C22_never_raises : forall J x y reg isreg alpha lo up random perm tol maxit b,
  (forall i, Permutation (perm i) (seq 0 J)) -> 0 <= reg -> 0 <= alpha <= 1 ->
  (forall j, (j < J)%nat -> 0 < x j j \/ (x j j = 0 /\ isreg j = true /\ 0 < reg /\ alpha < 1)) ->
  exists b' n, online_coordinate_descent (mk_cd J x y reg isreg alpha lo up) random perm tol maxit b
    = Ok (b', n).
Proof. exact C22_total_lemma. Qed.
Print Assumptions C22_never_raises.
Example C22_example :
  online_coordinate_descent (mk_cd 2 (m2 1 0 0 0) (v2 1 0) 1 (fun _ => true) 1 (fun _ => None) (fun _ => None))
    false (fun _ => seq 0 2) 0 10 (fun _ => 0) = Raise ZeroDivisionError.
Proof. apply C22_raises_iff; [reflexivity|]. exists 1%nat. split; [lia|]. cbn. lra. Qed.

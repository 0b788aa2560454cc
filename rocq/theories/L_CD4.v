(** Proofs behind the statements of P_CD.v. *)
From Coq Require Import Reals List Bool Arith Lia Lra Psatz Permutation.
From Verif Require Import Base Lin M_CD S_CD L_CD1 L_CD L_CD2 L_Path L_CD3.
Import ListNotations.
Open Scope R_scope.

Lemma st_prox_unique : forall v t, 0 <= t ->
  (forall x, 1 / 2 * (soft_threshold v t - v) ^ 2 + t * Rabs (soft_threshold v t)
             <= 1 / 2 * (x - v) ^ 2 + t * Rabs x) /\
  (forall x, x <> soft_threshold v t ->
     1 / 2 * (soft_threshold v t - v) ^ 2 + t * Rabs (soft_threshold v t)
     < 1 / 2 * (x - v) ^ 2 + t * Rabs x).
Proof.
  intros v t Ht. split; intros x; [|intros Hn]; pose proof (st_prox v t x Ht) as H.
  - pose proof (pow2_ge_0 (x - soft_threshold v t)). lra.
  - assert (0 < (x - soft_threshold v t) ^ 2); [|lra].
    rewrite <- Rsqr_pow2. apply Rsqr_pos_lt. lra.
Qed.

Lemma psd_diag J x j : psd J x -> (j < J)%nat -> 0 <= x j j.
Proof.
  intros H Hj. specialize (H (unitv j)). unfold quad in H. rewrite dot_comm, dot_unit in H by auto.
  rewrite mvec_unit in H by auto. exact H.
Qed.

Lemma C11_lemma : forall J x y reg isreg alpha lo up random perm tol maxit b b' n,
  symmetric J x -> (forall j, (j < J)%nat -> 0 <= x j j) -> 0 <= reg -> 0 <= alpha <= 1 ->
  box_ok J lo up -> (forall i, Permutation (perm i) (seq 0 J)) -> in_box J lo up b ->
  online_coordinate_descent (mk_cd J x y reg isreg alpha lo up) random perm tol maxit b = Ok (b', n) ->
  enet_obj J x y reg isreg alpha b' <= enet_obj J x y reg isreg alpha b.
Proof.
  intros J x y reg isreg alpha lo up random perm tol maxit b b' n HS Hd Hr Ha Hb Hp Hin H.
  exact (cd_descent (mk_cd J x y reg isreg alpha lo up) random perm tol maxit b b' n
    (conj HS (conj Hd (conj Hr Ha))) Hb Hp Hin H).
Qed.

Lemma C11_strict_lemma : forall J x y reg isreg alpha lo up random perm tol maxit b b' n,
  symmetric J x -> psd J x -> 0 <= reg -> 0 <= alpha <= 1 ->
  box_ok J lo up -> (forall i, Permutation (perm i) (seq 0 J)) -> in_box J lo up b ->
  online_coordinate_descent (mk_cd J x y reg isreg alpha lo up) random perm tol maxit b = Ok (b', n) ->
  ~ enet_minimiser J x y reg isreg alpha lo up b ->
  enet_obj J x y reg isreg alpha b' < enet_obj J x y reg isreg alpha b.
Proof.
  intros J x y reg isreg alpha lo up random perm tol maxit b b' n HS HP Hr Ha Hb Hp Hin H Hm.
  pose (a := mk_cd J x y reg isreg alpha lo up).
  assert (W : cd_wf a) by (split; [exact HS|split; [intros j Hj; apply psd_diag with J; auto|auto]]).
  refine (cd_strict a random perm tol maxit b b' n W Hb Hp Hin H _).
  intros F. apply Hm. exact (cd_fixed_optimal a b W HP Hb F).
Qed.

Lemma C12_lemma : forall J x y reg isreg alpha lo up random perm tol maxit b b' n,
  box_ok J lo up -> (forall i, Permutation (perm i) (seq 0 J)) ->
  online_coordinate_descent (mk_cd J x y reg isreg alpha lo up) random perm tol maxit b = Ok (b', n) ->
  in_box J lo up b'.
Proof.
  intros J x y reg isreg alpha lo up random perm tol maxit b b' n Hb Hp H.
  exact (cd_boxed (mk_cd J x y reg isreg alpha lo up) random perm tol maxit b b' n Hb Hp H).
Qed.

Lemma C13_lemma : forall a random perm tol maxit b,
  match online_coordinate_descent a random perm tol maxit b with
  | Ok (b', n) => (1 <= n <= maxit + 1)%nat
  | Raise e => e = ZeroDivisionError
  end.
Proof.
  intros a random perm tol maxit b. pose proof (cd_terminates a random perm tol maxit b) as T.
  destruct (online_coordinate_descent a random perm tol maxit b) as [[b' n]|e]; tauto.
Qed.

Lemma C13_stopping_lemma : forall a random perm tol maxit b b' n,
  online_coordinate_descent a random perm tol maxit b = Ok (b', n) ->
  cd_iter a random perm n b = Ok b' /\
  (forall c, (n <= maxit)%nat -> cd_iter a random perm (n - 1) b = Ok c ->
     max_abs (cd_J a) (fun k => b' k - c k) <= tol * max_abs (cd_J a) b') /\
  (forall m c c', (1 <= m < n)%nat -> cd_iter a random perm (m - 1) b = Ok c ->
     cd_iter a random perm m b = Ok c' ->
     ~ max_abs (cd_J a) (fun k => c' k - c k) <= tol * max_abs (cd_J a) c').
Proof. intros. apply cd_stops_first in H. destruct H as (_ & H). exact H. Qed.

(** A problem on which the iterates never settle: G = [[2,1],[1,2]], h = 0, no penalty. *)
Definition ex13 : cd_args :=
  mk_cd 2 (m2 2 1 1 2) (v2 0 0) 0 (fun _ => true) 1 no_bound no_bound.

Lemma ex13_sweep first c : c 0%nat <> 0 -> c 1%nat <> 0 ->
  exists c', cd_sweep ex13 first (seq 0 2) c = Ok c' /\ c' 0%nat <> 0 /\ c' 1%nat = c 1%nat / 4.
Proof.
  intros H0 H1.
  assert (C0 : cd_coord ex13 c 0 = Ok (- (c 1%nat / 2))).
  { unfold cd_coord, cd_den, cd_num, cd_partial. cbn [ex13 cd_J cd_x cd_y cd_reg cd_isreg cd_alpha cd_lo cd_up bsum m2 v2].
    rcase; [lra|]. rewrite Rmult_0_r, st_0. unfold no_bound; cbn. f_equal. field. }
  assert (C1 : cd_coord ex13 (vset c 0 (- (c 1%nat / 2))) 1 = Ok (c 1%nat / 4)).
  { unfold cd_coord, cd_den, cd_num, cd_partial. cbn [ex13 cd_J cd_x cd_y cd_reg cd_isreg cd_alpha cd_lo cd_up bsum m2 v2].
    rcase; [lra|]. rewrite Rmult_0_r, st_0. unfold no_bound, vset; cbn. f_equal. field. }
  cbn [seq cd_sweep]. rewrite (visit_val ex13 first c 0 _ (or_intror H0) C0). cbn [bind].
  rewrite (visit_val ex13 first _ 1 _ (or_intror H1) C1). cbn [bind].
  eexists. split; [reflexivity|]. unfold vset; cbn. split; lra.
Qed.

Lemma ex13_loop maxit : forall fuel i c, (i + fuel = S maxit)%nat -> (1 <= fuel)%nat ->
  c 0%nat <> 0 -> c 1%nat <> 0 ->
  exists b', cd_loop fuel ex13 false (fun _ => seq 0 2) 0 maxit i c = Ok (b', S maxit).
Proof.
  induction fuel as [|fuel IH]; intros i c Hi Hf H0 H1; [lia|]. cbn [cd_loop]. cbv zeta.
  change (cd_order ex13 false (fun _ => seq 0 2) (S i)) with (seq 0 2).
  destruct (ex13_sweep (S i <? 2)%nat c H0 H1) as (c' & -> & N0 & E1). cbn [bind].
  destruct (Rleb _ _) eqn:T.
  { exfalso. apply Rleb_true in T. rewrite Rmult_0_l in T.
    pose proof (max_abs_ge 2 (fun k => c' k - c k) 1 ltac:(lia)) as M. change (cd_J ex13) with 2%nat in T.
    cbn beta in M. rewrite E1 in M.
    assert (Rabs (c 1%nat / 4 - c 1%nat) <= 0) as M' by lra. apply Rabs_le_inv' in M'. lra. }
  destruct (maxit <? S i)%nat eqn:M.
  { apply Nat.ltb_lt in M. replace (S i) with (S maxit) by lia. eauto. }
  apply Nat.ltb_ge in M. apply IH; auto; try lia. rewrite E1. lra.
Qed.

Lemma C13_extra_sweep : forall maxit, exists a b b',
  online_coordinate_descent a false (fun _ => seq 0 (cd_J a)) 0 maxit b = Ok (b', (maxit + 1)%nat).
Proof.
  intros maxit. exists ex13, (fun _ => 1).
  destruct (ex13_loop maxit (S maxit) 0 (fun _ => 1)) as (b' & E); try lia; try lra.
  exists b'. rewrite Nat.add_1_r. exact E.
Qed.

Lemma C14_lemma : forall J x y reg isreg alpha lo up random perm tol b b' n,
  symmetric J x -> psd J x -> 0 <= reg -> 0 <= alpha <= 1 -> box_ok J lo up ->
  online_coordinate_descent (mk_cd J x y reg isreg alpha lo up) random perm tol 0 b = Ok (b', n) ->
  eqv J b' b ->
  enet_minimiser J x y reg isreg alpha lo up b.
Proof.
  intros J x y reg isreg alpha lo up random perm tol b b' n HS HP Hr Ha Hb H E.
  pose (a := mk_cd J x y reg isreg alpha lo up).
  assert (W : cd_wf a) by (split; [exact HS|split; [intros j Hj; apply psd_diag with J; auto|auto]]).
  exact (cd_fixed_optimal a b W HP Hb (single_sweep_fixed a random perm tol b b' n H E)).
Qed.

Lemma C14_converse_lemma : forall J x y reg isreg alpha lo up random perm tol maxit b,
  symmetric J x -> (forall j, (j < J)%nat -> 0 < x j j) -> 0 <= reg -> 0 <= alpha <= 1 ->
  box_ok J lo up -> (forall i, Permutation (perm i) (seq 0 J)) ->
  enet_minimiser J x y reg isreg alpha lo up b ->
  exists b' n, online_coordinate_descent (mk_cd J x y reg isreg alpha lo up) random perm tol maxit b
                 = Ok (b', n) /\ eqv J b' b.
Proof.
  intros J x y reg isreg alpha lo up random perm tol maxit b HS Hd Hr Ha Hb Hp Hm.
  pose (a := mk_cd J x y reg isreg alpha lo up).
  assert (W : cd_wf a).
  { split; [exact HS|]. split; [|auto]. intros j Hj. specialize (Hd j Hj). cbn; lra. }
  assert (F : cd_fixed a b).
  { intros j Hj. apply cd_optimal_fixed; auto. pose proof (one_den a Hd Hr Ha j Hj). lra. }
  exact (cd_fixed_start a random perm tol maxit b b F Hp (fun k _ => eq_refl)).
Qed.

Lemma C15_lemma : forall a random perm tol maxit b b1 b' n j,
  cd_iter a random perm 1 b = Ok b1 -> b1 j = 0 ->
  online_coordinate_descent a random perm tol maxit b = Ok (b', n) -> b' j = 0.
Proof.
  intros a random perm tol maxit b b1 b' n j E Hz H.
  apply (cd_zero_stays a random perm tol maxit b b' n b1 j H); auto.
  cbn [cd_iter bind] in E. change (1 <? 2)%nat with true in E.
  replace (cd_order a random perm 1) with (seq 0 (cd_J a)) in E
    by (unfold cd_order; destruct random; reflexivity). exact E.
Qed.

Lemma C15_refute_lemma :
  exists J x y reg isreg alpha lo up b' n,
    symmetric J x /\ psd J x /\ (forall j, (j < J)%nat -> 0 < x j j) /\ 0 < reg /\ 0 <= alpha <= 1 /\
    box_ok J lo up /\ (n < 1000)%nat /\
    online_coordinate_descent (mk_cd J x y reg isreg alpha lo up) false (fun _ => seq 0 J) 0 1000
      (fun _ => 0) = Ok (b', n) /\
    ~ enet_minimiser J x y reg isreg alpha lo up b'.
Proof.
  destruct (ex15_run (fun _ => seq 0 2)) as (b' & E & B0 & B1).
  exists 2%nat, (m2 1 (- (9 / 10)) (- (9 / 10)) 1), (v2 0 3), 1, (fun _ => true), 1, no_bound, no_bound, b', 2%nat.
  split; [apply m2_sym|]. split; [apply m2_psd; lra|].
  split; [intros [|[|j]] Hj; cbn; try lra; lia|]. split; [lra|]. split; [lra|].
  split; [intros j Hj; exact I|]. split; [apply Nat.ltb_lt; reflexivity|]. split; [exact E|].
  intros [_ Hmin]. specialize (Hmin (v2 (8 / 10) 2)).
  assert (B : in_box 2 no_bound no_bound (v2 (8 / 10) 2)) by (intros j Hj; split; exact I).
  specialize (Hmin B).
  assert (Eq : eqv 2 b' (v2 0 2)) by (intros [|[|k]] Hk; try lia; cbn; auto).
  rewrite (enet_obj_ext _ _ _ _ _ _ _ _ Eq) in Hmin.
  pose proof ex15_better as Bt. unfold obj, ex15 in Bt.
  cbn [cd_J cd_x cd_y cd_reg cd_isreg cd_alpha] in Bt. lra.
Qed.

Lemma C11_example_lemma :
  exists b n, online_coordinate_descent ex15 false (fun _ => seq 0 2) 0 1000 (fun _ => 0) = Ok (b, n) /\
  enet_obj 2 (m2 1 (- (9 / 10)) (- (9 / 10)) 1) (v2 0 3) 1 (fun _ => true) 1 b
  < enet_obj 2 (m2 1 (- (9 / 10)) (- (9 / 10)) 1) (v2 0 3) 1 (fun _ => true) 1 (fun _ => 0).
Proof.
  destruct (ex15_run (fun _ => seq 0 2)) as (b' & E & B0 & B1). exists b', 2%nat. split; auto.
  unfold enet_obj, quad, dot, mvec. cbn [bsum m2 v2]. rewrite B0, B1, Rabs_R0, (Rabs_right 2) by lra. lra.
Qed.

Lemma C12_example_lemma : exists b n,
  online_coordinate_descent (mk_cd 1 (fun _ _ => 2) (fun _ => 10) 0 (fun _ => true) 1
     (fun _ => Some (- 1)) (fun _ => Some 1)) true (fun _ => [0%nat]) 0 5 (fun _ => 7) = Ok (b, n)
  /\ b 0%nat = 1.
Proof.
  pose (a := mk_cd 1 (fun _ _ => 2) (fun _ => 10) 0 (fun _ => true) 1
     (fun _ => Some (- 1)) (fun _ => Some 1)). fold a.
  assert (C : forall b, cd_coord a b 0 = Ok 1).
  { intros b. unfold cd_coord, cd_den, cd_num, cd_partial.
    cbn [a cd_J cd_x cd_y cd_reg cd_isreg cd_alpha cd_lo cd_up bsum max_lo min_up].
    rcase; [lra|]. rewrite Rmult_0_r, st_0.
    replace ((10 - (0 + 2 * b 0%nat) + 2 * b 0%nat) / (2 + 0 * (1 - 1))) with 5 by (field; lra).
    rewrite Rmax_left by lra. rewrite Rmin_right by lra. reflexivity. }
  destruct (cd_fixed_after_first a true (fun _ => [0%nat]) 0 5 (fun _ => 7) (fun _ => 1) 1) as (b' & n & E & H).
  - intros j Hj. replace j with 0%nat by (cbn in Hj; lia). apply C.
  - intros i. apply Permutation_refl.
  - exact (le_n 1).
  - apply C.
  - intros k Hk. replace k with 0%nat by (cbn in Hk; lia). reflexivity.
  - exists b', n. split; [exact E|]. apply (H 0%nat). exact (le_n 1).
Qed.

Lemma C14_example_lemma : enet_minimiser 2 (m2 2 1 1 2) (v2 4 1) 1 (fun _ => true) 1
    (fun _ => None) (fun _ => None) (v2 (3 / 2) 0).
Proof.
  pose (a := mk_cd 2 (m2 2 1 1 2) (v2 4 1) 1 (fun _ => true) 1 no_bound no_bound).
  apply (cd_fixed_optimal a (v2 (3 / 2) 0)).
  - split; [apply m2_sym|]. split; [intros [|[|j]] Hj; cbn in *; try lra; lia|]. cbn. lra.
  - apply m2_psd; lra.
  - intros j Hj. exact I.
  - intros [|[|j]] Hj; cbn in Hj; try lia; unfold a; cdval.
Qed.

Lemma C15_active_lemma : forall J x y reg isreg alpha lo up random perm maxit b b' n,
  symmetric J x -> psd J x -> 0 <= reg -> 0 <= alpha <= 1 -> box_ok J lo up ->
  (forall i, Permutation (perm i) (seq 0 J)) ->
  online_coordinate_descent (mk_cd J x y reg isreg alpha lo up) random perm 0 maxit b = Ok (b', n) ->
  (n <= maxit)%nat ->
  forall t, in_box J lo up t ->
    (n = 1%nat \/ forall j, (j < J)%nat -> b' j = 0 -> t j = 0) ->
    enet_obj J x y reg isreg alpha b' <= enet_obj J x y reg isreg alpha t.
Proof.
  intros J x y reg isreg alpha lo up random perm maxit b b' n HS HP Hr Ha Hb Hp H Hn t Ht Hz.
  pose (a := mk_cd J x y reg isreg alpha lo up).
  assert (W : cd_wf a) by (split; [exact HS|split; [intros j Hj; apply psd_diag with J; auto|auto]]).
  exact (cd_stop_optimal a random perm maxit b b' n W HP Hb Hp H Hn t Ht Hz).
Qed.

Lemma C22_lemma : forall J x y reg isreg alpha lo up random perm tol maxit b,
  (forall i, Permutation (perm i) (seq 0 J)) ->
  (online_coordinate_descent (mk_cd J x y reg isreg alpha lo up) random perm tol maxit b
     = Raise ZeroDivisionError
   <-> exists j, (j < J)%nat /\ x j j + (if isreg j then reg * (1 - alpha) else 0) = 0).
Proof.
  intros J x y reg isreg alpha lo up random perm tol maxit b Hp.
  rewrite (cd_raises_iff (mk_cd J x y reg isreg alpha lo up) random perm tol maxit b Hp).
  unfold cd_den. cbn [cd_J cd_x cd_isreg cd_reg cd_alpha].
  split; intros (j & Hj & E); exists j; (split; [auto|]); destruct (isreg j); lra.
Qed.

Lemma C22_total_lemma : forall J x y reg isreg alpha lo up random perm tol maxit b,
  (forall i, Permutation (perm i) (seq 0 J)) -> 0 <= reg -> 0 <= alpha <= 1 ->
  (forall j, (j < J)%nat -> 0 < x j j \/ (x j j = 0 /\ isreg j = true /\ 0 < reg /\ alpha < 1)) ->
  exists b' n, online_coordinate_descent (mk_cd J x y reg isreg alpha lo up) random perm tol maxit b
    = Ok (b', n).
Proof.
  intros J x y reg isreg alpha lo up random perm tol maxit b Hp Hr Ha Hd.
  pose proof (C13_lemma (mk_cd J x y reg isreg alpha lo up) random perm tol maxit b) as T.
  destruct (online_coordinate_descent _ _ _ _ _ _) as [[b' n]|e] eqn:E; [eauto|]. subst e.
  apply C22_lemma in E; auto. destruct E as (j & Hj & Z). exfalso.
  destruct (Hd j Hj) as [D|(D & R & R1 & R2)].
  - assert (0 <= reg * (1 - alpha)) by (apply Rmult_le_pos; lra). destruct (isreg j); lra.
  - rewrite R in Z. assert (0 < reg * (1 - alpha)) by (apply Rmult_lt_0_compat; lra). lra.
Qed.

(** Iterates of coordinate descent; ridge normal equations; worked examples. *)
From Coq Require Import Reals List Bool Arith Lia Lra Psatz Permutation.
From Verif Require Import Base Lin M_CD M_Path M_Ridge S_CD L_CD1 L_CD L_CD2 L_Path L_Path2.
Import ListNotations.
Open Scope R_scope.

(** State after [k] sweeps. *)
Fixpoint cd_iter (a : cd_args) (random : bool) (perm : nat -> list nat) (k : nat) (b : vec) : res vec :=
  match k with
  | O => Ok b
  | S k' => do c <- cd_iter a random perm k' b; cd_sweep a (S k' <? 2)%nat (cd_order a random perm (S k')) c
  end.

(** Relative change between two iterates is within the tolerance. *)
Definition within_tol (J : nat) (tol : R) (c b' : vec) : Prop :=
  max_abs J (fun k => b' k - c k) <= tol * max_abs J b'.

Definition stops_first (a : cd_args) random perm tol maxit b (b' : vec) (n : nat) : Prop :=
  (1 <= n <= maxit + 1)%nat /\ cd_iter a random perm n b = Ok b' /\
  (forall c, (n <= maxit)%nat -> cd_iter a random perm (n - 1) b = Ok c -> within_tol (cd_J a) tol c b') /\
  (forall m c c', (1 <= m < n)%nat -> cd_iter a random perm (m - 1) b = Ok c ->
     cd_iter a random perm m b = Ok c' -> ~ within_tol (cd_J a) tol c c').

Lemma loop_stops_first a random perm tol maxit b : forall fuel i c b' n,
  (i + fuel = S maxit)%nat -> (i <= maxit)%nat -> cd_iter a random perm i b = Ok c ->
  (forall m c c', (1 <= m <= i)%nat -> cd_iter a random perm (m - 1) b = Ok c ->
     cd_iter a random perm m b = Ok c' -> ~ within_tol (cd_J a) tol c c') ->
  cd_loop fuel a random perm tol maxit i c = Ok (b', n) ->
  stops_first a random perm tol maxit b b' n.
Proof.
  induction fuel as [|fuel IH]; intros i c b' n Hi Him Hc Hpre H; [discriminate|]. cbn [cd_loop] in H.
  cbv zeta in H.
  destruct (cd_sweep a (S i <? 2)%nat (cd_order a random perm (S i)) c) as [c1|] eqn:E; cbn [bind] in H; [|discriminate].
  assert (Hc1 : cd_iter a random perm (S i) b = Ok c1).
  { cbn [cd_iter]. rewrite Hc. cbn [bind]. exact E. }
  destruct (Rleb _ _) eqn:T.
  { injection H as <- <-. apply Rleb_true in T. split; [lia|]. split; [auto|]. split.
    - intros d Hd Hd'. replace (S i - 1)%nat with i in Hd' by lia. rewrite Hc in Hd'. injection Hd' as <-. exact T.
    - intros m d d' Hm. apply Hpre. lia. }
  apply Rleb_false in T.
  destruct (maxit <? S i)%nat eqn:M.
  { injection H as <- <-. apply Nat.ltb_lt in M. split; [lia|]. split; [auto|]. split.
    - intros; lia.
    - intros m d d' Hm. apply Hpre. lia. }
  apply Nat.ltb_ge in M. apply (IH (S i) c1 b' n); auto; try lia.
  intros m d d' Hm Hd Hd'. destruct (Nat.eq_dec m (S i)) as [->|Hne]; [|apply (Hpre m); auto; lia].
  replace (S i - 1)%nat with i in Hd by lia. rewrite Hc in Hd. injection Hd as <-.
  rewrite Hc1 in Hd'. injection Hd' as <-. unfold within_tol. lra.
Qed.

Theorem cd_stops_first a random perm tol maxit b b' n :
  online_coordinate_descent a random perm tol maxit b = Ok (b', n) ->
  stops_first a random perm tol maxit b b' n.
Proof.
  intros H. eapply (loop_stops_first a random perm tol maxit b (S maxit) 0 b); eauto; try lia.
Qed.

(** One sweep that changes nothing: every coordinate is a fixed point. *)
Lemma single_sweep_fixed a random perm tol b b' n :
  online_coordinate_descent a random perm tol 0 b = Ok (b', n) -> eqv (cd_J a) b' b -> cd_fixed a b.
Proof.
  intros H E. apply cd_first in H. destruct H as (b1 & S & H).
  destruct H as [->|H]; [|simpl in H; discriminate].
  intros j Hj. eapply (sweep_unchanged a true (seq 0 (cd_J a)) b b1 b); auto.
  - apply seq_NoDup.
  - intros k Hk. apply in_seq in Hk. lia.
  - intros k _. reflexivity.
  - apply in_seq. lia.
Qed.

(** ** Ridge *)
Lemma div_eq n d r : d <> 0 -> (n / d = r <-> n = r * d).
Proof. intros H. split; [intros <-; field; auto|intros ->; field; auto]. Qed.

Lemma ridge_fixed_iff a b : cd_alpha a = 0 -> unbounded a ->
  (forall j, (j < cd_J a)%nat -> cd_den a j <> 0) ->
  (cd_fixed a b <-> forall j, (j < cd_J a)%nat ->
     mvec (cd_J a) (cd_x a) b j + (if cd_isreg a j then cd_reg a * b j else 0) = cd_y a j).
Proof.
  intros Ha Hub Hd.
  assert (C : forall j, (j < cd_J a)%nat -> (cd_coord a b j = Ok (b j) <->
     mvec (cd_J a) (cd_x a) b j + (if cd_isreg a j then cd_reg a * b j else 0) = cd_y a j)).
  { intros j Hj. specialize (Hd j Hj). rewrite coord_unbounded by auto.
    assert (N : cd_num a b j = cd_partial a b j).
    { unfold cd_num. destruct (cd_isreg a j); auto. rewrite Ha, Rmult_0_l. apply st_0. }
    rewrite N. unfold cd_partial. fold (mvec (cd_J a) (cd_x a) b j). unfold cd_den in *. rewrite Ha in *.
    split.
    - intros [= E]. destruct (cd_isreg a j); apply div_eq in E; auto; lra.
    - intros E. f_equal. destruct (cd_isreg a j); apply div_eq; auto; lra. }
  split; intros H j Hj; apply C; auto.
Qed.

(** Gap of the ridge objective at a solution of the normal equations. *)
Lemma ridge_gap J x y l (isreg : nat -> bool) (b t : vec) : symmetric J x ->
  (forall j, (j < J)%nat -> mvec J x b j + (if isreg j then l * b j else 0) = y j) ->
  enet_obj J x y l isreg 0 t - enet_obj J x y l isreg 0 b
  = 1 / 2 * quad J x (fun k => t k - b k)
    + l / 2 * bsum J (fun j => if isreg j then (t j - b j) ^ 2 else 0).
Proof.
  intros HS H. pose (d := fun k => t k - b k).
  assert (Q : quad J x t = quad J x b + 2 * dot J d (mvec J x b) + quad J x d).
  { rewrite (quad_ext J x x t (fun k => b k + d k))
      by (try (intros ? ? ? ?; reflexivity); intros k _; unfold d; ring).
    rewrite quad_plus by auto. rewrite dot_mvec_sym by auto. rewrite (dot_comm J (mvec J x b)). ring. }
  assert (Y : dot J y t = dot J y b + dot J d y).
  { rewrite (dot_ext J y y t (fun k => b k + d k))
      by (try (intros ? ?; reflexivity); intros k _; unfold d; ring).
    rewrite dot_plus_r. rewrite (dot_comm J d y). ring. }
  assert (Z : dot J d (mvec J x b) - dot J d y
              = - l * bsum J (fun j => if isreg j then d j * b j else 0)).
  { unfold dot. rewrite <- bsum_minus, <- bsum_scal_l. apply bsum_ext. intros j Hj.
    rewrite <- (H j Hj). destruct (isreg j); ring. }
  unfold enet_obj. rewrite Q, Y. fold d.
  assert (P : bsum J (fun j => if isreg j then 0 * Rabs (t j) + (1 - 0) / 2 * t j ^ 2 else 0)
     = bsum J (fun j => if isreg j then 0 * Rabs (b j) + (1 - 0) / 2 * b j ^ 2 else 0)
       + bsum J (fun j => if isreg j then d j * b j else 0)
       + 1 / 2 * bsum J (fun j => if isreg j then (t j - b j) ^ 2 else 0)).
  { rewrite <- bsum_scal_l, <- !bsum_plus. apply bsum_ext. intros j _. unfold d.
    destruct (isreg j); field. }
  rewrite P. lra.
Qed.

Lemma ridge_unique J x y l isreg b t :
  symmetric J x -> psd J x -> (forall j, (j < J)%nat -> 0 < x j j) -> 0 < l ->
  (all_reg J isreg \/ exists u, only_unreg J isreg u) ->
  (forall j, (j < J)%nat -> mvec J x b j + (if isreg j then l * b j else 0) = y j) ->
  enet_obj J x y l isreg 0 b <= enet_obj J x y l isreg 0 t /\
  (enet_obj J x y l isreg 0 t <= enet_obj J x y l isreg 0 b -> eqv J t b).
Proof.
  intros HS HP Hd Hl Hr H. pose proof (ridge_gap J x y l isreg b t HS H) as G.
  pose proof (HP (fun k => t k - b k)) as Q.
  assert (B : forall j, (j < J)%nat -> 0 <= (if isreg j then (t j - b j) ^ 2 else 0)).
  { intros j _. destruct (isreg j); [apply pow2_ge_0|lra]. }
  pose proof (bsum_nonneg J _ B) as B'.
  assert (0 <= l / 2 * bsum J (fun j => if isreg j then (t j - b j) ^ 2 else 0)) by (apply Rmult_le_pos; lra).
  split; [lra|]. intros Hle.
  assert (Z1 : quad J x (fun k => t k - b k) = 0) by lra.
  assert (Z2 : bsum J (fun j => if isreg j then (t j - b j) ^ 2 else 0) = 0).
  { assert (Z : l / 2 * bsum J (fun j => if isreg j then (t j - b j) ^ 2 else 0) = 0) by lra.
    apply Rmult_integral in Z. destruct Z; [lra|auto]. }
  pose proof (bsum_nonneg_zero J _ B Z2) as Z3. cbn beta in Z3.
  assert (Z4 : forall j, (j < J)%nat -> isreg j = true -> t j - b j = 0).
  { intros j Hj R. specialize (Z3 j Hj). rewrite R in Z3. apply Rsqr_0_uniq. unfold Rsqr. lra. }
  destruct Hr as [Hr|(u & Hu & Hr)].
  - intros j Hj. specialize (Z4 j Hj (Hr j Hj)). lra.
  - assert (Zu : t u - b u = 0).
    { assert (E : quad J x (fun k => t k - b k) = (t u - b u) * ((t u - b u) * x u u)).
      { rewrite (quad_ext J x x (fun k => t k - b k) (fun k => (t u - b u) * unitv u k)).
        - rewrite quad_scal. unfold quad. rewrite dot_comm, dot_unit by auto. rewrite mvec_unit by auto. ring.
        - intros ? ? ? ?; reflexivity.
        - intros k Hk. unfold unitv. destruct (Nat.eqb_spec k u) as [->|Hn]; [ring|].
          rewrite Rmult_0_r. apply Z4; auto. destruct (isreg k) eqn:R; auto.
          exfalso. apply Hn, Hr; auto. }
      specialize (Hd u Hu). rewrite E in Z1. apply Rmult_integral in Z1.
      destruct Z1 as [Z1|Z1]; auto. apply Rmult_integral in Z1. destruct Z1; [auto|lra]. }
    intros j Hj. destruct (isreg j) eqn:R; [specialize (Z4 j Hj R); lra|].
    apply Hr in R; auto. subst. lra.
Qed.

Lemma ridge_fit_inv inv c perm J x y isreg c' b : ridge_fit inv c perm J x y isreg = Ok (c', b) ->
  exists lo up n, ri_lambda c' = Some (ridge_lambda c J x) /\
   length lo = J /\ length up = J /\
   ri_lower c' = Some lo /\ ri_upper c' = Some up /\
   (ri_lower c = None \/ ri_lower c = Some lo) /\ (ri_upper c = None \/ ri_upper c = Some up) /\
   online_coordinate_descent (ridge_args c' (ridge_lambda c J x) J x y isreg) (ri_random c) perm
     (ri_tol c) (ri_maxit c) (ridge_start inv c J x y) = Ok (b, n).
Proof.
  unfold ridge_fit, ridge_bounds.
  destruct (Nat.eqb_spec (length (fill_bound (ri_lower c) J)) J) as [L1|]; cbn [negb bind]; [|discriminate].
  destruct (Nat.eqb_spec (length (fill_bound (ri_upper c) J)) J) as [L2|]; cbn [negb bind]; [|discriminate].
  cbv zeta.
  destruct (online_coordinate_descent _ _ _ _ _ _) as [[b1 n]|] eqn:E; cbn [bind]; [|discriminate].
  intros [= <- <-]. exists (fill_bound (ri_lower c) J), (fill_bound (ri_upper c) J), n.
  cbn [ri_lambda ri_lower ri_upper fst ri_random ri_tol ri_maxit] in *.
  split; [reflexivity|]. do 4 (split; [auto|]).
  split; [destruct (ri_lower c); auto|]. split; [destruct (ri_upper c); auto|]. exact E.
Qed.

(** ** Worked examples *)
Definition m2 (a b c d : R) : mat := fun i j =>
  match i, j with O, O => a | O, S O => b | S O, O => c | S O, S O => d | _, _ => 0 end.
Definition v2 (a b : R) : vec := fun i => match i with O => a | S O => b | _ => 0 end.

Lemma m2_sym a b d : symmetric 2 (m2 a b b d).
Proof. intros [|[|i]] [|[|j]] Hi Hj; try lia; reflexivity. Qed.
Lemma m2_psd a b d : 0 < a -> b * b <= a * d -> psd 2 (m2 a b b d).
Proof.
  intros Ha Hb v. unfold quad, dot, mvec. cbn [bsum m2].
  assert (E : a * (0 + v 0%nat * (0 + a * v 0%nat + b * v 1%nat) + v 1%nat * (0 + b * v 0%nat + d * v 1%nat))
    = (a * v 0%nat + b * v 1%nat) ^ 2 + (a * d - b * b) * (v 1%nat) ^ 2) by ring.
  assert (0 <= (a * v 0%nat + b * v 1%nat) ^ 2) by apply pow2_ge_0.
  assert (0 <= (a * d - b * b) * (v 1%nat) ^ 2) by (apply Rmult_le_pos; [lra|apply pow2_ge_0]).
  apply Rmult_le_reg_l with a; auto. lra.
Qed.

Definition no_bound : nat -> option R := fun _ => None.

Ltac cdval :=
  unfold cd_coord, cd_den, cd_num, cd_partial, soft_threshold, rsign;
  cbn [cd_J cd_x cd_y cd_reg cd_isreg cd_alpha cd_lo cd_up bsum max_lo min_up];
  unfold vset, no_bound; cbn [Nat.eqb m2 v2 max_lo min_up];
  repeat (rcase; try (exfalso; lra)); f_equal;
  unfold Rabs; repeat match goal with |- context [Rcase_abs ?x] => destruct (Rcase_abs x); try lra end;
  unfold Rmax, Rmin; repeat match goal with |- context [Rle_dec ?a ?b] => destruct (Rle_dec a b); try lra end;
  try lra; try (field; lra).

(** The example of C15: G = [[1, -9/10], [-9/10, 1]], h = (0, 3), lambda = 1, lasso. *)
Definition ex15 : cd_args :=
  mk_cd 2 (m2 1 (- (9 / 10)) (- (9 / 10)) 1) (v2 0 3) 1 (fun _ => true) 1 no_bound no_bound.

(** A run that stops after two sweeps. *)
Lemma run_two a random perm tol maxit b b1 b2 : (1 <= maxit)%nat ->
  cd_sweep a true (seq 0 (cd_J a)) b = Ok b1 -> ~ within_tol (cd_J a) tol b b1 ->
  cd_sweep a false (cd_order a random perm 2) b1 = Ok b2 -> within_tol (cd_J a) tol b1 b2 ->
  online_coordinate_descent a random perm tol maxit b = Ok (b2, 2%nat).
Proof.
  intros Hm H1 N H2 T. unfold online_coordinate_descent. cbn [cd_loop]. cbv zeta.
  change (1 <? 2)%nat with true. change (2 <? 2)%nat with false.
  replace (cd_order a random perm 1) with (seq 0 (cd_J a))
    by (unfold cd_order; destruct random; reflexivity).
  rewrite H1. cbn [bind].
  destruct (Rleb _ _) eqn:E; [apply Rleb_true in E; contradiction|].
  replace (maxit <? 1)%nat with false by (symmetry; apply Nat.ltb_ge; lia).
  destruct maxit as [|m]; [lia|]. cbn [cd_loop]. cbv zeta.
  change (2 <? 2)%nat with false. rewrite H2. cbn [bind].
  replace (Rleb _ _) with true; auto. symmetry. apply Rleb_true. exact T.
Qed.

Lemma visit_val a first b j v : (first = true \/ b j <> 0) -> cd_coord a b j = Ok v ->
  cd_visit a first b j = Ok (vset b j v).
Proof.
  intros H E. unfold cd_visit. replace (first || negb (Reqb (b j) 0)) with true; [rewrite E; auto|].
  symmetry. destruct H as [->|H]; auto. apply orb_true_intro. right. apply negb_true_iff, Reqb_false. auto.
Qed.
Lemma visit_skip a b j : b j = 0 -> cd_visit a false b j = Ok b.
Proof. intros E. unfold cd_visit. rewrite (proj2 (Reqb_true _ _) E). reflexivity. Qed.

Ltac cd_unfold := unfold cd_coord, cd_den, cd_num, cd_partial;
  cbn [cd_J cd_x cd_y cd_reg cd_isreg cd_alpha cd_lo cd_up bsum max_lo min_up].

Lemma ex15_run perm : exists b,
  online_coordinate_descent ex15 false perm 0 1000 (fun _ => 0) = Ok (b, 2%nat) /\
  b 0%nat = 0 /\ b 1%nat = 2.
Proof.
  pose (b1 := vset (vset (fun _ => 0) 0 0) 1 2).
  exists (vset b1 1 2). split; [|split; reflexivity].
  apply (run_two ex15 false perm 0 1000 (fun _ => 0) b1).
  - apply Nat.leb_le. reflexivity.
  - cbn [seq cd_J ex15 cd_sweep].
    rewrite (visit_val ex15 true (fun _ => 0) 0 0); auto.
    2:{ unfold ex15; cdval. }
    cbn [bind]. rewrite (visit_val ex15 true _ 1 2); auto.
    unfold ex15; cdval.
  - unfold within_tol. cbn [cd_J ex15 max_abs]. unfold b1, vset. cbn [Nat.eqb].
    rewrite Rmult_0_l. intros H.
    pose proof (Rmax_r (Rmax 0 (Rabs (0 - 0))) (Rabs (2 - 0))). rewrite (Rabs_right (2 - 0)) in * by lra. lra.
  - cbn [cd_order andb seq cd_J ex15 cd_sweep].
    rewrite visit_skip by reflexivity. cbn [bind].
    rewrite (visit_val ex15 false b1 1 2); auto.
    + right. cbn. lra.
    + unfold ex15, b1; cdval.
  - unfold within_tol. cbn [cd_J ex15 max_abs]. unfold b1, vset. cbn [Nat.eqb].
    rewrite Rmult_0_l. rewrite !Rminus_eq_0, Rabs_R0. unfold Rmax.
    repeat destruct (Rle_dec _ _); lra.
Qed.

Lemma ex15_better : obj ex15 (v2 (8 / 10) 2) < obj ex15 (v2 0 2).
Proof.
  unfold obj, enet_obj, ex15, quad, dot, mvec. cbn [cd_J cd_x cd_y cd_reg cd_isreg cd_alpha bsum m2 v2].
  rewrite Rabs_R0. rewrite !Rabs_right by lra. lra.
Qed.

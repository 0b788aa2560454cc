(** Facts about the regularisation path. *)
From Coq Require Import Reals List Bool Arith Lia Lra Psatz Permutation.
From Verif Require Import Base Lin M_CD M_Path S_CD L_CD1 L_CD L_CD2.
Import ListNotations.
Open Scope R_scope.

(** ** The path loop, row by row *)

(** Start vector of row [i]: what the loop uses, read off the final result. *)
Definition row_start (w : start_value) (P beta_path : nat -> vec) (i : nat) : vec :=
  match w with
  | previous_lambda => match i with O => fun _ => 0 | S k => P k end
  | _ => beta_path i
  end.

Definition row_ok (a : cd_args) random (perm : nat -> nat -> list nat) tol maxit early_stop w
    (beta_path : nat -> vec) (P : nat -> vec) (i : nat) (lambda : R) (iter : nat) : Prop :=
  let s := row_start w P beta_path i in
  if (0 <? early_stop)%nat && (early_stop <=? count_nonzero (cd_J a) s)%nat
  then P i = s /\ iter = 0%nat
  else online_coordinate_descent (with_reg a lambda) random (perm i) tol maxit s = Ok (P i, iter).

Lemma rset_same P i b : rset P i b i = b.
Proof. unfold rset. rewrite Nat.eqb_refl. reflexivity. Qed.
Lemma rset_other P i b k : k <> i -> rset P i b k = P k.
Proof. intros H. unfold rset. destruct (Nat.eqb_spec k i); congruence. Qed.

Lemma path_loop_rows a random perm tol maxit early w beta_path :
  forall lambdas i Pn its P out,
  length its = i -> (forall k, (i <= k)%nat -> Pn k = (fun _ => 0)) ->
  path_loop a random perm tol maxit early w beta_path i lambdas Pn its = Ok (P, out) ->
  (forall k, (k < i)%nat -> P k = Pn k) /\
  (forall k, (i + length lambdas <= k)%nat -> P k = (fun _ => 0)) /\
  length out = (i + length lambdas)%nat /\
  (forall k, (k < i)%nat -> nth k out 0%nat = nth k its 0%nat) /\
  forall k, (k < length lambdas)%nat ->
    row_ok a random perm tol maxit early w beta_path P (i + k) (nth k lambdas 0) (nth (i + k) out 0%nat).
Proof.
  induction lambdas as [|l ls IH]; cbn [path_loop]; intros i Pn its P out Hl Hz H.
  { injection H as <- <-. cbn [length]. split; [auto|]. split; [intros; apply Hz; lia|].
    split; [lia|]. split; [auto|]. intros k Hk; lia. }
  cbv zeta in H.
  assert (Hs : forall b, (forall k, (k < S i)%nat -> P k = rset Pn i b k) ->
               path_start w Pn beta_path i = row_start w P beta_path i).
  { intros b Hk. unfold path_start, row_start. destruct w; simpl; auto.
    destruct i as [|i']; simpl; [apply Hz; lia|].
    rewrite (Hk i') by lia. rewrite rset_other by lia. reflexivity. }
  assert (Hz' : forall b k, (S i <= k)%nat -> rset Pn i b k = (fun _ => 0)).
  { intros b k Hk. rewrite rset_other by lia. apply Hz. lia. }
  destruct ((0 <? early)%nat && (early <=? count_nonzero (cd_J a) (path_start w Pn beta_path i))%nat) eqn:St.
  - apply IH in H; [|rewrite app_length; simpl; lia|auto].
    destruct H as (H1 & H2 & H3 & H4 & H5). cbn [length].
    split; [intros k Hk; rewrite H1 by lia; apply rset_other; lia|].
    split; [intros k Hk; apply H2; lia|]. split; [lia|].
    split; [intros k Hk; rewrite H4 by lia; apply app_nth1; lia|].
    intros [|k] Hk.
    + unfold row_ok. rewrite Nat.add_0_r. rewrite <- (Hs _ H1). cbv zeta. rewrite St.
      split; [rewrite H1 by lia; apply rset_same|].
      rewrite H4 by lia. rewrite app_nth2 by lia. rewrite Hl, Nat.sub_diag. reflexivity.
    + replace (i + S k)%nat with (S i + k)%nat by lia. apply H5. lia.
  - destruct (online_coordinate_descent (with_reg a l) random (perm i) tol maxit
       (path_start w Pn beta_path i)) as [[b n]|e] eqn:Ecd; cbn [bind] in H; [|discriminate].
    cbn [fst snd] in H.
    apply IH in H; [|rewrite app_length; simpl; lia|auto].
    destruct H as (H1 & H2 & H3 & H4 & H5). cbn [length].
    split; [intros k Hk; rewrite H1 by lia; apply rset_other; lia|].
    split; [intros k Hk; apply H2; lia|]. split; [lia|].
    split; [intros k Hk; rewrite H4 by lia; apply app_nth1; lia|].
    intros [|k] Hk.
    + unfold row_ok. rewrite Nat.add_0_r. rewrite <- (Hs _ H1). cbv zeta. rewrite St.
      cbn [nth]. rewrite Ecd. f_equal. f_equal.
      * rewrite H1 by lia. symmetry. apply rset_same.
      * rewrite H4 by lia. rewrite app_nth2 by lia. rewrite Hl, Nat.sub_diag. reflexivity.
    + replace (i + S k)%nat with (S i + k)%nat by lia. apply H5. lia.
Qed.

Theorem path_rows a random perm tol maxit early w beta_path lambdas P out :
  online_coordinate_descent_path a random perm tol maxit early w beta_path lambdas = Ok (P, out) ->
  length out = length lambdas /\
  forall k, (k < length lambdas)%nat ->
    row_ok a random perm tol maxit early w beta_path P k (nth k lambdas 0) (nth k out 0%nat).
Proof.
  intros H. apply path_loop_rows in H; auto.
  destruct H as (_ & _ & H3 & _ & H5). split; [exact H3|exact H5].
Qed.

(** The path never raises when no denominator vanishes. *)
Lemma path_loop_total a random perm tol maxit early w beta_path :
  (forall i, perm_ok (cd_J a) (perm i)) ->
  forall lambdas i Pn its,
  (forall l, In l lambdas -> forall j, (j < cd_J a)%nat -> cd_den (with_reg a l) j <> 0) ->
  exists P out, path_loop a random perm tol maxit early w beta_path i lambdas Pn its = Ok (P, out).
Proof.
  intros Hp. induction lambdas as [|l ls IH]; cbn [path_loop]; intros i Pn its Hd; [eauto|].
  cbv zeta. destruct (_ && _); [apply IH; intros; eapply Hd; eauto; right; auto|].
  pose proof (cd_terminates (with_reg a l) random (perm i) tol maxit (path_start w Pn beta_path i)) as T.
  destruct (online_coordinate_descent _ _ _ _ _ _) as [[b n]|e] eqn:E.
  - cbn [bind]. apply IH. intros; eapply Hd; eauto; right; auto.
  - subst e. apply (cd_raises_iff (with_reg a l) random (perm i) tol maxit) in E; [|apply Hp].
    destruct E as (j & Hj & Z). exfalso. apply (Hd l (or_introl eq_refl) j Hj Z).
Qed.

(** "average" and "previous_fit" coincide. *)
Lemma path_average a random perm tol maxit early beta_path lambdas :
  online_coordinate_descent_path a random perm tol maxit early average beta_path lambdas
  = online_coordinate_descent_path a random perm tol maxit early previous_fit beta_path lambdas.
Proof.
  unfold online_coordinate_descent_path. generalize (fun (_ _ : nat) => 0) at 1 2 as Pn.
  generalize (@nil nat) as its. generalize 0%nat as i.
  induction lambdas as [|l ls IH]; cbn [path_loop]; intros i its Pn; auto. cbv zeta.
  change (path_start average Pn beta_path i) with (path_start previous_fit Pn beta_path i).
  destruct (_ && _); [apply IH|].
  destruct (online_coordinate_descent _ _ _ _ _ _) as [[b n]|e]; cbn [bind]; auto.
Qed.

(** ** Bounds *)
Lemma with_reg_boxed a l b : boxed (with_reg a l) b <-> boxed a b.
Proof. reflexivity. Qed.

Lemma count_nonzero_zero n : count_nonzero n (fun _ => 0) = 0%nat.
Proof.
  induction n as [|n IH]; simpl; auto. rewrite IH.
  replace (Reqb 0 0) with true by (symmetry; apply Reqb_true; auto). reflexivity.
Qed.

(** A row that is copied has a non-zero entry, so the zero start is never copied. *)
Lemma path_boxed a random perm tol maxit early w beta_path lambdas P out :
  box_wf a -> (forall i, perm_ok (cd_J a) (perm i)) ->
  online_coordinate_descent_path a random perm tol maxit early w beta_path lambdas = Ok (P, out) ->
  (forall k, (k < length lambdas)%nat -> boxed a (beta_path k) \/ beta_path k = (fun _ => 0)) ->
  forall k, (k < length lambdas)%nat -> boxed a (P k).
Proof.
  intros Hb Hp H He. apply path_rows in H. destruct H as [_ H].
  induction k as [k IH] using lt_wf_ind. intros Hk. specialize (H k Hk). unfold row_ok in H. cbv zeta in H.
  destruct ((0 <? early)%nat && _) eqn:St.
  - apply andb_true_iff in St. destruct St as [St Sc]. apply Nat.ltb_lt in St. apply Nat.leb_le in Sc.
    assert (C : row_start w P beta_path k = (fun _ => 0) -> False).
    { intros Z. rewrite Z, count_nonzero_zero in Sc. lia. }
    destruct H as [-> _]. unfold row_start in *.
    destruct w; try (destruct (He k Hk) as [K|K]; [exact K|destruct (C K)]).
    destruct k as [|k']; [destruct (C eq_refl)|apply IH; lia].
  - exact (cd_boxed (with_reg a (nth k lambdas 0)) random (perm k) tol maxit _ _ _ Hb (Hp k) H).
Qed.

(** ** The grid *)
Definition grid_point (start stop : R) (num i : nat) : R :=
  start * Rpower (stop / start) (INR i / INR (num - 1)).

Lemma geomspace_ok start stop num : start <> 0 -> stop <> 0 ->
  geomspace start stop num = Ok (map (grid_point start stop num) (seq 0 num)).
Proof.
  intros H1 H2. unfold geomspace.
  replace (Reqb start 0) with false by (symmetry; apply Reqb_false; auto).
  replace (Reqb stop 0) with false by (symmetry; apply Reqb_false; auto). reflexivity.
Qed.

Lemma geomspace_inv start stop num g : geomspace start stop num = Ok g ->
  start <> 0 /\ stop <> 0 /\ g = map (grid_point start stop num) (seq 0 num).
Proof.
  unfold geomspace. destruct (Reqb start 0) eqn:E1; [discriminate|].
  destruct (Reqb stop 0) eqn:E2; [discriminate|]. simpl. intros [= <-].
  apply Reqb_false in E1. apply Reqb_false in E2. auto.
Qed.

Lemma grid_nth start stop num i : (i < num)%nat ->
  nth i (map (grid_point start stop num) (seq 0 num)) 0 = grid_point start stop num i.
Proof.
  intros Hi. rewrite (nth_indep _ 0 (grid_point start stop num 0)) by (rewrite map_length, seq_length; auto).
  rewrite map_nth, seq_nth by auto. reflexivity.
Qed.

Lemma grid_first start stop num : grid_point start stop num 0 = start.
Proof.
  unfold grid_point. simpl INR. unfold Rdiv at 2. rewrite Rmult_0_l. unfold Rpower.
  rewrite Rmult_0_l, exp_0. ring.
Qed.
Lemma grid_last start stop num : (2 <= num)%nat -> 0 < stop / start -> start <> 0 ->
  grid_point start stop num (num - 1) = stop.
Proof.
  intros Hn Hq Hs. unfold grid_point.
  assert (0 < INR (num - 1)) by (apply lt_0_INR; lia).
  replace (INR (num - 1) / INR (num - 1)) with 1 by (field; lra).
  rewrite Rpower_1 by auto. field. auto.
Qed.
Lemma grid_ratio start stop num i : (2 <= num)%nat ->
  grid_point start stop num (S i) = grid_point start stop num i * Rpower (stop / start) (/ INR (num - 1)).
Proof.
  intros Hn. unfold grid_point. rewrite Rmult_assoc, <- Rpower_plus. do 2 f_equal.
  assert (0 < INR (num - 1)) by (apply lt_0_INR; lia).
  rewrite S_INR. field. lra.
Qed.
Lemma Rpower_lt1 q t : 0 < q < 1 -> 0 < t -> 0 < Rpower q t < 1.
Proof.
  intros Hq Ht. unfold Rpower. split; [apply exp_pos|].
  rewrite <- exp_0. apply exp_increasing.
  assert (ln q < 0) by (rewrite <- ln_1; apply ln_increasing; lra).
  nra.
Qed.
Lemma grid_sign_pos start stop num i : 0 < start -> 0 < grid_point start stop num i.
Proof. intros. unfold grid_point. apply Rmult_lt_0_compat; auto. apply exp_pos. Qed.
Lemma grid_sign_neg start stop num i : start < 0 -> grid_point start stop num i < 0.
Proof.
  intros. unfold grid_point. pose proof (exp_pos (INR i / INR (num - 1) * ln (stop / start))).
  unfold Rpower. nra.
Qed.

(** ** Largest penalty *)
Lemma vmax_ge n v k : (k <= n)%nat -> v k <= vmax n v.
Proof.
  induction n as [|n IH]; intros Hk; simpl; [replace k with 0%nat by lia; lra|].
  destruct (Nat.eq_dec k (S n)) as [->|]; [apply Rmax_r|].
  eapply Rle_trans; [apply IH; lia|apply Rmax_l].
Qed.
Lemma vmax_attained n v : exists k, (k <= n)%nat /\ v k = vmax n v.
Proof.
  induction n as [|n [k [Hk E]]]; simpl; [exists 0%nat; auto|].
  unfold Rmax. destruct (Rle_dec (vmax n v) (v (S n))); [exists (S n); auto|exists k; auto].
Qed.
Lemma np_max_spec J v m : np_max J v = Ok m ->
  (forall k, (k < J)%nat -> v k <= m) /\ (exists k, (k < J)%nat /\ v k = m).
Proof.
  destruct J as [|n]; [discriminate|]. intros [= <-]. split.
  - intros k Hk. apply vmax_ge. lia.
  - destruct (vmax_attained n v) as (k & Hk & E). exists k. split; [lia|auto].
Qed.

Lemma filter_seq_eqb u : forall n s,
  filter (fun k => Nat.eqb k u) (seq s n) = if ((s <=? u) && (u <? s + n))%nat then [u] else [].
Proof.
  induction n as [|n IH]; intros s; cbn [seq filter].
  - destruct (Nat.leb_spec s u), (Nat.ltb_spec u (s + 0)); simpl; auto; lia.
  - rewrite IH. destruct (Nat.eqb_spec s u) as [->|Hn].
    + destruct (Nat.leb_spec (S u) u), (Nat.leb_spec u u), (Nat.ltb_spec u (u + S n)); simpl; auto; lia.
    + destruct (Nat.leb_spec (S s) u), (Nat.leb_spec s u), (Nat.ltb_spec u (S s + n)), (Nat.ltb_spec u (s + S n));
        simpl; auto; lia.
Qed.


Lemma unregularized_one J isreg u : only_unreg J isreg u -> unregularized J isreg = [u].
Proof.
  intros [Hu H]. unfold unregularized.
  rewrite (filter_ext_in _ (fun k => Nat.eqb k u)).
  - rewrite filter_seq_eqb. simpl. destruct (Nat.ltb_spec u J); [auto|lia].
  - intros j Hj. apply in_seq in Hj. specialize (H j ltac:(lia)).
    destruct (Nat.eqb_spec j u) as [E|E]; destruct (isreg j) eqn:R; simpl; auto; exfalso.
    + apply H in E. discriminate.
    + apply E, H. reflexivity.
Qed.
Lemma unregularized_none J isreg : all_reg J isreg -> unregularized J isreg = [].
Proof.
  intros H. unfold unregularized.
  rewrite (filter_ext_in _ (fun _ => false)).
  - induction (seq 0 J); simpl; auto.
  - intros j Hj. apply in_seq in Hj. rewrite H by lia. reflexivity.
Qed.


Lemma mvec_only_u J x y u i : (u < J)%nat ->
  bsum J (fun k => x i k * only_u x y u k) = x i u * (y u / x u u).
Proof.
  intros Hu. unfold only_u.
  rewrite (bsum_ext J _ (fun k => if Nat.eqb k u then x i k * (y u / x u u) else 0)).
  - apply (bsum_delta J u (fun k => x i k * (y u / x u u)) Hu).
  - intros k _. destruct (Nat.eqb k u); lra.
Qed.

Definition unbounded (a : cd_args) : Prop := forall j, cd_lo a j = None /\ cd_up a j = None.

Lemma unbounded_box a : unbounded a -> box_wf a.
Proof. intros H j _. destruct (H j) as [-> _]. exact I. Qed.
Lemma unbounded_in a b : unbounded a -> boxed a b.
Proof. intros H j _. destruct (H j) as [-> ->]. split; exact I. Qed.

Lemma coord_unbounded a b j : unbounded a -> cd_den a j <> 0 ->
  cd_coord a b j = Ok (cd_num a b j / cd_den a j).
Proof.
  intros H Hd. unfold cd_coord. destruct (H j) as [-> ->].
  replace (Reqb (cd_den a j) 0) with false by (symmetry; apply Reqb_false; auto). reflexivity.
Qed.

(** Residual correlation after fitting column [u] alone. *)
Definition res_corr (x : mat) (y : vec) (u k : nat) : R := y k - x u k * (y u / x u u).

Section OneUnregularised.
  Context (a : cd_args) (u : nat).
  Let J := cd_J a. Let x := cd_x a. Let y := cd_y a.
  Hypothesis HS : symmetric J x.
  Hypothesis Hd : forall j, (j < J)%nat -> 0 < x j j.
  Hypothesis Hu : only_unreg J (cd_isreg a) u.
  Hypothesis Hub : unbounded a.
  Hypothesis Hl : 0 <= cd_reg a.
  Hypothesis Ha : 0 <= cd_alpha a <= 1.

  Lemma one_wf : cd_wf a.
  Proof.
    split; [exact HS|]. split; [|auto]. intros j Hj. specialize (Hd j Hj). fold x. lra.
  Qed.
  Lemma one_den j : (j < J)%nat -> 0 < cd_den a j.
  Proof.
    intros Hj. specialize (Hd j Hj). unfold cd_den. fold x. destruct (cd_isreg a j); [|lra].
    assert (0 <= cd_reg a * (1 - cd_alpha a)) by (apply Rmult_le_pos; lra). lra.
  Qed.
  Lemma one_partial_u : cd_partial a (only_u x y u) u = y u.
  Proof.
    unfold cd_partial. fold J x y. rewrite mvec_only_u by apply Hu.
    unfold only_u. rewrite Nat.eqb_refl. ring.
  Qed.
  Lemma one_partial_j j : (j < J)%nat -> j <> u -> cd_partial a (only_u x y u) j = res_corr x y u j.
  Proof.
    intros Hj Hn. unfold cd_partial. fold J x y. rewrite mvec_only_u by apply Hu.
    unfold only_u, res_corr. destruct (Nat.eqb_spec j u); [contradiction|].
    rewrite (HS j u) by (auto; apply Hu). ring.
  Qed.
  Lemma one_coord_u : cd_coord a (only_u x y u) u = Ok (only_u x y u u).
  Proof.
    destruct Hu as [Hu1 Hu2]. rewrite coord_unbounded by (auto; pose proof (one_den u Hu1); lra).
    unfold cd_num, cd_den. replace (cd_isreg a u) with false by (symmetry; apply Hu2; auto).
    rewrite one_partial_u. fold x. unfold only_u. rewrite Nat.eqb_refl. reflexivity.
  Qed.
  Lemma one_coord_j j : (j < J)%nat -> j <> u ->
    (cd_coord a (only_u x y u) j = Ok (only_u x y u j) <-> Rabs (res_corr x y u j) <= cd_alpha a * cd_reg a).
  Proof.
    intros Hj Hn. pose proof (one_den j Hj) as D. destruct Hu as [Hu1 Hu2].
    rewrite coord_unbounded by (auto; lra).
    unfold cd_num. replace (cd_isreg a j) with true.
    2:{ destruct (cd_isreg a j) eqn:E; auto. apply Hu2 in E; auto; contradiction. }
    rewrite one_partial_j by auto. unfold only_u. destruct (Nat.eqb_spec j u); [contradiction|].
    rewrite <- st_zero_iff by (apply Rmult_le_pos; lra). split.
    - intros [= E]. apply (f_equal (fun r => r * cd_den a j)) in E.
      unfold Rdiv in E. rewrite Rmult_assoc, Rinv_l in E by lra. lra.
    - intros ->. f_equal. unfold Rdiv. ring.
  Qed.

  Lemma one_fixed_iff : cd_fixed a (only_u x y u) <->
    forall k, (k < J)%nat -> Rabs (res_corr x y u k) <= cd_alpha a * cd_reg a.
  Proof.
    split.
    - intros H k Hk. destruct (Nat.eq_dec k u) as [->|Hn].
      + unfold res_corr. specialize (Hd u Hk).
        replace (y u - x u u * (y u / x u u)) with 0 by (field; lra). rewrite Rabs_R0.
        apply Rmult_le_pos; lra.
      + apply one_coord_j; auto.
    - intros H j Hj. destruct (Nat.eq_dec j u) as [->|Hn]; [apply one_coord_u|].
      apply one_coord_j; auto.
  Qed.

  (** First visit of column [u] from the zero vector. *)
  Lemma one_from_zero : cd_coord a (fun _ => 0) u = Ok (y u / x u u).
  Proof.
    destruct Hu as [Hu1 Hu2]. rewrite coord_unbounded by (auto; pose proof (one_den u Hu1); lra).
    unfold cd_num, cd_den. replace (cd_isreg a u) with false by (symmetry; apply Hu2; auto).
    unfold cd_partial. fold J x y. rewrite (bsum_ext J _ (fun _ => 0)) by (intros; ring).
    rewrite bsum_0. do 2 f_equal. ring.
  Qed.

  (** The vector is optimal among vectors supported on [u]. *)
  Lemma one_best b : (forall j, (j < J)%nat -> j <> u -> b j = 0) -> obj a (only_u x y u) <= obj a b.
  Proof.
    intros Hz. assert (E : eqv J b (vset (only_u x y u) u (b u))).
    { intros k Hk. unfold vset, only_u. destruct (Nat.eqb_spec k u) as [->|]; auto. }
    rewrite (obj_ext a b _ E).
    rewrite <- (obj_vset_self a (only_u x y u) u).
    destruct (coord_descent a (vset (only_u x y u) u (b u)) u (only_u x y u u)) as [D _].
    - apply one_wf.
    - apply Hu.
    - destruct (Hub u) as [-> _]. exact I.
    - destruct (Hub u) as [_ ->]. exact I.
    - rewrite <- one_coord_u. unfold cd_coord, cd_num. rewrite partial_vset by apply Hu. reflexivity.
    - assert (0 <= 1 / 2 * cd_den a u * (vset (only_u x y u) u (b u) u - only_u x y u u) ^ 2).
      { apply Rmult_le_pos; [|apply pow2_ge_0]. pose proof (one_den u (proj1 Hu)). lra. }
      assert (E2 : eqv J (vset (vset (only_u x y u) u (b u)) u (only_u x y u u))
                         (vset (only_u x y u) u (only_u x y u u))).
      { intros k _. unfold vset. destruct (Nat.eqb k u); reflexivity. }
      rewrite <- (obj_ext a _ _ E2). lra.
  Qed.
End OneUnregularised.

Section AllRegularised.
  Context (a : cd_args).
  Let J := cd_J a. Let x := cd_x a. Let y := cd_y a.
  Hypothesis Hd : forall j, (j < J)%nat -> 0 < x j j.
  Hypothesis Hr : all_reg J (cd_isreg a).
  Hypothesis Hub : unbounded a.
  Hypothesis Hl : 0 <= cd_reg a.
  Hypothesis Ha : 0 <= cd_alpha a <= 1.

  Lemma all_den j : (j < J)%nat -> 0 < cd_den a j.
  Proof.
    intros Hj. specialize (Hd j Hj). unfold cd_den. fold x. destruct (cd_isreg a j); [|lra].
    assert (0 <= cd_reg a * (1 - cd_alpha a)) by (apply Rmult_le_pos; lra). lra.
  Qed.
  Lemma all_fixed_iff : cd_fixed a (fun _ => 0) <->
    forall k, (k < J)%nat -> Rabs (y k) <= cd_alpha a * cd_reg a.
  Proof.
    assert (C : forall j, (j < J)%nat ->
      (cd_coord a (fun _ => 0) j = Ok 0 <-> Rabs (y j) <= cd_alpha a * cd_reg a)).
    { intros j Hj. pose proof (all_den j Hj). rewrite coord_unbounded by (auto; lra).
      unfold cd_num. rewrite (Hr j Hj). unfold cd_partial. fold J x y.
      rewrite (bsum_ext J _ (fun _ => 0)) by (intros; ring). rewrite bsum_0.
      replace (y j - 0 + x j j * 0) with (y j) by ring.
      rewrite <- st_zero_iff by (apply Rmult_le_pos; lra). split.
      - intros [= E]. apply (f_equal (fun r => r * cd_den a j)) in E.
        unfold Rdiv in E. rewrite Rmult_assoc, Rinv_l in E by lra. lra.
      - intros ->. f_equal. unfold Rdiv. ring. }
    split; intros H j Hj; apply C; auto; apply H; auto.
  Qed.
End AllRegularised.

(** Fixed points, strict descent and the active set of coordinate descent. *)
From Coq Require Import Reals List Bool Arith Lia Lra Psatz Permutation.
From Verif Require Import Base Lin M_CD S_CD L_CD1 L_CD.
Import ListNotations.
Open Scope R_scope.

Lemma partial_ext a b c j : eqv (cd_J a) b c -> (j < cd_J a)%nat -> cd_partial a b j = cd_partial a c j.
Proof.
  intros H Hj. unfold cd_partial. rewrite (H j Hj).
  rewrite (bsum_ext (cd_J a) _ (fun k => cd_x a j k * c k)); auto.
  intros i Hi. rewrite (H i Hi). reflexivity.
Qed.
Lemma coord_ext a b c j : eqv (cd_J a) b c -> (j < cd_J a)%nat -> cd_coord a b j = cd_coord a c j.
Proof.
  intros H Hj. unfold cd_coord, cd_num. rewrite (partial_ext a b c j H Hj). reflexivity.
Qed.

Definition cd_fixed (a : cd_args) (c : vec) : Prop :=
  forall j, (j < cd_J a)%nat -> cd_coord a c j = Ok (c j).

Lemma sweep_fixed a first c : cd_fixed a c ->
  forall JJ b, (forall j, In j JJ -> (j < cd_J a)%nat) -> eqv (cd_J a) b c ->
  exists b', cd_sweep a first JJ b = Ok b' /\ eqv (cd_J a) b' c.
Proof.
  intros Hf. induction JJ as [|j JJ IH]; simpl; intros b HJ Hb; [eauto|].
  assert (Hj : (j < cd_J a)%nat) by auto.
  assert (V : exists b1, cd_visit a first b j = Ok b1 /\ eqv (cd_J a) b1 c).
  { unfold cd_visit. destruct (first || negb (Reqb (b j) 0)); [|eauto].
    rewrite (coord_ext a b c j Hb Hj), (Hf j Hj). simpl. eexists; split; eauto.
    intros k Hk. unfold vset. destruct (Nat.eqb_spec k j) as [->|]; auto. }
  destruct V as (b1 & -> & Hb1). simpl. apply IH; auto.
Qed.

Lemma loop_fixed a random perm tol maxit c : cd_fixed a c -> perm_ok (cd_J a) perm ->
  forall fuel i b, (i + fuel = S maxit)%nat -> (1 <= fuel)%nat -> eqv (cd_J a) b c ->
  exists b' n, cd_loop fuel a random perm tol maxit i b = Ok (b', n) /\ eqv (cd_J a) b' c.
Proof.
  intros Hf Hp. induction fuel as [|fuel IH]; intros i b Hi Hfu Hb; [lia|]. cbn [cd_loop].
  destruct (sweep_fixed a (S i <? 2)%nat c Hf _ b (order_lt a random perm (S i) Hp) Hb) as (b1 & E & Hb1).
  cbv zeta. rewrite E. simpl.
  destruct (Rleb _ _); [eauto|]. destruct (maxit <? S i)%nat eqn:M; [eauto|].
  apply Nat.ltb_ge in M. apply IH; auto; lia.
Qed.

(** Starting at a fixed point, the result is that point. *)
Theorem cd_fixed_start a random perm tol maxit b c : cd_fixed a c -> perm_ok (cd_J a) perm ->
  eqv (cd_J a) b c ->
  exists b' n, online_coordinate_descent a random perm tol maxit b = Ok (b', n) /\ eqv (cd_J a) b' c.
Proof. intros. eapply loop_fixed; eauto; lia. Qed.

(** If the first visited coordinate leads to a fixed point, the result is that point. *)
Theorem cd_fixed_after_first a random perm tol maxit b c v :
  cd_fixed a c -> perm_ok (cd_J a) perm -> (1 <= cd_J a)%nat ->
  cd_coord a b 0 = Ok v -> eqv (cd_J a) (vset b 0 v) c ->
  exists b' n, online_coordinate_descent a random perm tol maxit b = Ok (b', n) /\ eqv (cd_J a) b' c.
Proof.
  intros Hf Hp HJ Hv Hc. unfold online_coordinate_descent. cbn [cd_loop]. cbv zeta.
  change (1 <? 2)%nat with true.
  replace (cd_order a random perm 1) with (seq 0 (cd_J a))
    by (unfold cd_order; destruct random; reflexivity).
  destruct (cd_J a) as [|m] eqn:EJ; [lia|].
  cbn [seq cd_sweep]. unfold cd_visit at 1. simpl orb. rewrite Hv. simpl bind.
  assert (S : exists b1, cd_sweep a true (seq 1 m) (vset b 0 v) = Ok b1 /\ eqv (cd_J a) b1 c).
  { apply sweep_fixed; auto; rewrite EJ; auto. intros j Hj. apply in_seq in Hj. lia. }
  destruct S as (b1 & E & Hb1). cbn [bind]. rewrite E. cbn [bind].
  destruct (Rleb _ _); [rewrite <- EJ; eauto|].
  destruct (maxit <? 1)%nat eqn:M; [rewrite <- EJ; eauto|].
  apply Nat.ltb_ge in M. rewrite <- EJ. apply loop_fixed; auto; try lia. rewrite EJ; auto.
Qed.

(** ** Strict descent *)
Lemma obj_ext a b c : eqv (cd_J a) b c -> obj a b = obj a c.
Proof. apply enet_obj_ext. Qed.

Lemma boxed_ext a b c : eqv (cd_J a) b c -> boxed a b -> boxed a c.
Proof. intros E H j Hj. rewrite <- (E j Hj). apply H; auto. Qed.

Lemma sweep_strict a : cd_wf a -> box_wf a ->
  forall JJ b b', (forall j, In j JJ -> (j < cd_J a)%nat) -> boxed a b ->
  cd_sweep a true JJ b = Ok b' ->
  (exists j, In j JJ /\ cd_coord a b j <> Ok (b j)) -> obj a b' < obj a b.
Proof.
  intros W Hb. induction JJ as [|i JJ IH]; simpl; intros b b' HJ Hin H (j & Hj & Hn); [easy|].
  assert (Hi : (i < cd_J a)%nat) by auto.
  destruct (cd_visit a true b i) as [b1|] eqn:E; simpl in H; [|discriminate].
  assert (B1 : boxed a b1) by (eapply visit_boxed; eauto).
  assert (HJ' : forall k, In k JJ -> (k < cd_J a)%nat) by auto.
  pose proof (sweep_descent a true JJ W Hb HJ' b1 b' B1 H) as D.
  unfold cd_visit in E. simpl in E. destruct (cd_coord a b i) as [v|] eqn:C; simpl in E; [|discriminate].
  injection E as <-.
  destruct (Hin i Hi) as [Hl Hu].
  destruct (coord_descent a b i v W Hi Hl Hu C) as [D1 P].
  destruct (Req_dec v (b i)) as [Ev|Ev].
  - assert (Eq : eqv (cd_J a) (vset b i v) b).
    { intros k _. unfold vset. destruct (Nat.eqb_spec k i); congruence. }
    rewrite <- (obj_ext a _ _ Eq). apply (IH _ b'); auto.
    destruct Hj as [->|Hj]; [rewrite C, Ev in Hn; congruence|].
    exists j. split; auto. rewrite (coord_ext a _ b j Eq) by auto. rewrite (Eq j) by auto. auto.
  - assert (0 < 1 / 2 * cd_den a i * (b i - v) ^ 2); [|lra].
    apply Rmult_lt_0_compat; [lra|]. assert (b i - v <> 0) by lra.
    assert (0 <= (b i - v) ^ 2) by apply pow2_ge_0.
    destruct (Req_dec ((b i - v) ^ 2) 0) as [Z|]; [|lra]. exfalso. simpl in Z. nra.
Qed.

Lemma loop_descent a random perm tol maxit fuel i b b' n :
  cd_wf a -> box_wf a -> perm_ok (cd_J a) perm -> boxed a b -> (1 <= i)%nat ->
  cd_loop fuel a random perm tol maxit i b = Ok (b', n) -> obj a b' <= obj a b.
Proof.
  intros W Hb Hp Hin Hi H.
  assert (K : boxed a b' /\ obj a b' <= obj a b); [|tauto].
  refine (loop_inv (fun b' => boxed a b' /\ obj a b' <= obj a b) a random perm tol maxit _ _ _ _ _ _ Hi _ H);
    [|split; [auto|lra]].
  intros m c c' Hm [Hc1 Hc2] Hs. split.
  - exact (sweep_inv a false _ Hb (order_lt a random perm m Hp) c c' Hc1 Hs).
  - assert (obj a c' <= obj a c); [|lra].
    exact (sweep_descent a false _ W Hb (order_lt a random perm m Hp) c c' Hc1 Hs).
Qed.

(** A call started at a point that is not a fixed point strictly decreases the objective. *)
Theorem cd_strict a random perm tol maxit b b' n :
  cd_wf a -> box_wf a -> perm_ok (cd_J a) perm -> boxed a b ->
  online_coordinate_descent a random perm tol maxit b = Ok (b', n) ->
  ~ cd_fixed a b -> obj a b' < obj a b.
Proof.
  intros W Hb Hp Hin H Hn. apply cd_first in H. destruct H as (b1 & E & H).
  assert (Hlt : forall j, In j (seq 0 (cd_J a)) -> (j < cd_J a)%nat)
    by (intros j Hj; apply in_seq in Hj; lia).
  assert (X : exists j, In j (seq 0 (cd_J a)) /\ cd_coord a b j <> Ok (b j)).
  { destruct (Exists_dec (fun j => cd_coord a b j <> Ok (b j)) (seq 0 (cd_J a))) as [Ex|Ex].
    - intros j. destruct (cd_coord a b j) as [v|e]; [|left; discriminate].
      destruct (Req_EM_T v (b j)) as [->|]; [right; auto|left; congruence].
    - apply Exists_exists in Ex. exact Ex.
    - exfalso. apply Hn. intros j Hj. destruct (cd_coord a b j) as [v|e] eqn:C.
      + destruct (Req_dec v (b j)) as [->|N]; auto. exfalso. apply Ex. apply Exists_exists.
        exists j. split; [apply in_seq; lia|]. rewrite C. congruence.
      + exfalso. apply Ex. apply Exists_exists. exists j.
        split; [apply in_seq; lia|]. rewrite C. discriminate. }
  pose proof (sweep_strict a W Hb _ b b1 Hlt Hin E X) as D.
  assert (B1 : boxed a b1) by (eapply sweep_inv; eauto).
  destruct H as [->|H]; auto.
  pose proof (loop_descent a random perm tol maxit _ _ _ _ _ W Hb Hp B1 (le_n 1) H). lra.
Qed.

(** The same after the first visited coordinate. *)
Theorem cd_strict_after_first a random perm tol maxit b b' n v :
  cd_wf a -> box_wf a -> perm_ok (cd_J a) perm -> boxed a b -> (1 <= cd_J a)%nat ->
  online_coordinate_descent a random perm tol maxit b = Ok (b', n) ->
  cd_coord a b 0 = Ok v ->
  (exists j, (1 <= j < cd_J a)%nat /\ cd_coord a (vset b 0 v) j <> Ok (vset b 0 v j)) ->
  obj a b' < obj a (vset b 0 v).
Proof.
  intros W Hb Hp Hin HJ H Hv (j & Hj & Hn). apply cd_first in H. destruct H as (b1 & E & H).
  assert (B0 : boxed a (vset b 0 v)).
  { apply (visit_boxed a true b 0); auto. unfold cd_visit. simpl. rewrite Hv. reflexivity. }
  assert (E' : cd_sweep a true (seq 1 (cd_J a - 1)) (vset b 0 v) = Ok b1).
  { destruct (cd_J a) as [|m] eqn:EJ; [lia|]. cbn [seq cd_sweep] in E.
    unfold cd_visit at 1 in E. simpl orb in E. rewrite Hv in E. cbn [bind] in E.
    replace (S m - 1)%nat with m by lia. exact E. }
  assert (Hlt : forall j, In j (seq 1 (cd_J a - 1)) -> (j < cd_J a)%nat)
    by (intros k Hk; apply in_seq in Hk; lia).
  assert (D : obj a b1 < obj a (vset b 0 v)).
  { apply (sweep_strict a W Hb (seq 1 (cd_J a - 1))); auto. exists j. split; auto. apply in_seq. lia. }
  assert (B1 : boxed a b1) by (eapply sweep_inv; eauto).
  destruct H as [->|H]; auto.
  pose proof (loop_descent a random perm tol maxit _ _ _ _ _ W Hb Hp B1 (le_n 1) H). lra.
Qed.

(** ** Meeting the stopping test with tolerance 0 *)
Lemma sweep_notin a first JJ j : ~ In j JJ -> forall b b', cd_sweep a first JJ b = Ok b' -> b' j = b j.
Proof.
  induction JJ as [|i JJ IH]; simpl; intros Hn b b' H; [injection H as <-; auto|].
  destruct (cd_visit a first b i) as [b1|] eqn:E; simpl in H; [|discriminate].
  rewrite (IH (fun K => Hn (or_intror K)) b1 b' H).
  destruct (visit_cases _ _ _ _ _ E) as [->|(v & _ & ->)]; auto.
  apply vset_other. intros ->. apply Hn; auto.
Qed.

Lemma sweep_unchanged a first : forall JJ b b' c, NoDup JJ ->
  (forall j, In j JJ -> (j < cd_J a)%nat) ->
  eqv (cd_J a) b c -> cd_sweep a first JJ b = Ok b' -> eqv (cd_J a) b' c ->
  forall j, In j JJ -> (first = true \/ c j <> 0) -> cd_coord a c j = Ok (c j).
Proof.
  induction JJ as [|i JJ IH]; simpl; intros b b' c ND HJ Hb H Hb' j Hj Hc; [easy|].
  assert (Hi : (i < cd_J a)%nat) by auto. inversion ND as [|? ? Hni ND']; subst.
  destruct (cd_visit a first b i) as [b1|] eqn:E; simpl in H; [|discriminate].
  assert (Hb1i : b1 i = c i).
  { rewrite <- (sweep_notin a first JJ i Hni b1 b' H). apply Hb'; auto. }
  assert (Hb1 : eqv (cd_J a) b1 c).
  { intros k Hk. destruct (Nat.eq_dec k i) as [->|Hne]; auto.
    destruct (visit_cases _ _ _ _ _ E) as [->|(v & _ & ->)]; [apply Hb; auto|].
    rewrite vset_other by auto. apply Hb; auto. }
  destruct Hj as [->|Hj]; [|eapply IH; eauto].
  unfold cd_visit in E.
  replace (first || negb (Reqb (b j) 0)) with true in E.
  2:{ destruct Hc as [->|Hc]; auto. rewrite (Hb j Hi). symmetry. apply orb_true_intro. right.
      apply negb_true_iff. apply Reqb_false. auto. }
  rewrite (coord_ext a b c j Hb Hi) in E.
  destruct (cd_coord a c j) as [v|]; simpl in E; [|discriminate]. injection E as <-.
  rewrite vset_same in Hb1i. congruence.
Qed.

Lemma max_abs_ge n v j : (j < n)%nat -> Rabs (v j) <= max_abs n v.
Proof.
  induction n as [|n IH]; intros Hj; [lia|]. simpl.
  destruct (Nat.eq_dec j n) as [->|Hne]; [apply Rmax_r|].
  eapply Rle_trans; [apply IH; lia|apply Rmax_l].
Qed.

(** Stopping before the iteration limit with tolerance 0: the result minimises the
    objective among all vectors of the box that keep its zeros; it is a global
    minimiser if the stop happens in the first sweep or no coefficient is zero. *)
Theorem cd_stop_optimal a random perm maxit b b' n :
  cd_wf a -> psd (cd_J a) (cd_x a) -> box_wf a -> perm_ok (cd_J a) perm ->
  online_coordinate_descent a random perm 0 maxit b = Ok (b', n) -> (n <= maxit)%nat ->
  forall t, in_box (cd_J a) (cd_lo a) (cd_up a) t ->
    (n = 1%nat \/ forall j, (j < cd_J a)%nat -> b' j = 0 -> t j = 0) ->
    obj a b' <= obj a t.
Proof.
  intros W HP Hb Hp H Hn t Ht Hz.
  pose proof (cd_terminates a random perm 0 maxit b) as T. rewrite H in T.
  destruct T as [Hn1 T]. destruct (T Hn) as (c & Hs & Hm).
  assert (Ec : eqv (cd_J a) c b').
  { intros k Hk. pose proof (max_abs_ge (cd_J a) (fun k => b' k - c k) k Hk) as M. simpl in M.
    rewrite Rmult_0_l in Hm. pose proof (Rabs_pos (b' k - c k)).
    assert (Z : Rabs (b' k - c k) <= 0) by lra. apply Rabs_le_inv' in Z. lra. }
  assert (ND : NoDup (cd_order a random perm n)).
  { eapply Permutation_NoDup; [apply Permutation_sym, order_perm; auto|apply seq_NoDup]. }
  assert (F : forall j, (j < cd_J a)%nat -> (n <? 2 = true)%nat \/ b' j <> 0 -> cd_coord a b' j = Ok (b' j)).
  { intros j Hj Hor.
    eapply (sweep_unchanged a (n <? 2)%nat (cd_order a random perm n) c b' b'); eauto.
    - apply order_lt; auto.
    - intros k Hk; reflexivity.
    - eapply Permutation_in; [apply Permutation_sym, order_perm; auto|]. apply in_seq. lia. }
  apply vi_sum_min; auto; try apply W.
  intros j Hj.
  destruct (Req_dec (b' j) 0) as [Z|NZ].
  - destruct Hz as [Hz|Hz].
    + assert (L : (n <? 2)%nat = true) by (apply Nat.ltb_lt; lia).
      pose proof (F j Hj (or_introl L)) as C.
      apply coord_ok in C. destruct C as [Hd Ec'].
      pose proof (wf_den a j W Hj). destruct (Ht j Hj) as [Hl Hu].
      pose proof (vi_clip (cd_den a j) (cd_partial a b' j) (cd_thr a j) _ _ (t j)
         ltac:(lra) (wf_thr a j W) Hl Hu) as V.
      rewrite <- Ec' in V. rewrite partial_off in V by auto. exact V.
    + rewrite (Hz j Hj Z), Z. unfold vi. lra.
  - pose proof (F j Hj (or_intror NZ)) as C.
    apply coord_ok in C. destruct C as [Hd Ec'].
    pose proof (wf_den a j W Hj). destruct (Ht j Hj) as [Hl Hu].
    pose proof (vi_clip (cd_den a j) (cd_partial a b' j) (cd_thr a j) _ _ (t j)
       ltac:(lra) (wf_thr a j W) Hl Hu) as V.
    rewrite <- Ec' in V. rewrite partial_off in V by auto. exact V.
Qed.

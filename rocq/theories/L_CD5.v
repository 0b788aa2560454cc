(** Accuracy of coordinate descent at its stopping tolerance, and progress per sweep. *)
From Coq Require Import Reals List Bool Arith Lia Lra Psatz Permutation.
From Verif Require Import Base Lin M_CD S_CD S_CD2 L_CD4 L_CD1 L_CD L_CD2 L_CD3.
Import ListNotations.
Open Scope R_scope.

(** Approximate first-order conditions give approximate minimality. *)
Lemma vi_sum_approx J G h l (r : nat -> bool) al (b b' e : vec) :
  symmetric J G -> 0 <= l -> 0 <= al <= 1 ->
  (forall j, (j < J)%nat ->
     - e j <= ((if r j then G j j + l * (1 - al) else G j j) * b j - (h j - mvec J G (vset b j 0) j)) * (b' j - b j)
       + (if r j then al * l else 0) * (Rabs (b' j) - Rabs (b j))) ->
  enet_obj J G h l r al b + 1 / 2 * quad J G (fun k => b' k - b k)
  <= enet_obj J G h l r al b' + bsum J e.
Proof.
  intros HS Hl Ha HV.
  pose (dl := fun k => b' k - b k). fold dl.
  assert (Q : quad J G b' = quad J G b + 2 * dot J dl (mvec J G b) + quad J G dl).
  { rewrite (quad_ext J G G b' (fun k => b k + dl k))
      by (try (intros ? ? ? ?; reflexivity); intros k _; unfold dl; ring).
    rewrite quad_plus by auto. rewrite dot_mvec_sym by auto. rewrite (dot_comm J (mvec J G b)). ring. }
  assert (Y : dot J h b' = dot J h b + dot J dl h).
  { rewrite (dot_ext J h h b' (fun k => b k + dl k))
      by (try (intros ? ?; reflexivity); intros k _; unfold dl; ring).
    rewrite dot_plus_r. rewrite (dot_comm J dl h). ring. }
  unfold enet_obj. rewrite Q, Y.
  assert (S : 0 <= bsum J (fun j => dl j * mvec J G b j - dl j * h j
     + l * ((if r j then al * Rabs (b' j) + (1 - al) / 2 * b' j ^ 2 else 0)
            - (if r j then al * Rabs (b j) + (1 - al) / 2 * b j ^ 2 else 0)) + e j)).
  { apply bsum_nonneg. intros j Hj. specialize (HV j Hj).
    assert (M : mvec J G b j = mvec J G (vset b j 0) j + G j j * b j).
    { unfold mvec. rewrite (bsum_split J j) by auto.
      rewrite (bsum_split J j (fun k => G j k * vset b j 0 k)) by auto. rewrite vset_same.
      rewrite (bsum_ext J (fun i => if (i =? j)%nat then 0 else G j i * vset b j 0 i)
          (fun i => if (i =? j)%nat then 0 else G j i * b i)).
      - ring.
      - intros i _. unfold vset. destruct (Nat.eqb i j); reflexivity. }
    rewrite M. fold (dl j) in HV. destruct (r j).
    - assert (0 <= l * ((1 - al) / 2 * (dl j) ^ 2)).
      { apply Rmult_le_pos; auto. apply Rmult_le_pos; [lra|apply pow2_ge_0]. }
      unfold dl in *. lra.
    - unfold dl in *. lra. }
  rewrite !bsum_plus, bsum_scal_l, !bsum_minus in S.
  change (bsum J (fun i => dl i * mvec J G b i)) with (dot J dl (mvec J G b)) in S.
  change (bsum J (fun i => dl i * h i)) with (dot J dl h) in S. lra.
Qed.

(** What a sweep does to a coordinate it visits. *)
Lemma sweep_notin a first JJ j : forall b b', ~ In j JJ -> cd_sweep a first JJ b = Ok b' -> b' j = b j.
Proof.
  induction JJ as [|i JJ IH]; simpl; intros b b' Hn H; [injection H as <-; auto|].
  destruct (cd_visit a first b i) as [b1|] eqn:E; simpl in H; [|discriminate].
  rewrite (IH b1 b') by tauto.
  destruct (visit_cases _ _ _ _ _ E) as [->|[v [Hc ->]]]; auto.
  apply vset_other. intros ->. tauto.
Qed.

Lemma sweep_visited a first JJ j : forall b b', NoDup JJ -> In j JJ -> cd_sweep a first JJ b = Ok b' ->
  (first = true \/ b j <> 0) ->
  exists m, cd_coord a m j = Ok (b' j) /\ forall k, m k = b k \/ m k = b' k.
Proof.
  induction JJ as [|i JJ IH]; simpl; intros b b' ND Hin H Hv; [tauto|].
  apply NoDup_cons_iff in ND. destruct ND as [Ni ND].
  destruct (cd_visit a first b i) as [b1|] eqn:E; simpl in H; [|discriminate].
  destruct (Nat.eq_dec i j) as [->|Hne].
  - pose proof (sweep_notin a first JJ j _ _ Ni H) as K.
    unfold cd_visit in E.
    assert (T : first || negb (Reqb (b j) 0) = true).
    { destruct Hv as [->|Hv]; auto. apply orb_true_intro. right. apply negb_true_iff, Reqb_false; auto. }
    rewrite T in E. destruct (cd_coord a b j) as [v|] eqn:C; simpl in E; [|discriminate].
    injection E as <-. rewrite vset_same in K. exists b. rewrite K. auto.
  - destruct Hin as [Hin|Hin]; [congruence|].
    assert (Bj : b1 j = b j).
    { destruct (visit_cases _ _ _ _ _ E) as [->|[v [Hc ->]]]; auto. apply vset_other. auto. }
    destruct (IH b1 b' ND Hin H) as (m & Hm & Hk); [rewrite Bj; auto|].
    exists m. split; auto. intros k. destruct (Hk k) as [Q|Q]; auto.
    destruct (visit_cases _ _ _ _ _ E) as [->|[v [Hc ->]]]; auto.
    unfold vset in Q. destruct (Nat.eqb k i) eqn:Ki; [|auto].
    apply Nat.eqb_eq in Ki. subst k. right. rewrite Q.
    rewrite (sweep_notin a first JJ i _ _ Ni H). rewrite vset_same. reflexivity.
Qed.

Lemma bsum_abs_le n f g : (forall i, (i < n)%nat -> Rabs (f i) <= g i) -> Rabs (bsum n f) <= bsum n g.
Proof.
  induction n as [|n IH]; intros H; simpl; [rewrite Rabs_R0; lra|].
  eapply Rle_trans; [apply Rabs_triang|]. apply Rplus_le_compat; [apply IH; intros; apply H; lia|apply H; lia].
Qed.

Lemma partial_near a (m b' : vec) j dlt : (j < cd_J a)%nat ->
  (forall k, (k < cd_J a)%nat -> Rabs (m k - b' k) <= dlt) ->
  Rabs (cd_partial a m j - cd_partial a b' j) <= dlt * row_rest (cd_J a) (cd_x a) j.
Proof.
  intros Hj Hm. unfold cd_partial.
  rewrite (bsum_split (cd_J a) j (fun k => cd_x a j k * m k)) by auto.
  rewrite (bsum_split (cd_J a) j (fun k => cd_x a j k * b' k)) by auto.
  match goal with |- Rabs ?e <= _ => replace e with
    (bsum (cd_J a) (fun i => (if (i =? j)%nat then 0 else cd_x a j i * b' i) - (if (i =? j)%nat then 0 else cd_x a j i * m i)))
    by (rewrite bsum_minus; ring) end.
  unfold row_rest. rewrite <- bsum_scal_l. apply bsum_abs_le. intros i Hi.
  destruct (i =? j)%nat; [rewrite Rminus_0_r, Rabs_R0; lra|].
  replace (cd_x a j i * b' i - cd_x a j i * m i) with (- (cd_x a j i * (m i - b' i))) by ring.
  rewrite Rabs_Ropp, Rabs_mult, (Rmult_comm dlt). apply Rmult_le_compat_l; [apply Rabs_pos|auto].
Qed.

Lemma max_abs_nonneg n v : 0 <= max_abs n v.
Proof. induction n; simpl; [lra|]. eapply Rle_trans; [apply IHn|apply Rmax_l]. Qed.

Theorem cd_accuracy a random perm tol maxit b b' n :
  cd_wf a -> box_wf a -> perm_ok (cd_J a) perm -> 0 <= tol ->
  online_coordinate_descent a random perm tol maxit b = Ok (b', n) -> (n <= maxit)%nat ->
  forall t, in_box (cd_J a) (cd_lo a) (cd_up a) t ->
    (n = 1%nat \/ forall j, (j < cd_J a)%nat -> b' j = 0 -> t j = 0) ->
    obj a b' + 1 / 2 * quad (cd_J a) (cd_x a) (fun k => t k - b' k)
    <= obj a t + tol * max_abs (cd_J a) b'
         * bsum (cd_J a) (fun j => row_rest (cd_J a) (cd_x a) j * Rabs (t j - b' j)).
Proof.
  intros W Hb Hp Htol H Hn t Ht Hz.
  pose proof (cd_terminates a random perm tol maxit b) as T. rewrite H in T.
  destruct T as [Hn1 T]. destruct (T Hn) as (c & Hs & Hm).
  pose (dlt := tol * max_abs (cd_J a) b'). fold dlt. fold dlt in Hm.
  assert (D0 : 0 <= dlt) by (apply Rmult_le_pos; [auto|apply max_abs_nonneg]).
  assert (ND : NoDup (cd_order a random perm n)).
  { eapply Permutation_NoDup; [apply Permutation_sym, order_perm; auto|apply seq_NoDup]. }
  rewrite <- bsum_scal_l.
  apply vi_sum_approx; try apply W.
  intros j Hj.
  assert (Rest : 0 <= row_rest (cd_J a) (cd_x a) j).
  { apply bsum_nonneg. intros i _. destruct (i =? j)%nat; [lra|apply Rabs_pos]. }
  assert (Er : 0 <= dlt * (row_rest (cd_J a) (cd_x a) j * Rabs (t j - b' j))).
  { apply Rmult_le_pos; auto. apply Rmult_le_pos; auto. apply Rabs_pos. }
  destruct (Req_dec (t j) (b' j)) as [Zt|NZ].
  { rewrite Zt. rewrite !Rminus_diag_eq by reflexivity. rewrite !Rmult_0_r, Rabs_R0. lra. }
  assert (V : (n <? 2)%nat = true \/ c j <> 0).
  { destruct ((n <? 2)%nat) eqn:L; [left; reflexivity|]. right. intros C0.
    destruct Hz as [->|Hz]; [discriminate|].
    pose proof (sweep_zero a _ j c b' C0 Hs) as B0. apply NZ. rewrite B0. auto. }
  assert (Inj : In j (cd_order a random perm n)).
  { eapply Permutation_in; [apply Permutation_sym, order_perm; auto|]. apply in_seq. lia. }
  destruct (sweep_visited a _ _ j c b' ND Inj Hs V) as (m & Hc & Hk).
  apply coord_ok in Hc. destruct Hc as [Hd Ec].
  pose proof (wf_den a j W Hj). destruct (Ht j Hj) as [Hl Hu].
  pose proof (vi_clip (cd_den a j) (cd_partial a m j) (cd_thr a j) _ _ (t j)
     ltac:(lra) (wf_thr a j W) Hl Hu) as VI.
  rewrite <- Ec in VI. unfold vi in VI.
  assert (P : Rabs (cd_partial a m j - cd_partial a b' j) <= dlt * row_rest (cd_J a) (cd_x a) j).
  { apply partial_near; auto. intros k Hkj. destruct (Hk k) as [->| ->].
    - rewrite Rabs_minus_sym. eapply Rle_trans; [|apply Hm].
      apply (max_abs_ge (cd_J a) (fun k => b' k - c k) k Hkj).
    - rewrite Rminus_diag_eq by reflexivity. rewrite Rabs_R0. auto. }
  rewrite <- partial_off by auto.
  change (if cd_isreg a j then cd_x a j j + cd_reg a * (1 - cd_alpha a) else cd_x a j j) with (cd_den a j).
  change (if cd_isreg a j then cd_alpha a * cd_reg a else 0) with (cd_thr a j).
  assert (E : Rabs ((cd_partial a m j - cd_partial a b' j) * (t j - b' j))
              <= dlt * (row_rest (cd_J a) (cd_x a) j * Rabs (t j - b' j))).
  { rewrite Rabs_mult, <- Rmult_assoc. apply Rmult_le_compat_r; [apply Rabs_pos|auto]. }
  apply Rabs_le_inv' in E. lra.
Qed.

(** ** Progress *)
Lemma sweep_progress a first JJ d : cd_wf a -> box_wf a -> (forall j, In j JJ -> (j < cd_J a)%nat) ->
  NoDup JJ -> (forall j, (j < cd_J a)%nat -> d <= cd_den a j) ->
  forall b b', boxed a b -> cd_sweep a first JJ b = Ok b' ->
    obj a b' + d / 2 * sqdist (cd_J a) b' b <= obj a b.
Proof.
  intros W Hb. induction JJ as [|j JJ IH]; simpl; intros HJ ND Hd b b' Hin H.
  { injection H as <-. unfold sqdist. rewrite (bsum_ext _ _ (fun _ => 0)) by (intros; ring).
    rewrite bsum_0. lra. }
  apply NoDup_cons_iff in ND. destruct ND as [Nj ND].
  destruct (cd_visit a first b j) as [b1|] eqn:E; simpl in H; [|discriminate].
  assert (B1 : boxed a b1) by (eapply visit_boxed; eauto).
  pose proof (IH (fun k Hk => HJ k (or_intror Hk)) ND Hd b1 b' B1 H) as I1.
  pose proof (sweep_notin a first JJ j _ _ Nj H) as Kj.
  assert (Hj : (j < cd_J a)%nat) by auto.
  destruct (visit_cases _ _ _ _ _ E) as [->|[v [Hc ->]]]; auto.
  destruct (Hin j Hj) as [Hl Hu].
  destruct (coord_descent a b j v W Hj Hl Hu Hc) as [I2 _].
  rewrite vset_same in Kj.
  assert (Q : sqdist (cd_J a) b' b = sqdist (cd_J a) b' (vset b j v) + (b j - v) ^ 2).
  { unfold sqdist. rewrite (bsum_split (cd_J a) j) by auto.
    rewrite (bsum_split (cd_J a) j (fun j0 => (b' j0 - vset b j v j0) ^ 2)) by auto.
    rewrite vset_same, Kj.
    rewrite (bsum_ext (cd_J a) (fun i => if (i =? j)%nat then 0 else (b' i - vset b j v i) ^ 2)
       (fun i => if (i =? j)%nat then 0 else (b' i - b i) ^ 2)).
    - ring.
    - intros i _. unfold vset. destruct (Nat.eqb i j); reflexivity. }
  rewrite Q. specialize (Hd j Hj). pose proof (pow2_ge_0 (b j - v)).
  assert (d * (b j - v) ^ 2 <= cd_den a j * (b j - v) ^ 2) by (apply Rmult_le_compat_r; auto). lra.
Qed.

Lemma iter_boxed a random perm b : box_wf a -> perm_ok (cd_J a) perm -> boxed a b ->
  forall n c, cd_iter a random perm n b = Ok c -> boxed a c.
Proof.
  intros Hb Hp Hin. induction n as [|n IH]; intros c H; cbn [cd_iter] in H; [injection H as <-; auto|].
  destruct (cd_iter a random perm n b) as [c1|] eqn:E; cbn [bind] in H; [|discriminate].
  exact (sweep_inv a _ _ Hb (order_lt a random perm (S n) Hp) c1 c (IH c1 eq_refl) H).
Qed.

Lemma order_nodup a random perm i : perm_ok (cd_J a) perm -> NoDup (cd_order a random perm i).
Proof.
  intros Hp. eapply Permutation_NoDup; [apply Permutation_sym, order_perm; auto|apply seq_NoDup].
Qed.

Theorem cd_progress a random perm d b (c : nat -> vec) : cd_wf a -> box_wf a -> perm_ok (cd_J a) perm ->
  (forall j, (j < cd_J a)%nat -> d <= cd_den a j) -> boxed a b ->
  forall n, (forall i, (i <= n)%nat -> cd_iter a random perm i b = Ok (c i)) ->
    obj a (c n) + d / 2 * bsum n (fun i => sqdist (cd_J a) (c (S i)) (c i)) <= obj a b.
Proof.
  intros W Hb Hp Hd Hin. induction n as [|n IH]; intros Hc.
  { specialize (Hc 0%nat (le_n _)). cbn [cd_iter] in Hc. injection Hc as <-. simpl. lra. }
  specialize (IH (fun i Hi => Hc i (le_S _ _ Hi))). cbn [bsum].
  pose proof (Hc (S n) (le_n _)) as S1. pose proof (Hc n (le_S _ _ (le_n _))) as S0.
  cbn [cd_iter] in S1. rewrite S0 in S1. cbn [bind] in S1.
  pose proof (sweep_progress a _ _ d W Hb (order_lt a random perm (S n) Hp) (order_nodup a random perm (S n) Hp)
    Hd (c n) (c (S n)) (iter_boxed a random perm b Hb Hp Hin n _ S0) S1). lra.
Qed.

Lemma max_abs_sqdist n u v : max_abs n (fun k => u k - v k) ^ 2 <= sqdist n u v.
Proof.
  assert (E : forall n (w : vec), max_abs n w ^ 2 <= bsum n (fun j => w j ^ 2)).
  { induction n0 as [|m IH]; intros w; cbn [max_abs bsum]; [simpl; lra|].
    specialize (IH w). pose proof (pow2_ge_0 (w m)). pose proof (pow2_ge_0 (max_abs m w)).
    unfold Rmax. destruct (Rle_dec _ _); [rewrite pow2_abs|]; lra. }
  apply (E n (fun k => u k - v k)).
Qed.

Lemma dot_max_abs n h v : Rabs (dot n h v) <= bsum n (fun j => Rabs (h j)) * max_abs n v.
Proof.
  unfold dot. rewrite <- bsum_scal_r. apply bsum_abs_le. intros i Hi. rewrite Rabs_mult.
  apply Rmult_le_compat_l; [apply Rabs_pos|apply max_abs_ge; auto].
Qed.

Lemma obj_neg_size a v : cd_wf a -> psd (cd_J a) (cd_x a) ->
  - obj a v <= bsum (cd_J a) (fun j => Rabs (cd_y a j)) * max_abs (cd_J a) v.
Proof.
  intros W HP. pose proof (dot_max_abs (cd_J a) (cd_y a) v) as D. apply Rabs_le_inv' in D.
  specialize (HP v). unfold obj, enet_obj. destruct W as (_ & _ & Hr & Ha).
  assert (0 <= bsum (cd_J a) (fun j => if cd_isreg a j then cd_alpha a * Rabs (v j) + (1 - cd_alpha a) / 2 * v j ^ 2 else 0)).
  { apply bsum_nonneg. intros j _. destruct (cd_isreg a j); [|lra].
    pose proof (Rabs_pos (v j)). pose proof (pow2_ge_0 (v j)).
    assert (0 <= cd_alpha a * Rabs (v j)) by (apply Rmult_le_pos; lra).
    assert (0 <= (1 - cd_alpha a) / 2 * v j ^ 2) by (apply Rmult_le_pos; lra). lra. }
  assert (0 <= cd_reg a * bsum (cd_J a) (fun j => if cd_isreg a j then cd_alpha a * Rabs (v j) + (1 - cd_alpha a) / 2 * v j ^ 2 else 0))
    by (apply Rmult_le_pos; auto). lra.
Qed.

Lemma iter_prefix a random perm b : forall n c, cd_iter a random perm n b = Ok c ->
  forall i, (i <= n)%nat -> exists ci, cd_iter a random perm i b = Ok ci.
Proof.
  induction n as [|n IH]; intros c H i Hi.
  { assert (i = 0%nat) by lia. subst. eauto. }
  destruct (Nat.eq_dec i (S n)) as [->|]; [eauto|]. cbn [cd_iter] in H.
  destruct (cd_iter a random perm n b) as [c1|] eqn:E; cbn [bind] in H; [|discriminate].
  apply (IH c1 eq_refl). lia.
Qed.

Lemma bsum_ge_const n f r : (forall i, (i < n)%nat -> r <= f i) -> INR n * r <= bsum n f.
Proof.
  induction n as [|n IH]; intros H; [simpl; lra|]. rewrite S_INR. cbn [bsum].
  assert (INR n * r <= bsum n f) by (apply IH; intros; apply H; lia).
  assert (r <= f n) by (apply H; lia). lra.
Qed.

(** Number of sweeps, from a start that is better than the zero vector. *)
Theorem cd_sweep_bound a random perm tol maxit b b' n d lowest :
  cd_wf a -> psd (cd_J a) (cd_x a) -> box_wf a -> perm_ok (cd_J a) perm -> 0 <= tol ->
  0 <= d -> (forall j, (j < cd_J a)%nat -> d <= cd_den a j) -> boxed a b ->
  (forall t, boxed a t -> lowest <= obj a t) ->
  obj a b < 0 ->
  online_coordinate_descent a random perm tol maxit b = Ok (b', n) ->
  INR (n - 1) * d * (tol * obj a b) ^ 2
    <= 2 * (obj a b - lowest) * bsum (cd_J a) (fun j => Rabs (cd_y a j)) ^ 2.
Proof.
  intros W HP Hb Hp Ht Hd0 Hd Hin Hlow Hneg H.
  apply cd_stops_first in H. destruct H as (Hn & Hit & _ & Hbefore).
  pose (c := fun i => match cd_iter a random perm i b with Ok v => v | Raise _ => b end).
  assert (Hc : forall i, (i <= n)%nat -> cd_iter a random perm i b = Ok (c i)).
  { intros i Hi. destruct (iter_prefix a random perm b n b' Hit i Hi) as (ci & E). unfold c. rewrite E. reflexivity. }
  assert (Hbox : forall i, (i <= n)%nat -> boxed a (c i)).
  { intros i Hi. eapply iter_boxed; eauto. }
  assert (Hobj : forall i, (i <= n)%nat -> obj a (c i) <= obj a b).
  { intros i Hi. pose proof (cd_progress a random perm d b c W Hb Hp Hd Hin i (fun k Hk => Hc k (Nat.le_trans _ _ _ Hk Hi))) as P.
    assert (0 <= d / 2 * bsum i (fun i0 => sqdist (cd_J a) (c (S i0)) (c i0))).
    { apply Rmult_le_pos; [lra|]. apply bsum_nonneg. intros k _. apply bsum_nonneg. intros; apply pow2_ge_0. }
    lra. }
  pose (h1 := bsum (cd_J a) (fun j => Rabs (cd_y a j))). fold h1.
  assert (H1 : 0 <= h1) by (apply bsum_nonneg; intros; apply Rabs_pos).
  assert (Big : forall i, (i < n - 1)%nat -> (tol * obj a b) ^ 2 <= h1 ^ 2 * sqdist (cd_J a) (c (S i)) (c i)).
  { intros i Hi.
    assert (Hc0 : cd_iter a random perm (S i - 1) b = Ok (c i)).
    { replace (S i - 1)%nat with i by lia. apply Hc. lia. }
    pose proof (Hbefore (S i) (c i) (c (S i)) ltac:(lia) Hc0 (Hc (S i) ltac:(lia))) as N.
    unfold within_tol in N. apply Rnot_le_lt in N.
    pose proof (max_abs_sqdist (cd_J a) (c (S i)) (c i)) as M.
    pose proof (obj_neg_size a (c (S i)) W HP) as O. fold h1 in O.
    pose proof (Hobj (S i) ltac:(lia)) as O'.
    pose proof (max_abs_nonneg (cd_J a) (c (S i))) as X.
    set (mx := max_abs (cd_J a) (fun k => c (S i) k - c i k)) in *.
    set (mc := max_abs (cd_J a) (c (S i))) in *.
    assert (L1 : tol * - obj a b <= h1 * mx).
    { assert (tol * - obj a b <= tol * (h1 * mc)) by (apply Rmult_le_compat_l; lra).
      assert (h1 * (tol * mc) <= h1 * mx) by (apply Rmult_le_compat_l; lra). lra. }
    assert (L0 : 0 <= tol * - obj a b) by (apply Rmult_le_pos; lra).
    replace ((tol * obj a b) ^ 2) with ((tol * - obj a b) ^ 2) by ring.
    eapply Rle_trans; [apply pow_incr; split; [exact L0|exact L1]|].
    rewrite Rpow_mult_distr. apply Rmult_le_compat_l; [apply pow2_ge_0|exact M]. }
  pose proof (bsum_ge_const (n - 1) _ _ Big) as Sum.
  rewrite bsum_scal_l in Sum.
  pose proof (cd_progress a random perm d b c W Hb Hp Hd Hin (n - 1) (fun k Hk => Hc k ltac:(lia))) as P.
  pose proof (Hlow (c (n - 1)%nat) (Hbox (n - 1)%nat ltac:(lia))) as Lo.
  set (T := bsum (n - 1) (fun i => sqdist (cd_J a) (c (S i)) (c i))) in *.
  assert (D : d * T <= 2 * (obj a b - lowest)) by lra.
  assert (h1 ^ 2 * (d * T) <= h1 ^ 2 * (2 * (obj a b - lowest))) by (apply Rmult_le_compat_l; [apply pow2_ge_0|auto]).
  assert (d * (INR (n - 1) * (tol * obj a b) ^ 2) <= d * (h1 ^ 2 * T)) by (apply Rmult_le_compat_l; auto).
  lra.
Qed.

(** ** In terms of the arguments *)
Lemma mk_wf J x y reg isreg alpha lo up :
  symmetric J x -> psd J x -> 0 <= reg -> 0 <= alpha <= 1 -> cd_wf (mk_cd J x y reg isreg alpha lo up).
Proof. intros HS HP Hr Ha. split; [exact HS|split; [intros j Hj; apply psd_diag with J; auto|auto]]. Qed.

Lemma C98_lemma : forall J x y reg isreg alpha lo up random perm tol maxit b b' n,
  symmetric J x -> psd J x -> 0 <= reg -> 0 <= alpha <= 1 -> box_ok J lo up ->
  (forall i, Permutation (perm i) (seq 0 J)) -> 0 <= tol ->
  online_coordinate_descent (mk_cd J x y reg isreg alpha lo up) random perm tol maxit b = Ok (b', n) ->
  (n <= maxit)%nat ->
  forall t, in_box J lo up t ->
    (n = 1%nat \/ forall j, (j < J)%nat -> b' j = 0 -> t j = 0) ->
    enet_obj J x y reg isreg alpha b' + 1 / 2 * quad J x (fun k => t k - b' k)
    <= enet_obj J x y reg isreg alpha t
       + tol * max_abs J b' * bsum J (fun j => row_rest J x j * Rabs (t j - b' j)).
Proof.
  intros J x y reg isreg alpha lo up random perm tol maxit b b' n HS HP Hr Ha Hb Hp Ht H Hn t Hin Hz.
  exact (cd_accuracy (mk_cd J x y reg isreg alpha lo up) random perm tol maxit b b' n
    (mk_wf J x y reg isreg alpha lo up HS HP Hr Ha) Hb Hp Ht H Hn t Hin Hz).
Qed.

Lemma C99_lemma : forall J x y reg isreg alpha lo up random perm tol maxit b b' n d lowest,
  symmetric J x -> psd J x -> 0 <= reg -> 0 <= alpha <= 1 -> box_ok J lo up ->
  (forall i, Permutation (perm i) (seq 0 J)) -> 0 <= tol ->
  0 <= d -> (forall j, (j < J)%nat -> d <= x j j) -> in_box J lo up b ->
  (forall t, in_box J lo up t -> lowest <= enet_obj J x y reg isreg alpha t) ->
  enet_obj J x y reg isreg alpha b < 0 ->
  online_coordinate_descent (mk_cd J x y reg isreg alpha lo up) random perm tol maxit b = Ok (b', n) ->
  INR (n - 1) * d * (tol * enet_obj J x y reg isreg alpha b) ^ 2
    <= 2 * (enet_obj J x y reg isreg alpha b - lowest) * bsum J (fun j => Rabs (y j)) ^ 2.
Proof.
  intros J x y reg isreg alpha lo up random perm tol maxit b b' n d lowest HS HP Hr Ha Hb Hp Ht Hd0 Hd Hin Hlow Hneg H.
  refine (cd_sweep_bound (mk_cd J x y reg isreg alpha lo up) random perm tol maxit b b' n d lowest
    (mk_wf J x y reg isreg alpha lo up HS HP Hr Ha) HP Hb Hp Ht Hd0 _ Hin Hlow Hneg H).
  intros j Hj. specialize (Hd j Hj). unfold cd_den. cbn [cd_isreg cd_x cd_reg cd_alpha].
  destruct (isreg j); [|auto]. assert (0 <= reg * (1 - alpha)) by (apply Rmult_le_pos; lra).
  cbn [cd_J] in *. lra.
Qed.

Lemma C99_progress_lemma : forall J x y reg isreg alpha lo up random perm d b (c : nat -> vec) n,
  symmetric J x -> psd J x -> 0 <= reg -> 0 <= alpha <= 1 -> box_ok J lo up ->
  (forall i, Permutation (perm i) (seq 0 J)) ->
  (forall j, (j < J)%nat -> d <= x j j) -> in_box J lo up b ->
  (forall i, (i <= n)%nat -> cd_iter (mk_cd J x y reg isreg alpha lo up) random perm i b = Ok (c i)) ->
  enet_obj J x y reg isreg alpha (c n) + d / 2 * bsum n (fun i => sqdist J (c (S i)) (c i))
    <= enet_obj J x y reg isreg alpha b.
Proof.
  intros J x y reg isreg alpha lo up random perm d b c n HS HP Hr Ha Hb Hp Hd Hin Hc.
  refine (cd_progress (mk_cd J x y reg isreg alpha lo up) random perm d b c
    (mk_wf J x y reg isreg alpha lo up HS HP Hr Ha) Hb Hp _ Hin n Hc).
  intros j Hj. specialize (Hd j Hj). unfold cd_den. cbn [cd_isreg cd_x cd_reg cd_alpha].
  destruct (isreg j); [|auto]. assert (0 <= reg * (1 - alpha)) by (apply Rmult_le_pos; lra). lra.
Qed.

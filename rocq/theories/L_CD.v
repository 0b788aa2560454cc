(** Facts about the coordinate descent loop. *)
From Coq Require Import Reals List Bool Arith Lia Lra Psatz Permutation.
From Verif Require Import Base Lin M_CD S_CD L_CD1.
Import ListNotations.
Open Scope R_scope.

Definition obj (a : cd_args) (b : vec) : R :=
  enet_obj (cd_J a) (cd_x a) (cd_y a) (cd_reg a) (cd_isreg a) (cd_alpha a) b.

Lemma enet_obj_ext J G h l r al b b' : eqv J b b' -> enet_obj J G h l r al b = enet_obj J G h l r al b'.
Proof.
  intros H. unfold enet_obj. rewrite (quad_ext J G G b b') by (auto; intros ? ? ? ?; reflexivity).
  rewrite (dot_ext J h h b b') by (auto; intros ? ?; reflexivity).
  rewrite (bsum_ext J _ (fun j => if r j then al * Rabs (b' j) + (1 - al) / 2 * b' j ^ 2 else 0)); auto.
  intros i Hi. rewrite (H i Hi). reflexivity.
Qed.

Lemma vset_same b j v : vset b j v j = v.
Proof. unfold vset. rewrite Nat.eqb_refl. reflexivity. Qed.
Lemma vset_other b j v k : k <> j -> vset b j v k = b k.
Proof. intros H. unfold vset. destruct (Nat.eqb_spec k j); congruence. Qed.

Definition unitv (j : nat) : vec := fun k => if Nat.eqb k j then 1 else 0.

Lemma dot_unit p u j : (j < p)%nat -> dot p u (unitv j) = u j.
Proof.
  intros H. unfold dot, unitv. rewrite <- (bsum_delta p j u H). apply bsum_ext. intros i _.
  destruct (Nat.eqb i j); lra.
Qed.
Lemma mvec_unit p A j i : (j < p)%nat -> mvec p A (unitv j) i = A i j.
Proof. intros H. apply (dot_unit p (A i) j H). Qed.
Lemma vset_decomp b j t k : vset b j t k = vset b j 0 k + t * unitv j k.
Proof. unfold vset, unitv. destruct (Nat.eqb k j); lra. Qed.

(** The threshold used for coordinate [j]. *)
Definition cd_thr (a : cd_args) (j : nat) : R := if cd_isreg a j then cd_alpha a * cd_reg a else 0.

Lemma partial_off a b j : (j < cd_J a)%nat ->
  cd_partial a b j = cd_y a j - mvec (cd_J a) (cd_x a) (vset b j 0) j.
Proof.
  intros Hj. unfold cd_partial, mvec. rewrite (bsum_split (cd_J a) j) by auto.
  rewrite (bsum_split (cd_J a) j (fun k => cd_x a j k * vset b j 0 k)) by auto.
  rewrite vset_same.
  rewrite (bsum_ext (cd_J a) (fun i => if (i =? j)%nat then 0 else cd_x a j i * vset b j 0 i)
             (fun i => if (i =? j)%nat then 0 else cd_x a j i * b i)).
  - ring.
  - intros i _. unfold vset. destruct (Nat.eqb i j); reflexivity.
Qed.

Lemma partial_vset a b j t : (j < cd_J a)%nat -> cd_partial a (vset b j t) j = cd_partial a b j.
Proof.
  intros Hj. rewrite !partial_off by auto. f_equal. apply bsum_ext. intros i _.
  unfold vset. destruct (Nat.eqb i j); reflexivity.
Qed.

(** The objective as a function of one coordinate. *)
Lemma obj_coord a b j t : symmetric (cd_J a) (cd_x a) -> (j < cd_J a)%nat ->
  obj a (vset b j t) - obj a (vset b j 0) = f1 (cd_den a j) (cd_partial a b j) (cd_thr a j) t.
Proof.
  intros HS Hj. unfold obj, enet_obj.
  pose (J := cd_J a). fold J. fold J in HS, Hj.
  rewrite (quad_ext J (cd_x a) (cd_x a) (vset b j t) (fun k => vset b j 0 k + t * unitv j k))
    by (try (intros ? ? ? ?; reflexivity); intros k _; apply vset_decomp).
  rewrite quad_plus by auto. rewrite quad_scal.
  assert (E1 : dot J (vset b j 0) (mvec J (cd_x a) (fun k => t * unitv j k))
               = t * mvec J (cd_x a) (vset b j 0) j).
  { rewrite dot_mvec_sym by auto. rewrite dot_scal_r, dot_unit by auto. reflexivity. }
  rewrite E1.
  assert (E2 : quad J (cd_x a) (unitv j) = cd_x a j j).
  { unfold quad. rewrite dot_comm, dot_unit by auto. apply mvec_unit; auto. }
  rewrite E2.
  rewrite (dot_ext J (cd_y a) (cd_y a) (vset b j t) (fun k => vset b j 0 k + t * unitv j k))
    by (try (intros ? ?; reflexivity); intros k _; apply vset_decomp).
  rewrite dot_plus_r, dot_scal_r, dot_unit by auto.
  rewrite (bsum_split J j (fun j0 => if cd_isreg a j0 then cd_alpha a * Rabs (vset b j t j0) + (1 - cd_alpha a) / 2 * vset b j t j0 ^ 2 else 0)) by auto.
  rewrite (bsum_split J j (fun j0 => if cd_isreg a j0 then cd_alpha a * Rabs (vset b j 0 j0) + (1 - cd_alpha a) / 2 * vset b j 0 j0 ^ 2 else 0)) by auto.
  rewrite !vset_same.
  rewrite (bsum_ext J _ (fun i => if (i =? j)%nat then 0 else
     if cd_isreg a i then cd_alpha a * Rabs (vset b j 0 i) + (1 - cd_alpha a) / 2 * vset b j 0 i ^ 2 else 0)).
  2:{ intros i _. unfold vset. destruct (Nat.eqb i j); reflexivity. }
  rewrite partial_off by auto. fold J. unfold f1, cd_den, cd_thr.
  destruct (cd_isreg a j); rewrite ?Rabs_R0; field.
Qed.

Lemma obj_vset_self a b j : obj a (vset b j (b j)) = obj a b.
Proof.
  apply enet_obj_ext. intros k _. unfold vset. destruct (Nat.eqb_spec k j); congruence.
Qed.

Lemma st_0 c : soft_threshold c 0 = c.
Proof.
  destruct (st_cases c 0 (Rle_refl 0)) as [[_ ->]|[[_ ->]|[H ->]]]; try lra.
  apply Rabs_le_inv' in H. lra.
Qed.

Lemma num_st a b j : cd_num a b j = soft_threshold (cd_partial a b j) (cd_thr a j).
Proof. unfold cd_num, cd_thr. destruct (cd_isreg a j); auto using eq_sym, st_0. Qed.

Lemma coord_ok a b j v : cd_coord a b j = Ok v ->
  cd_den a j <> 0 /\
  v = clip (cd_lo a j) (cd_up a j) (soft_threshold (cd_partial a b j) (cd_thr a j) / cd_den a j).
Proof.
  unfold cd_coord. rcase; [discriminate|]. intros [= <-]. split; auto.
  rewrite num_st. reflexivity.
Qed.

(** Well-formed problem. *)
Definition cd_wf (a : cd_args) : Prop :=
  symmetric (cd_J a) (cd_x a) /\ (forall j, (j < cd_J a)%nat -> 0 <= cd_x a j j) /\
  0 <= cd_reg a /\ 0 <= cd_alpha a <= 1.

Lemma wf_thr a j : cd_wf a -> 0 <= cd_thr a j.
Proof.
  intros (_ & _ & Hr & Ha). unfold cd_thr. destruct (cd_isreg a j); [|lra]. apply Rmult_le_pos; lra.
Qed.
Lemma wf_den a j : cd_wf a -> (j < cd_J a)%nat -> 0 <= cd_den a j.
Proof.
  intros (_ & Hd & Hr & Ha) Hj. unfold cd_den. specialize (Hd j Hj).
  destruct (cd_isreg a j); [|lra]. assert (0 <= cd_reg a * (1 - cd_alpha a)) by (apply Rmult_le_pos; lra). lra.
Qed.

(** One coordinate update decreases the objective by at least
    [1/2 d (change)^2]. *)
Lemma coord_descent a b j v : cd_wf a -> (j < cd_J a)%nat ->
  above (cd_lo a j) (b j) -> below (cd_up a j) (b j) ->
  cd_coord a b j = Ok v ->
  obj a (vset b j v) + 1 / 2 * cd_den a j * (b j - v) ^ 2 <= obj a b /\ 0 < cd_den a j.
Proof.
  intros W Hj Hl Hu Hv. apply coord_ok in Hv. destruct Hv as [Hd ->].
  pose proof (wf_den a j W Hj).
  assert (D : 0 < cd_den a j) by lra. split; auto.
  pose proof (f1_clip_min (cd_den a j) (cd_partial a b j) (cd_thr a j) _ _ (b j) D (wf_thr a j W) Hl Hu) as F.
  cbv zeta in F.
  pose proof (obj_coord a b j (b j) (proj1 W) Hj) as E1. rewrite obj_vset_self in E1.
  pose proof (obj_coord a b j (clip (cd_lo a j) (cd_up a j)
      (soft_threshold (cd_partial a b j) (cd_thr a j) / cd_den a j)) (proj1 W) Hj) as E2.
  lra.
Qed.

(** ** Sweeps *)

Definition boxed (a : cd_args) (b : vec) : Prop := in_box (cd_J a) (cd_lo a) (cd_up a) b.
Definition box_wf (a : cd_args) : Prop := box_ok (cd_J a) (cd_lo a) (cd_up a).

Lemma visit_cases a first b j b' : cd_visit a first b j = Ok b' ->
  b' = b \/ exists v, cd_coord a b j = Ok v /\ b' = vset b j v.
Proof.
  unfold cd_visit. destruct (first || negb (Reqb (b j) 0)); [|intros [= <-]; auto].
  destruct (cd_coord a b j) as [v|e]; simpl; [|discriminate]. intros [= <-]. right; eauto.
Qed.

Lemma visit_boxed a first b j b' : box_wf a -> boxed a b -> (j < cd_J a)%nat ->
  cd_visit a first b j = Ok b' -> boxed a b'.
Proof.
  intros Hb Hin Hj Hv. destruct (visit_cases _ _ _ _ _ Hv) as [->|[v [Hc ->]]]; auto.
  apply coord_ok in Hc. destruct Hc as [_ ->]. intros k Hk. unfold vset.
  destruct (Nat.eqb_spec k j) as [->|]; [|apply Hin; auto]. apply clip_in. apply (Hb j Hj).
Qed.

Lemma visit_descent a first b j b' : cd_wf a -> boxed a b -> (j < cd_J a)%nat ->
  cd_visit a first b j = Ok b' -> obj a b' <= obj a b.
Proof.
  intros W Hin Hj Hv. destruct (visit_cases _ _ _ _ _ Hv) as [->|[v [Hc ->]]]; [lra|].
  destruct (Hin j Hj) as [Hl Hu].
  destruct (coord_descent a b j v W Hj Hl Hu Hc) as [H D].
  assert (0 <= 1 / 2 * cd_den a j * (b j - v) ^ 2).
  { apply Rmult_le_pos; [lra|apply pow2_ge_0]. }
  lra.
Qed.

Lemma sweep_inv a first JJ : box_wf a -> (forall j, In j JJ -> (j < cd_J a)%nat) ->
  forall b b', boxed a b -> cd_sweep a first JJ b = Ok b' -> boxed a b'.
Proof.
  intros Hb. induction JJ as [|j JJ IH]; simpl; intros HJ b b' Hin H; [injection H as <-; auto|].
  destruct (cd_visit a first b j) as [b1|] eqn:E; simpl in H; [|discriminate].
  apply (IH (fun k Hk => HJ k (or_intror Hk)) b1 b'); auto. eapply visit_boxed; eauto.
Qed.

Lemma sweep_descent a first JJ : cd_wf a -> box_wf a -> (forall j, In j JJ -> (j < cd_J a)%nat) ->
  forall b b', boxed a b -> cd_sweep a first JJ b = Ok b' -> obj a b' <= obj a b.
Proof.
  intros W Hb. induction JJ as [|j JJ IH]; simpl; intros HJ b b' Hin H; [injection H as <-; lra|].
  destruct (cd_visit a first b j) as [b1|] eqn:E; simpl in H; [|discriminate].
  assert (obj a b1 <= obj a b) by (eapply visit_descent; eauto).
  assert (obj a b' <= obj a b1); [|lra].
  apply (IH (fun k Hk => HJ k (or_intror Hk)) b1 b'); auto. eapply visit_boxed; eauto.
Qed.

(** A full first sweep puts every coordinate into the box, whatever the start. *)
Lemma sweep_first_boxed a JJ : box_wf a ->
  forall b b', cd_sweep a true JJ b = Ok b' ->
  forall j, (j < cd_J a)%nat ->
    (In j JJ \/ (above (cd_lo a j) (b j) /\ below (cd_up a j) (b j))) ->
    above (cd_lo a j) (b' j) /\ below (cd_up a j) (b' j).
Proof.
  intros Hb. induction JJ as [|i JJ IH]; simpl; intros b b' H j Hj Hor.
  { injection H as <-. tauto. }
  unfold cd_visit in H; simpl in H.
  destruct (cd_coord a b i) as [v|] eqn:E; simpl in H; [|discriminate].
  apply (IH _ _ H j Hj). destruct (Nat.eq_dec j i) as [->|Hne].
  - right. rewrite vset_same. apply coord_ok in E. destruct E as [_ ->]. apply clip_in, (Hb i Hj).
  - rewrite vset_other by auto. destruct Hor as [[->|]|]; [congruence|auto|auto].
Qed.

(** Orders produced by the loop. *)
Definition perm_ok (J : nat) (perm : nat -> list nat) : Prop :=
  forall i, Permutation (perm i) (seq 0 J).

Lemma order_perm a random perm i : perm_ok (cd_J a) perm ->
  Permutation (cd_order a random perm i) (seq 0 (cd_J a)).
Proof. intros H. unfold cd_order. destruct (random && (2 <=? i)%nat); auto. Qed.
Lemma order_lt a random perm i : perm_ok (cd_J a) perm ->
  forall j, In j (cd_order a random perm i) -> (j < cd_J a)%nat.
Proof.
  intros H j Hj. apply (Permutation_in j (order_perm a random perm i H)) in Hj.
  apply in_seq in Hj. lia.
Qed.

(** General loop induction: an invariant of sweeps holds at the end. *)
Lemma loop_inv (P : vec -> Prop) a random perm tol maxit :
  (forall i b b', (2 <= i)%nat -> P b -> cd_sweep a false (cd_order a random perm i) b = Ok b' -> P b') ->
  forall fuel i b b' n, (1 <= i)%nat -> P b ->
    cd_loop fuel a random perm tol maxit i b = Ok (b', n) -> P b'.
Proof.
  intros Hs. induction fuel as [|fuel IH]; cbn [cd_loop]; intros i b b' n Hi Hb H; [discriminate|].
  replace (S i <? 2)%nat with false in H by (symmetry; apply Nat.ltb_ge; lia).
  destruct (cd_sweep a false (cd_order a random perm (S i)) b) as [b1|] eqn:E; simpl in H; [|discriminate].
  assert (P b1) by (eapply (Hs (S i)); eauto; lia).
  destruct (Rleb _ _); [injection H as <- _; auto|].
  destruct (maxit <? S i)%nat; [injection H as <- _; auto|].
  eapply (IH (S i)); eauto; lia.
Qed.

Lemma cd_first a random perm tol maxit b b' n :
  online_coordinate_descent a random perm tol maxit b = Ok (b', n) ->
  exists b1, cd_sweep a true (seq 0 (cd_J a)) b = Ok b1 /\
    (b' = b1 \/ cd_loop maxit a random perm tol maxit 1 b1 = Ok (b', n)).
Proof.
  unfold online_coordinate_descent. cbn [cd_loop].
  change (1 <? 2)%nat with true.
  replace (cd_order a random perm 1) with (seq 0 (cd_J a))
    by (unfold cd_order; destruct random; reflexivity).
  destruct (cd_sweep a true (seq 0 (cd_J a)) b) as [b1|] eqn:E; simpl; [|discriminate].
  intros H. exists b1. split; auto.
  destruct (Rleb _ _); [injection H as <- _; auto|].
  destruct (maxit <? 1)%nat; [injection H as <- _; auto|]. auto.
Qed.

Theorem cd_descent a random perm tol maxit b b' n :
  cd_wf a -> box_wf a -> perm_ok (cd_J a) perm -> boxed a b ->
  online_coordinate_descent a random perm tol maxit b = Ok (b', n) ->
  obj a b' <= obj a b.
Proof.
  intros W Hb Hp Hin H. apply cd_first in H. destruct H as (b1 & E & H).
  assert (Hlt : forall j, In j (seq 0 (cd_J a)) -> (j < cd_J a)%nat)
    by (intros j Hj; apply in_seq in Hj; lia).
  assert (D1 : obj a b1 <= obj a b) by (eapply sweep_descent; eauto).
  assert (B1 : boxed a b1) by (eapply sweep_inv; eauto).
  destruct H as [->|H]; auto.
  assert (K : boxed a b' /\ obj a b' <= obj a b); [|tauto].
  refine (loop_inv (fun b' => boxed a b' /\ obj a b' <= obj a b) a random perm tol maxit _ _ _ _ _ _ _ _ H); auto.
  intros i c c' Hi [Hc1 Hc2] Hs. split.
  - exact (sweep_inv a false _ Hb (order_lt a random perm i Hp) c c' Hc1 Hs).
  - assert (obj a c' <= obj a c); [|lra].
    exact (sweep_descent a false _ W Hb (order_lt a random perm i Hp) c c' Hc1 Hs).
Qed.

Theorem cd_boxed a random perm tol maxit b b' n :
  box_wf a -> perm_ok (cd_J a) perm ->
  online_coordinate_descent a random perm tol maxit b = Ok (b', n) -> boxed a b'.
Proof.
  intros Hb Hp H. apply cd_first in H. destruct H as (b1 & E & H).
  assert (B1 : boxed a b1).
  { intros j Hj. apply (sweep_first_boxed a _ Hb b b1 E j Hj). left. apply in_seq. lia. }
  destruct H as [->|H]; auto.
  refine (loop_inv (boxed a) a random perm tol maxit _ _ _ _ _ _ _ _ H); auto.
  intros i c c' Hi Hc Hs. exact (sweep_inv a false _ Hb (order_lt a random perm i Hp) c c' Hc Hs).
Qed.

(** ** Termination and errors *)
Lemma visit_zde a first b j e : cd_visit a first b j = Raise e -> e = ZeroDivisionError /\ cd_den a j = 0.
Proof.
  unfold cd_visit. destruct (first || _); [|discriminate]. unfold cd_coord.
  destruct (Reqb (cd_den a j) 0) eqn:E; simpl; [|discriminate]. intros [= <-].
  apply Reqb_true in E. auto.
Qed.
Lemma sweep_zde a first JJ : forall b e, cd_sweep a first JJ b = Raise e ->
  e = ZeroDivisionError /\ exists j, In j JJ /\ cd_den a j = 0.
Proof.
  induction JJ as [|j JJ IH]; simpl; intros b e H; [discriminate|].
  destruct (cd_visit a first b j) as [b1|] eqn:E; simpl in H.
  - destruct (IH _ _ H) as [-> (k & Hk & Hd)]. eauto.
  - injection H as <-. apply visit_zde in E. destruct E as [-> Hd]. eauto.
Qed.

Lemma loop_term a random perm tol maxit :
  forall fuel i b, (i + fuel = S maxit)%nat ->
  match cd_loop fuel a random perm tol maxit i b with
  | Ok (b', n) => (fuel = 0%nat \/ i < n <= S maxit)%nat /\
      ((n <= maxit)%nat -> exists c, cd_sweep a (n <? 2)%nat (cd_order a random perm n) c = Ok b' /\
           max_abs (cd_J a) (fun k => b' k - c k) <= tol * max_abs (cd_J a) b')
  | Raise e => (fuel = 0%nat /\ e = OutOfFuel) \/
      (fuel <> 0%nat /\ e = ZeroDivisionError /\ exists m j, In j (cd_order a random perm m) /\ cd_den a j = 0)
  end.
Proof.
  induction fuel as [|fuel IH]; cbn [cd_loop]; intros i b Hi; [auto|].
  destruct (cd_sweep a (S i <? 2)%nat (cd_order a random perm (S i)) b) as [b1|e] eqn:E; simpl.
  2:{ right. apply sweep_zde in E. destruct E as [-> (j & Hj & Hd)]. split; [lia|split; [auto|]].
      exists (S i), j. auto. }
  destruct (Rleb _ _) eqn:T.
  { apply Rleb_true in T. split; [lia|]. intros _. exists b. auto. }
  destruct (maxit <? S i)%nat eqn:M.
  { apply Nat.ltb_lt in M. split; [lia|]. intros. lia. }
  apply Nat.ltb_ge in M. specialize (IH (S i) b1 ltac:(lia)).
  destruct (cd_loop fuel a random perm tol maxit (S i) b1) as [[b' n]|e].
  - destruct IH as [[H|H] K]; [lia|]. split; [lia|auto].
  - destruct IH as [[H ->]|H]; [lia|]. right. split; [lia|tauto].
Qed.

Theorem cd_terminates a random perm tol maxit b :
  match online_coordinate_descent a random perm tol maxit b with
  | Ok (b', n) => (1 <= n <= maxit + 1)%nat /\
      ((n <= maxit)%nat -> exists c, cd_sweep a (n <? 2)%nat (cd_order a random perm n) c = Ok b' /\
           max_abs (cd_J a) (fun k => b' k - c k) <= tol * max_abs (cd_J a) b')
  | Raise e => e = ZeroDivisionError
  end.
Proof.
  pose proof (loop_term a random perm tol maxit (S maxit) 0 b eq_refl) as H.
  unfold online_coordinate_descent. destruct (cd_loop _ _ _ _ _ _ _ _) as [[b' n]|e].
  - destruct H as [H K]. split; [lia|auto].
  - destruct H as [[H _]|H]; [lia|tauto].
Qed.

Theorem cd_raises_iff a random perm tol maxit b : perm_ok (cd_J a) perm ->
  (online_coordinate_descent a random perm tol maxit b = Raise ZeroDivisionError
   <-> exists j, (j < cd_J a)%nat /\ cd_den a j = 0).
Proof.
  intros Hp. split.
  - intros H. pose proof (loop_term a random perm tol maxit (S maxit) 0 b eq_refl) as K.
    unfold online_coordinate_descent in H. rewrite H in K.
    destruct K as [[K _]|(_ & _ & m & j & Hj & Hd)]; [lia|].
    exists j. split; auto. eapply order_lt; eauto.
  - intros (j & Hj & Hd). unfold online_coordinate_descent. cbn [cd_loop].
    change (1 <? 2)%nat with true.
    replace (cd_order a random perm 1) with (seq 0 (cd_J a))
      by (unfold cd_order; destruct random; reflexivity).
    destruct (cd_sweep a true (seq 0 (cd_J a)) b) as [b1|e] eqn:E.
    + exfalso. assert (Hin : In j (seq 0 (cd_J a))) by (apply in_seq; lia).
      clear Hj. revert b b1 E. induction (seq 0 (cd_J a)) as [|k JJ IH]; simpl; intros b b1 E; [easy|].
      destruct (cd_visit a true b k) as [b2|] eqn:V; simpl in E; [|discriminate].
      destruct Hin as [->|Hin]; [|apply (IH Hin b2 b1 E)].
      unfold cd_visit in V. simpl in V. unfold cd_coord in V. rewrite Hd in V.
      replace (Reqb 0 0) with true in V by (symmetry; apply Reqb_true; auto). discriminate.
    + simpl. apply sweep_zde in E. destruct E as [-> _]. reflexivity.
Qed.

(** ** Zero coordinates stay zero after the first sweep *)
Lemma sweep_zero a JJ j : forall b b', b j = 0 -> cd_sweep a false JJ b = Ok b' -> b' j = 0.
Proof.
  induction JJ as [|i JJ IH]; simpl; intros b b' Hz H; [injection H as <-; auto|].
  destruct (cd_visit a false b i) as [b1|] eqn:E; simpl in H; [|discriminate].
  apply (IH b1 b'); auto. unfold cd_visit in E. simpl in E.
  destruct (Reqb (b i) 0) eqn:Q; simpl in E; [injection E as <-; auto|].
  apply Reqb_false in Q.
  destruct (cd_coord a b i) as [v|]; simpl in E; [|discriminate]. injection E as <-.
  rewrite vset_other; congruence.
Qed.

Theorem cd_zero_stays a random perm tol maxit b b' n b1 j :
  online_coordinate_descent a random perm tol maxit b = Ok (b', n) ->
  cd_sweep a true (seq 0 (cd_J a)) b = Ok b1 -> b1 j = 0 -> b' j = 0.
Proof.
  intros H E Hz. apply cd_first in H. destruct H as (b2 & E2 & H).
  assert (b2 = b1) by congruence. subst b2. destruct H as [->|H]; auto.
  refine (loop_inv (fun b => b j = 0) a random perm tol maxit _ _ _ _ _ _ _ _ H); auto.
  intros i c c' _ Hc Hs. eapply sweep_zero; eauto.
Qed.

(** ** A fixed point of all coordinate updates is a global minimiser *)
Lemma vi_sum_min J G h l (r : nat -> bool) al (b b' : vec) :
  symmetric J G -> psd J G -> 0 <= l -> 0 <= al <= 1 ->
  (forall j, (j < J)%nat ->
     vi (if r j then G j j + l * (1 - al) else G j j)
        (h j - mvec J G (vset b j 0) j)
        (if r j then al * l else 0) (b j) (b' j)) ->
  enet_obj J G h l r al b <= enet_obj J G h l r al b'.
Proof.
  intros HS HP Hl Ha HV.
  pose (dl := fun k => b' k - b k).
  assert (Q : quad J G b' = quad J G b + 2 * dot J dl (mvec J G b) + quad J G dl).
  { rewrite (quad_ext J G G b' (fun k => b k + dl k))
      by (try (intros ? ? ? ?; reflexivity); intros k _; unfold dl; ring).
    rewrite quad_plus by auto. rewrite dot_mvec_sym by auto. rewrite (dot_comm J (mvec J G b)). ring. }
  assert (Y : dot J h b' = dot J h b + dot J dl h).
  { rewrite (dot_ext J h h b' (fun k => b k + dl k))
      by (try (intros ? ?; reflexivity); intros k _; unfold dl; ring).
    rewrite dot_plus_r. rewrite (dot_comm J dl h). ring. }
  unfold enet_obj. rewrite Q, Y.
  pose proof (HP dl) as HQ.
  assert (S : 0 <= bsum J (fun j => dl j * mvec J G b j - dl j * h j
     + l * ((if r j then al * Rabs (b' j) + (1 - al) / 2 * b' j ^ 2 else 0)
            - (if r j then al * Rabs (b j) + (1 - al) / 2 * b j ^ 2 else 0)))).
  { apply bsum_nonneg. intros j Hj. specialize (HV j Hj). unfold vi in HV.
    assert (M : mvec J G b j = mvec J G (vset b j 0) j + G j j * b j).
    { unfold mvec. rewrite (bsum_split J j) by auto.
      rewrite (bsum_split J j (fun k => G j k * vset b j 0 k)) by auto. rewrite vset_same.
      rewrite (bsum_ext J (fun i => if (i =? j)%nat then 0 else G j i * vset b j 0 i)
          (fun i => if (i =? j)%nat then 0 else G j i * b i)).
      - ring.
      - intros i _. unfold vset. destruct (Nat.eqb i j); reflexivity. }
    rewrite M. fold (dl j) in HV. destruct (r j).
    - assert (0 <= l * ((1 - al) / 2 * (dl j) ^ 2)).
      { apply Rmult_le_pos; auto. apply Rmult_le_pos; [lra|apply pow2_ge_0]. }
      unfold dl in *. lra.
    - unfold dl in *. lra. }
  rewrite bsum_plus, bsum_scal_l, !bsum_minus in S.
  change (bsum J (fun i => dl i * mvec J G b i)) with (dot J dl (mvec J G b)) in S.
  change (bsum J (fun i => dl i * h i)) with (dot J dl h) in S. lra.
Qed.

Theorem cd_fixed_optimal a b :
  cd_wf a -> psd (cd_J a) (cd_x a) -> box_wf a ->
  (forall j, (j < cd_J a)%nat -> cd_coord a b j = Ok (b j)) ->
  enet_minimiser (cd_J a) (cd_x a) (cd_y a) (cd_reg a) (cd_isreg a) (cd_alpha a)
    (cd_lo a) (cd_up a) b.
Proof.
  intros W HP Hb Hfix. split.
  - intros j Hj. specialize (Hfix j Hj). apply coord_ok in Hfix. destruct Hfix as [_ ->].
    apply clip_in, (Hb j Hj).
  - intros b' Hin. apply vi_sum_min; auto; try apply W.
    intros j Hj. pose proof (Hfix j Hj) as Hc. apply coord_ok in Hc. destruct Hc as [Hd Ec].
    pose proof (wf_den a j W Hj). destruct (Hin j Hj) as [Hl Hu].
    pose proof (vi_clip (cd_den a j) (cd_partial a b j) (cd_thr a j) _ _ (b' j)
       ltac:(lra) (wf_thr a j W) Hl Hu) as V.
    rewrite <- Ec in V. rewrite partial_off in V by auto. exact V.
Qed.

(** Conversely a minimiser is a fixed point when no denominator vanishes. *)
Theorem cd_optimal_fixed a b j :
  cd_wf a -> box_wf a -> (j < cd_J a)%nat -> cd_den a j <> 0 ->
  enet_minimiser (cd_J a) (cd_x a) (cd_y a) (cd_reg a) (cd_isreg a) (cd_alpha a)
    (cd_lo a) (cd_up a) b ->
  cd_coord a b j = Ok (b j).
Proof.
  intros W Hb Hj Hd [Hin Hmin].
  destruct (cd_coord a b j) as [v|e] eqn:E.
  - destruct (Hin j Hj) as [Hl Hu].
    destruct (coord_descent a b j v W Hj Hl Hu E) as [D P].
    assert (B : in_box (cd_J a) (cd_lo a) (cd_up a) (vset b j v)).
    { apply coord_ok in E. destruct E as [_ ->]. intros k Hk. unfold vset.
      destruct (Nat.eqb_spec k j) as [->|]; [|apply Hin; auto]. apply clip_in, (Hb j Hj). }
    specialize (Hmin _ B). unfold obj in D.
    assert (Z : (b j - v) ^ 2 <= 0).
    { apply Rmult_le_reg_l with (1 / 2 * cd_den a j); [lra|]. lra. }
    pose proof (pow2_ge_0 (b j - v)). f_equal.
    assert (Zr : (b j - v) ^ 2 = 0) by lra.
    assert (b j - v = 0); [|lra]. simpl in Zr. nra.
  - unfold cd_coord in E. exfalso. revert E. rcase; [contradiction|discriminate].
Qed.

(** Library: vectors and matrices as index functions with explicit dimension.
    No code of the project is modelled here. *)
From Coq Require Import Reals List Lia Lra.
From Verif Require Import Base.
Import ListNotations.
Open Scope R_scope.

Definition vec := nat -> R.
Definition mat := nat -> nat -> R.

(** Equality on the indices that exist in an array of length / shape [p]. *)
Definition eqv (p : nat) (u v : vec) : Prop := forall i, (i < p)%nat -> u i = v i.
Definition eqm (p : nat) (A B : mat) : Prop :=
  forall i j, (i < p)%nat -> (j < p)%nat -> A i j = B i j.

Definition dot (p : nat) (u v : vec) : R := bsum p (fun k => u k * v k).
Definition mvec (p : nat) (A : mat) (v : vec) : vec := fun i => bsum p (fun k => A i k * v k).
Definition mmul (p : nat) (A B : mat) : mat := fun i j => bsum p (fun k => A i k * B k j).
Definition outer (u v : vec) : mat := fun i j => u i * v j.
Definition mid : mat := fun i j => if Nat.eqb i j then 1 else 0.
Definition quad (p : nat) (A : mat) (v : vec) : R := dot p v (mvec p A v).

Definition symmetric (p : nat) (A : mat) : Prop :=
  forall i j, (i < p)%nat -> (j < p)%nat -> A i j = A j i.
Definition psd (p : nat) (A : mat) : Prop := forall v, 0 <= quad p A v.
(** [B] is a two-sided inverse of [A]. *)
Definition is_inverse (p : nat) (A B : mat) : Prop :=
  eqm p (mmul p A B) mid /\ eqm p (mmul p B A) mid.

Lemma dot_comm p u v : dot p u v = dot p v u.
Proof. apply bsum_ext. intros; ring. Qed.
Lemma dot_ext p u u' v v' : eqv p u u' -> eqv p v v' -> dot p u v = dot p u' v'.
Proof. intros Hu Hv. apply bsum_ext. intros i Hi. rewrite Hu, Hv by auto. reflexivity. Qed.
Lemma mvec_ext p A A' v v' :
  eqm p A A' -> eqv p v v' -> eqv p (mvec p A v) (mvec p A' v').
Proof.
  intros HA Hv i Hi. apply bsum_ext. intros k Hk. rewrite HA, Hv by auto. reflexivity.
Qed.
Lemma mmul_ext p A A' B B' :
  eqm p A A' -> eqm p B B' -> eqm p (mmul p A B) (mmul p A' B').
Proof.
  intros HA HB i j Hi Hj. apply bsum_ext. intros k Hk. rewrite HA, HB by auto. reflexivity.
Qed.
Lemma eqm_sym p A B : eqm p A B -> eqm p B A.
Proof. intros H i j Hi Hj. symmetry; auto. Qed.
Lemma eqm_trans p A B C : eqm p A B -> eqm p B C -> eqm p A C.
Proof. intros H K i j Hi Hj. rewrite H, K; auto. Qed.
Lemma eqv_sym p u v : eqv p u v -> eqv p v u.
Proof. intros H i Hi. symmetry; auto. Qed.
Lemma eqv_trans p u v w : eqv p u v -> eqv p v w -> eqv p u w.
Proof. intros H K i Hi. rewrite H, K; auto. Qed.
Lemma mmul_assoc p A B C : eqm p (mmul p (mmul p A B) C) (mmul p A (mmul p B C)).
Proof.
  intros i j Hi Hj. unfold mmul.
  rewrite (bsum_ext p _ (fun k => bsum p (fun l => A i l * B l k * C k j))).
  2:{ intros k Hk. rewrite bsum_scal_r. reflexivity. }
  rewrite bsum_swap. apply bsum_ext. intros l Hl.
  rewrite <- bsum_scal_l. apply bsum_ext. intros; ring.
Qed.
Lemma mvec_mmul p A B v : eqv p (mvec p (mmul p A B) v) (mvec p A (mvec p B v)).
Proof.
  intros i Hi. unfold mvec, mmul.
  rewrite (bsum_ext p _ (fun k => bsum p (fun l => A i l * B l k * v k))).
  2:{ intros k Hk. rewrite bsum_scal_r. reflexivity. }
  rewrite bsum_swap. apply bsum_ext. intros l Hl.
  rewrite <- bsum_scal_l. apply bsum_ext. intros; ring.
Qed.
Lemma mmul_id_l p A : eqm p (mmul p mid A) A.
Proof.
  intros i j Hi Hj. unfold mmul, mid.
  rewrite (bsum_ext p _ (fun k => if Nat.eqb k i then A k j else 0)).
  - apply (bsum_delta p i (fun k => A k j) Hi).
  - intros k Hk. rewrite Nat.eqb_sym. destruct (Nat.eqb k i); ring.
Qed.
Lemma mmul_id_r p A : eqm p (mmul p A mid) A.
Proof.
  intros i j Hi Hj. unfold mmul, mid.
  rewrite (bsum_ext p _ (fun k => if Nat.eqb k j then A i k else 0)).
  - apply (bsum_delta p j (fun k => A i k) Hj).
  - intros k Hk. destruct (Nat.eqb k j); ring.
Qed.
Lemma mvec_id p v : eqv p (mvec p mid v) v.
Proof.
  intros i Hi. unfold mvec, mid.
  rewrite (bsum_ext p _ (fun k => if Nat.eqb k i then v k else 0)).
  - apply (bsum_delta p i v Hi).
  - intros k Hk. rewrite Nat.eqb_sym. destruct (Nat.eqb k i); ring.
Qed.
Lemma dot_mvec_sym p A u v :
  symmetric p A -> dot p u (mvec p A v) = dot p (mvec p A u) v.
Proof.
  intros HA. unfold dot, mvec.
  rewrite (bsum_ext p _ (fun i => bsum p (fun k => u i * A i k * v k))).
  2:{ intros i Hi. rewrite <- bsum_scal_l. apply bsum_ext. intros; ring. }
  rewrite bsum_swap. apply bsum_ext. intros k Hk.
  rewrite <- bsum_scal_r. apply bsum_ext. intros i Hi. rewrite (HA i k Hi Hk). ring.
Qed.
Lemma quad_ext p A A' v v' : eqm p A A' -> eqv p v v' -> quad p A v = quad p A' v'.
Proof. intros HA Hv. apply dot_ext; auto. apply mvec_ext; auto. Qed.

(** Inverses are unique, and inverses of symmetric matrices are symmetric. *)
Lemma is_inverse_unique p A B C : is_inverse p A B -> is_inverse p A C -> eqm p B C.
Proof.
  intros [_ HB] [HC _].
  apply eqm_trans with (mmul p (mmul p B A) C).
  - apply eqm_trans with (mmul p B mid).
    + apply eqm_sym, mmul_id_r.
    + apply eqm_trans with (mmul p B (mmul p A C)).
      * apply mmul_ext; [intros i j; reflexivity | apply eqm_sym; exact HC].
      * apply eqm_sym, mmul_assoc.
  - apply eqm_trans with (mmul p mid C).
    + apply mmul_ext; [exact HB | intros i j; reflexivity].
    + apply mmul_id_l.
Qed.
Lemma is_inverse_ext p A A' B B' :
  eqm p A A' -> eqm p B B' -> is_inverse p A B -> is_inverse p A' B'.
Proof.
  intros HA HB [H1 H2]. split.
  - eapply eqm_trans; [|exact H1]. apply mmul_ext; apply eqm_sym; auto.
  - eapply eqm_trans; [|exact H2]. apply mmul_ext; apply eqm_sym; auto.
Qed.
Definition transp (A : mat) : mat := fun i j => A j i.
Lemma mmul_transp p A B : eqm p (mmul p (transp A) (transp B)) (transp (mmul p B A)).
Proof. intros i j Hi Hj. unfold transp, mmul. apply bsum_ext. intros; ring. Qed.
Lemma mid_sym p : symmetric p mid.
Proof. intros i j _ _. unfold mid. rewrite Nat.eqb_sym. reflexivity. Qed.
Lemma is_inverse_transp p A B : is_inverse p A B -> is_inverse p (transp A) (transp B).
Proof.
  intros [H1 H2]. split; intros i j Hi Hj.
  - rewrite mmul_transp by auto. unfold transp. rewrite H2 by auto. apply mid_sym with p; auto.
  - rewrite mmul_transp by auto. unfold transp. rewrite H1 by auto. apply mid_sym with p; auto.
Qed.
Lemma inverse_symmetric p A B : symmetric p A -> is_inverse p A B -> symmetric p B.
Proof.
  intros HA HB i j Hi Hj.
  assert (K : is_inverse p A (transp B)).
  { apply is_inverse_ext with (transp A) (transp B).
    - intros a b Ha Hb. unfold transp. apply HA; auto.
    - intros a b _ _; reflexivity.
    - apply is_inverse_transp; auto. }
  apply (is_inverse_unique p A B (transp B) HB K); auto.
Qed.
Lemma inverse_sym_rel p A B : is_inverse p A B -> is_inverse p B A.
Proof. intros [H1 H2]. split; auto. Qed.
Lemma inverse_mvec p A B v : is_inverse p A B -> eqv p (mvec p A (mvec p B v)) v.
Proof.
  intros [H _]. apply eqv_trans with (mvec p (mmul p A B) v).
  - apply eqv_sym, mvec_mmul.
  - apply eqv_trans with (mvec p mid v); [|apply mvec_id].
    apply mvec_ext; [exact H | intros i; reflexivity].
Qed.
(** The inverse of a symmetric positive semidefinite matrix is positive semidefinite. *)
Lemma inverse_psd p A B : psd p A -> is_inverse p A B -> symmetric p A -> psd p B.
Proof.
  intros HA HB HS v. unfold quad.
  rewrite (dot_ext p v (mvec p A (mvec p B v)) (mvec p B v) (mvec p B v)).
  - rewrite dot_comm. apply (HA (mvec p B v)).
  - apply eqv_sym, inverse_mvec; auto.
  - intros i; reflexivity.
Qed.

(** * Bilinearity and positive semidefinite forms *)
Lemma dot_plus_l p u v w : dot p (fun i => u i + v i) w = dot p u w + dot p v w.
Proof. unfold dot. rewrite <- bsum_plus. apply bsum_ext. intros; ring. Qed.
Lemma dot_plus_r p u v w : dot p u (fun i => v i + w i) = dot p u v + dot p u w.
Proof. unfold dot. rewrite <- bsum_plus. apply bsum_ext. intros; ring. Qed.
Lemma dot_minus_l p u v w : dot p (fun i => u i - v i) w = dot p u w - dot p v w.
Proof. unfold dot. rewrite <- bsum_minus. apply bsum_ext. intros; ring. Qed.
Lemma dot_minus_r p u v w : dot p u (fun i => v i - w i) = dot p u v - dot p u w.
Proof. unfold dot. rewrite <- bsum_minus. apply bsum_ext. intros; ring. Qed.
Lemma dot_scal_l p c u v : dot p (fun i => c * u i) v = c * dot p u v.
Proof. unfold dot. rewrite <- bsum_scal_l. apply bsum_ext. intros; ring. Qed.
Lemma dot_scal_r p c u v : dot p u (fun i => c * v i) = c * dot p u v.
Proof. unfold dot. rewrite <- bsum_scal_l. apply bsum_ext. intros; ring. Qed.
Lemma mvec_plus p A u v i : mvec p A (fun k => u k + v k) i = mvec p A u i + mvec p A v i.
Proof. unfold mvec. rewrite <- bsum_plus. apply bsum_ext. intros; ring. Qed.
Lemma mvec_minus p A u v i : mvec p A (fun k => u k - v k) i = mvec p A u i - mvec p A v i.
Proof. unfold mvec. rewrite <- bsum_minus. apply bsum_ext. intros; ring. Qed.
Lemma mvec_scal p A c u i : mvec p A (fun k => c * u k) i = c * mvec p A u i.
Proof. unfold mvec. rewrite <- bsum_scal_l. apply bsum_ext. intros; ring. Qed.

Lemma quad_plus p A u v :
  symmetric p A ->
  quad p A (fun k => u k + v k) = quad p A u + 2 * dot p u (mvec p A v) + quad p A v.
Proof.
  intros HA. unfold quad.
  rewrite (dot_ext p (fun k => u k + v k) (fun k => u k + v k)
             (mvec p A (fun k => u k + v k)) (fun i => mvec p A u i + mvec p A v i)).
  2:{ intros i _; reflexivity. }
  2:{ intros i _; apply mvec_plus. }
  rewrite dot_plus_l, !dot_plus_r.
  rewrite (dot_mvec_sym p A v u) by auto. rewrite (dot_comm p (mvec p A v) u). ring.
Qed.
Lemma quad_scal p A c u : quad p A (fun k => c * u k) = c * c * quad p A u.
Proof.
  unfold quad. rewrite (dot_ext p (fun k => c * u k) (fun k => c * u k)
     (mvec p A (fun k => c * u k)) (fun i => c * mvec p A u i)).
  - rewrite dot_scal_l, dot_scal_r. ring.
  - intros i _; reflexivity.
  - intros i _; apply mvec_scal.
Qed.
Lemma dot_self_nonneg p u : 0 <= dot p u u.
Proof. apply bsum_nonneg. intros. nra. Qed.
Lemma dot_self_zero p u : dot p u u = 0 -> forall i, (i < p)%nat -> u i = 0.
Proof.
  intros H i Hi.
  assert (u i * u i = 0).
  { apply (bsum_nonneg_zero p (fun k => u k * u k)); auto. intros; nra. }
  nra.
Qed.
Lemma psd_quad_zero p A v :
  symmetric p A -> psd p A -> quad p A v = 0 -> forall i, (i < p)%nat -> mvec p A v i = 0.
Proof.
  intros HS HP H0. apply dot_self_zero.
  pose (u := mvec p A v). pose (s := dot p u (mvec p A v)). change (s = 0).
  pose (q := quad p A u).
  assert (Hq : 0 <= q) by apply HP.
  assert (K : forall t, 0 <= 2 * (t * s) + t * t * q).
  { intros t. pose proof (HP (fun k => t * u k + v k)) as Hk.
    rewrite (quad_plus p A (fun k => t * u k) v HS) in Hk.
    rewrite quad_scal, dot_scal_l, H0 in Hk. fold q in Hk. fold s in Hk. lra. }
  specialize (K (- s / (q + 1))).
  assert (E : 2 * (- s / (q + 1) * s) + - s / (q + 1) * (- s / (q + 1)) * q
              = - (s * s) * ((q + 2) / ((q + 1) * (q + 1)))) by (field; lra).
  rewrite E in K.
  assert (Hp : 0 < (q + 2) / ((q + 1) * (q + 1))).
  { apply Rdiv_lt_0_compat; nra. }
  set (c := (q + 2) / ((q + 1) * (q + 1))) in *. clearbody c s. clear E.
  assert (s * s = 0) by nra. nra.
Qed.

(** Concrete vectors (for examples). *)
Definition vec_of (l : list R) : vec := fun i => nth i l 0.

(** Two-by-two inverse (for examples). *)
Lemma inverse_2x2 (G : mat) :
  G 0%nat 0%nat * G 1%nat 1%nat - G 0%nat 1%nat * G 1%nat 0%nat <> 0 ->
  exists B, is_inverse 2 G B.
Proof.
  intros H. set (d := G 0%nat 0%nat * G 1%nat 1%nat - G 0%nat 1%nat * G 1%nat 0%nat) in *.
  exists (fun i j => match i, j with
     | O, O => G 1%nat 1%nat / d | O, _ => - G 0%nat 1%nat / d
     | _, O => - G 1%nat 0%nat / d | _, _ => G 0%nat 0%nat / d end).
  split; intros i j Hi Hj;
  (destruct i as [|[|i]]; [| |exfalso; lia]); (destruct j as [|[|j]]; [| |exfalso; lia]);
  unfold mmul, mid; simpl; unfold d in *; field; assumption.
Qed.

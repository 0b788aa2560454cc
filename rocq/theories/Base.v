(** Library: result type, boolean comparisons on reals, finite sums.
    No code of the project is modelled here. *)
From Coq Require Import Reals List Lia Lra Bool Arith.
Import ListNotations.
Open Scope R_scope.

(** Python exceptions that the modelled code can raise. [OutOfFuel] is not a
    python exception: it marks exhausted recursion fuel of the model. Neither is
    [NanResult]: the code goes on with a NaN or an infinity, the model stops there. *)
Inductive exn : Type :=
| ValueError | TypeError | IndexError | ZeroDivisionError | KeyError
| AttributeError | NotFittedError | NotImplementedErr | OutOfSupportErr
| UnboundLocalErr | OutOfFuel | NanResult.

Inductive res (A : Type) : Type :=
| Ok (a : A)
| Raise (e : exn).
Arguments Ok {A} a.
Arguments Raise {A} e.

Definition bind {A B} (m : res A) (k : A -> res B) : res B :=
  match m with Ok a => k a | Raise e => Raise e end.

Notation "'do' x <- m ; k" := (bind m (fun x => k))
  (at level 200, x pattern, m at level 100, k at level 200).

(** Boolean comparisons. *)
Definition Rleb (a b : R) : bool := if Rle_dec a b then true else false.
Definition Rltb (a b : R) : bool := if Rlt_dec a b then true else false.
Definition Reqb (a b : R) : bool := if Req_EM_T a b then true else false.

Lemma Rleb_true a b : Rleb a b = true <-> a <= b.
Proof. unfold Rleb. destruct (Rle_dec a b); split; intros; try easy; lra. Qed.
Lemma Rleb_false a b : Rleb a b = false <-> b < a.
Proof. unfold Rleb. destruct (Rle_dec a b); split; intros; try easy; lra. Qed.
Lemma Rltb_true a b : Rltb a b = true <-> a < b.
Proof. unfold Rltb. destruct (Rlt_dec a b); split; intros; try easy; lra. Qed.
Lemma Rltb_false a b : Rltb a b = false <-> b <= a.
Proof. unfold Rltb. destruct (Rlt_dec a b); split; intros; try easy; lra. Qed.
Lemma Reqb_true a b : Reqb a b = true <-> a = b.
Proof. unfold Reqb. destruct (Req_EM_T a b); split; intros; try easy; lra. Qed.
Lemma Reqb_false a b : Reqb a b = false <-> a <> b.
Proof. unfold Reqb. destruct (Req_EM_T a b); split; intros; try easy; lra. Qed.

(** Case split on the comparisons occurring in the goal. *)
Ltac rcase :=
  match goal with
  | |- context [Rleb ?a ?b] =>
      let H := fresh "Hc" in
      destruct (Rleb a b) eqn:H;
      [apply Rleb_true in H | apply Rleb_false in H]
  | |- context [Rltb ?a ?b] =>
      let H := fresh "Hc" in
      destruct (Rltb a b) eqn:H;
      [apply Rltb_true in H | apply Rltb_false in H]
  | |- context [Reqb ?a ?b] =>
      let H := fresh "Hc" in
      destruct (Reqb a b) eqn:H;
      [apply Reqb_true in H | apply Reqb_false in H]
  end.

Fixpoint map2 {A B C} (f : A -> B -> C) (l : list A) (m : list B) : list C :=
  match l, m with
  | a :: l', b :: m' => f a b :: map2 f l' m'
  | _, _ => []
  end.

Lemma map2_length {A B C} (f : A -> B -> C) l m :
  length l = length m -> length (map2 f l m) = length l.
Proof.
  revert m; induction l as [|a l IH]; intros [|b m] H; simpl in *; try easy.
  f_equal. apply IH. lia.
Qed.

(** Sum of a list of reals. *)
Fixpoint lsum (l : list R) : R :=
  match l with [] => 0 | x :: t => x + lsum t end.

Lemma lsum_app l m : lsum (l ++ m) = lsum l + lsum m.
Proof. induction l as [|x l IH]; simpl; [lra | rewrite IH; lra]. Qed.

(** Sum over indices [0 .. n-1]. *)
Fixpoint bsum (n : nat) (f : nat -> R) : R :=
  match n with O => 0 | S m => bsum m f + f m end.

Lemma bsum_ext n f g : (forall i, (i < n)%nat -> f i = g i) -> bsum n f = bsum n g.
Proof.
  induction n as [|n IH]; simpl; intros H; auto.
  rewrite IH by (intros; apply H; lia). rewrite H by lia. reflexivity.
Qed.
Lemma bsum_0 n : bsum n (fun _ => 0) = 0.
Proof. induction n as [|n IH]; simpl; [|rewrite IH]; lra. Qed.
Lemma bsum_plus n f g : bsum n (fun i => f i + g i) = bsum n f + bsum n g.
Proof. induction n as [|n IH]; simpl; [|rewrite IH]; lra. Qed.
Lemma bsum_minus n f g : bsum n (fun i => f i - g i) = bsum n f - bsum n g.
Proof. induction n as [|n IH]; simpl; [|rewrite IH]; lra. Qed.
Lemma bsum_scal_l n c f : bsum n (fun i => c * f i) = c * bsum n f.
Proof. induction n as [|n IH]; simpl; [|rewrite IH]; lra. Qed.
Lemma bsum_scal_r n c f : bsum n (fun i => f i * c) = bsum n f * c.
Proof. induction n as [|n IH]; simpl; [|rewrite IH]; lra. Qed.
Lemma bsum_swap n m f :
  bsum n (fun i => bsum m (fun j => f i j)) = bsum m (fun j => bsum n (fun i => f i j)).
Proof.
  induction n as [|n IH]; simpl.
  - rewrite bsum_0. reflexivity.
  - rewrite IH, <- bsum_plus. reflexivity.
Qed.
Lemma bsum_nonneg n f : (forall i, (i < n)%nat -> 0 <= f i) -> 0 <= bsum n f.
Proof.
  induction n as [|n IH]; simpl; intros H; [lra|].
  assert (0 <= bsum n f) by (apply IH; intros; apply H; lia).
  assert (0 <= f n) by (apply H; lia). lra.
Qed.
Lemma bsum_le n f g : (forall i, (i < n)%nat -> f i <= g i) -> bsum n f <= bsum n g.
Proof.
  induction n as [|n IH]; simpl; intros H; [lra|].
  assert (bsum n f <= bsum n g) by (apply IH; intros; apply H; lia).
  assert (f n <= g n) by (apply H; lia). lra.
Qed.
Lemma bsum_delta n j f :
  (j < n)%nat -> bsum n (fun i => if Nat.eqb i j then f i else 0) = f j.
Proof.
  induction n as [|n IH]; intros H; [lia|]. simpl.
  destruct (Nat.eqb_spec n j) as [->|Hn].
  - rewrite (bsum_ext j _ (fun _ => 0)).
    + rewrite bsum_0. lra.
    + intros i Hi. destruct (Nat.eqb_spec i j); [lia|reflexivity].
  - rewrite IH by lia. lra.
Qed.
Lemma bsum_split n j f :
  (j < n)%nat ->
  bsum n f = f j + bsum n (fun i => if Nat.eqb i j then 0 else f i).
Proof.
  intros H. rewrite <- (bsum_delta n j f H), <- bsum_plus.
  apply bsum_ext. intros i _. destruct (Nat.eqb i j); lra.
Qed.
Lemma bsum_nonneg_zero n f :
  (forall i, (i < n)%nat -> 0 <= f i) -> bsum n f = 0 ->
  forall i, (i < n)%nat -> f i = 0.
Proof.
  induction n as [|n IH]; simpl; intros H H0 i Hi; [lia|].
  assert (0 <= bsum n f) by (apply bsum_nonneg; intros; apply H; lia).
  assert (0 <= f n) by (apply H; lia).
  destruct (Nat.eq_dec i n) as [->|]; [lra|].
  apply IH; [intros; apply H; lia | lra | lia].
Qed.

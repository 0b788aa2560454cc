From Coq Require Import Reals List Bool Arith Lra Lia Permutation FunctionalExtensionality.
From Verif Require Import Base Lin Data M_Gram M_Utils M_State M_LM M_GAMLSS L_GAM2 L_GAM10 L_GAM11.
Import ListNotations.
Open Scope R_scope.

(** Exchange of the rows [k] and [k + 1]. *)
Fixpoint swap {A} (k : nat) (l : list A) : list A :=
  match k, l with
  | O, a :: b :: t => b :: a :: t
  | S k', a :: t => a :: swap k' t
  | _, _ => l
  end.
Ltac swap_ind k := let IH := fresh "IH" in induction k as [|k IH];
  [intros [|? [|? ?]]; cbn; auto|intros [|? ?]; cbn; auto; try (f_equal; apply IH)].
Lemma swap_length {A} k : forall l : list A, length (swap k l) = length l.
Proof. swap_ind k. Qed.
Lemma swap_map {A B} (f : A -> B) k : forall l, swap k (map f l) = map f (swap k l).
Proof. swap_ind k. Qed.
Lemma swap_map2 {A B C} (f : A -> B -> C) k : forall l m, length l = length m -> swap k (map2 f l m) = map2 f (swap k l) (swap k m).
Proof.
  induction k as [|k IH].
  - intros [|a [|b t]] [|a' [|b' t']] H; cbn in H; try discriminate H; reflexivity.
  - intros [|a t] [|a' t'] H; cbn in H; try discriminate H; cbn [swap map2]; auto. f_equal. apply IH. lia.
Qed.
Lemma swap_combine {A B} k : forall (l : list A) (m : list B), length l = length m -> swap k (combine l m) = combine (swap k l) (swap k m).
Proof.
  induction k as [|k IH].
  - intros [|a [|b t]] [|a' [|b' t']] H; cbn in H; try discriminate H; reflexivity.
  - intros [|a t] [|a' t'] H; cbn in H; try discriminate H; cbn [swap combine]; auto. f_equal. apply IH. lia.
Qed.
Lemma swap_lsum k : forall l, lsum (swap k l) = lsum l.
Proof. swap_ind k. lra. Qed.
Lemma swap_forallb {A} (f : A -> bool) k : forall l, forallb f (swap k l) = forallb f l.
Proof. swap_ind k. now destruct (f a), (f a0). Qed.
Lemma swap_existsb {A} (f : A -> bool) k : forall l, existsb f (swap k l) = existsb f l.
Proof. swap_ind k. now destruct (f a), (f a0). Qed.
Lemma swap_repeat {A} (a : A) k : forall n, swap k (repeat a n) = repeat a n.
Proof. induction k as [|k IH]; [intros [|[|n]]|intros [|n]]; cbn; auto. f_equal. apply IH. Qed.
Lemma swap_perm {A} k : forall l : list A, Permutation l (swap k l).
Proof. induction k as [|k IH]; [intros [|a [|b t]]|intros [|a t]]; cbn; auto. apply perm_swap. Qed.
Lemma swap_one {A} k (a : A) : swap k [a] = [a].
Proof. destruct k as [|[|k]]; reflexivity. Qed.
Lemma swap_far {A} k : forall l : list A, (length l <= k)%nat -> swap k l = l.
Proof. induction k as [|k IH]; [intros [|a [|b t]]|intros [|a t]]; cbn; intros H; auto; try lia. f_equal. apply IH. lia. Qed.
Lemma swap_all_some {A} k : forall (l : list (option A)) r, all_some l = Ok r -> all_some (swap k l) = Ok (swap k r).
Proof.
  intros l r H. apply all_some_inv in H. subst l. rewrite swap_map.
  generalize (swap k r). intros m. induction m as [|a m IH]; cbn; [reflexivity|]. now rewrite IH.
Qed.
Lemma swap_in {A} k (l : list A) (P : A -> Prop) : Forall P l -> Forall P (swap k l).
Proof. intros H. apply (Permutation_Forall (swap_perm k l)). exact H. Qed.
(** Every reordering is a chain of exchanges. *)
Lemma swaps_perm {A} (Q : list A -> list A -> Prop) : (forall l, Q l l) -> (forall l k m, Q (swap k l) m -> Q l m) ->
  forall l l', Permutation l l' -> Q l l'.
Proof.
  intros Hr Hs.
  assert (T : forall l l', Permutation l l' -> forall (f : list A -> list A) (g : nat -> nat), (forall k m, f (swap k m) = swap (g k) (f m)) ->
     forall m, Q (f l') m -> Q (f l) m).
  { induction 1 as [|x l l' H IH|x y l|l l' l'' H1 IH1 H2 IH2]; intros f g Hf m K; auto.
    - refine (IH (fun t => f (x :: t)) (fun k => g (S k)) _ m K). intros k t. rewrite <- Hf. reflexivity.
    - apply (Hs _ (g O)). rewrite <- Hf. exact K.
    - apply (IH1 f g Hf). apply (IH2 f g Hf). exact K. }
  intros l l' H. apply (T l l' H (fun m => m) (fun k => k)); auto.
Qed.

(** * The pieces of one iteration *)
Lemma no_forget n : init_forget_vector 0 n = repeat 1 n.
Proof. unfold init_forget_vector. rewrite Rminus_0_r. unfold Reqb. destruct (Req_EM_T 1 1); [reflexivity|lra]. Qed.
Lemma root_weights_swap k w n : length w = n -> root_weights (swap k w) (repeat 1 n) = swap k (root_weights w (repeat 1 n)).
Proof.
  intros H. unfold root_weights. rewrite swap_map, swap_map2 by now rewrite repeat_length. now rewrite swap_repeat.
Qed.
Lemma root_weights_len w n : length w = n -> length (root_weights w (repeat 1 n)) = n.
Proof. intros H. unfold root_weights. rewrite map_length. apply map2_len_eq; [exact H|apply repeat_length]. Qed.
Lemma scale_rows_swap k X s : length X = length s -> scale_rows (swap k X) (swap k s) = swap k (scale_rows X s).
Proof. intros H. unfold scale_rows. now rewrite swap_map2. Qed.
Lemma scale_rows_len X s : length X = length s -> length (scale_rows X s) = length X.
Proof. intros H. unfold scale_rows. now apply map2_length. Qed.
Lemma mat_tmul_swap k A B : length A = length B -> mat_tmul (swap k A) (swap k B) = mat_tmul A B.
Proof.
  intros H. unfold mat_tmul. apply functional_extensionality. intros i. apply functional_extensionality. intros j.
  rewrite <- swap_map2 by exact H. apply swap_lsum.
Qed.
Lemma vec_tmul_swap k A v : length A = length v -> vec_tmul (swap k A) (swap k v) = vec_tmul A v.
Proof.
  intros H. unfold vec_tmul. apply functional_extensionality. intros i.
  rewrite <- swap_map2 by exact H. apply swap_lsum.
Qed.
Lemma init_gram_swap k X w : length X = length w -> init_gram (swap k X) (swap k w) 0 = init_gram X w 0.
Proof.
  intros H. unfold init_gram. rewrite swap_length, no_forget, root_weights_swap by congruence.
  rewrite scale_rows_swap by (rewrite root_weights_len; congruence). now apply mat_tmul_swap.
Qed.
Lemma init_y_gram_swap k X y w : length X = length w -> length y = length w -> init_y_gram (swap k X) (swap k y) (swap k w) 0 = init_y_gram X y w 0.
Proof.
  intros H H'. unfold init_y_gram. rewrite swap_length, no_forget, root_weights_swap by congruence.
  assert (L : length (root_weights w (repeat 1 (length X))) = length X) by (apply root_weights_len; congruence).
  rewrite scale_rows_swap by congruence. rewrite <- swap_map2 by congruence. apply vec_tmul_swap.
  rewrite scale_rows_len, map2_length by congruence. congruence.
Qed.
Lemma two_or_more {A} (l : list A) : (2 <= length l)%nat -> exists a b t, l = a :: b :: t.
Proof. destruct l as [|a [|b t]]; cbn; try lia. eauto. Qed.
Lemma update_gram_swap k G X w : length X = length w -> update_gram G (swap k X) 0 (swap k w) = update_gram G X 0 w.
Proof.
  intros H. destruct X as [|x [|x' X]].
  - destruct w; [|discriminate]. now rewrite !swap_far by (cbn; lia).
  - destruct w as [|v [|]]; try discriminate. now rewrite !swap_one.
  - set (X1 := x :: x' :: X) in *. assert (L : (2 <= length X1)%nat) by (cbn; lia).
    assert (E : forall Y u, (2 <= length Y)%nat -> update_gram G Y 0 u =
      fun i j => G i j * (1 - 0) ^ length Y + init_gram Y u 0 i j).
    { intros Y u HY. destruct (two_or_more Y HY) as (a & b & t & ->). reflexivity. }
    rewrite !E by (rewrite ?swap_length; exact L). rewrite swap_length, init_gram_swap by exact H. reflexivity.
Qed.
Lemma update_y_gram_swap k G X y w : length X = length w -> length y = length w ->
  update_y_gram G (swap k X) (swap k y) 0 (swap k w) = update_y_gram G X y 0 w.
Proof.
  intros H H'. destruct X as [|x [|x' X]].
  - destruct w; [|discriminate]. destruct y; [|discriminate]. now rewrite !swap_far by (cbn; lia).
  - destruct w as [|v [|]]; try discriminate. destruct y as [|z [|]]; try discriminate. now rewrite !swap_one.
  - set (X1 := x :: x' :: X) in *. assert (L : (2 <= length X1)%nat) by (cbn; lia).
    assert (E : forall Y z u, (2 <= length Y)%nat -> update_y_gram G Y z 0 u =
      fun i => G i * (1 - 0) ^ length Y + init_y_gram Y z u 0 i).
    { intros Y z u HY. destruct (two_or_more Y HY) as (a & b & t & ->). reflexivity. }
    rewrite !E by (rewrite ?swap_length; exact L). rewrite swap_length, init_y_gram_swap by congruence. reflexivity.
Qed.
(** The running mean of values without forgetting. *)
Lemma omu1 a v n : n <> 0 -> online_mean_update1 a v 0 n = (a * (n - 1) + v) / n.
Proof.
  intros H. unfold online_mean_update1. rewrite Rmult_0_l. unfold Rltb. destruct (Rlt_dec 0 0); [lra|]. field. exact H.
Qed.
Lemma omu_swap k : forall l a n, (forall j, (j < length l)%nat -> n - INR j <> 0) ->
  online_mean_update a (swap k l) 0 n = online_mean_update a l 0 n.
Proof.
  induction k as [|k IH].
  - intros [|u [|v t]] a n H; cbn [swap online_mean_update length]; auto.
    f_equal. pose proof (H (length t) ltac:(cbn; lia)) as H1. pose proof (H (S (length t)) ltac:(cbn; lia)) as H2.
    rewrite !omu1 by assumption. rewrite S_INR in *. field. split; assumption.
  - intros [|u t] a n H; cbn [swap online_mean_update length]; auto.
    rewrite IH; [|intros j Hj; apply H; cbn in *; lia]. now rewrite swap_length.
Qed.

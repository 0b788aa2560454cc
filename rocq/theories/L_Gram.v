(** Lemmas about the Gramian model. *)
From Coq Require Import Reals List Lia Lra Psatz.
From Verif Require Import Base Lin Data M_Gram S_Gram.
Import ListNotations.
Open Scope R_scope.

(** * The discount vector *)

Lemma forget_loop_spec g : forall k out,
  out <> [] ->
  length (forget_loop g k out) = (k + length out)%nat /\
  (forall i, (i < k)%nat -> nth i (forget_loop g k out) 0 = g ^ (k - i) * hd 0 out) /\
  (forall i, nth (k + i) (forget_loop g k out) 0 = nth i out 0).
Proof.
  induction k as [|k IH]; intros out Hne; cbn [forget_loop].
  - repeat split; intros; try lia; auto.
  - destruct (IH (hd 0 out * g :: out)) as (H1 & H2 & H3); [easy|].
    repeat split.
    + rewrite H1. simpl. lia.
    + intros i Hi. destruct (Nat.eq_dec i k) as [->|Hn].
      * specialize (H3 O). rewrite Nat.add_0_r in H3. rewrite H3.
        replace (S k - k)%nat with 1%nat by lia. simpl. ring.
      * rewrite H2 by lia. simpl hd.
        replace (S k - i)%nat with (S (k - i)) by lia. simpl. ring.
    + intros i. replace (S k + i)%nat with (k + S i)%nat by lia. rewrite H3. reflexivity.
Qed.

Lemma init_forget_vector_length f n : length (init_forget_vector f n) = n.
Proof.
  unfold init_forget_vector. rcase.
  - apply repeat_length.
  - destruct n; [reflexivity|].
    destruct (forget_loop_spec (1 - f) n [1]) as (H & _ & _); [easy|].
    rewrite H. simpl. lia.
Qed.

Lemma nth_repeat_lt {A} (a d : A) n i : (i < n)%nat -> nth i (repeat a n) d = a.
Proof. revert i; induction n as [|n IH]; intros [|i] H; simpl; try lia; auto. apply IH; lia. Qed.

Lemma init_forget_vector_nth f n i :
  (i < n)%nat -> nth i (init_forget_vector f n) 0 = (1 - f) ^ (n - 1 - i).
Proof.
  intros Hi. unfold init_forget_vector. rcase.
  - rewrite nth_repeat_lt by auto. rewrite Hc, pow1. reflexivity.
  - destruct n as [|n]; [lia|].
    destruct (forget_loop_spec (1 - f) n [1]) as (_ & H2 & H3); [easy|].
    destruct (Nat.eq_dec i n) as [->|Hn].
    + specialize (H3 O). rewrite Nat.add_0_r in H3. rewrite H3.
      replace (S n - 1 - n)%nat with 0%nat by lia. reflexivity.
    + rewrite H2 by lia. simpl hd. replace (S n - 1 - i)%nat with (n - i)%nat by lia. ring.
Qed.

(** Recursive form used by all later inductions. *)
Fixpoint geo (g : R) (n : nat) : list R :=
  match n with O => [] | S k => g ^ k :: geo g k end.

Lemma geo_length g n : length (geo g n) = n.
Proof. induction n; simpl; auto. Qed.
Lemma geo_nth g n i : (i < n)%nat -> nth i (geo g n) 0 = g ^ (n - 1 - i).
Proof.
  revert i; induction n as [|n IH]; intros [|i] H; simpl; try lia.
  - rewrite !Nat.sub_0_r. reflexivity.
  - rewrite IH by lia. f_equal. lia.
Qed.
Lemma init_forget_vector_geo f n : init_forget_vector f n = geo (1 - f) n.
Proof.
  apply nth_ext with 0 0.
  - rewrite init_forget_vector_length, geo_length. reflexivity.
  - intros i Hi. rewrite init_forget_vector_length in Hi.
    rewrite init_forget_vector_nth, geo_nth by auto. reflexivity.
Qed.

(** * Discounted sums *)

Lemma dsum_app {A} g (f : A -> R) l m :
  dsum g f (l ++ m) = g ^ length m * dsum g f l + dsum g f m.
Proof.
  induction l as [|a l IH]; simpl; [ring|].
  rewrite IH, app_length, pow_add. ring.
Qed.
Lemma dsum_ext {A} g (f h : A -> R) l :
  (forall a, In a l -> f a = h a) -> dsum g f l = dsum g h l.
Proof.
  induction l as [|a l IH]; simpl; intros H; auto.
  rewrite IH by (intros; apply H; auto). rewrite H by auto. reflexivity.
Qed.
Lemma dsum_nonneg {A} g (f : A -> R) l :
  0 <= g -> (forall a, In a l -> 0 <= f a) -> 0 <= dsum g f l.
Proof.
  intros Hg. induction l as [|a l IH]; simpl; intros H; [lra|].
  assert (0 <= g ^ length l) by (apply pow_le; auto).
  assert (0 <= f a) by (apply H; auto).
  assert (0 <= dsum g f l) by (apply IH; intros; apply H; auto). nra.
Qed.
Lemma dsum_plus {A} g (f h : A -> R) l :
  dsum g (fun a => f a + h a) l = dsum g f l + dsum g h l.
Proof. induction l as [|a l IH]; simpl; [|rewrite IH]; ring. Qed.
Lemma dsum_minus {A} g (f h : A -> R) l :
  dsum g (fun a => f a - h a) l = dsum g f l - dsum g h l.
Proof. induction l as [|a l IH]; simpl; [|rewrite IH]; ring. Qed.
Lemma dsum_scal {A} g c (f : A -> R) l :
  dsum g (fun a => c * f a) l = c * dsum g f l.
Proof. induction l as [|a l IH]; simpl; [|rewrite IH]; ring. Qed.
Lemma dsum_scal_r {A} g c (f : A -> R) l :
  dsum g (fun a => f a * c) l = dsum g f l * c.
Proof. induction l as [|a l IH]; simpl; [|rewrite IH]; ring. Qed.
Lemma dsum_zero {A} g (l : list A) : dsum g (fun _ => 0) l = 0.
Proof. induction l as [|a l IH]; simpl; [|rewrite IH]; ring. Qed.
Lemma dsum_bsum {A} g n (f : nat -> A -> R) l :
  dsum g (fun a => bsum n (fun k => f k a)) l = bsum n (fun k => dsum g (f k) l).
Proof.
  induction n as [|n IH]; simpl; [apply dsum_zero|].
  rewrite dsum_plus, IH. reflexivity.
Qed.

(** * Batch Gramian *)

Lemma mat_tmul_weighted g l i j :
  0 <= g -> weights_nonneg l ->
  mat_tmul (scale_rows (Xs l) (root_weights (ws l) (geo g (length l))))
           (scale_rows (Xs l) (root_weights (ws l) (geo g (length l)))) i j
  = dsum g (fun o => ow o * ox o i * ox o j) l.
Proof.
  intros Hg. unfold mat_tmul, scale_rows, root_weights, Xs, ws. induction l as [|o l IH]; intros Hw; [reflexivity|].
  inversion Hw as [|o' l' Ho Hl]; subst.
  cbn [map length geo map2 lsum dsum].
  rewrite (IH Hl).
  assert (Hp : 0 <= ow o * g ^ length l).
  { apply Rmult_le_pos; auto. apply pow_le; auto. }
  pose proof (sqrt_sqrt _ Hp) as Hs.
  replace (ox o i * sqrt (ow o * g ^ length l) * (ox o j * sqrt (ow o * g ^ length l)))
    with (ox o i * ox o j * (sqrt (ow o * g ^ length l) * sqrt (ow o * g ^ length l))) by ring.
  rewrite Hs. ring.
Qed.

Lemma vec_tmul_weighted g l i :
  0 <= g -> weights_nonneg l ->
  vec_tmul (scale_rows (Xs l) (root_weights (ws l) (geo g (length l))))
           (map2 Rmult (ys l) (root_weights (ws l) (geo g (length l)))) i
  = dsum g (fun o => ow o * ox o i * oy o) l.
Proof.
  intros Hg. unfold vec_tmul, scale_rows, root_weights, Xs, ys, ws. induction l as [|o l IH]; intros Hw; [reflexivity|].
  inversion Hw as [|o' l' Ho Hl]; subst.
  cbn [map length geo map2 lsum dsum].
  rewrite (IH Hl).
  assert (Hp : 0 <= ow o * g ^ length l).
  { apply Rmult_le_pos; auto. apply pow_le; auto. }
  pose proof (sqrt_sqrt _ Hp) as Hs.
  replace (ox o i * sqrt (ow o * g ^ length l) * (oy o * sqrt (ow o * g ^ length l)))
    with (ox o i * oy o * (sqrt (ow o * g ^ length l) * sqrt (ow o * g ^ length l))) by ring.
  rewrite Hs. ring.
Qed.

Lemma init_gram_spec f l i j :
  f <= 1 -> weights_nonneg l ->
  init_gram (Xs l) (ws l) f i j = gram_spec f l i j.
Proof.
  intros Hf Hw. unfold init_gram. rewrite init_forget_vector_geo.
  unfold Xs at 2 4. rewrite map_length. apply mat_tmul_weighted; auto; lra.
Qed.
Lemma init_y_gram_spec f l i :
  f <= 1 -> weights_nonneg l ->
  init_y_gram (Xs l) (ys l) (ws l) f i = ygram_spec f l i.
Proof.
  intros Hf Hw. unfold init_y_gram. rewrite init_forget_vector_geo.
  unfold Xs at 2 3. rewrite map_length. apply vec_tmul_weighted; auto; lra.
Qed.

Lemma update_gram_spec G f l b i j :
  f <= 1 -> weights_nonneg b ->
  G i j = gram_spec f l i j ->
  update_gram G (Xs b) f (ws b) i j = gram_spec f (l ++ b) i j.
Proof.
  intros Hf Hw HG. unfold gram_spec in *. rewrite dsum_app, <- HG.
  destruct b as [|o [|o' b]].
  - cbn. ring.
  - cbn. unfold outer. ring.
  - set (bb := o :: o' :: b) in *.
    assert (E : update_gram G (Xs bb) f (ws bb) i j =
      G i j * (1 - f) ^ length bb +
      mat_tmul (scale_rows (Xs bb) (root_weights (ws bb) (geo (1 - f) (length bb))))
               (scale_rows (Xs bb) (root_weights (ws bb) (geo (1 - f) (length bb)))) i j).
    { unfold update_gram, bb. cbn [Xs ws map].
      rewrite init_forget_vector_geo. cbn [length]. rewrite !map_length. reflexivity. }
    rewrite E, mat_tmul_weighted by (auto; lra). ring.
Qed.
Lemma update_y_gram_spec G f l b i :
  f <= 1 -> weights_nonneg b ->
  G i = ygram_spec f l i ->
  update_y_gram G (Xs b) (ys b) f (ws b) i = ygram_spec f (l ++ b) i.
Proof.
  intros Hf Hw HG. unfold ygram_spec in *. rewrite dsum_app, <- HG.
  destruct b as [|o [|o' b]].
  - cbn. ring.
  - cbn. ring.
  - set (bb := o :: o' :: b) in *.
    assert (E : update_y_gram G (Xs bb) (ys bb) f (ws bb) i =
      G i * (1 - f) ^ length bb +
      vec_tmul (scale_rows (Xs bb) (root_weights (ws bb) (geo (1 - f) (length bb))))
               (map2 Rmult (ys bb) (root_weights (ws bb) (geo (1 - f) (length bb)))) i).
    { unfold update_y_gram, bb. cbn [Xs ys ws map].
      rewrite init_forget_vector_geo. cbn [length]. rewrite !map_length. reflexivity. }
    rewrite E, vec_tmul_weighted by (auto; lra). ring.
Qed.

Lemma gram_fold f : f <= 1 -> forall bs G l,
  Forall weights_nonneg bs ->
  (forall i j, G i j = gram_spec f l i j) ->
  forall i j, fold_left (fun G b => update_gram G (Xs b) f (ws b)) bs G i j
              = gram_spec f (l ++ concat bs) i j.
Proof.
  intros Hf. induction bs as [|b bs IH]; intros G l Hbs HG i j; cbn [fold_left concat].
  - rewrite app_nil_r. auto.
  - inversion Hbs as [|b' bs' Hb Hbs']; subst.
    rewrite app_assoc. apply IH; auto.
    intros a c. apply update_gram_spec; auto.
Qed.
Lemma y_gram_fold f : f <= 1 -> forall bs h l,
  Forall weights_nonneg bs ->
  (forall i, h i = ygram_spec f l i) ->
  forall i, fold_left (fun h b => update_y_gram h (Xs b) (ys b) f (ws b)) bs h i
            = ygram_spec f (l ++ concat bs) i.
Proof.
  intros Hf. induction bs as [|b bs IH]; intros h l Hbs Hh i; cbn [fold_left concat].
  - rewrite app_nil_r. auto.
  - inversion Hbs as [|b' bs' Hb Hbs']; subst.
    rewrite app_assoc. apply IH; auto.
    intros a. apply update_y_gram_spec; auto.
Qed.

Lemma weights_nonneg_concat bs : Forall weights_nonneg bs -> weights_nonneg (concat bs).
Proof.
  induction bs as [|b bs IH]; intros H; simpl; [constructor|].
  inversion H; subst. apply Forall_app. split; auto. apply IH; auto.
Qed.

Lemma gram_history_spec f b0 bs i j :
  f <= 1 -> weights_nonneg b0 -> Forall weights_nonneg bs ->
  gram_history f b0 bs i j = gram_spec f (b0 ++ concat bs) i j.
Proof.
  intros Hf H0 Hbs. unfold gram_history. apply gram_fold; auto.
  intros a c. apply init_gram_spec; auto.
Qed.
Lemma y_gram_history_spec f b0 bs i :
  f <= 1 -> weights_nonneg b0 -> Forall weights_nonneg bs ->
  y_gram_history f b0 bs i = ygram_spec f (b0 ++ concat bs) i.
Proof.
  intros Hf H0 Hbs. unfold y_gram_history. apply y_gram_fold; auto.
  intros a. apply init_y_gram_spec; auto.
Qed.

Lemma gram_history_batch f b0 bs i j :
  f <= 1 -> weights_nonneg b0 -> Forall weights_nonneg bs ->
  gram_history f b0 bs i j
  = init_gram (Xs (b0 ++ concat bs)) (ws (b0 ++ concat bs)) f i j.
Proof.
  intros Hf H0 Hbs. rewrite gram_history_spec by auto. symmetry. apply init_gram_spec; auto.
  apply Forall_app. split; auto. apply weights_nonneg_concat; auto.
Qed.
Lemma y_gram_history_batch f b0 bs i :
  f <= 1 -> weights_nonneg b0 -> Forall weights_nonneg bs ->
  y_gram_history f b0 bs i
  = init_y_gram (Xs (b0 ++ concat bs)) (ys (b0 ++ concat bs)) (ws (b0 ++ concat bs)) f i.
Proof.
  intros Hf H0 Hbs. rewrite y_gram_history_spec by auto. symmetry. apply init_y_gram_spec; auto.
  apply Forall_app. split; auto. apply weights_nonneg_concat; auto.
Qed.

(** * Symmetry and positive semidefiniteness *)

Lemma gram_spec_sym f l p : symmetric p (gram_spec f l).
Proof.
  intros i j _ _. unfold gram_spec. apply dsum_ext. intros; ring.
Qed.
Lemma gram_spec_quad f l p v :
  quad p (gram_spec f l) v = dsum (1 - f) (fun o => ow o * (dot p (ox o) v) ^ 2) l.
Proof.
  unfold quad, dot at 1, mvec, gram_spec.
  rewrite (bsum_ext p _ (fun i => dsum (1 - f) (fun o => (ow o * dot p (ox o) v) * (v i * ox o i)) l)).
  - rewrite <- (dsum_bsum (1 - f) p (fun i o => (ow o * dot p (ox o) v) * (v i * ox o i))).
    apply dsum_ext. intros o _. rewrite bsum_scal_l.
    replace (bsum p (fun i => v i * ox o i)) with (dot p (ox o) v) by (rewrite dot_comm; reflexivity).
    ring.
  - intros i Hi. rewrite <- (bsum_ext p (fun k => dsum (1 - f) (fun o => ow o * ox o i * ox o k * v k) l)).
    + rewrite <- (dsum_bsum (1 - f) p (fun k o => ow o * ox o i * ox o k * v k)).
      rewrite <- dsum_scal. apply dsum_ext. intros o _.
      rewrite (bsum_ext p _ (fun k => (ow o * ox o i) * (ox o k * v k))) by (intros; ring).
      rewrite bsum_scal_l. unfold dot. ring.
    + intros k Hk. rewrite <- dsum_scal_r. reflexivity.
Qed.
Lemma gram_spec_psd f l p : f <= 1 -> weights_nonneg l -> psd p (gram_spec f l).
Proof.
  intros Hf Hw v. rewrite gram_spec_quad. apply dsum_nonneg; [lra|].
  intros o Ho. apply Rmult_le_pos.
  - unfold weights_nonneg in Hw. rewrite Forall_forall in Hw. auto.
  - apply pow2_ge_0.
Qed.

Lemma gram_history_sym f b0 bs p :
  f <= 1 -> weights_nonneg b0 -> Forall weights_nonneg bs ->
  symmetric p (gram_history f b0 bs).
Proof.
  intros Hf H0 Hbs i j Hi Hj. rewrite !gram_history_spec by auto.
  apply (gram_spec_sym f _ p); auto.
Qed.
Lemma gram_history_psd f b0 bs p :
  f <= 1 -> weights_nonneg b0 -> Forall weights_nonneg bs ->
  psd p (gram_history f b0 bs).
Proof.
  intros Hf H0 Hbs v.
  rewrite (quad_ext p _ (gram_spec f (b0 ++ concat bs)) v v).
  - apply gram_spec_psd; auto. apply Forall_app. split; auto. apply weights_nonneg_concat; auto.
  - intros i j _ _. apply gram_history_spec; auto.
  - intros i _; reflexivity.
Qed.

Lemma init_forget_vector_correct forget size : (1 <= size)%nat ->
  length (init_forget_vector forget size) = size /\
  (forall n, (n < size)%nat ->
     nth n (init_forget_vector forget size) 0 = (1 - forget) ^ (size - 1 - n)) /\
  nth (size - 1) (init_forget_vector forget size) 0 = 1.
Proof.
  intros H. split; [|split].
  - apply init_forget_vector_length.
  - intros n Hn. apply init_forget_vector_nth; auto.
  - rewrite init_forget_vector_nth by lia.
    replace (size - 1 - (size - 1))%nat with 0%nat by lia. reflexivity.
Qed.

From Coq Require Import Reals List Lia Lra Psatz.
From Verif Require Import Base Lin Data M_Gram M_GramNan S_Gram L_Gram.
Import ListNotations.
Open Scope R_scope.

(** Rows handed over one at a time. *)
Definition update_gram_rowwise (f : R) (G : mat) (b : list obs) : mat :=
  fold_left (fun G o => update_gram G [ox o] f [ow o]) b G.

Lemma rowwise_closed f b : forall G i j,
  update_gram_rowwise f G b i j
  = (1 - f) ^ length b * G i j + dsum (1 - f) (fun o => ow o * ox o i * ox o j) b.
Proof.
  unfold update_gram_rowwise.
  induction b as [|o b IH]; intros G i j; cbn [fold_left length dsum].
  - simpl. ring.
  - rewrite IH. cbn. unfold outer. ring.
Qed.

Lemma batch_entry_some g b i j :
  0 <= g -> weights_nonneg b ->
  batch_entry_nan (Xs b) (map2 Rmult (ws b) (geo g (length b))) i j
  = Some (dsum g (fun o => ow o * ox o i * ox o j) b).
Proof.
  intros Hg. unfold Xs, ws. induction b as [|o b IH]; intros Hw; [reflexivity|].
  inversion Hw; subst. cbn [map length geo map2 batch_entry_nan dsum].
  rewrite IH by auto.
  assert (Hp : 0 <= ow o * g ^ length b).
  { apply Rmult_le_pos; auto. apply pow_le; auto. }
  unfold sqrt_nan. rcase; [lra|]. cbn. f_equal.
  pose proof (sqrt_sqrt _ Hp) as Hs. set (s := sqrt (ow o * g ^ length b)) in *.
  replace (ox o i * s * (ox o j * s)) with (ox o i * ox o j * (s * s)) by ring.
  rewrite Hs. ring.
Qed.

Lemma batch_entry_none g b i j :
  0 < g -> (exists o, In o b /\ ow o < 0) ->
  batch_entry_nan (Xs b) (map2 Rmult (ws b) (geo g (length b))) i j = None.
Proof.
  intros Hg. unfold Xs, ws. induction b as [|o b IH]; intros (o' & Hin & Ho'); [destruct Hin|].
  cbn [map length geo map2 batch_entry_nan].
  destruct Hin as [->|Hin].
  - assert (ow o' * g ^ length b < 0).
    { assert (0 < g ^ length b) by (apply pow_lt; auto). nra. }
    unfold sqrt_nan. rcase; [|lra]. reflexivity.
  - rewrite IH by (exists o'; auto).
    destruct (onan2 Rmult _ _); reflexivity.
Qed.

Lemma update_gram_nan_batch G b f i j :
  (2 <= length b)%nat ->
  update_gram_nan G (Xs b) f (ws b) i j
  = onan2 Rplus (Some (G i j * (1 - f) ^ length b))
      (batch_entry_nan (Xs b) (map2 Rmult (ws b) (geo (1 - f) (length b))) i j).
Proof.
  destruct b as [|o [|o' b]]; cbn [length]; try lia. intros _.
  unfold update_gram_nan. cbn [Xs ws map]. rewrite init_forget_vector_geo.
  cbn [length]. rewrite map_length. reflexivity.
Qed.

Lemma update_gram_agree G b f i j :
  f <= 1 -> weights_nonneg b -> (1 <= length b)%nat ->
  update_gram_nan G (Xs b) f (ws b) i j = Some (update_gram_rowwise f G b i j).
Proof.
  intros Hf Hw Hl. rewrite rowwise_closed.
  destruct b as [|o [|o' b]]; [cbn in Hl; lia | |].
  - cbn. f_equal. unfold outer. ring.
  - rewrite update_gram_nan_batch by (cbn; lia).
    rewrite batch_entry_some by (auto; lra). cbn [onan2]. f_equal. ring.
Qed.

Lemma update_gram_negative_nan G b f i j :
  f < 1 -> (2 <= length b)%nat -> (exists o, In o b /\ ow o < 0) ->
  update_gram_nan G (Xs b) f (ws b) i j = None.
Proof.
  intros Hf Hl He. rewrite update_gram_nan_batch by auto.
  rewrite batch_entry_none by (auto; lra). reflexivity.
Qed.

(** The NaN-aware model and the real model agree where no square root of a
    negative number is taken. *)
Lemma update_gram_nan_real G b f i j :
  f <= 1 -> weights_nonneg b ->
  update_gram_nan G (Xs b) f (ws b) i j = Some (update_gram G (Xs b) f (ws b) i j).
Proof.
  intros Hf Hw. destruct b as [|o [|o' b]].
  - cbn. reflexivity.
  - reflexivity.
  - rewrite update_gram_nan_batch by (cbn; lia). rewrite batch_entry_some by (auto; lra).
    cbn [onan2]. f_equal. unfold update_gram. cbn [Xs ws map].
    rewrite init_forget_vector_geo. cbn [length]. rewrite map_length.
    set (bb := o :: o' :: b).
    change (S (S (length b))) with (length bb).
    change (ox o :: ox o' :: map ox b) with (Xs bb).
    change (ow o :: ow o' :: map ow b) with (ws bb).
    rewrite mat_tmul_weighted by (auto; lra). reflexivity.
Qed.

Lemma update_gram_negative_both G b f i j :
  f < 1 -> (2 <= length b)%nat -> (exists o, In o b /\ ow o < 0) ->
  update_gram_nan G (Xs b) f (ws b) i j = None /\
  forall o, update_gram_nan G [ox o] f [ow o] i j
            = Some ((1 - f) * G i j + ow o * (ox o i * ox o j)).
Proof. intros. split; [apply update_gram_negative_nan; auto | reflexivity]. Qed.

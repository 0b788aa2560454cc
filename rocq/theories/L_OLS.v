(** Sherman-Morrison, the recursive inverse and least-squares optimality. *)
From Coq Require Import Reals List Lia Lra Psatz.
From Verif Require Import Base Lin Data M_Gram S_Gram L_Gram M_OLS.
Import ListNotations.
Open Scope R_scope.

Definition vmat (p : nat) (x : vec) (A : mat) : vec := fun j => bsum p (fun k => x k * A k j).

Lemma divisor_eq p A x f w : inverted_divisor p A x f w = (1 - f) + w * dot p x (mvec p A x).
Proof.
  unfold inverted_divisor. f_equal. unfold dot, mvec.
  rewrite (bsum_ext p (fun k => bsum p (fun k0 => w * x k0 * A k0 k) * x k)
             (fun k => bsum p (fun l => w * x l * A l k * x k))).
  2:{ intros k _. rewrite bsum_scal_r. reflexivity. }
  rewrite bsum_swap, <- bsum_scal_l. apply bsum_ext. intros l _.
  rewrite (bsum_ext p _ (fun k => (w * x l) * (A l k * x k))) by (intros; ring).
  rewrite bsum_scal_l. ring.
Qed.

Lemma update1_entry p A x f w i j :
  update_inverted_gram1 p A x f w i j
  = (1 / (1 - f)) * (A i j - w * mvec p A x i * vmat p x A j / inverted_divisor p A x f w).
Proof.
  unfold update_inverted_gram1. fold (inverted_divisor p A x f w).
  f_equal. f_equal. unfold Rdiv. f_equal.
  unfold mmul, outer.
  rewrite (bsum_ext p _ (fun k => (w * mvec p A x i) * (x k * A k j))).
  - rewrite bsum_scal_l. unfold vmat. reflexivity.
  - intros k _. unfold mvec.
    rewrite (bsum_ext p _ (fun l => (w * x k) * (A i l * x l))) by (intros; ring).
    rewrite bsum_scal_l. ring.
Qed.

Lemma vmat_inverse p G A x : is_inverse p G A ->
  forall j, (j < p)%nat -> bsum p (fun k => vmat p x A k * G k j) = x j.
Proof.
  intros [_ H] j Hj. unfold vmat.
  rewrite (bsum_ext p _ (fun k => bsum p (fun l => x l * A l k * G k j))).
  2:{ intros k _. rewrite bsum_scal_r. reflexivity. }
  rewrite bsum_swap.
  rewrite (bsum_ext p _ (fun l => if Nat.eqb l j then x l else 0)).
  - apply (bsum_delta p j x Hj).
  - intros l Hl. rewrite (bsum_ext p _ (fun k => x l * (A l k * G k j))) by (intros; ring).
    rewrite bsum_scal_l. change (bsum p (fun k => A l k * G k j)) with (mmul p A G l j).
    rewrite H by auto. unfold mid. destruct (Nat.eqb l j); ring.
Qed.

Lemma dot_vmat p x A : bsum p (fun k => vmat p x A k * x k) = dot p x (mvec p A x).
Proof.
  unfold dot, mvec, vmat.
  rewrite (bsum_ext p _ (fun k => bsum p (fun l => x l * A l k * x k))).
  2:{ intros k _. rewrite bsum_scal_r. reflexivity. }
  rewrite bsum_swap. apply bsum_ext. intros l _.
  rewrite <- bsum_scal_l. apply bsum_ext. intros; ring.
Qed.

(** Sherman-Morrison. *)
Lemma sherman_morrison p G A x f w :
  is_inverse p G A -> 1 - f <> 0 -> inverted_divisor p A x f w <> 0 ->
  is_inverse p (fun i j => (1 - f) * G i j + w * outer x x i j)
               (update_inverted_gram1 p A x f w).
Proof.
  intros HI Hg Hd. set (d := inverted_divisor p A x f w) in *.
  set (s := dot p x (mvec p A x)).
  assert (Ed : d = (1 - f) + w * s) by apply divisor_eq.
  set (a := mvec p A x). set (b := vmat p x A).
  assert (HA := HI). destruct HI as [H1 H2].
  split; intros i j Hi Hj.
  - unfold mmul.
    rewrite (bsum_ext p _ (fun k =>
       ((G i k * A k j) - (w / d * b j) * (G i k * a k))
       + (w / (1 - f) * x i) * ((x k * A k j) - (w / d * b j) * (x k * a k)))).
    2:{ intros k _. rewrite update1_entry. fold a b d. unfold outer. field. split; auto. }
    rewrite bsum_plus, bsum_scal_l, !bsum_minus, !bsum_scal_l.
    change (bsum p (fun k => G i k * A k j)) with (mmul p G A i j). rewrite H1 by auto.
    change (bsum p (fun k => G i k * a k)) with (mvec p G (mvec p A x) i).
    rewrite (inverse_mvec p G A x HA) by auto.
    change (bsum p (fun k => x k * A k j)) with (b j).
    change (bsum p (fun k => x k * a k)) with s.
    rewrite Ed. field. rewrite <- Ed. split; auto.
  - unfold mmul.
    rewrite (bsum_ext p _ (fun k =>
       ((A i k * G k j) - (w / d * a i) * (b k * G k j))
       + (w / (1 - f) * x j) * ((A i k * x k) - (w / d * a i) * (b k * x k)))).
    2:{ intros k _. rewrite update1_entry. fold a b d. unfold outer. field. split; auto. }
    rewrite bsum_plus, bsum_scal_l, !bsum_minus, !bsum_scal_l.
    change (bsum p (fun k => A i k * G k j)) with (mmul p A G i j). rewrite H2 by auto.
    unfold b at 1. rewrite (vmat_inverse p G A x HA) by auto.
    change (bsum p (fun k => A i k * x k)) with (a i).
    unfold b at 1. rewrite dot_vmat. fold s.
    rewrite Ed. field. rewrite <- Ed. split; auto.
Qed.

(** The divisor is at least [1 - forget] when the Gramian is positive semidefinite. *)
Lemma divisor_lower p G A x f w :
  is_inverse p G A -> symmetric p G -> psd p G -> 0 <= w ->
  1 - f <= inverted_divisor p A x f w.
Proof.
  intros HI HS HP Hw. rewrite divisor_eq.
  pose proof (inverse_psd p G A HP HI HS x) as Hx. unfold quad in Hx. nra.
Qed.

Lemma gram_spec_snoc f l o i j :
  gram_spec f (l ++ [o]) i j = (1 - f) * gram_spec f l i j + ow o * outer (ox o) (ox o) i j.
Proof. unfold gram_spec. rewrite dsum_app. cbn. unfold outer. ring. Qed.

Definition inv_inv (p : nat) (f : R) (l : list obs) (A : mat) : Prop :=
  is_inverse p (gram_spec f l) A /\ weights_nonneg l.

Lemma update1_inv p f l o A :
  0 <= f < 1 -> inv_inv p f l A -> 0 <= ow o ->
  inv_inv p f (l ++ [o]) (update_inverted_gram1 p A (ox o) f (ow o)).
Proof.
  intros Hf [HA Hl] Hw. split.
  - eapply is_inverse_ext; [| |apply (sherman_morrison p (gram_spec f l) A (ox o) f (ow o)); auto].
    + intros i j _ _. rewrite gram_spec_snoc. reflexivity.
    + intros i j _ _. reflexivity.
    + lra.
    + pose proof (divisor_lower p _ A (ox o) f (ow o) HA (gram_spec_sym f l p)
                    (gram_spec_psd f l p ltac:(lra) Hl) Hw). lra.
  - apply Forall_app. split; auto.
Qed.

Lemma update_rows_inv p f : 0 <= f < 1 -> forall b l A,
  inv_inv p f l A -> weights_nonneg b ->
  inv_inv p f (l ++ b) (update_inverted_rows p A (Xs b) f (ws b)).
Proof.
  intros Hf. induction b as [|o b IH]; intros l A HA Hb; cbn [Xs ws map update_inverted_rows].
  - rewrite app_nil_r. exact HA.
  - inversion Hb; subst.
    replace (l ++ o :: b) with ((l ++ [o]) ++ b) by (rewrite <- app_assoc; reflexivity).
    apply IH; auto. apply update1_inv; auto.
Qed.

Lemma init_inverted_inv inv p f b0 A :
  matinv_spec inv -> f <= 1 -> weights_nonneg b0 ->
  init_inverted_gram inv p (Xs b0) (ws b0) f = Ok A -> inv_inv p f b0 A.
Proof.
  intros [Hs _] Hf Hw H. unfold init_inverted_gram in H.
  destruct (inv p (init_gram (Xs b0) (ws b0) f)) as [B|] eqn:E; inversion H; subst.
  split; auto. apply Hs in E. eapply is_inverse_ext; [| |exact E].
  - intros i j _ _. apply init_gram_spec; auto.
  - intros i j _ _; reflexivity.
Qed.

Lemma update_inverted_gram_ok p A b f :
  nonempty b ->
  update_inverted_gram p A (Xs b) f (ws b) = Ok (update_inverted_rows p A (Xs b) f (ws b)).
Proof. destruct b; intros H; [contradiction H; reflexivity | reflexivity]. Qed.

Lemma inv_updates_inv p f : 0 <= f < 1 -> forall bs l A,
  inv_inv p f l A -> Forall weights_nonneg bs -> Forall nonempty bs ->
  exists A', inv_updates p f A bs = Ok A' /\ inv_inv p f (l ++ concat bs) A'.
Proof.
  intros Hf. induction bs as [|b bs IH]; intros l A HA Hw Hn; cbn [inv_updates concat].
  - exists A. rewrite app_nil_r. auto.
  - inversion Hw; subst. inversion Hn; subst.
    rewrite update_inverted_gram_ok by auto. cbn [bind].
    rewrite app_assoc. apply IH; auto. apply update_rows_inv; auto.
Qed.

Lemma inv_history_correct inv p f b0 bs A0 :
  matinv_spec inv -> 0 <= f < 1 ->
  weights_nonneg b0 -> Forall weights_nonneg bs -> Forall nonempty bs ->
  init_inverted_gram inv p (Xs b0) (ws b0) f = Ok A0 ->
  exists A, inv_history inv p f b0 bs = Ok A /\
    is_inverse p (init_gram (Xs (b0 ++ concat bs)) (ws (b0 ++ concat bs)) f) A.
Proof.
  intros Hs Hf H0 Hbs Hne Hi. unfold inv_history. rewrite Hi. cbn [bind].
  destruct (inv_updates_inv p f Hf bs b0 A0) as (A & E & HA & Hw); auto.
  { apply (init_inverted_inv inv); auto; lra. }
  exists A. split; auto.
  eapply is_inverse_ext; [| |exact HA]; intros i j _ _; [|reflexivity].
  symmetry. apply init_gram_spec; auto; lra.
Qed.

Lemma inv_history_divisor inv p f b0 bs A b1 x w :
  matinv_spec inv -> 0 <= f < 1 ->
  weights_nonneg b0 -> Forall weights_nonneg bs -> Forall nonempty bs -> weights_nonneg b1 ->
  inv_history inv p f b0 bs = Ok A -> 0 <= w ->
  1 - f <= inverted_divisor p (update_inverted_rows p A (Xs b1) f (ws b1)) x f w.
Proof.
  intros Hs Hf H0 Hbs Hne Hb1 E Hw. unfold inv_history in E.
  destruct (init_inverted_gram inv p (Xs b0) (ws b0) f) as [A0|] eqn:E0; [|discriminate].
  cbn [bind] in E.
  destruct (inv_updates_inv p f Hf bs b0 A0) as (A' & E' & HA'); auto.
  { apply (init_inverted_inv inv); auto; lra. }
  rewrite E in E'. inversion E'; subst.
  destruct (update_rows_inv p f Hf b1 _ A' HA' Hb1) as [HI HW].
  eapply divisor_lower; [exact HI| | |exact Hw].
  - apply gram_spec_sym.
  - apply gram_spec_psd; auto; lra.
Qed.

(** * Least squares *)

Definition normal_equations (p : nat) (f : R) (l : list obs) (c : vec) : Prop :=
  eqv p (mvec p (gram_spec f l) c) (ygram_spec f l).

Lemma wls_loss_expand p f l b :
  wls_loss p f l b
  = dsum (1 - f) (fun o => ow o * oy o ^ 2) l - 2 * dot p b (ygram_spec f l)
    + quad p (gram_spec f l) b.
Proof.
  rewrite gram_spec_quad. unfold wls_loss.
  assert (E : dot p b (ygram_spec f l)
              = dsum (1 - f) (fun o => ow o * oy o * dot p (ox o) b) l).
  { unfold dot at 1, ygram_spec.
    rewrite (bsum_ext p _ (fun i => dsum (1 - f) (fun o => (ow o * oy o) * (ox o i * b i)) l)).
    - rewrite <- (dsum_bsum (1 - f) p (fun i o => (ow o * oy o) * (ox o i * b i))).
      apply dsum_ext. intros o _. rewrite bsum_scal_l. reflexivity.
    - intros i _. rewrite <- dsum_scal. apply dsum_ext. intros; ring. }
  rewrite E, <- dsum_scal, <- dsum_minus, <- dsum_plus. apply dsum_ext. intros; ring.
Qed.

Lemma wls_loss_decomp p f l c b :
  normal_equations p f l c ->
  wls_loss p f l b = wls_loss p f l c + quad p (gram_spec f l) (fun k => b k - c k).
Proof.
  intros HN. rewrite !wls_loss_expand.
  assert (Eb : quad p (gram_spec f l) b
     = quad p (gram_spec f l) (fun k => (b k - c k) + c k)).
  { apply quad_ext; [intros i j _ _; reflexivity | intros i _; ring]. }
  rewrite Eb, (quad_plus p (gram_spec f l) (fun k => b k - c k) c (gram_spec_sym f l p)).
  assert (E1 : forall u, dot p u (mvec p (gram_spec f l) c) = dot p u (ygram_spec f l)).
  { intros u. apply dot_ext; [intros i _; reflexivity | exact HN]. }
  assert (E2 : quad p (gram_spec f l) c = dot p c (ygram_spec f l)) by apply E1.
  rewrite !E2, !E1, dot_minus_l. ring.
Qed.

Lemma wls_optimal p f l A c :
  f <= 1 -> weights_nonneg l ->
  is_inverse p (gram_spec f l) A -> normal_equations p f l c ->
  forall b, wls_loss p f l c <= wls_loss p f l b /\
            (wls_loss p f l b = wls_loss p f l c -> eqv p b c).
Proof.
  intros Hf Hw HI HN b. rewrite (wls_loss_decomp p f l c b HN).
  pose proof (gram_spec_psd f l p Hf Hw (fun k => b k - c k)) as Hq. split; [lra|].
  intros E i Hi.
  assert (Z : quad p (gram_spec f l) (fun k => b k - c k) = 0) by lra.
  pose proof (psd_quad_zero p _ _ (gram_spec_sym f l p) (gram_spec_psd f l p Hf Hw) Z) as Hz.
  assert (D : b i - c i = 0).
  { rewrite <- (inverse_mvec p A (gram_spec f l) (fun k => b k - c k)
                 (inverse_sym_rel p _ _ HI) i Hi).
    unfold mvec at 1. rewrite (bsum_ext p _ (fun _ => 0)).
    - apply bsum_0.
    - intros k Hk. rewrite Hz by auto. ring. }
  lra.
Qed.

Lemma ols_beta_normal p f l A yg :
  is_inverse p (gram_spec f l) A -> eqv p yg (ygram_spec f l) ->
  normal_equations p f l (ols_beta p A yg).
Proof.
  intros HI Hy. unfold normal_equations, ols_beta.
  eapply eqv_trans; [apply inverse_mvec; exact HI | exact Hy].
Qed.

Definition ols_inv p f l (s : ols_state) : Prop :=
  inv_inv p f l (ols_x s) /\ (forall i, ols_y s i = ygram_spec f l i) /\
  eqv p (ols_coef s) (mvec p (ols_x s) (ols_y s)).

Lemma ols_fit_inv inv p f b s :
  matinv_spec inv -> 0 <= f < 1 -> weights_nonneg b ->
  ols_fit inv p f b = Ok s -> ols_inv p f b s.
Proof.
  intros Hs Hf Hw H. unfold ols_fit in H.
  destruct (init_inverted_gram inv p (Xs b) (ws b) f) as [A|] eqn:E; [|discriminate].
  cbn [bind] in H. inversion H; subst. split; [|split]; cbn.
  - apply (init_inverted_inv inv p f b A Hs ltac:(lra) Hw E).
  - intros i. apply init_y_gram_spec; auto; lra.
  - intros i _; reflexivity.
Qed.
Lemma ols_update_inv p f l s b :
  0 <= f < 1 -> ols_inv p f l s -> weights_nonneg b -> nonempty b ->
  exists s', ols_update p f s b = Ok s' /\ ols_inv p f (l ++ b) s'.
Proof.
  intros Hf (HA & Hy & Hc) Hw Hn. unfold ols_update.
  rewrite update_inverted_gram_ok by auto. cbn [bind].
  eexists. split; [reflexivity|]. split; [|split]; cbn.
  - apply (update_rows_inv p f Hf b l _ HA Hw).
  - intros i. apply update_y_gram_spec; auto; lra.
  - intros i _; reflexivity.
Qed.
Lemma ols_updates_inv p f : 0 <= f < 1 -> forall bs l s,
  ols_inv p f l s -> Forall weights_nonneg bs -> Forall nonempty bs ->
  exists s', ols_updates p f s bs = Ok s' /\ ols_inv p f (l ++ concat bs) s'.
Proof.
  intros Hf. induction bs as [|b bs IH]; intros l s HA Hw Hn; cbn [ols_updates concat].
  - exists s. rewrite app_nil_r. auto.
  - inversion Hw; subst. inversion Hn; subst.
    destruct (ols_update_inv p f l s b) as (s' & E & Hs'); auto.
    rewrite E. cbn [bind]. rewrite app_assoc. apply IH; auto.
Qed.
Lemma ols_history_inv inv p f b0 bs s0 :
  matinv_spec inv -> 0 <= f < 1 ->
  weights_nonneg b0 -> Forall weights_nonneg bs -> Forall nonempty bs ->
  ols_fit inv p f b0 = Ok s0 ->
  exists s, ols_history inv p f b0 bs = Ok s /\ ols_inv p f (b0 ++ concat bs) s.
Proof.
  intros Hs Hf H0 Hbs Hne Hi. unfold ols_history. rewrite Hi. cbn [bind].
  apply ols_updates_inv; auto. apply (ols_fit_inv inv); auto.
Qed.

Lemma ols_inv_coef p f l s :
  ols_inv p f l s -> normal_equations p f l (ols_coef s).
Proof.
  intros ((HA & Hw) & Hy & Hc).
  pose proof (ols_beta_normal p f l (ols_x s) (ols_y s) HA (fun i _ => Hy i)) as N.
  unfold normal_equations in *. eapply eqv_trans; [|exact N].
  apply mvec_ext; [intros i j _ _; reflexivity | exact Hc].
Qed.

Lemma ols_online_batch inv p f b0 bs s0 :
  matinv_spec inv -> 0 <= f < 1 ->
  weights_nonneg b0 -> Forall weights_nonneg bs -> Forall nonempty bs ->
  ols_fit inv p f b0 = Ok s0 ->
  exists s sb, ols_history inv p f b0 bs = Ok s /\
    ols_fit inv p f (b0 ++ concat bs) = Ok sb /\ eqv p (ols_coef s) (ols_coef sb).
Proof.
  intros Hs Hf H0 Hbs Hne Hi.
  destruct (ols_history_inv inv p f b0 bs s0) as (s & E & HI); auto.
  assert (Hw : weights_nonneg (b0 ++ concat bs)).
  { apply Forall_app. split; auto. apply weights_nonneg_concat; auto. }
  destruct Hs as [Hs1 Hs2].
  destruct (Hs2 p (init_gram (Xs (b0 ++ concat bs)) (ws (b0 ++ concat bs)) f)) as (B & HB).
  { exists (ols_x s). destruct HI as ((HA & _) & _).
    eapply is_inverse_ext; [| |exact HA]; intros i j _ _; [|reflexivity].
    symmetry. apply init_gram_spec; auto; lra. }
  assert (Ef : exists sb, ols_fit inv p f (b0 ++ concat bs) = Ok sb).
  { unfold ols_fit, init_inverted_gram. rewrite HB. cbn [bind]. eexists; reflexivity. }
  destruct Ef as (sb & Ef). exists s, sb. repeat split; auto.
  pose proof (ols_fit_inv inv p f _ sb (conj Hs1 Hs2) Hf Hw Ef) as HIb.
  pose proof (ols_inv_coef _ _ _ _ HI) as N1. pose proof (ols_inv_coef _ _ _ _ HIb) as N2.
  destruct HI as ((HA & _) & _).
  apply (wls_optimal p f _ (ols_x s) (ols_coef sb) ltac:(lra) Hw HA N2 (ols_coef s)).
  apply Rle_antisym.
  - apply (wls_optimal p f _ (ols_x s) (ols_coef s) ltac:(lra) Hw HA N1 (ols_coef sb)).
  - apply (wls_optimal p f _ (ols_x s) (ols_coef sb) ltac:(lra) Hw HA N2 (ols_coef s)).
Qed.

Lemma ols_online_optimal inv p f b0 bs s0 :
  matinv_spec inv -> 0 <= f < 1 ->
  weights_nonneg b0 -> Forall weights_nonneg bs -> Forall nonempty bs ->
  ols_fit inv p f b0 = Ok s0 ->
  exists s, ols_history inv p f b0 bs = Ok s /\
    forall b, wls_loss p f (b0 ++ concat bs) (ols_coef s) <= wls_loss p f (b0 ++ concat bs) b /\
      (wls_loss p f (b0 ++ concat bs) b = wls_loss p f (b0 ++ concat bs) (ols_coef s) ->
       eqv p b (ols_coef s)).
Proof.
  intros Hs Hf H0 Hbs Hne Hi.
  destruct (ols_history_inv inv p f b0 bs s0) as (s & E & HI); auto.
  exists s. split; auto. intros b.
  assert (Hw : weights_nonneg (b0 ++ concat bs)).
  { apply Forall_app. split; auto. apply weights_nonneg_concat; auto. }
  pose proof (ols_inv_coef _ _ _ _ HI) as N1. destruct HI as ((HA & _) & _).
  apply (wls_optimal p f _ (ols_x s)); auto; lra.
Qed.

Lemma init_inverted_raises_iff inv p f b0 :
  matinv_spec inv ->
  (init_inverted_gram inv p (Xs b0) (ws b0) f = Raise ValueError <->
   ~ exists B, is_inverse p (init_gram (Xs b0) (ws b0) f) B).
Proof.
  intros [Hs Hc]. unfold init_inverted_gram.
  destruct (inv p (init_gram (Xs b0) (ws b0) f)) as [B|] eqn:E; split; intros H.
  - discriminate.
  - exfalso. apply H. exists B. apply Hs; auto.
  - intros Hex. destruct (Hc _ _ Hex) as (B & HB). congruence.
  - reflexivity.
Qed.

Lemma weights_concat_split l bs : weights_nonneg (l ++ concat bs) -> Forall weights_nonneg bs.
Proof.
  intros H. apply Forall_app in H. destruct H as [_ H]. revert H.
  induction bs as [|b bs IH]; simpl; intros H; constructor; apply Forall_app in H; destruct H; auto.
Qed.

Lemma ols_chunking inv p f b0 bs b0' bs' s0 s0' :
  matinv_spec inv -> 0 <= f < 1 ->
  weights_nonneg b0 -> Forall weights_nonneg bs -> Forall nonempty bs -> Forall nonempty bs' ->
  b0 ++ concat bs = b0' ++ concat bs' ->
  ols_fit inv p f b0 = Ok s0 -> ols_fit inv p f b0' = Ok s0' ->
  exists s s', ols_history inv p f b0 bs = Ok s /\ ols_history inv p f b0' bs' = Ok s' /\
    eqv p (ols_coef s) (ols_coef s').
Proof.
  intros Hs Hf H0 Hbs Hne Hne' Heq E E'.
  assert (Hw : weights_nonneg (b0 ++ concat bs)).
  { apply Forall_app. split; auto. apply weights_nonneg_concat; auto. }
  assert (Hw' : weights_nonneg (b0' ++ concat bs')) by (rewrite <- Heq; exact Hw).
  assert (H0' : weights_nonneg b0') by (apply Forall_app in Hw'; apply Hw').
  pose proof (weights_concat_split _ _ Hw') as Hbs'.
  destruct (ols_online_batch inv p f b0 bs s0) as (s & sb & E1 & E2 & E3); auto.
  destruct (ols_online_batch inv p f b0' bs' s0') as (s' & sb' & E1' & E2' & E3'); auto.
  exists s, s'. repeat split; auto.
  rewrite Heq in E2. assert (sb = sb') by congruence. subst.
  eapply eqv_trans; [exact E3 | apply eqv_sym; exact E3'].
Qed.

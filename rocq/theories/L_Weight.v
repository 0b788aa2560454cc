From Coq Require Import Reals List Bool Arith Lra Lia FunctionalExtensionality.
From Verif Require Import Base Lin Data M_Gram S_Gram M_OLS M_CD M_Path M_Ridge M_Scaler M_Utils M_State M_LM S_LM L_LM S_Target L_Target S_Recode.
Import ListNotations.
Open Scope R_scope.

Definition reweigh (t : R) (l : list obs) : list obs := map (fun o => mkobs (ox o) (oy o) (t * ow o)) l.
Lemma Xs_reweigh t l : Xs (reweigh t l) = Xs l.
Proof. unfold Xs, reweigh. rewrite map_map. reflexivity. Qed.
Lemma ys_reweigh t l : ys (reweigh t l) = ys l.
Proof. unfold ys, reweigh. rewrite map_map. reflexivity. Qed.
Lemma ws_reweigh t l : ws (reweigh t l) = map (Rmult t) (ws l).
Proof. unfold ws, reweigh. rewrite !map_map. reflexivity. Qed.
Lemma length_reweigh t l : length (reweigh t l) = length l.
Proof. apply map_length. Qed.
Lemma design_rows_reweigh {M} (c : lm_cfg M) t sc l : design_rows c sc (reweigh t l) = reweigh t (design_rows c sc l).
Proof. unfold design_rows, reweigh. rewrite !map_map. reflexivity. Qed.

Lemma lsum_scal t l : lsum (map (Rmult t) l) = t * lsum l.
Proof. induction l as [|a l IH]; cbn; [ring|]. rewrite IH. ring. Qed.

Definition mscale (t : R) (x : mat) : mat := fun i j => t * x i j.

(** * Scaler *)
Definition scaler_wt (t : R) (s : scaler) : scaler :=
  mk_scaler (sc_forget s) (sc_do s) (sc_sel s) (sc_mean s) (sc_var s) (vscale t (sc_M s)) (t * sc_cum s) (t * sc_n s).
Lemma transform_wt t s x : scaler_transform (scaler_wt t s) x = scaler_transform s x.
Proof. reflexivity. Qed.
Lemma design_rows_wt {M} (c : lm_cfg M) t sc l : design_rows c (scaler_wt t sc) l = design_rows c sc l.
Proof. reflexivity. Qed.

Section W.
Variable t : R.
Hypothesis Ht : 0 < t.

Lemma div_wt a b : (t * a) / (t * b) = a / b.
Proof.
  destruct (Req_dec b 0) as [->|H]; [|field; split; lra].
  unfold Rdiv. rewrite Rmult_0_r, Rinv_0. ring.
Qed.
Lemma sqrt_wt a : sqrt (t * a) = sqrt t * sqrt a.
Proof.
  destruct (Rle_or_lt 0 a) as [H|H]; [apply sqrt_mult; lra|].
  rewrite (sqrt_neg_0 a) by lra. rewrite sqrt_neg_0; [ring|].
  rewrite <- (Rmult_0_r t). apply Rmult_le_compat_l; lra.
Qed.
Lemma root_weights_wt w f : root_weights (map (Rmult t) w) f = map (Rmult (sqrt t)) (root_weights w f).
Proof.
  unfold root_weights. revert f. induction w as [|a w IH]; intros [|b f]; cbn; auto.
  rewrite IH, <- sqrt_wt. do 2 f_equal. ring.
Qed.
Lemma sqrt2 : sqrt t * sqrt t = t.
Proof. apply sqrt_sqrt. lra. Qed.
Lemma mat_tmul_wt s X : mat_tmul (scale_rows X (map (Rmult (sqrt t)) s)) (scale_rows X (map (Rmult (sqrt t)) s))
  = mscale t (mat_tmul (scale_rows X s) (scale_rows X s)).
Proof.
  apply functional_extensionality. intros i. apply functional_extensionality. intros j. unfold mat_tmul, mscale. revert s.
  induction X as [|x X IH]; intros [|a s]; cbn; try ring. unfold scale_rows in IH. rewrite IH.
  replace (x i * (sqrt t * a) * (x j * (sqrt t * a))) with (sqrt t * sqrt t * (x i * a * (x j * a))) by ring. rewrite sqrt2. ring.
Qed.
Lemma vec_tmul_wt s X y : vec_tmul (scale_rows X (map (Rmult (sqrt t)) s)) (map2 Rmult y (map (Rmult (sqrt t)) s))
  = vscale t (vec_tmul (scale_rows X s) (map2 Rmult y s)).
Proof.
  apply functional_extensionality. intros i. unfold vec_tmul, vscale. revert s y.
  induction X as [|x X IH]; intros [|a s] [|b y]; cbn; try ring. unfold scale_rows in IH. rewrite IH.
  replace (x i * (sqrt t * a) * (b * (sqrt t * a))) with (sqrt t * sqrt t * (x i * a * (b * a))) by ring. rewrite sqrt2. ring.
Qed.
Lemma init_gram_wt X w f : init_gram X (map (Rmult t) w) f = mscale t (init_gram X w f).
Proof. unfold init_gram. rewrite root_weights_wt. apply mat_tmul_wt. Qed.
Lemma init_y_gram_wt X y w f : init_y_gram X y (map (Rmult t) w) f = vscale t (init_y_gram X y w f).
Proof. unfold init_y_gram. rewrite root_weights_wt. apply vec_tmul_wt. Qed.
Lemma update_gram_wt g X f w : update_gram (mscale t g) X f (map (Rmult t) w) = mscale t (update_gram g X f w).
Proof.
  apply functional_extensionality. intros i. apply functional_extensionality. intros j.
  assert (E : mscale t g i j * (1 - f) ^ length X
      + mat_tmul (scale_rows X (root_weights (map (Rmult t) w) (init_forget_vector f (length X)))) (scale_rows X (root_weights (map (Rmult t) w) (init_forget_vector f (length X)))) i j
    = mscale t (fun i j => g i j * (1 - f) ^ length X
      + mat_tmul (scale_rows X (root_weights w (init_forget_vector f (length X)))) (scale_rows X (root_weights w (init_forget_vector f (length X)))) i j) i j).
  { rewrite root_weights_wt, mat_tmul_wt. unfold mscale. ring. }
  unfold update_gram. destruct X as [|x [|x' X]]; try exact E. destruct w as [|w0 [|w1 w]]; try exact E. cbn. unfold mscale. ring.
Qed.
Lemma update_y_gram_wt g X y f w : update_y_gram (vscale t g) X y f (map (Rmult t) w) = vscale t (update_y_gram g X y f w).
Proof.
  apply functional_extensionality. intros i.
  assert (E : vscale t g i * (1 - f) ^ length X
      + vec_tmul (scale_rows X (root_weights (map (Rmult t) w) (init_forget_vector f (length X)))) (map2 Rmult y (root_weights (map (Rmult t) w) (init_forget_vector f (length X)))) i
    = vscale t (fun i => g i * (1 - f) ^ length X
      + vec_tmul (scale_rows X (root_weights w (init_forget_vector f (length X)))) (map2 Rmult y (root_weights w (init_forget_vector f (length X)))) i) i).
  { rewrite root_weights_wt, vec_tmul_wt. unfold vscale. ring. }
  unfold update_y_gram. destruct X as [|x [|x' X]]; try exact E. destruct y as [|y0 [|y1 y]]; try exact E.
  destruct w as [|w0 [|w1 w]]; try exact E. cbn. unfold vscale. ring.
Qed.

Lemma map2_wt w f : map2 Rmult (map (Rmult t) w) f = map (Rmult t) (map2 Rmult w f).
Proof. revert f. induction w as [|a w IH]; intros [|b f]; cbn; auto. rewrite IH. f_equal. ring. Qed.
Lemma lsum_map2_wt (g : vec -> R) X e : lsum (map2 (fun x e => g x * e) X (map (Rmult t) e)) = t * lsum (map2 (fun x e => g x * e) X e).
Proof. revert e. induction X as [|x X IH]; intros [|b e]; cbn; try ring. rewrite IH. ring. Qed.
Lemma scaler_fit_wt f ts p l sc : scaler_fit f ts p l = Ok sc -> scaler_fit f ts p (reweigh t l) = Ok (scaler_wt t sc).
Proof.
  unfold scaler_fit. rewrite length_reweigh, ws_reweigh, Xs_reweigh. destruct (length l <? 2)%nat; [discriminate|].
  destruct (selection ts p) as [do_scale sel]. destruct do_scale.
  - destruct (negb _); [discriminate|]. rewrite map2_wt, lsum_scal.
    set (eff := map2 Rmult (ws l) _). set (cum := lsum eff). cbv zeta.
    unfold Reqb. destruct (Req_EM_T cum 0) as [H|H]; [discriminate|]. destruct (Req_EM_T (t * cum) 0) as [K|K].
    { apply Rmult_integral in K. lra. }
    intros E. injection E as <-. unfold scaler_wt. cbn [sc_forget sc_do sc_sel sc_mean sc_var sc_M sc_cum sc_n].
    assert (Em : forall k, lsum (map2 (fun x e => pick sel x k * e) (Xs l) (map (Rmult t) eff)) / (t * cum) = lsum (map2 (fun x e => pick sel x k * e) (Xs l) eff) / cum).
    { intros k. rewrite (lsum_map2_wt (fun x => pick sel x k)). apply div_wt. }
    assert (Ev : forall k, lsum (map2 (fun x e => (pick sel x k - lsum (map2 (fun x e => pick sel x k * e) (Xs l) (map (Rmult t) eff)) / (t * cum)) ^ 2 * e) (Xs l) (map (Rmult t) eff)) / (t * cum)
      = lsum (map2 (fun x e => (pick sel x k - lsum (map2 (fun x e => pick sel x k * e) (Xs l) eff) / cum) ^ 2 * e) (Xs l) eff) / cum).
    { intros k. rewrite Em. rewrite (lsum_map2_wt (fun x => (pick sel x k - lsum (map2 (fun x e => pick sel x k * e) (Xs l) eff) / cum) ^ 2)). apply div_wt. }
    f_equal. f_equal; try (apply functional_extensionality; intros k; unfold vscale; rewrite ?Ev, ?Em; try reflexivity; ring).
    + apply functional_extensionality. intros k. rewrite Ev. unfold vscale.
      match goal with |- ?a / ?b * _ = _ => transitivity (t * (a / b * b)); [ring|reflexivity] end.
    + apply lsum_scal.
  - intros E. injection E as <-. unfold scaler_wt. cbn. f_equal. f_equal.
    + apply functional_extensionality. intros. unfold vscale. ring.
    + ring.
    + apply lsum_scal.
Qed.
Lemma scaler_row_wt s x w : scaler_row (scaler_wt t s) x (t * w) = scaler_wt t (scaler_row s x w).
Proof.
  unfold scaler_row, scaler_wt. cbn [sc_forget sc_do sc_sel sc_mean sc_var sc_M sc_cum sc_n].
  replace (t * sc_cum s * (1 - sc_forget s) + t * w) with (t * (sc_cum s * (1 - sc_forget s) + w)) by ring.
  set (cum := sc_cum s * (1 - sc_forget s) + w).
  assert (Em : forall k, (sc_mean s k * (t * sc_cum s * (1 - sc_forget s)) + pick (sc_sel s) x k * (t * w)) / (t * cum)
     = (sc_mean s k * (sc_cum s * (1 - sc_forget s)) + pick (sc_sel s) x k * w) / cum).
  { intros k. rewrite <- (div_wt (sc_mean s k * (sc_cum s * (1 - sc_forget s)) + pick (sc_sel s) x k * w) cum). f_equal. ring. }
  f_equal; apply functional_extensionality; intros k; rewrite ?Em; auto.
  - match goal with |- _ = ?a / _ => rewrite <- (div_wt a cum) end. f_equal. unfold vscale. ring.
  - unfold vscale. ring.
Qed.
Lemma scaler_update_wt sc l sc' : scaler_update sc l = Ok sc' -> scaler_update (scaler_wt t sc) (reweigh t l) = Ok (scaler_wt t sc').
Proof.
  unfold scaler_update. rewrite length_reweigh, ws_reweigh, lsum_scal. destruct (length l <? 1)%nat; [discriminate|].
  assert (E1 : mk_scaler (sc_forget (scaler_wt t sc)) (sc_do (scaler_wt t sc)) (sc_sel (scaler_wt t sc)) (sc_mean (scaler_wt t sc)) (sc_var (scaler_wt t sc))
     (sc_M (scaler_wt t sc)) (sc_cum (scaler_wt t sc)) (sc_n (scaler_wt t sc) + t * lsum (ws l))
    = scaler_wt t (mk_scaler (sc_forget sc) (sc_do sc) (sc_sel sc) (sc_mean sc) (sc_var sc) (sc_M sc) (sc_cum sc) (sc_n sc + lsum (ws l)))).
  { unfold scaler_wt. cbn. f_equal. ring. }
  cbv zeta. rewrite E1. cbn [scaler_wt sc_do]. fold (scaler_wt t).
  set (s1 := mk_scaler _ _ _ _ _ _ _ _). clearbody s1. clear E1. destruct (sc_do sc); intros E; injection E as <-; [|reflexivity].
  f_equal. revert s1. induction l as [|o l IH]; intros s1; cbn; auto.
  change (mk_scaler (sc_forget s1) (sc_do s1) (sc_sel s1) (sc_mean s1) (sc_var s1) (vscale t (sc_M s1)) (t * sc_cum s1) (t * sc_n s1)) with (scaler_wt t s1).
  rewrite scaler_row_wt. apply IH.
Qed.
End W.

From Coq Require Import Reals List Bool Arith Lra Lia Permutation FunctionalExtensionality.
From Verif Require Import Base Lin Data M_Gram S_Gram L_Gram M_OLS L_OLS M_CD M_Path M_Ridge S_Scaler M_Scaler L_Scaler M_Utils M_State M_LM S_LM L_LM L_LM4 S_Rows L_Target L_Rows.
Import ListNotations.
Open Scope R_scope.

Lemma design_same {M} (c : lm_cfg M) sc l l' : same_sums l l' -> same_sums (design_rows c sc l) (design_rows c sc l').
Proof. intros H. apply (same_sums_map (fun x => design (c_icpt c) (scaler_transform sc x))), H. Qed.
Lemma design_perm {M} (c : lm_cfg M) sc l l' : Permutation l l' -> Permutation (design_rows c sc l) (design_rows c sc l').
Proof. apply Permutation_map. Qed.
Lemma from_rss_total ic n ps r r' v : length r = length r' -> from_rss_array ic n ps r = Ok v ->
  exists v', from_rss_array ic n ps r' = Ok v' /\ length v' = length v.
Proof.
  intros L. unfold from_rss_array. set (k := - n / 2 * (1 + ln (2 * PI))).
  assert (H : forall c : criterion, c <> aicc -> forall ps r r' v, length r = length r' ->
    sequence (map2 (from_ll c n) ps (map (fun rss => - n / 2 * ln (rss / n) + k) r)) = Ok v ->
    exists v', sequence (map2 (from_ll c n) ps (map (fun rss => - n / 2 * ln (rss / n) + k) r')) = Ok v' /\ length v' = length v).
  { intros c Hc. induction ps0 as [|p ps0 IH]; intros [|a r0] [|b r1] v0 L0 E; try discriminate L0; cbn [map2 map sequence] in *; try (eexists; split; [reflexivity|injection E as <-; reflexivity]).
    injection L0 as L0.
    destruct (from_ll c n p _) as [f|] eqn:Ef; [|discriminate]. cbn [bind] in E.
    destruct (sequence _) as [t|] eqn:Et; [|discriminate]. injection E as <-.
    destruct (IH _ _ _ L0 Et) as (t' & -> & Lt).
    assert (Ef' : exists f', from_ll c n p (- n / 2 * ln (b / n) + k) = Ok f') by (destruct c; cbn; eauto; contradiction).
    destruct Ef' as (f' & ->). eexists. split; [reflexivity|]. cbn. congruence. }
  destruct ic; cbn [from_ll_array]; try (apply H; [discriminate|exact L]).
  destruct (2 <=? length ps)%nat eqn:E2; [discriminate|].
  apply Nat.leb_gt in E2. intros E.
  destruct ps as [|p [|? ?]]; [|  |cbn in E2; lia].
  - cbn in *. injection E as <-. exists []. auto.
  - destruct r as [|a r], r' as [|b r']; try discriminate L; cbn [map map2 sequence] in *; [injection E as <-; exists []; auto|].
    cbn [from_ll] in *. destruct (Reqb (n - p - 1) 0); [discriminate|]. cbn [bind] in *.
    assert (N : forall X : list R, map2 (from_ll aicc n) [] X = []) by (intros [|]; reflexivity).
    cbn [map2] in *. rewrite ?N in *. cbn [sequence bind] in *. injection E as <-. eexists. split; [reflexivity|]. reflexivity.
Qed.
Lemma argmin_total l l' k : length l = length l' -> argmin l = Ok k -> exists k', argmin l' = Ok k'.
Proof. intros L E. destruct l as [|a l]; [discriminate|]. destruct l' as [|b l']; [discriminate|]. cbn. eauto. Qed.

Section Gram.
Context {M : Type} (ops : method_ops M) (c : lm_cfg M) (d d' : batch).
Hypothesis HG : keeps_gramian ops.
Hypothesis Hf : c_forget c = 0.
(** [exact]: the rows are the same up to their order. *)
Variable exact_rows : Prop.
Definition row_rel (b b' : batch) : Prop :=
  b_p b = b_p b' /\ same_sums (b_rows b) (b_rows b') /\ weights_nonneg (b_rows b) /\ weights_nonneg (b_rows b') /\
  (exact_rows -> Permutation (b_rows b) (b_rows b')).

Definition row_twin (s s' : lm M) : Prop :=
  exists l l' sc rss' coef', sc_same (selection (c_scale c) (b_p d)) l l' sc /\ a_scaler s = Some (Some sc) /\ a_nfin s = Some (b_p d) /\
    a_nobs s <> None /\
    s' = mk_lm (a_method s) (a_scaler s) (a_nfin s) (a_nobs s) (a_nfeat s) (a_ntrain s) (a_isreg s) (a_x s) (a_y s) (a_path s) rss' coef' /\
    (op_path_based ops = false \/ exact_rows -> rss' = a_rss s /\ coef' = a_coef s) /\
    (op_path_based ops = true -> exists r r', a_rss s = Some r /\ rss' = Some r' /\ length r = length r').

Lemma perm_rss p l l' b : Permutation l l' -> rss_fit p l b = rss_fit p l' b /\ rss_update p l b = rss_update p l' b.
Proof. intros H. split; apply lsum_perm, Permutation_map, H. Qed.

Lemma lm_fit_rows s : row_rel d d' -> enough_rows 2 d' -> lm_fit ops c d new_lm = (s, Ok tt) ->
  exists s', lm_fit ops c d' new_lm = (s', Ok tt) /\ row_twin s s'.
Proof.
  intros (Ep & H & W & W' & HP) L H0. unfold enough_rows in L.
  destruct (lm_fit_ok ops c d new_lm s H0) as (m & sc & xg & Em & Er & L1 & L2 & Eo & E1 & Es & Ex & K).
  rewrite Hf in *. destruct (scaler_fit_same _ _ _ _ _ H W W' L Es) as [Es' SS].
  pose proof (lm_fit_intro ops c d' new_lm m sc xg) as I. cbv zeta in I. rewrite Hf in I.
  rewrite <- (sums_weight _ _ H), <- Ep in I.
  pose proof (design_same c sc _ _ H) as HD.
  assert (Wl : weights_nonneg (design_rows c sc (b_rows d))) by (apply scaled_nonneg; auto).
  assert (Wl' : weights_nonneg (design_rows c sc (b_rows d'))) by (apply scaled_nonneg; auto).
  rewrite <- (init_y_gram_same _ _ HD Wl Wl') in I.
  destruct HG as [HG1 HG2]. rewrite HG1 in Ex. rewrite HG1, <- (init_gram_same _ _ HD Wl Wl') in I.
  destruct (I Em Er ltac:(lia) L2 Eo E1 Es' Ex) as [I1 I2]. clear I.
  destruct K as [(Epb & m' & path & ic & k & F1 & F2 & F3 & ->)|(Epb & m' & beta & F1 & ->)].
  - assert (LL : length (map (rss_fit (n_cols (c_icpt c) (b_p d)) (design_rows c sc (b_rows d))) path) = length (map (rss_fit (n_cols (c_icpt c) (b_p d)) (design_rows c sc (b_rows d'))) path)) by (rewrite !map_length; reflexivity).
    destruct (from_rss_total _ _ _ _ _ _ LL F2) as (ic' & F2' & Li). destruct (argmin_total _ _ _ (eq_sym Li) F3) as (k' & F3').
    eexists. split; [apply (I1 m' path ic' k' Epb F1 F2' F3')|].
    exists (b_rows d), (b_rows d'), sc. eexists; eexists. cbn [a_method a_scaler a_nfin a_nobs a_nfeat a_ntrain a_isreg a_x a_y a_path a_rss a_coef].
    split; [exact SS|]. repeat (split; [reflexivity || discriminate|]). split.
    + intros [Q|Q]; [congruence|]. specialize (HP Q).
      assert (RR : map (rss_fit (n_cols (c_icpt c) (b_p d)) (design_rows c sc (b_rows d'))) path = map (rss_fit (n_cols (c_icpt c) (b_p d)) (design_rows c sc (b_rows d))) path).
      { apply map_ext. intros v. symmetry. apply (perm_rss _ _ _ v (design_perm c sc _ _ HP)). }
      rewrite RR in *. rewrite F2 in F2'. injection F2' as <-. rewrite F3 in F3'. injection F3' as <-. auto.
    + intros _. eexists; eexists. split; [reflexivity|]. split; [reflexivity|]. rewrite !map_length. reflexivity.
  - eexists. split; [apply (I2 m' beta Epb F1)|].
    exists (b_rows d), (b_rows d'), sc. eexists; eexists. cbn [a_method a_scaler a_nfin a_nobs a_nfeat a_ntrain a_isreg a_x a_y a_path a_rss a_coef].
    split; [exact SS|]. repeat (split; [reflexivity || discriminate|]). split; auto. congruence.
Qed.

Lemma lm_update_rows s s' e e' s1 : row_rel e e' -> enough_rows 1 e' -> row_twin s s' ->
  lm_update ops c e s = (s1, Ok tt) -> exists s1', lm_update ops c e' s' = (s1', Ok tt) /\ row_twin s1 s1'.
Proof.
  intros (Ep & H & W & W' & HP) L (l & l' & sc0 & rss' & coef' & SS & Esc & Enf & Eno & -> & C1 & C2) H0. unfold enough_rows in L.
  destruct (lm_update_ok ops c e s s1 H0) as (n0 & sc0' & sc1 & m & x0 & y0 & xg & isreg & A1 & A2 & A3 & A4 & A5 & A6 & L1 & L2 & QQ & Sel & Es & Ex & K).
  rewrite Esc in A2. injection A2 as <-.
  assert (Ee : b_p d = b_p e) by (apply QQ; exact Enf).
  rewrite Hf in *. destruct (scaler_update_same _ _ _ _ _ _ _ SS H W W' L Es) as [Es' SS'].
  set (s' := mk_lm _ _ _ _ _ _ _ _ _ _ _ _).
  pose proof (lm_update_intro ops c e' s' n0 sc0 sc1 m x0 y0 xg isreg) as I. cbv zeta in I. rewrite Hf in I.
  rewrite <- (sums_weight _ _ H), <- Ep in I.
  pose proof (design_same c sc1 _ _ H) as HD.
  assert (Wl : weights_nonneg (design_rows c sc1 (b_rows e))) by (apply scaled_nonneg; auto).
  assert (Wl' : weights_nonneg (design_rows c sc1 (b_rows e'))) by (apply scaled_nonneg; auto).
  rewrite <- (update_y_gram_same _ _ _ HD Wl Wl') in I.
  destruct HG as [HG1 HG2]. rewrite HG2 in Ex. rewrite HG2, <- (update_gram_same _ _ _ HD Wl Wl') in I.
  assert (Enf' : a_nfin s' = Some (b_p e)) by (unfold s'; cbn [a_nfin]; congruence).
  destruct (I A1 Esc A3 A4 A5 A6 L L2 Enf' Sel Es' Ex) as [I1 I2]. clear I.
  destruct K as [(Epb & m' & path0 & rss0 & path & ic & k & F1 & F2 & F3 & F4 & F5 & F6 & ->)|(Epb & m' & beta0 & beta & F1 & F2 & ->)].
  - destruct (C2 Epb) as (r & r' & R1 & R2 & R3). rewrite F2 in R1. injection R1 as <-. subst rss'.
    set (p := n_cols (c_icpt c) (b_p e)) in *.
    assert (LP : length r' = length path) by congruence.
    assert (LL : forall l, length (map2 (fun r0 r1 => (1 - 0) * r0 + r1) rss0 (map (rss_update p l) path)) = length (map2 (fun r0 r1 => (1 - 0) * r0 + r1) r' (map (rss_update p (design_rows c sc1 (b_rows e'))) path))).
    { intros l0. rewrite !map2_length by (rewrite map_length; congruence). congruence. }
    destruct (from_rss_total _ _ _ _ _ _ (LL _) F5) as (ic' & F5' & Li). destruct (argmin_total _ _ _ (eq_sym Li) F6) as (k' & F6').
    eexists. split; [apply (I1 m' path0 r' path ic' k' Epb F1 eq_refl F3 LP F5' F6')|].
    eexists; eexists; exists sc1; eexists; eexists. cbn [a_method a_scaler a_nfin a_nobs a_nfeat a_ntrain a_isreg a_x a_y a_path a_rss a_coef].
    split; [exact SS'|]. repeat (split; [reflexivity || discriminate || assumption|]). split.
    + intros [Q|Q]; [congruence|]. specialize (HP Q).
      destruct (C1 (or_intror Q)) as [C1' _]. rewrite F2 in C1'. injection C1' as ->.
      assert (RR : map (rss_update p (design_rows c sc1 (b_rows e'))) path = map (rss_update p (design_rows c sc1 (b_rows e))) path).
      { apply map_ext. intros v. symmetry. apply (perm_rss _ _ _ v (design_perm c sc1 _ _ HP)). }
      rewrite RR in *. rewrite F5 in F5'. injection F5' as <-. rewrite F6 in F6'. injection F6' as <-. auto.
    + intros _. eexists; eexists. split; [reflexivity|]. split; [reflexivity|]. apply LL.
  - destruct (C1 (or_introl Epb)) as [-> ->].
    eexists. split; [apply (I2 m' beta0 beta Epb F1 F2)|].
    eexists; eexists; exists sc1; eexists; eexists. cbn [a_method a_scaler a_nfin a_nobs a_nfeat a_ntrain a_isreg a_x a_y a_path a_rss a_coef].
    split; [exact SS'|]. repeat (split; [reflexivity || discriminate || assumption|]). split; [auto|congruence].
Qed.

Lemma lm_history_rows ds ds' s : row_rel d d' -> enough_rows 2 d' -> Forall2 row_rel ds ds' -> Forall (enough_rows 1) ds' ->
  lm_history ops c (d :: ds) new_lm = Ok s ->
  exists s', lm_history ops c (d' :: ds') new_lm = Ok s' /\ row_twin s s'.
Proof.
  intros HR HL HRs HLs H. cbn [lm_history] in *. unfold partial_fit in H at 1. unfold partial_fit at 1.
  change (is_fitted new_lm) with false in *. cbv iota in *.
  match type of H with (let (_, _) := ?T in _) = _ => destruct T as [s0 [[]|]] eqn:E end; [|discriminate].
  destruct (lm_fit_rows s0 HR HL E) as (s0' & E0 & TW). rewrite E0. clear E E0 HR HL. revert s0 s0' TW H.
  induction HRs as [|e e' ds ds' He HRs IH]; intros s0 s0' TW H.
  - injection H as <-. exists s0'. auto.
  - inversion HLs as [|? ? Hl HLs']; subst. cbn [lm_history] in *. unfold partial_fit in H at 1. unfold partial_fit at 1.
    assert (F : is_fitted s0 = true /\ is_fitted s0' = true).
    { destruct TW as (? & ? & ? & ? & ? & _ & _ & _ & Eno & -> & _). unfold is_fitted. cbn [a_nobs]. destruct (a_nobs s0); auto; congruence. }
    destruct F as [F F']. rewrite F in H. rewrite F'.
    destruct (lm_update ops c e s0) as [s2 [[]|]] eqn:E; [|discriminate].
    destruct (lm_update_rows s0 s0' e e' s2 He Hl TW E) as (s2' & E2 & TW2). rewrite E2. apply (IH HLs' s2 s2'); auto.
Qed.
End Gram.

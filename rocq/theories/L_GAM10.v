(** Lemmas: zero weights, weight sums, model selection, predictions. *)
From Coq Require Import Reals List Bool Arith ZArith Lra Lia.
From Verif Require Import Base Lin Data M_Gram M_OLS M_Scaler M_Utils M_Links M_DistTable M_Dist M_State M_LM M_Equation M_GAMLSS M_GAMDist.
From Verif Require Import S_Utils S_Links S_LM S_Equation S_Dist S_GAMLSS L_Utils L_Links L_LM2 L_Equation L_GAM1 L_GAM2 L_GAM3 L_GAM4 L_GAM7 L_GAM8 L_GAM9.
Import ListNotations.
Open Scope R_scope.
Open Scope st_scope.

Lemma all_some_inv {A} (l : list (option A)) r : all_some l = Ok r -> l = map Some r.
Proof.
  revert r. induction l as [|[a|] l IH]; intros r H; cbn in H; [injection H as <-; reflexivity| |discriminate].
  destruct (all_some l) as [t|]; [|discriminate]. cbn in H. injection H as <-. cbn. now rewrite (IH t eq_refl).
Qed.
Lemma map2_nth' {A B C} (f : A -> B -> C) da db dc l m i : length l = length m -> (i < length l)%nat ->
  nth i (map2 f l m) dc = f (nth i l da) (nth i m db).
Proof.
  revert m i. induction l as [|a l IH]; intros [|b m] [|i] H Hi; cbn in *; try lia; auto. apply IH; lia.
Qed.
Lemma map2_len_eq {A B C} (f : A -> B -> C) l : forall m n, length l = n -> length m = n -> length (map2 f l m) = n.
Proof. intros m n H1 H2. rewrite map2_length; lia. Qed.

(** What a successful computation of the weights means for row [i]. *)
Lemma working_rows {M} (e : env M) u p fv eta g : working e u p fv = Ok (eta, g) -> length fv = length (e_y e) ->
  let d := o_dist (e_cfg e) in
  length eta = length (e_y e) /\ length (g_wt g) = length (e_y e) /\ length (g_wv g) = length (e_y e) /\
  forall i, (i < length (e_y e))%nat -> exists a1 a2,
    let th := nth i fv (fun _ => 0) in let y := nth i (e_y e) 0 in let et := nth i eta 0 in
    d_link d p (th p) = Some et /\ d_dl1 d p y th = Some a1 /\ d_dl2 d p y th = Some a2 /\
    nth i (g_wt g) 0 = (if u then update_weight else fit_weight) a2 (d_dinv d p et) /\
    working_response et a1 (d_dinv d p et) (nth i (g_wt g) 0) = Some (nth i (g_wv g) 0).
Proof.
  intros H L. unfold working in H.
  destruct (all_some (map (d_link _ p) _)) as [et|] eqn:E1; [|discriminate]. cbn [bind] in H.
  destruct (all_some (map2 (d_dl1 _ p) _ _)) as [dl1|] eqn:E2; [|discriminate]. cbn [bind] in H.
  destruct (all_some (map2 (d_dl2 _ p) _ _)) as [dl2|] eqn:E3; [|discriminate]. cbn [bind] in H.
  destruct (all_some (map2 _ (combine _ _) _)) as [wv|] eqn:E4; [|discriminate]. cbn [bind] in H.
  destruct (_ || _); [|discriminate]. injection H as <- <-. cbn [g_wt g_wv].
  apply all_some_inv in E1, E2, E3, E4.
  assert (L1 : length et = length (e_y e)).
  { apply (f_equal (@length _)) in E1. rewrite map_length, col_length, map_length in E1. congruence. }
  assert (L2 : length dl1 = length (e_y e)).
  { apply (f_equal (@length _)) in E2. rewrite map2_length, map_length in E2 by congruence. congruence. }
  assert (L3 : length dl2 = length (e_y e)).
  { apply (f_equal (@length _)) in E3. rewrite map2_length, map_length in E3 by congruence. congruence. }
  set (wt := map2 (if u then update_weight else fit_weight) dl2 (map (d_dinv (o_dist (e_cfg e)) p) et)) in *.
  assert (L4 : length wt = length (e_y e)).
  { apply map2_len_eq; [exact L3|now rewrite map_length]. }
  assert (L5 : length wv = length (e_y e)).
  { apply (f_equal (@length _)) in E4. rewrite map_length in E4. rewrite <- E4. apply map2_len_eq; rewrite combine_length, ?map_length; lia. }
  cbv zeta. do 3 (split; [assumption|]).
  intros i Hi. exists (nth i dl1 0), (nth i dl2 0).
  apply (f_equal (fun l => nth i l None)) in E1, E2, E3, E4.
  rewrite (nth_indep (map Some et) None (Some 0)) in E1 by (rewrite map_length; lia). rewrite map_nth in E1.
  rewrite (nth_indep (map Some dl1) None (Some 0)) in E2 by (rewrite map_length; lia). rewrite map_nth in E2.
  rewrite (nth_indep (map Some dl2) None (Some 0)) in E3 by (rewrite map_length; lia). rewrite map_nth in E3.
  rewrite (nth_indep (map Some wv) None (Some 0)) in E4 by (rewrite map_length; lia). rewrite map_nth in E4.
  assert (C : nth i (map (d_link (o_dist (e_cfg e)) p) (col fv p)) None = d_link (o_dist (e_cfg e)) p (nth i fv (fun _ => 0) p)).
  { unfold col. rewrite map_map, (nth_indep _ None ((fun th : vec => d_link (o_dist (e_cfg e)) p (th p)) (fun _ => 0))) by (rewrite map_length; exact (eq_ind _ (fun z => (i < z)%nat) Hi _ (eq_sym L))).
    exact (map_nth (fun th : vec => d_link (o_dist (e_cfg e)) p (th p)) fv (fun _ => 0) i). }
  rewrite C in E1.
  rewrite (map2_nth' (B := vec) _ 0 (fun _ => 0) None) in E2 by lia.
  rewrite (map2_nth' (B := vec) _ 0 (fun _ => 0) None) in E3 by lia.
  rewrite (map2_nth' _ (0, 0) (0, 0) None) in E4 by (rewrite ?combine_length, ?map_length; lia).
  rewrite !combine_nth in E4 by (rewrite ?map_length; lia). cbn [fst snd] in E4.
  assert (D : nth i (map (d_dinv (o_dist (e_cfg e)) p) et) 0 = d_dinv (o_dist (e_cfg e)) p (nth i et 0)).
  { rewrite (nth_indep _ 0 (d_dinv (o_dist (e_cfg e)) p 0)) by (rewrite map_length; lia). apply map_nth. }
  rewrite D in E4. do 3 (split; [assumption|]). split; [|exact E4].
  unfold wt. rewrite (map2_nth' _ 0 0 0) by (rewrite ?map_length; lia). now rewrite D.
Qed.

(** * C62 *)
Lemma update_weight_zero di : update_weight 0 di = 0.
Proof.
  unfold update_weight, raw_weight, clip. pose proof ceiling_ge.
  replace (if Reqb di 0 then 0 else - (0 / (1 / di * (1 / di)))) with 0.
  - rewrite Rmax_right by lra. apply Rmin_right. lra.
  - destruct (Reqb di 0); [reflexivity|]. unfold Rdiv. ring.
Qed.
Lemma working_zero {M} (e : env M) p fv i : length fv = length (e_y e) -> (i < length (e_y e))%nat ->
  (forall th h, d_dl2 (o_dist (e_cfg e)) p (nth i (e_y e) 0) th = Some h -> h = 0) ->
  forall r, working e true p fv <> Ok r.
Proof.
  intros L Hi Hz [eta g] H. destruct (working_rows _ _ _ _ _ _ H L) as (_ & _ & _ & K).
  destruct (K i Hi) as (a1 & a2 & _ & _ & E2 & E3 & E4). apply Hz in E2. subst a2.
  rewrite E3, update_weight_zero in E4. unfold working_response in E4.
  assert (Z : Reqb 0 0 = true) by (apply Reqb_true; reflexivity).
  destruct (Reqb _ 0); [rewrite Z in E4; discriminate|]. unfold npdiv in E4. rewrite Rmult_0_r, Z in E4. discriminate.
Qed.
Lemma prepare_order {M} (c : gam_cfg M) pr ms : prepare c = Ok (pr, ms) -> forall p, (p < d_n (o_dist c))%nat -> In p (p_order pr).
Proof.
  unfold prepare. intros H p Hp.
  destruct (process_equation _ _ _); [|discriminate]. cbn [bind] in H.
  destruct (all_methods _ _); [|discriminate]. cbn [bind] in H.
  destruct (o_order c) as [l|]; cbn [bind] in H.
  - destruct (forallb _ _) eqn:E; [|discriminate]. cbn [bind] in H. injection H as <- _. cbn [p_order].
    rewrite forallb_forall in E. specialize (E p). rewrite in_seq in E. specialize (E ltac:(lia)).
    apply existsb_exists in E. destruct E as (q & Hq & E). apply Nat.eqb_eq in E. now subst.
  - injection H as <- _. cbn [p_order]. apply in_seq. lia.
Qed.
Lemma C62_nan_lemma {M} (ops : method_ops M) (c : gam_cfg M) b s s' p y :
  (forall th h, d_dl2 (o_dist c) p y th = Some h -> h = 0) ->
  observes y b ->
  (forall pr, s_prep s = Some pr -> In p (p_order pr)) ->
  gam_update ops c b s = (s', Ok tt) -> cycles s' = Some O.
Proof.
  intros Hz (o & Ho & <-) Hord H. apply gam_update_shaped in H.
  destruct H as (n0 & pr & X & w0 & w1 & w & dev0 & it0 & isreg & dv & n & _ & Epr & _ & _ & _ & H).
  cbv zeta in H. destruct H as (Hsh & _ & _ & _ & _ & _ & Eo & _ & Ed & _).
  unfold cycles. rewrite Ed. cbn. f_equal.
  set (e := again_env c pr isreg n0 b X) in *.
  assert (Hi : exists i, (i < length (e_y e))%nat /\ nth i (e_y e) 0 = oy o).
  { apply In_nth with (d := mkobs (fun _ => 0) 0 0) in Ho. destruct Ho as (i & Hi & E).
    exists i. unfold e. cbn [again_env e_y]. rewrite ys_length. split; [exact Hi|]. unfold ys.
    rewrite (nth_indep _ 0 (oy (mkobs (fun _ => 0) 0 0))) by (rewrite map_length; lia). rewrite map_nth. now rewrite E. }
  destruct Hi as (i & Hi & Ei).
  eapply (outer_update_all ops e dev0 (shaped e) (fun q _ => q <> p)) in Eo; [| | |exact Hsh].
  - destruct Eo as [_ [Eo|Eo]]; [exact Eo|]. exfalso. apply (Eo p); [|reflexivity]. unfold e. cbn. apply Hord, Epr.
  - intros q io w2 w3 r Hs Hin. apply inner_update_shaped in Hin; [|exact Hs].
    destruct Hin as (Hs' & _ & qc & it & j & fv1 & s1 & s2 & s3 & sumw & Hl & _ & _ & Hc & _).
    split; [exact Hs'|]. intros ->. apply update_candidate_ok in Hc. cbv zeta in Hc.
    destruct Hc as (eta & gd & m & x0 & y0 & mw & dv1 & Hw & _).
    eapply (working_zero e p fv1 i Hl Hi); [|exact Hw]. rewrite Ei. exact Hz.
  - auto.
Qed.
Lemma inflated_dl2 lgam dg tg ft fj gi pf cd d ls y p : inflated_point d y p ->
  forall th h, d_dl2 (shipped lgam dg tg ft fj gi pf cd d ls) p y th = Some h -> h = 0.
Proof.
  intros [Hp Hy] th h. cbn [shipped d_dl2]. unfold guarded. destruct (theta_ok d th); [|discriminate].
  intros H. injection H as <-.
  destruct d; try contradiction; cbn [hess]; destruct p as [|[|p]]; try lia.
  1-2: destruct Hy as [->| ->].
  all: try subst y.
  all: repeat match goal with |- context [Reqb ?a ?a] => replace (Reqb a a) with true by (symmetry; apply Reqb_true; reflexivity) end.
  all: rewrite ?orb_true_r; reflexivity.
Qed.

(** * C63 *)
Lemma commit_sum {M} (w : work M) : w_sum (commit_work w) = w_sumn w. Proof. reflexivity. Qed.
Lemma C63_law_lemma {M} (ops : method_ops M) (c : gam_cfg M) b s s' pr p :
  gam_update ops c b s = (s', Ok tt) -> cycles s' <> Some O -> s_prep s = Some pr -> In p (p_order pr) ->
  exists W n0 isreg X fv eta g, weight_sum s p = Some W /\ s_nobs s = Some n0 /\
    length fv = length (b_rows b) /\ working (again_env c pr isreg n0 b X) true p fv = Ok (eta, g) /\
    weight_sum s' p = Some (lsum (map2 Rmult (ws (b_rows b)) (g_wt g)) + (1 - p_forget pr p) * W).
Proof.
  intros H Hcy Epr Hord. apply gam_update_shaped in H.
  destruct H as (n0 & pr' & X & w0 & w1 & w & dev0 & it0 & isreg & dv & n & En & Epr' & Ew0 & _ & _ & H).
  rewrite Epr in Epr'. injection Epr' as <-.
  cbv zeta in H. destruct H as (Hsh & Es & Esn & _ & _ & _ & Eo & Ew' & Ed & _).
  set (e := again_env c pr isreg n0 b X) in *.
  unfold weight_sum. rewrite Ew', Ew0. cbn [commit_work w_sum].
  eapply (outer_update_all ops e dev0 (fun w => shaped e w /\ w_sum w = w_sum w0)
     (fun q w => exists W fv eta g, w_sum w0 q = Some W /\ length fv = length (b_rows b) /\ working e true q fv = Ok (eta, g) /\
        w_sumn w q = Some (lsum (map2 Rmult (ws (b_rows b)) (g_wt g)) + (1 - p_forget pr q) * W))) in Eo; [| | |split; [exact Hsh|exact Es]].
  - destruct Eo as [_ [Eo|Eo]]; [exfalso; apply Hcy; unfold cycles; rewrite Ed; cbn; now rewrite Eo|].
    destruct (Eo p Hord) as (W & fv & eta & g & E1 & E2 & E3 & E4).
    exists W, n0, isreg, X, fv, eta, g. auto.
  - intros q io w2 w3 r [Hs Hsum] Hin.
    pose proof (inner_update_sums ops e dev0 q io w2) as K. rewrite Hin in K. cbn [fst] in K.
    apply inner_update_shaped in Hin; [|exact Hs].
    destruct Hin as (Hs' & _ & qc & it & j & fv1 & s1 & s2 & s3 & sumw & Hl & _ & _ & Hc & Hw & _ & ->).
    split; [split; [exact Hs'|unfold sums in K; congruence]|].
    apply update_candidate_ok in Hc. cbv zeta in Hc.
    destruct Hc as (eta & gd & m & x0 & y0 & mw & dv1 & Hwk & _ & _ & _ & _ & _ & _ & Ewt & _).
    exists sumw, fv1, eta, gd. split; [congruence|]. split.
    { rewrite Hl. unfold e. cbn. apply ys_length. }
    split; [exact Hwk|]. unfold store_update, write. cbn [fst w_sumn]. unfold fupd. rewrite Nat.eqb_refl.
    rewrite Ewt. unfold e. reflexivity.
  - intros q q' io w2 w3 r Hne [Hs _] (W & fv & eta & g & E1 & E2 & E3 & E4) Hin.
    exists W, fv, eta, g. do 3 (split; [assumption|]).
    apply inner_update_shaped in Hin; [|exact Hs].
    destruct Hin as (_ & _ & qc & it & j & fv1 & s1 & s2 & s3 & sumw & _ & _ & F3 & _ & _ & _ & ->).
    unfold store_update, write. cbn [fst w_sumn]. unfold fupd.
    replace (Nat.eqb q q') with false by (symmetry; apply Nat.eqb_neq; congruence).
    unfold loop_frame in F3. congruence.
Qed.
Lemma lsum_ones l w : length l = length w -> (forall i, (i < length w)%nat -> nth i l 0 = 1) -> lsum (map2 Rmult w l) = lsum w.
Proof.
  revert l. induction w as [|a w IH]; intros [|x l] L H; cbn in *; try lia; [reflexivity|].
  rewrite (IH l); [|lia|intros i Hi; apply (H (S i)); lia]. rewrite (H O) by lia. ring.
Qed.
Lemma C63_unit_lemma {M} (ops : method_ops M) (c : gam_cfg M) b s s' pr p W : unit_weights (o_dist c) p ->
  gam_update ops c b s = (s', Ok tt) -> cycles s' <> Some O -> s_prep s = Some pr -> In p (p_order pr) ->
  weight_sum s p = Some W ->
  s_prep s' = Some pr /\ weight_sum s' p = Some (lsum (ws (b_rows b)) + (1 - p_forget pr p) * W).
Proof.
  intros Hu H Hc Epr Hord HW. split.
  { apply gam_update_shaped in H. destruct H as (n0 & pr' & X & w0 & w1 & w & dev0 & it0 & isreg & dv & n & _ & Epr' & _ & _ & _ & H).
    cbv zeta in H. rewrite Epr in Epr'. injection Epr' as <-. tauto. }
  destruct (C63_law_lemma ops c b s s' pr p H Hc Epr Hord) as (W' & n0 & isreg & X & fv & eta & g & E1 & _ & El & E2 & E3).
  rewrite HW in E1. injection E1 as <-. rewrite E3. do 2 f_equal.
  assert (Ey : length (e_y (again_env c pr isreg n0 b X)) = length (b_rows b)) by (cbn; apply ys_length).
  destruct (working_rows _ _ _ _ _ _ E2 ltac:(congruence)) as (_ & L & _ & K).
  apply lsum_ones; [rewrite L, ws_length; exact Ey|].
  intros i Hi. rewrite ws_length in Hi. destruct (K i ltac:(congruence)) as (a1 & a2 & K1 & _ & K2 & K3 & _).
  rewrite K3. eapply Hu; eauto.
Qed.
Lemma C63_stream_lemma {M} (ops : method_ops M) (c : gam_cfg M) bs pr p : unit_weights (o_dist c) p -> In p (p_order pr) ->
  forall s s' W, updates_run ops c s bs s' -> s_prep s = Some pr -> weight_sum s p = Some W ->
  weight_sum s' p = Some (per_call (p_forget pr p) W bs).
Proof.
  intros Hu Ho s s' W H. revert W. induction H as [s|s b s1 bs s' H Hc Hr IH]; intros W Epr HW; cbn [per_call]; [exact HW|].
  destruct (C63_unit_lemma ops c b s s1 pr p W Hu H Hc Epr Ho HW) as [E1 E2]. exact (IH _ E1 E2).
Qed.
Lemma lsum_app l m : lsum (l ++ m) = lsum l + lsum m.
Proof. induction l as [|a l IH]; cbn; [ring|rewrite IH; ring]. Qed.
Lemma per_call_no_forget bs : forall W, per_call 0 W bs = W + lsum (ws (stream bs)).
Proof.
  induction bs as [|b bs IH]; intros W; cbn [per_call]; unfold stream, ws in *; cbn [map concat lsum]; [cbn; lra|].
  rewrite IH, map_app, lsum_app. lra.
Qed.
Lemma per_call_split f W r1 r2 q p1 p2 :
  per_call f W [mk_batch p1 r1; mk_batch p2 r2] - per_call f W [mk_batch q (r1 ++ r2)] =
  - f * (lsum (ws r1) + (1 - f) * W).
Proof. cbn [per_call b_rows]. unfold ws. rewrite map_app, lsum_app. ring. Qed.
